(** What a renderer does with an update: it keeps the bytes that it has below an offset and copies the others. *)
From Coq Require Import ZArith List.
Import ListNotations.

(** [old] are the bytes in the renderer's buffer, [new] those of the mesh now *)
Definition refresh (offset : option Z) (width : nat) (old new : list Z) : list Z :=
  match offset with
  | None => old
  | Some k => firstn (Z.to_nat k * width) old ++ skipn (Z.to_nat k * width) new
  end.
