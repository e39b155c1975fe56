(** Specification of Ink asset URIs, from the comment in ink/types/uri.h:27-53:
    [<scheme>:][//<reg-name>]/<asset-type>:<asset-name>[:<revision>]
    Only the result record of the model is imported, no helper functions. *)
From Coq Require Import Ascii String List ZArith.
From Verif Require Import UriModel.
Import ListNotations.

Definition text (s : string) : list ascii := list_ascii_of_string s.

(** "ink:" in any mixture of cases *)
Definition is_scheme (s : list ascii) : Prop :=
  exists i n k, s = [i; n; k; ":"%char]
    /\ In i ["i"; "I"]%char /\ In n ["n"; "N"]%char /\ In k ["k"; "K"]%char.

Definition lower_or_hyphen (c : ascii) : Prop :=
  (nat_of_ascii "a" <= nat_of_ascii c <= nat_of_ascii "z") \/ c = "-"%char.

(** A non-empty name of lower-case letters and hyphens *)
Definition is_name (s : list ascii) : Prop :=
  s <> [] /\ Forall lower_or_hyphen s.

Definition is_asset_type (s : list ascii) (t : asset_type) : Prop :=
  (s = text "brush-family" /\ t = BrushFamily) \/ (s = text "texture" /\ t = Texture).

Definition digit (c : ascii) : Prop :=
  nat_of_ascii "0" <= nat_of_ascii c <= nat_of_ascii "9".

(** The value of a string of decimal digits *)
Definition decimal_value (s : list ascii) : Z :=
  fold_left (fun v c => 10 * v + (Z.of_nat (nat_of_ascii c) - 48))%Z s 0%Z.

(** A positive base-10 integer with no leading zeroes and at most nine digits *)
Definition is_revision (s : list ascii) : Prop :=
  s <> [] /\ Forall digit s /\ hd_error s <> Some "0"%char /\ List.length s <= 9.

(** [ink_uri s u]: the string [s] is a non-empty valid URI denoting [u]. *)
Inductive ink_uri : list ascii -> uri -> Prop :=
| InkUri : forall scheme auth ty name rev  reg t revision,
    (scheme = [] \/ is_scheme scheme) ->
    ((auth = [] /\ reg = text "ink") \/ (is_name reg /\ auth = text "//" ++ reg)) ->
    is_asset_type ty t ->
    is_name name ->
    ((rev = [] /\ revision = 1%Z)
     \/ (exists d, is_revision d /\ rev = text ":" ++ d /\ revision = decimal_value d)) ->
    ink_uri (scheme ++ auth ++ text "/" ++ ty ++ text ":" ++ name ++ rev)
            (MkUri reg name revision t).
