(** What may be asked of Mesh::Create and what its result must be, from mesh.h 49-90.  From the model of the code only the
    type names with their public tables (number of components, packed bits per component) and the record of coding
    parameters are used. *)
From Coq Require Import ZArith Reals List.
From Flocq Require Import Core IEEE754.BinarySingleNaN.
From Verif Require Import F32 MeshFormatModel PackModel.
Import ListNotations.

Definition rounded (x : R) : R := round radix2 (FLT_exp (-149) 24) ZnearestE x.
Definition overflow : R := bpow radix2 128.
(** [v] is packed to the integer [n]: the difference to the offset must not overflow *)
Definition level (p : params) (v : f32) (n : Z) : Prop :=
  (Rabs (rounded (B2R v - B2R (offset p))) < overflow)%R /\ n = ZnearestA (rounded (rounded (B2R v - B2R (offset p)) / B2R (scale p))).
Definition usable (p : params) : Prop := is_finite (offset p) = true /\ is_finite (scale p) = true /\ (0 < B2R (scale p))%R.
Definition given_for (custom : list (option (list params))) (k : nat) : option (list params) := match nth_error custom k with Some (Some ps) => Some ps | _ => None end.
(** [vals k c] lists the values of component [c] of attribute [k] *)
Section Columns.
Variables (ts : list atype) (vals : nat -> nat -> list f32) (custom : list (option (list params))).
Definition column_ok (k : nat) (t : atype) : Prop :=
  match given_for custom k with
  | None => forall bits, packed_bits t = Some bits -> forall c v w, (c < component_count t)%nat -> In v (vals k c) -> In w (vals k c) -> is_finite (fsub v w) = true
  | Some ps => exists bits, packed_bits t = Some bits /\ length ps = component_count t /\ Forall usable ps /\
      forall c p b v, nth_error ps c = Some p -> nth_error bits c = Some b -> In v (vals k c) -> exists n, level p v n /\ (0 <= n <= 2 ^ Z.of_nat b - 1)%Z
  end.
(** the packing of every attribute can be settled *)
Definition packing_ok : Prop := (custom = [] \/ length custom = length ts) /\ forall k t, nth_error ts k = Some t -> column_ok k t.
(** the values of a component are all equal, or not so close together that single steps vanish *)
Definition spread (k : nat) (t : atype) : Prop :=
  given_for custom k = None -> forall bits b c, packed_bits t = Some bits -> nth_error bits c = Some b ->
  (forall v w, In v (vals k c) -> In w (vals k c) -> B2R v = B2R w) \/
  (exists v w, In v (vals k c) /\ In w (vals k c) /\ (IZR (2 ^ Z.of_nat b - 1) * bpow radix2 (-125) <= B2R w - B2R v)%R).
Definition moderate (k : nat) (t : atype) : Prop :=
  given_for custom k = None -> forall bits c v, packed_bits t = Some bits -> (c < component_count t)%nat -> In v (vals k c) -> (Rabs (B2R v) <= bpow radix2 126)%R.
(** reading back: [v] was given, [w] is read, [ns] are the packed integers *)
Definition least (l : list f32) (x : f32) : Prop := In x l /\ forall y, In y l -> (B2R x <= B2R y)%R.
Definition greatest (l : list f32) (x : f32) : Prop := In x l /\ forall y, In y l -> (B2R y <= B2R x)%R.
Definition near (b : nat) (lo hi v w : f32) : Prop := is_finite w = true /\
  (Rabs (B2R w - B2R v) <= (B2R hi - B2R lo) / IZR (2 ^ Z.of_nat b - 1) / 2 + (B2R hi - B2R lo) / 2 ^ 20 + Rabs (B2R v) / 2 ^ 24)%R.
Definition read_back (k : nat) (t : atype) (v w : list f32) : Prop :=
  match packed_bits t with
  | None => w = v
  | Some bits => length w = length v /\
      forall c b vc wc, nth_error bits c = Some b -> nth_error v c = Some vc -> nth_error w c = Some wc ->
      match given_for custom k with
      | None => exists lo hi, least (vals k c) lo /\ greatest (vals k c) hi /\ near b lo hi vc wc
      | Some ps => forall p, nth_error ps c = Some p -> exists n, level p vc n /\ (0 <= n <= 2 ^ Z.of_nat b - 1)%Z /\ wc = fadd (fmul (fZ n) (scale p)) (offset p)
      end
  end.
End Columns.

(** ** Mesh::Create *)
Section Create.
Variables (ts : list atype) (spans : list (list f32)) (idx : list Z) (custom : list (option (list params))).
Definition sum (l : list nat) : nat := fold_right Nat.add 0%nat l.
(** the spans are given attribute after attribute, component after component *)
Definition column (k c : nat) : list f32 := nth (sum (firstn k (map component_count ts)) + c) spans [].
Definition given (i k : nat) (t : atype) : list f32 := map (fun c => nth i (column k c) f0) (seq 0 (component_count t)).
Definition documented : Prop :=
  length spans = sum (map component_count ts) /\
  (exists n, (Z.of_nat n <= 2 ^ 16)%Z /\ (forall s, In s spans -> length s = n) /\
     (forall i, In i idx -> (i < Z.of_nat n)%Z) /\
     (n <> 0%nat -> packing_ok ts column custom)) /\
  (forall s v, In s spans -> In v s -> is_finite v = true) /\
  (exists m, length idx = (3 * m)%nat).
End Create.
