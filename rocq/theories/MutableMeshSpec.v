(** What a mutable mesh is to its user: a list of vertices and a list of triangles.
    A vertex is a list of attribute values, each a list of floats; [shape] gives how many floats each attribute has, [pos]
    which attribute is the position, [limit] the number of values an index can take.  Nothing here refers to the model. *)
From Coq Require Import ZArith List.
From Verif Require Import F32.
Import ListNotations.
Local Open Scope Z_scope.

Definition vertex := list (list f32).
Definition triple := (Z * Z * Z)%type.
Definition vertex_of_shape (shape : list nat) (v : vertex) : Prop := map (@length f32) v = shape.
Definition blank (shape : list nat) : vertex := map (fun n => repeat f0 n) shape.
Fixpoint put {A} (i : nat) (x : A) (l : list A) : list A :=
  match l, i with
  | [], _ => []
  | _ :: l, O => x :: l
  | y :: l, S i => y :: put i x l
  end.
Fixpoint insert {A} (i : nat) (x : A) (l : list A) : list A :=
  match i, l with
  | O, _ => x :: l
  | S i, y :: l => y :: insert i x l
  | S _, [] => [x]
  end.
(** exactly [n] elements: the first ones of [l], then copies of [z] *)
Fixpoint fit {A} (z : A) (n : nat) (l : list A) : list A :=
  match n, l with
  | O, _ => []
  | S n, [] => z :: fit z n []
  | S n, x :: l => x :: fit z n l
  end.

Inductive op :=
  | AppendVertex (x y : f32)
  | SetPosition (i : Z) (x y : f32)
  | SetAttribute (i : Z) (k : nat) (v : list f32)
  | AppendTriangle (t : triple)
  | InsertTriangle (j : Z) (t : triple)
  | SetTriangle (j : Z) (t : triple)
  | Resize (nv nt : Z)
  | Clear
  | Clone.
Section Spec.
Variables (shape : list nat) (pos : nat) (limit : Z).
Definition count {A} (l : list A) : Z := Z.of_nat (length l).
Definition small (t : triple) : Prop := let '(a, b, c) := t in 0 <= a < limit /\ 0 <= b < limit /\ 0 <= c < limit.
(** the documented preconditions (DCHECKs); counts are 32-bit *)
Definition allowed (s : list vertex * list triple) (o : op) : Prop :=
  let '(vs, ts) := s in
  match o with
  | AppendVertex _ _ => count vs + 1 < 2 ^ 32
  | SetPosition i _ _ => 0 <= i < count vs
  | SetAttribute i k v => 0 <= i < count vs /\ nth_error shape k = Some (length v)
  | AppendTriangle t => count ts + 1 < 2 ^ 32 /\ small t
  | InsertTriangle j t => 0 <= j <= count ts /\ count ts + 1 < 2 ^ 32 /\ small t
  | SetTriangle j t => 0 <= j < count ts /\ small t
  | Resize nv nt => 0 <= nv < 2 ^ 32 /\ 0 <= nt < 2 ^ 32
  | Clear | Clone => True
  end.
Definition put_attribute (i k : nat) (v : list f32) (vs : list vertex) : list vertex :=
  match nth_error vs i with Some w => put i (put k v w) vs | None => vs end.
Definition effect (s : list vertex * list triple) (o : op) : list vertex * list triple :=
  let '(vs, ts) := s in
  match o with
  | AppendVertex x y => (vs ++ [put pos [x; y] (blank shape)], ts)
  | SetPosition i x y => (put_attribute (Z.to_nat i) pos [x; y] vs, ts)
  | SetAttribute i k v => (put_attribute (Z.to_nat i) k v vs, ts)
  | AppendTriangle t => (vs, ts ++ [t])
  | InsertTriangle j t => (vs, insert (Z.to_nat j) t ts)
  | SetTriangle j t => (vs, put (Z.to_nat j) t ts)
  | Resize nv nt => (fit (blank shape) (Z.to_nat nv) vs, fit (0, 0, 0) (Z.to_nat nt) ts)
  | Clear => ([], [])
  | Clone => (vs, ts)
  end.
(** a history: what the lists are after [os], if every operation was allowed when it happened *)
Inductive history : list op -> list vertex -> list triple -> Prop :=
  | start : history [] [] []
  | step os o vs ts vs' ts' : history os vs ts -> allowed (vs, ts) o -> effect (vs, ts) o = (vs', ts') -> history (os ++ [o]) vs' ts'.
(** a triangle with three distinct existing vertices *)
Definition good_triple (n : Z) (t : triple) : Prop := let '(a, b, c) := t in a < n /\ b < n /\ c < n /\ a <> b /\ a <> c /\ b <> c.
Definition dangling (n : Z) (t : triple) : Prop := let '(a, b, c) := t in n <= a \/ n <= b \/ n <= c.
End Spec.
