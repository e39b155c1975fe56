(** What a mesh of stroke vertices is to its user: a list of vertices and a list of triangles.  The record of a vertex is taken from
    StrokeVertexModel; no function of it is used. *)
From Coq Require Import ZArith Reals List.
From Flocq Require Import IEEE754.BinarySingleNaN.
From Verif Require Import F32 MutableMeshModel MutableMeshSpec StrokeVertexModel.
Import ListNotations.
Local Open Scope Z_scope.

(** [y] is [x] brought into [-1, 1]; what is not a number stays so *)
Definition limited (x y : f32) : Prop :=
  (is_nan x = true /\ y = x) \/
  (is_finite x = true /\ (B2R x < -1)%R /\ y = fZ (-1)) \/ (x = fninf /\ y = fZ (-1)) \/
  (is_finite x = true /\ (-1 <= B2R x <= 1)%R /\ y = x) \/
  (is_finite x = true /\ (1 < B2R x)%R /\ y = fZ 1) \/ (x = finf /\ y = fZ 1).
(** the vertex that is kept when [v] is put into a mesh *)
Definition kept_as (v w : stroke_vertex) : Prop :=
  let a := non_position v in let b := non_position w in
  let '(h, s, l) := hsl a in let '(h', s', l') := hsl b in
  position w = position v /\ limited (opacity a) (opacity b) /\ limited h h' /\ limited s s' /\ limited l l' /\
  side_derivative b = side_derivative a /\ side_label b = side_label a /\ forward_derivative b = forward_derivative a /\ forward_label b = forward_label a /\ surface_uv b = surface_uv a.
(** one of the attributes replaced *)
Inductive change := SideDerivative (d : point) | SideLabel (l : label) | ForwardDerivative (d : point) | ForwardLabel (l : label) | SurfaceUv (p : point) | Position (p : point).
Definition changed (c : change) (v : stroke_vertex) : stroke_vertex :=
  let '(StrokeVertex p (Attributes o h sd sl fd fl uv)) := v in
  match c with
  | SideDerivative d => StrokeVertex p (Attributes o h d sl fd fl uv)
  | SideLabel l => StrokeVertex p (Attributes o h sd l fd fl uv)
  | ForwardDerivative d => StrokeVertex p (Attributes o h sd sl d fl uv)
  | ForwardLabel l => StrokeVertex p (Attributes o h sd sl fd l uv)
  | SurfaceUv q => StrokeVertex p (Attributes o h sd sl fd fl q)
  | Position q => StrokeVertex q (Attributes o h sd sl fd fl uv)
  end.
Definition blank_vertex : stroke_vertex := StrokeVertex (f0, f0) (Attributes f0 (f0, f0, f0) (f0, f0) f0 (f0, f0) f0 (f0, f0)).
Inductive stroke_op := Append (v : stroke_vertex) | Put (i : Z) (v : stroke_vertex) | Change (i : Z) (c : change) | AddTriangle (t : triple) | PutTriangle (j : Z) (t : triple) | Truncate (nv nt : Z).
Definition stroke_state := (list stroke_vertex * list triple)%type.
(** the documented preconditions *)
Definition can (limit : Z) (s : stroke_state) (o : stroke_op) : Prop :=
  let '(vs, ts) := s in
  match o with
  | Append _ => count vs + 1 < 2 ^ 32
  | Put i _ | Change i _ => 0 <= i < count vs
  | AddTriangle t => count ts + 1 < 2 ^ 32 /\ small limit t
  | PutTriangle j t => 0 <= j < count ts /\ small limit t
  | Truncate nv nt => 0 <= nv < 2 ^ 32 /\ 0 <= nt < 2 ^ 32
  end.
Definition does (s : stroke_state) (o : stroke_op) (s' : stroke_state) : Prop :=
  let '(vs, ts) := s in
  match o with
  | Append v => exists w, kept_as v w /\ s' = (vs ++ [w], ts)
  | Put i v => exists w, kept_as v w /\ s' = (put (Z.to_nat i) w vs, ts)
  | Change i c => exists v, nth_error vs (Z.to_nat i) = Some v /\ s' = (put (Z.to_nat i) (changed c v) vs, ts)
  | AddTriangle t => s' = (vs, ts ++ [t])
  | PutTriangle j t => s' = (vs, put (Z.to_nat j) t ts)
  | Truncate nv nt => s' = (fit blank_vertex (Z.to_nat nv) vs, fit (0, 0, 0) (Z.to_nat nt) ts)
  end.
(** [os] leads from nothing to the lists *)
Inductive stroke_history (limit : Z) : list stroke_op -> stroke_state -> Prop :=
  | nothing : stroke_history limit [] ([], [])
  | next os o s s' : stroke_history limit os s -> can limit s o -> does s o s' -> stroke_history limit (os ++ [o]) s'.
(** ** Labels *)
(** the margin that a label can have for an asked one *)
Definition asked (m : f32) (x : R) : Prop := (m = finf /\ x = 4%R) \/ (m = fninf /\ x = 0%R) \/ (is_finite m = true /\ x = Rmin 4 (Rmax 0 (B2R m))).
Definition whole (l : f32) (k : Z) : Prop := is_finite l = true /\ B2R l = IZR k.
(** the side on which a label lies: -1, 0 or 1 *)
Inductive lies : f32 -> Z -> Prop :=
  | lies_minus l : is_finite l = true -> (B2R l < 0)%R -> lies l (-1)
  | lies_minus_inf : lies fninf (-1)
  | lies_interior l : is_finite l = true -> B2R l = 0%R -> lies l 0
  | lies_plus l : is_finite l = true -> (0 < B2R l)%R -> lies l 1
  | lies_plus_inf : lies finf 1.
(** the side of a label interpolated at [r] between labels on the sides [sa] and [sb] *)
Inductive between (sa sb : Z) (r : R) : Z -> Prop :=
  | at_first : (r <= 0)%R -> between sa sb r sa
  | at_last : (1 <= r)%R -> between sa sb r sb
  | both : sa = sb -> between sa sb r sa
  | neither : (0 < r < 1)%R -> sa <> sb -> between sa sb r 0.
(** finite and within the bounds *)
Definition inside (lo hi : R) (x : f32) : Prop := is_finite x = true /\ (lo <= B2R x <= hi)%R.
(** the shifts are within [-1, 1] and the texture coordinates within [0, 1] *)
Definition tame (a : attributes) : Prop :=
  let '(h, s, l) := hsl a in inside (-1) 1 (opacity a) /\ inside (-1) 1 h /\ inside (-1) 1 s /\ inside (-1) 1 l /\ inside 0 1 (fst (surface_uv a)) /\ inside 0 1 (snd (surface_uv a)).
(** ** Packing *)
(** the values that the attributes of a stroke may have, by the number of the attribute: colour 1, opacity 2, labels 5 and 7, texture coordinates 8 *)
Definition within_limits (id : nat) (vs : list f32) : Prop :=
  match id with
  | 1%nat => length vs = 3%nat /\ Forall (inside (-1) 1) vs
  | 2%nat => length vs = 1%nat /\ Forall (inside (-1) 1) vs
  | 5%nat | 7%nat => length vs = 1%nat /\ Forall (fun v => exists k, whole v k /\ -127 <= k <= 127) vs
  | 8%nat => length vs = 2%nat /\ Forall (inside 0 1) vs
  | _ => False
  end.
(** what may be lost: half a step of 2/254, 2/1022, nothing, and half a step of 1/4095 and of 1/1048575, up to rounding *)
Definition losses (id : nat) : list R :=
  match id with
  | 1%nat => let e := (/ 1022 + / 262144)%R in [e; e; e]
  | 2%nat => [(/ 254 + / 262144)%R]
  | 8%nat => [(/ 8190 + / 262144)%R; (/ 2097150 + / 262144)%R]
  | _ => [0%R]
  end.
Fixpoint all_close (es : list R) (vs ws : list f32) : Prop :=
  match es, vs, ws with
  | e :: es, v :: vs, w :: ws => is_finite w = true /\ (Rabs (B2R w - B2R v) <= e)%R /\ all_close es vs ws
  | [], [], [] => True
  | _, _, _ => False
  end.
