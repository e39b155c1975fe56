(** Correction of triangles flipped by packing: /repo/ink/geometry/mutable_mesh.cc 210-686.
    The mesh is given by the position of each vertex and the list of its triangles; vectors that are only indexed within
    range are modelled as functions.  The order in which a flat_hash_set is traversed has no effect on the result: sets are
    lists without repetition.  The result of GetCorrectedPackedVertexPositions is [None] if the loop does not end within the
    given number of rounds (it always does: FlipProofs.v). *)
From Coq Require Import ZArith Bool Arith List.
From Verif Require Import NumModel GeomModel PartitionModel.
Import ListNotations.

Section Flip.
Context {N : num}.
(** MeshAttributeCodingParams of a two-component attribute, with the largest integer of each component *)
Record comp := Comp { c_offset : T N; c_scale : T N; c_max : T N }.
Record coding := Coding { cx : comp; cy : comp }.
(** QuantizePoint: 289-298 *)
Definition quantize (c : comp) (v : T N) : T N := nadd N (nmul N (nround N (ndiv N (nsub N v (c_offset c)) (c_scale c))) (c_scale c)) (c_offset c).
Definition quantize_point (C : coding) (p : vec N) : vec N := V (quantize (cx C) (vx p)) (quantize (cy C) (vy p)).
(** CalculateQuantizationBounds: 352-365 *)
Definition bounds (C : coding) : rect N :=
  rect_from_two (V (c_offset (cx C)) (c_offset (cy C)))
    (V (nadd N (c_offset (cx C)) (nmul N (c_max (cx C)) (c_scale (cx C)))) (nadd N (c_offset (cy C)) (nmul N (c_max (cy C)) (c_scale (cy C))))).

(** kNudgeDeltaBitMasks: 222-244 *)
Definition masks : list Z := [
  1; 2; 4; 8; 16; 32;  3; 12; 48;
  5; 6; 9; 10; 17; 18; 20; 24; 33; 34; 36; 40;
  7; 11; 13; 14; 19; 28; 35; 44; 49; 50; 52; 56;
  15; 51; 60;
  21; 22; 25; 26; 37; 38; 41; 42;
  23; 27; 29; 30; 39; 43; 45; 46; 53; 54; 57; 58;
  31; 47; 55; 59; 61; 62;  63]%Z.
(** 247-254 *)
Definition hits (a b : Z) : bool := negb (Z.land a b =? 0)%Z. (* a & b, as a condition *)
Definition vertex_mask (i : nat) : Z := match i with O => 48 | S O => 12 | _ => 3 end%Z.

Inductive fstate := NotFlipped | Flipped | Fixed. (* TriFlipState: 257-264 *)
Definition is_flipped (s : fstate) : bool := match s with Flipped => true | _ => false end.
(** FlippedTriangleCorrectionData: 267-287, without what does not change *)
Record data := Data { qpos : Z -> vec N; queue : list nat; states : nat -> fstate; corrected : list (Z * vec N) }.

Section Mesh.
Variable C : coding.
Variable pos : Z -> vec N.
Variable ts : list tri.
Definition tri_at (i : nat) : tri := nth i ts (0, 0, 0)%Z.
Definition triangle_of (q : Z -> vec N) (t : tri) : triangle N := let '(a, b, c) := t in Tri (q a) (q b) (q c).
Definition negative (t : triangle N) : bool := nlt N (signed_area t) n0.
(** PopulateQuantizedVertexPositions, PopulateFlippedTris: 300-327 *)
Definition start_state (i : nat) : fstate := if negative (triangle_of (fun v => quantize_point C (pos v)) (tri_at i)) then Flipped else NotFlipped.
Definition start_data : data :=
  Data (fun v => quantize_point C (pos v)) (filter (fun i => is_flipped (start_state i)) (seq 0 (length ts))) start_state [].
(** PopulateAdjacentTriangleMap: 329-350 *)
Definition tris_of (v : Z) : list nat := filter (fun j => existsb (Z.eqb v) (corners (tri_at j))) (seq 0 (length ts)).
Definition adjacent (i : nat) : list nat := filter (fun j => negb (j =? i)%nat) (nodup Nat.eq_dec (flat_map tris_of (corners (tri_at i)))).

(** GetBitmaskOfAlreadyCorrectedVertices: 378-387 *)
Definition is_corrected (d : data) (v : Z) : bool := existsb (fun e => (fst e =? v)%Z) (corrected d).
Definition corrected_mask (d : data) (t : tri) : Z :=
  let '(a, b, c) := t in
  Z.lor (Z.lor (if is_corrected d a then vertex_mask 0 else 0) (if is_corrected d b then vertex_mask 1 else 0)) (if is_corrected d c then vertex_mask 2 else 0).
(** GetNudgeVectors: 394-408 *)
Definition copysign (m s : T N) : T N := if nsign N s then nopp N (nabs N m) else nabs N m.
Definition nudge_vector (d : data) (v : Z) : vec N :=
  V (copysign (nmul N n1 (c_scale (cx C))) (nsub N (vx (pos v)) (vx (qpos d v))))
    (copysign (nmul N n1 (c_scale (cy C))) (nsub N (vy (pos v)) (vy (qpos d v)))).
(** GetNudgedTriangle: 414-438 *)
Definition nudged (q v : vec N) (mx my m : Z) : vec N :=
  quantize_point C (padd q (V (if hits mx m then vx v else n0) (if hits my m then vy v else n0))).
Definition nudged_triangle (t : triangle N) (va vb vc : vec N) (m : Z) : triangle N :=
  Tri (nudged (p0 t) va 32 16 m) (nudged (p1 t) vb 8 4 m) (nudged (p2 t) vc 2 1 m).
(** NudgeCandidate: 441-472 *)
Record candidate := Candidate { mask : Z; fixes : list nat; flips : list nat }.
Definition better (a b : candidate) : bool :=
  if (length (flips a) <? length (flips b))%nat then true
  else if (length (flips b) <? length (flips a))%nat then false
  else (length (fixes b) <? length (fixes a))%nat.
(** MaybeMakeNudgeCandidate: 480-549.  First the vertices it moves: 500-511 *)
Definition moved (t : tri) (m : Z) (n : triangle N) (v : Z) : option (vec N) :=
  let '(a, b, c) := t in
  if (v =? a)%Z && hits m (vertex_mask 0) then Some (p0 n)
  else if (v =? b)%Z && hits m (vertex_mask 1) then Some (p1 n)
  else if (v =? c)%Z && hits m (vertex_mask 2) then Some (p2 n)
  else None.
Definition after (d : data) (mv : Z -> option (vec N)) (v : Z) : vec N := match mv v with Some p => p | None => qpos d v end.
Definition touched (mv : Z -> option (vec N)) (t : tri) : bool := existsb (fun v => match mv v with Some _ => true | None => false end) (corners t).
Fixpoint check_adjacent (d : data) (mv : Z -> option (vec N)) (l : list nat) (c : candidate) : option candidate :=
  match l with
  | [] => Some c
  | j :: l =>
      if negb (touched mv (tri_at j)) then check_adjacent d mv l c
      else if negative (triangle_of (after d mv) (tri_at j)) then
        match states d j with
        | NotFlipped => check_adjacent d mv l (Candidate (mask c) (fixes c) (j :: flips c))
        | Fixed => None
        | Flipped => check_adjacent d mv l c
        end
      else match states d j with
           | Flipped => check_adjacent d mv l (Candidate (mask c) (j :: fixes c) (flips c))
           | _ => check_adjacent d mv l c
           end
  end.
Definition make_candidate (d : data) (i : nat) (m already : Z) (q : triangle N) (va vb vc : vec N) : option candidate :=
  if hits m already then None
  else
    let n := nudged_triangle q va vb vc m in
    if negative n then None
    else match env_add None (OTriangle n) with
         | Some r => if negb (rect_contains_rect (bounds C) r) then None
                     else check_adjacent d (moved (tri_at i) m n) (adjacent i) (Candidate m [] [])
         | None => None
         end.
(** the search for the best candidate: 655-678 *)
Fixpoint search (d : data) (i : nat) (already : Z) (q : triangle N) (va vb vc : vec N) (n_flipped : nat) (ms : list Z) (best : option candidate) : option candidate :=
  match ms with
  | [] => best
  | m :: ms =>
      match make_candidate d i m already q va vb vc with
      | None => search d i already q va vb vc n_flipped ms best
      | Some c =>
          if (length (fixes c) =? n_flipped)%nat && match flips c with [] => true | _ => false end then Some c
          else search d i already q va vb vc n_flipped ms (match best with None => Some c | Some b => if better c b then Some c else best end)
      end
  end.
(** RecordCorrectionAndAddNewFlippedTrisToQueue: 551-591.  flat_hash_map::insert keeps what is already there. *)
Definition insert_new (v : Z) (p : vec N) (l : list (Z * vec N)) : list (Z * vec N) := if existsb (fun e => (fst e =? v)%Z) l then l else (v, p) :: l.
Definition record_vertex (use : bool) (v : Z) (p : vec N) (d : data) : data :=
  if use then Data (fun w => if (w =? v)%Z then p else qpos d w) (queue d) (states d) (insert_new v p (corrected d)) else d.
Fixpoint insert_sorted (x : nat) (l : list nat) : list nat := match l with [] => [x] | y :: r => if (x <=? y)%nat then x :: l else y :: insert_sorted x r end.
Definition sorted (l : list nat) : list nat := fold_right insert_sorted [] l.
Definition is_in (j : nat) (l : list nat) : bool := existsb (Nat.eqb j) l.
Definition record (d : data) (i : nat) (q : triangle N) (va vb vc : vec N) (c : candidate) : data :=
  let n := nudged_triangle q va vb vc (mask c) in
  let '(a, b, e) := tri_at i in
  let d1 := record_vertex (hits (mask c) (vertex_mask 0)) a (p0 n) d in
  let d2 := record_vertex (hits (mask c) (vertex_mask 1)) b (p1 n) d1 in
  let d3 := record_vertex (hits (mask c) (vertex_mask 2)) e (p2 n) d2 in
  Data (qpos d3) (queue d3 ++ sorted (flips c))
    (fun j => if is_in j (flips c) then Flipped else if is_in j (fixes c) then Fixed else if (j =? i)%nat then Fixed else states d3 j) (corrected d3).
(** the loop: 630-683.  [inl] is a return of an empty map. *)
Definition round (d : data) (i : nat) : unit + data :=
  match states d i with
  | Fixed => inr d
  | _ =>
      let already := corrected_mask d (tri_at i) in
      if (already =? 63)%Z then inl tt
      else
        let n_flipped := length (filter (fun j => negb (j =? i)%nat && is_flipped (states d j)) (adjacent i)) in
        let q := triangle_of (qpos d) (tri_at i) in
        let '(a, b, c) := tri_at i in
        let va := nudge_vector d a in let vb := nudge_vector d b in let vc := nudge_vector d c in
        match search d i already q va vb vc n_flipped masks None with
        | None => inl tt
        | Some best => inr (record d i q va vb vc best)
        end
  end.
Definition pop (d : data) (q : list nat) : data := Data (qpos d) q (states d) (corrected d).
Fixpoint loop (fuel : nat) (d : data) : option (unit + data) :=
  match queue d with
  | [] => Some (inr d)
  | i :: q =>
      match fuel with
      | O => None
      | S fuel => match round (pop d q) i with inl _ => Some (inl tt) | inr d => loop fuel d end
      end
  end.
(** GetCorrectedPackedVertexPositions: 597-686; [packed] tells whether the type of the position attribute is packed *)
Definition corrections (packed : bool) (fuel : nat) : option (list (Z * vec N)) :=
  if negb packed then Some []
  else if existsb (fun t => negative (triangle_of pos t)) ts then Some []
  else match queue start_data with
       | [] => Some []
       | _ => match loop fuel start_data with
              | None => None
              | Some (inl _) => Some []
              | Some (inr d) => Some (corrected d)
              end
       end.
End Mesh.
End Flip.
Arguments comp : clear implicits.
Arguments coding : clear implicits.
Arguments data : clear implicits.
