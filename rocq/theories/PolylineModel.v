(** Closing and trimming a hand-drawn polyline:
    /repo/ink/geometry/internal/polyline_processing.{h,cc}, for either reading of [num].
    Undefined behavior and failing checks are [None].  [junk] stands for the contents of local
    variables and members that the code does not initialize: nothing is known about it.
    Simplified: an [int] that the code never makes negative is a [nat], and 2^31 or more points
    (where [int] overflows) are not modelled; [1.0 - fractional_index] is computed in double and
    rounded to float, which is the same as subtracting floats (53 >= 2 * 24 + 2). *)
From Coq Require Import ZArith Bool Arith List.
From Verif Require Import NumModel GeomModel AlgorithmsModel DistanceModel RTreeModel.
Import ListNotations.

Section Polyline.
Context {N : num}.
Notation "x + y" := (nadd N x y). Notation "x - y" := (nsub N x y).
Notation "x * y" := (nmul N x y). Notation "x / y" := (ndiv N x y).
Notation "x <? y" := (nlt N x y). Notation "x <=? y" := (nle N x y).

(** SegmentBundle, Intersection, PolylineData: .h 31-55; the last four members are [params] *)
Record bundle := Bundle { b_seg : segment N; b_index : nat; b_length : T N }.
Record cross := Cross { c_index : nat; c_frac : T N; c_walk : T N }.
Record pdata := PData { d_segs : list bundle; d_first : cross; d_last : cross; d_new_first : vec N; d_new_last : vec N;
  d_connect_first : bool; d_connect_last : bool; d_has : bool }.
Record params := Params { min_walk : T N; max_dist : T N; min_ratio : T N; min_trim : T N }.

Variable junk : nat -> cross. (* one for each uninitialized Intersection *)
Variable junk_bundle : bundle.
Variable sort : (nat -> nat -> bool) -> list nat -> list nat. (* absl::c_sort: RTreeModel *)

(** WalkDistance: .cc 34-52 *)
Definition walk_distance (segs : list bundle) (index : nat) (frac : T N) (backwards : bool) : option (T N) :=
  match nth_error segs index with
  | None => None
  | Some s => Some (fold_left (fun t b => t + b_length b) (if backwards then skipn (S index) segs else firstn index segs)
                              (b_length s * (if backwards then n1 - frac else frac)))
  end.
(** CreateNewPolylineData: 54-63; the reservation for no points throws *)
Fixpoint bundles (i : nat) (points : list (vec N)) : list bundle :=
  match points with
  | p :: (q :: _) as r => Bundle (Seg p q) i (dist_points p q) :: bundles (S i) r
  | _ => []
  end.
Definition create_data (points : list (vec N)) : option pdata :=
  match points with
  | [] => None
  | _ => Some (PData (bundles 0 points) (junk 0) (junk 1) (V n0 n0) (V n0 n0) false false false)
  end.
(** segment_bounds: 66-69 *)
Definition seg_bounds (b : bundle) : rect N := rect_from_two (s_start (b_seg b)) (s_end (b_seg b)).

Section Tree.
Variable nodes : list (node N).
(** The visitors of FindFirstAndLastIntersections: 85-101 and 144-162 *)
Definition first_visitor (cur : bundle) (s : bundle * (T N * T N)) (other : bundle) : (bundle * (T N * T N)) * bool :=
  (if Nat.ltb (S (b_index cur)) (b_index other) then
     match segment_ratio (b_seg cur) (b_seg other) with
     | Some r => if fst r <? fst (snd s) then (other, r) else s
     | None => s
     end
   else s, true).
Definition last_visitor (first : nat) (cur : bundle) (s : T N) (other : bundle) : T N * bool :=
  (if Nat.ltb (S (b_index other)) (b_index cur) && Nat.leb first (b_index other) then
     match segment_ratio (b_seg cur) (b_seg other) with
     | Some r => if s <? fst r then fst r else s
     | None => s
     end
   else s, true).
(** The loops, up to the segment at which they break: 77-126 and 135-173 *)
Fixpoint first_loop (segs : list bundle) (is : list nat) (s : bundle * (T N * T N)) : option (option (nat * bundle * (bundle * (T N * T N)))) :=
  match is with
  | [] => Some None
  | i :: r =>
      match nth_error segs i with
      | None => None
      | Some cur =>
          match visit seg_bounds (first_visitor cur) nodes segs (seg_bounds cur) s with
          | None => None
          | Some s' => if fst (snd s') <=? n1 then Some (Some (i, cur, s')) else first_loop segs r s'
          end
      end
  end.
Fixpoint last_loop (first : nat) (segs : list bundle) (is : list nat) (s : T N) : option (option (nat * bundle * T N)) :=
  match is with
  | [] => Some None
  | i :: r =>
      match nth_error segs i with
      | None => None
      | Some cur =>
          match visit seg_bounds (last_visitor first cur) nodes segs (seg_bounds cur) s with
          | None => None
          | Some s' => if n0 <=? s' then Some (Some (i, cur, s')) else last_loop first segs r s'
          end
      end
  end.
(** FindFirstAndLastIntersections: 71-174 *)
Definition find_intersections (d : pdata) : option pdata :=
  let segs := d_segs d in
  match first_loop segs (seq 0 (length segs - 2)) (junk_bundle, (nInf N, n0)) with
  | None => None
  | Some None => Some d
  | Some (Some (i, cur, (other, (r1, r2)))) =>
      let p := seg_lerp (b_seg cur) r1 in
      match walk_distance segs i r1 false, walk_distance segs (b_index other) r2 true with
      | Some w1, Some w2 =>
          let d1 := PData segs (Cross i r1 w1) (Cross (b_index other) r2 w2) p p (d_connect_first d) (d_connect_last d) true in
          (* i from segments.size() - 1 down to the index of the last intersection *)
          match last_loop i segs (rev (seq (b_index other) (length segs - b_index other))) (nopp N (nInf N)) with
          | None => None
          | Some None => Some d1
          | Some (Some (k, cur, r)) =>
              match walk_distance segs k r true with
              | None => None
              | Some w => Some (PData segs (d_first d1) (Cross k r w) p (seg_lerp (b_seg cur) r) (d_connect_first d) (d_connect_last d) true)
              end
          end
      | _, _ => None
      end
  end.

Variable q : params.
(** EndpointIsConnectable: 176-199.  The index is passed as a float. *)
Definition float_index (i : nat) : nat := Z.to_nat (ntrunc N (nZ (Z.of_nat i))).
Definition is_connectable (d : pdata) (index : nat) (frac straight : T N) (backwards : bool) : option bool :=
  match walk_distance (d_segs d) (float_index index) frac backwards with
  | None => None
  | Some w =>
      if (w <? min_walk q) || (w / straight <? min_ratio q) then Some false
      else if d_has d then
        Some (negb ((if backwards then c_walk (d_last d) else c_walk (d_first d)) / straight <? min_trim q))
      else Some true
  end.
(** The visitors of FindBestEndpointConnections: 277-297 and 315-336; [ok] is the condition on
    the index; [None] is a failed check *)
Definition connect_visitor (d : pdata) (point : vec N) (ok : nat -> bool) (backwards : bool) (s : option (cross * T N)) (cur : bundle) : option (cross * T N) * bool :=
  (match s with
   | None => None
   | Some (best, best_length) =>
       let distance := dist_point_segment point (b_seg cur) in
       if (distance <? max_dist q) && (distance <? best_length) && ok (b_index cur) then
         match seg_project (b_seg cur) point with
         | None => None (* ABSL_CHECK 285, 324 *)
         | Some r =>
             let r := nclamp r n0 n1 in
             match is_connectable d (b_index cur) r distance backwards with
             | None => None
             | Some true => Some (Cross (b_index cur) r (c_walk best), distance)
             | Some false => s
             end
         end
       else s
   end, true).
Definition find_connection (d : pdata) (point : vec N) (ok : nat -> bool) (backwards : bool) (start : cross) : option (cross * T N) :=
  match rect_from_center point (max_dist q * n2) (max_dist q * n2) with
  | None => None
  | Some box =>
      match visit seg_bounds (connect_visitor d point ok backwards) nodes (d_segs d) box (Some (start, nInf N)) with
      | None | Some None => None
      | Some (Some s) => Some s
      end
  end.
(** BetterLastIntersection, BetterFirstIntersection: 204-263 *)
Definition better_last (d : pdata) (c : cross) : bool :=
  if negb (d_connect_first d) || d_connect_last d then false
  else if negb (d_has d) then true
  else if Nat.ltb (c_index (d_last d)) (c_index c) then true
  else Nat.eqb (c_index c) (c_index (d_last d)) && (c_frac (d_last d) <? c_frac c).
Definition better_first (d : pdata) (c : cross) : bool :=
  if d_connect_first d || negb (d_connect_last d) then false
  else if negb (d_has d) then true
  else if Nat.ltb (c_index c) (c_index (d_first d)) then true
  else Nat.eqb (c_index c) (c_index (d_first d)) && (c_frac c <? c_frac (d_first d)).
(** FindBestEndpointConnections: 265-364 *)
Definition lerp_at (segs : list bundle) (c : cross) : option (vec N) :=
  match nth_error segs (c_index c) with None => None | Some b => Some (seg_lerp (b_seg b) (c_frac c)) end.
Definition connect_first_point (d : pdata) : option (pdata * cross) := (* 268-304 *)
  match d_segs d with
  | [] => None
  | b :: _ =>
      match find_connection d (s_start (b_seg b)) (Nat.ltb 1) false (junk 2) with
      | None => None
      | Some (c, best) =>
          if best <=? max_dist q then
            match lerp_at (d_segs d) c with
            | None => None
            | Some p => Some (PData (d_segs d) (d_first d) (d_last d) p (d_new_last d) true (d_connect_last d) (d_has d), c)
            end
          else Some (d, c)
      end
  end.
Definition connect_last_point (d : pdata) : option (pdata * cross) := (* 306-343 *)
  match d_segs d with
  | [] => None
  | b :: r =>
      match find_connection d (s_end (b_seg (last r b))) (fun i => Nat.ltb (i + 2)%nat (length (d_segs d))) true (junk 3) with
      | None => None
      | Some (c, best) =>
          if best <=? max_dist q then
            match lerp_at (d_segs d) c with
            | None => None
            | Some p => Some (PData (d_segs d) (d_first d) (d_last d) (d_new_first d) p (d_connect_first d) true (d_has d), c)
            end
          else Some (d, c)
      end
  end.
Definition find_connections (d : pdata) : option pdata :=
  match connect_first_point d with
  | None => None
  | Some (d1, c1) =>
      match connect_last_point d1 with
      | None => None
      | Some (d2, c2) =>
          let d3 :=
            if better_last d2 c1 then
              PData (d_segs d2) (d_first d2) (Cross (c_index c1) (c_frac c1) (c_walk (d_last d2))) (d_new_first d2) (d_new_first d2) (d_connect_first d2) (d_connect_last d2) (d_has d2)
            else if better_first d2 c2 then
              PData (d_segs d2) (Cross (c_index c2) (c_frac c2) (c_walk (d_first d2))) (d_last d2) (d_new_last d2) (d_new_last d2) (d_connect_first d2) (d_connect_last d2) (d_has d2)
            else d2 in
          Some (PData (d_segs d3) (d_first d3) (d_last d3) (d_new_first d3) (d_new_last d3) (d_connect_first d3) (d_connect_last d3)
                      (d_has d3 || d_connect_first d3 || d_connect_last d3))
      end
  end.
End Tree.

(** CreateNewPolylineFromPolylineData: 366-393.  Reading outside [points] is [None], and so is a
    negative amount of room. *)
Definition run_of (points : list (vec N)) (a b : nat) : option (list (vec N)) :=
  if Nat.leb b (length points) then Some (firstn (b - a)%nat (skipn a points)) else if Nat.leb b a then Some [] else None.
Definition new_polyline (d : pdata) (points : list (vec N)) : option (list (vec N)) :=
  if negb (d_has d) then Some points
  else
    let front := if d_connect_first d then 0%nat else S (c_index (d_first d)) in
    let back := if d_connect_last d then length points else S (c_index (d_last d)) in
    if Nat.ltb (back + 2)%nat front then None
    else
      match nth_error points front, run_of points front back with
      | Some p, Some run =>
          let l := (if negb (veq (d_new_first d) p) then [d_new_first d] else []) ++ run in
          match l with
          | [] => None
          | h :: _ => Some (l ++ if negb (veq (d_new_last d) (last l h)) then [d_new_last d] else [])
          end
      | _, _ => None
      end.
(** ProcessPolylineForMeshCreation: 395-412; the branching factor of the tree is 16
    (static_rtree.h 58) *)
Definition process_polyline (points : list (vec N)) (q : params) : option (list (vec N)) :=
  match create_data points with
  | None => None
  | Some d =>
      match init_tree 16 sort seg_bounds (d_segs d) with
      | None => None
      | Some nodes =>
          match find_intersections nodes d with
          | None => None
          | Some d1 => match find_connections nodes q d1 with None => None | Some d2 => new_polyline d2 points end
          end
      end
  end.
End Polyline.
Arguments bundle : clear implicits. Arguments cross : clear implicits. Arguments pdata : clear implicits. Arguments params : clear implicits.
