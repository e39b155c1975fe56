(** Searches along the outline of a stroke in progress: /repo/ink/strokes/internal/brush_tip_extruder/directed_partial_outline.{h,cc},
    find_clockwise_winding_segment.cc and derivative_calculator_helpers.cc, for either reading of [num].  Of the mesh only what is read is modelled: the
    position and labels of each vertex (functions of the index) and the vertices of each triangle.  Of a Side (side.h 45-155) only the fields that are read.
    Reading a vector out of range is [None].  Offsets are natural numbers; their differences are those of uint32_t. *)
From Coq Require Import ZArith Bool Arith List.
From Verif Require Import NumModel GeomModel.
Import ListNotations.

(** the value of an uint32_t expression *)
Definition u32 (z : Z) : nat := Z.to_nat (z mod 2 ^ 32).

(** ** DirectedPartialOutline: directed_partial_outline.h 51-71 *)
Record outline := Outline { o_starting : list nat; o_starting_first : nat; o_starting_n : nat; o_ending : list nat; o_ending_first : nat; o_ending_n : nat }.
(** Size, operator[] (without its debug check): directed_partial_outline.cc 56-71 *)
Definition outline_size (o : outline) : nat := u32 (Z.of_nat (o_starting_n o) + Z.of_nat (o_ending_n o)).
Definition outline_at (o : outline) (i : nat) : option nat :=
  if i <? o_starting_n o then nth_error (o_starting o) (u32 (Z.of_nat (o_starting_first o) + Z.of_nat (o_starting_n o) - Z.of_nat i - 1))
  else nth_error (o_ending o) (u32 (Z.of_nat (o_ending_first o) + Z.of_nat i - Z.of_nat (o_starting_n o))).

(** ** Side: [side_retriangulation] is the starting_offset of an intersection whose retriangulation_started; side.h 45-155 *)
Record side := Side { side_left : bool; side_indices : list nat; side_retriangulation : option nat; side_adjacent_first : nat; side_opposite_first : nat;
  side_connects : bool; side_discontinuities : list (nat * nat) }.
(** LastOutlineIndexOffset: 73-78 *)
Definition last_outline_offset (s : side) : nat :=
  match side_retriangulation s with Some offset => offset | None => u32 (Z.of_nat (length (side_indices s)) - 1) end.
(** ConstructPartialOutline: 80-97 *)
Definition construct_outline (starting ending : side) : outline :=
  let count last first := u32 (Z.of_nat last - Z.of_nat first + 1) in
  Outline (side_indices starting) (side_adjacent_first starting) (count (last_outline_offset starting) (side_adjacent_first starting))
    (side_indices ending) (side_opposite_first starting)
    (if side_connects starting then count (last_outline_offset ending) (side_opposite_first starting) else 0).

Section Search.
Context {N : num}.
(** GetPosition *)
Variable pos : nat -> vec N.

(** ** FindOutlineIntersection: directed_partial_outline.h 86-121, directed_partial_outline.cc 99-154.  [hit] is LegacyIntersection: the first value of each
    interval.  [o] is read through [size] and [at]. *)
Section Find.
Variable hit : segment N -> segment N -> option (T N * T N).
Record found := Found { f_position : vec N; f_from : nat; f_to : nat; f_outline : T N; f_segment : T N }.
Record result := Result { r_found : option found; r_budget : T N }.
Variable o : outline.
Variable seg : segment N.
Variable containing : option (triangle N).
(** DistanceBetween: 39 *)
Definition distance_between (a b : vec N) : T N := magnitude (vsub a b).
(** 131-153: [position] is not set here, a Point is then (0, 0): point.h 27-28 *)
Definition last_index (budget : T N) : option result :=
  if (0 <? outline_size o) && nlt N n0 budget then
    match outline_at o (outline_size o - 1) with
    | None => None
    | Some last =>
        match hit (Seg (pos last) (pos last)) seg with
        | Some (t, u) => Some (Result (Some (Found (V n0 n0) (outline_size o - 1) (outline_size o - 1) t u)) (nmax n0 budget))
        | None => Some (Result None (nmax n0 budget))
        end
    end
  else Some (Result None (nmax n0 budget)).
(** 103-129, for the [k] values of the loop variable from [i] on *)
Fixpoint search_from (k i : nat) (budget : T N) : option result :=
  match k with
  | O => last_index budget
  | S k =>
      if nlt N n0 budget then
        match outline_at o (i - 1), outline_at o i with
        | Some a, Some b =>
            let s := Seg (pos a) (pos b) in
            if veq (s_start s) (s_end s) then search_from k (S i) budget
            else match hit s seg with
                 | Some (t, u) =>
                     Some (Result (Some (Found (seg_lerp s t) (i - 1) i t u)) (nmax n0 (nsub N budget (distance_between (s_start s) (seg_lerp s t)))))
                 | None =>
                     if match containing with Some x => negb (tri_contains x (s_end s)) | None => false end then last_index n0
                     else search_from k (S i) (nsub N budget (seg_length s))
                 end
        | _, _ => None
        end
      else last_index budget
  end.
Definition find_intersection (budget : T N) : option result := search_from (outline_size o - 1) 1 budget.
End Find.

(** ** FindLastClockwiseWindingTriangleFanSegment: find_clockwise_winding_segment.cc 31-57 *)
Fixpoint fan_from (left : bool) (central last : vec N) (before : list (vec N)) : option (segment N) :=
  match before with
  | [] => None
  | current :: before =>
      if veq current last then fan_from left central last before
      else let '(a, b) := if left then (last, current) else (current, last) in
           if nlt N (signed_area (Tri central a b)) n0 then Some (Seg a b) else fan_from left central current before
  end.
Definition fan_segment (left : bool) (central : vec N) (indices : list nat) : option (segment N) :=
  match rev (map pos indices) with [] => None | last :: before => fan_from left central last before end.
(** FindLastClockwiseWindingMultiTriangleFanSegment: 59-108; the discontinuities from the last to the first *)
Definition between (l : list nat) (first last : nat) : list nat := firstn (last - first + 1) (skipn first l).
Fixpoint sections (s : side) (central : vec N) (first last upper : nat) (discontinuities : list (nat * nat)) : option (segment N) :=
  match discontinuities with
  | [] => let l := Nat.min upper last in if l <=? first then None else fan_segment (side_left s) central (between (side_indices s) first l)
  | (from, to) :: rest =>
      if upper <? first then None
      else let f := Nat.max to first in
           let l := Nat.min upper last in
           if l <? f then sections s central first last from rest
           else match fan_segment (side_left s) central (between (side_indices s) f l) with
                | Some x => Some x
                | None =>
                    match (if first <=? from then
                             match nth_error (side_indices s) from, nth_error (side_indices s) to with
                             | Some a, Some b => fan_segment (side_left s) central [a; b]
                             | _, _ => None
                             end
                           else None) with
                    | Some x => Some x
                    | None => sections s central first last from rest
                    end
                end
  end.
Definition multi_fan_segment (s : side) (first last : nat) (central : vec N) : option (segment N) :=
  match side_indices s with
  | [] => None
  | _ => if last <=? first then None else sections s central first last (length (side_indices s) - 1) (rev (side_discontinuities s))
  end.

(** ** derivative_calculator_helpers.cc *)
Inductive forward := Front | Inside | Back. (* StrokeVertex::ForwardCategory *)
Definition is_front (c : forward) : bool := match c with Front => true | _ => false end.
Definition same_forward (a b : forward) : bool := match a, b with Front, Front | Inside, Inside | Back, Back => true | _, _ => false end.
Variable category : nat -> forward.
(** StartingOffsetForCoincidentConnectedVertices: 57-81; [before] are the indices at the offsets below [i], the nearest first *)
Fixpoint coincident_from (position : vec N) (c : forward) (i : nat) (before : list nat) : nat :=
  match before with
  | [] => 0
  | index :: before =>
      if negb (veq (pos index) position) || (negb (same_forward (category index) c) && is_front c) then i
      else coincident_from position (category index) (i - 1) before
  end.
Definition coincident_start (indices : list nat) (offset : nat) : option nat :=
  match nth_error indices offset with
  | None => None
  | Some index => Some (coincident_from (pos index) (category index) offset (rev (firstn offset indices)))
  end.
End Search.

(** FindFirstExteriorVertices: 35-55; [exterior] is VertexIsExterior: 28-31.  The loop over the vertices of a triangle, then that over the triangles *)
Section Exterior.
Variable exterior is_left : nat -> bool.
Definition note_vertex (found : option nat * option nat) (index : nat) : option nat * option nat :=
  if is_left index then match fst found with None => if exterior index then (Some index, snd found) else found | Some _ => found end
  else match snd found with None => if exterior index then (fst found, Some index) else found | Some _ => found end.
Fixpoint exterior_from (triangles : list (list nat)) (found : option nat * option nat) : option nat * option nat :=
  match triangles with
  | [] => found
  | t :: triangles =>
      let found := fold_left note_vertex t found in
      match found with (Some _, Some _) => found | _ => exterior_from triangles found end
  end.
Definition first_exterior (triangles : list (list nat)) (starting : nat) : option nat * option nat := exterior_from (skipn starting triangles) (None, None).
End Exterior.
