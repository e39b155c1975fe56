(** The points of a turn and of caps: /repo/ink/strokes/internal/circular_extrusion_helpers.cc and brush_tip_shape.cc 453-612, 687-796,
    for either reading of [num].  A failing ABSL_CHECK is [CheckFails]; [Undefined] as in [append_arc].  Of AppendCircularTurnExtrusionPoints one side is
    modelled at a time: the two sides do not depend on each other, and brush_tip_shape.cc always asks for one. *)
From Coq Require Import ZArith Bool List.
From Verif Require Import NumModel GeomModel AlgorithmsModel AffineModel CircleModel TipShapeModel TipCapModel JoinedModel.
Import ListNotations.

Section Turn.
Context {N : num}.
Variable acos : T N -> T N.
(** kCollinearTol: circular_extrusion_helpers.cc 80 *)
Definition collinear : T N := ndy N 10995116 (-40).
(** 81-88 *)
Definition snap (incoming outgoing : T N) : T N :=
  let delta := nabs N (nsub N incoming outgoing) in
  if nlt N delta collinear || nlt N full_turn (nadd N delta collinear) then outgoing else incoming.
(** 94-99 *)
Definition from_base (base a : T N) : T N := if nlt N a base then nadd N a full_turn else a.
(** GetTangentAngleOrderCase: 41-55 *)
Definition order_case (in_right out_left out_right : T N) : nat :=
  let second := nmin (nmin in_right out_left) out_right in
  if neqb N second out_left then (if nle N out_right in_right then 3 else 2)
  else if neqb N second out_right then (if nle N out_left in_right then 5 else 1)
  else if nle N out_left out_right then 6 else 4.
(** add_intersection: 101-121 *)
Definition crossing (start middle end_ : circle N) (incoming outgoing : T N) : list (vec N) :=
  match segment_intersection (Seg (get_point start incoming) (get_point middle incoming)) (Seg (get_point middle outgoing) (get_point end_ outgoing)) with
  | Some p => [p]
  | None => [get_point middle incoming; get_point middle outgoing]
  end.
(** the four angles after 94-99, from those of the two pairs of tangents *)
Definition ordered (a b : T N * T N) : T N * T N * T N * T N :=
  let il := snap (fst a) (fst b) in
  (il, from_base il (snap (snd a) (snd b)), from_base il (fst b), from_base il (snd b)).
(** whether the left (the right) side gets an arc: 144-202 *)
Definition gets_arc (left crossings : bool) (start middle end_ : circle N) (ir ol or : T N) : option bool :=
  if negb crossings then Some true
  else match order_case ir ol or with
       | 1 => Some left
       | 2 => Some (negb left)
       | 3 => Some false
       | 4 => Some true
       | _ =>
           match signed_angle acos (vsub (center middle) (center start)) (vsub (center end_) (center middle)) with
           | None => None
           | Some turn =>
               if nle N (ndiv N full_turn (nZ 3)) (nabs N turn) then Some true
               else if nlt N turn n0 then Some left else Some (negb left)
           end
       end.
(** AppendCircularTurnExtrusionPoints: 59-203 *)
Definition turn_points (left crossings : bool) (start middle end_ : circle N) (height : T N) (points : list (vec N)) : outcome N :=
  match tangent_angles acos start middle, tangent_angles acos middle end_ with
  | Some incoming, Some outgoing =>
      let '(il, ir, ol, or) := ordered incoming outgoing in
      match gets_arc left crossings start middle end_ ir ol or with
      | None => CheckFails
      | Some true =>
          if left then append_arc acos middle il (nsub N (nsub N ol il) full_turn) height points
          else append_arc acos middle ir (normalized (nsub N or ir)) height points
      | Some false => Done (points ++ if left then crossing start middle end_ il ol else crossing start middle end_ ir or)
      end
  | _, _ => CheckFails
  end.
(** AppendLeftCircularTurnPoints, AppendRightCircularTurnPoints: brush_tip_shape.cc 474-502 *)
Fixpoint around_circles (left crossings : bool) (height : T N) (points : list (vec N)) (l : list (circle N)) : outcome N :=
  match l with
  | start :: ((middle :: end_ :: _) as rest) =>
      match (if neqb N (radius middle) n0 then Done (points ++ [center middle]) else turn_points left crossings start middle end_ height points) with
      | Done points => around_circles left crossings height points rest
      | fails => fails
      end
  | _ => Done points
  end.
(** GetTangentAngles: 453-472 *)
Definition tip_angles (first second : shape N) (t : indices) : option (T N * T N) :=
  match circle_at first (fst (i_left t)), circle_at second (snd (i_left t)), circle_at first (fst (i_right t)), circle_at second (snd (i_right t)) with
  | Some a, Some b, Some c, Some d =>
      match tangent_angles acos a b, tangent_angles acos c d with
      | Some (l, _), Some (_, r) => Some (l, r)
      | _, _ => None
      end
  | _, _, _, _ => None
  end.
(** the circles of [s] with these indices, between two more: 538-546, 579-587, 692-699, 722-729 *)
Definition route (before : option (circle N)) (s : shape N) (l : option (list nat)) (after : option (circle N)) : option (list (circle N)) :=
  match before, l, after with
  | Some a, Some l, Some b => match all_of (map (circle_at s) l) with Some m => Some (a :: m ++ [b]) | None => None end
  | _, _, _ => None
  end.
(** the sides of AppendTurnExtrusionPoints: 506-612 *)
Definition tip_turn (left : bool) (start middle end_ : shape N) (height : T N) (points : list (vec N)) : outcome N :=
  match tangent_indices acos start middle, tangent_indices acos middle end_ with
  | Some ti, Some to =>
      match tip_angles start middle ti, tip_angles middle end_ to with
      | Some (il, ir), Some (ol, or) =>
          let ol := from_base il ol in
          let ir := from_base il ir in
          let or := from_base il or in
          let incoming := if left then i_left ti else i_right ti in
          let outgoing := if left then i_left to else i_right to in
          let arcs := if left then nle N (nmin ir or) ol else nlt N ir or || (nle N or ol && nle N ol ir) in
          if Nat.eqb (snd incoming) (fst outgoing) || arcs then
            let l := if left then walk_cw middle (length (s_circles middle)) (snd incoming) (fst outgoing) else used middle (snd incoming) (fst outgoing) in
            match route (circle_at start (fst incoming)) middle l (circle_at end_ (snd outgoing)) with
            | Some circles => around_circles left true height points circles
            | None => CheckFails
            end
          else
            let i := if left then il else ir in
            let o := if left then ol else or in
            match circle_at start (fst incoming), circle_at middle (snd incoming), circle_at middle (fst outgoing), circle_at end_ (snd outgoing) with
            | Some a, Some b, Some c, Some d =>
                match segment_intersection (Seg (get_point a i) (get_point b i)) (Seg (get_point c o) (get_point d o)) with
                | Some p => Done (points ++ [p])
                | None => Done (points ++ [get_point b i; get_point c o])
                end
            | _, _, _, _ => CheckFails
            end
      | _, _ => CheckFails
      end
  | _, _ => CheckFails
  end.
(** left and right points *)
Inductive sides := Sides (left right : list (vec N)) | SidesFail | SidesUndefined.
Definition and_then (o : outcome N) (f : list (vec N) -> sides) : sides := match o with Done l => f l | CheckFails => SidesFail | Undefined => SidesUndefined end.
(** AppendStartcapExtrusionPoints: 687-714 *)
Definition startcap (first second : shape N) (height : T N) (left right : list (vec N)) : sides :=
  match tangent_indices acos first second with
  | None => SidesFail
  | Some t =>
      match route (circle_at second (snd (i_right t))) first (walk_cw first (length (s_circles first)) (fst (i_right t)) (fst (i_left t))) (circle_at second (snd (i_left t))), forward first second with
      | Some circles, Some f =>
          and_then (around_circles true false height left circles) (fun l => let (l, r) := move_new_right_points f (s_center first) (length l - length left) l right in Sides l r)
      | _, _ => SidesFail
      end
  end.
(** AppendEndcapExtrusionPoints: 716-751 *)
Definition endcap (second_to_last last_ : shape N) (height : T N) (left right : list (vec N)) : sides :=
  match tangent_indices acos second_to_last last_ with
  | None => SidesFail
  | Some t =>
      match route (circle_at second_to_last (fst (i_left t))) last_ (walk_cw last_ (length (s_circles last_)) (snd (i_left t)) (snd (i_right t))) (circle_at second_to_last (fst (i_right t))), forward second_to_last last_ with
      | Some circles, Some f =>
          and_then (around_circles true false height left circles) (fun l => let (l, r) := split_endcap f (s_center last_) (length l - length left) l right in Sides l r)
      | _, _ => SidesFail
      end
  end.
(** AppendWholeShapeExtrusionPoints: 753-796 *)
Definition whole_shape (s : shape N) (height : T N) (forward : vec N) (left right : list (vec N)) : sides :=
  match s_circles s with
  | [c] =>
      let chord := nmin (arc_angle acos c height) half_turn in
      let rear := natan2 N (nopp N (vy forward)) (nopp N (vx forward)) in
      and_then (append_arc acos c (nsub N rear (ndiv N chord (nZ 2))) (nsub N chord half_turn) height left) (fun l =>
      and_then (append_arc acos c (nadd N rear (ndiv N chord (nZ 2))) (nsub N half_turn chord) height right) (fun r => Sides l r))
  | _ =>
      match all_of (map (circle_at s) (whole_circles s)) with
      | Some circles => and_then (around_circles true false height left circles) (fun l => let (l, r) := move_new_right_points forward (s_center s) (length l - length left) l right in Sides l r)
      | None => SidesFail
      end
  end.
End Turn.
