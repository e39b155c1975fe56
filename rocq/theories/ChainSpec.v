(** What one tip state does to the list of tips, said by cases. *)
From Coq Require Import ZArith Reals Bool List.
From Flocq Require Import IEEE754.BinarySingleNaN.
From Verif Require Import F32 F32Lemmas NumModel BehaviorModel ConstrainModel.
Import ListNotations.

Section Spec.
Variable E : elem.
Notation N := (fnum E).
Notation X := (extrusion E).
Notation state := (@tip_state N).
Variables (internal : X -> X -> quality) (contains : X -> X -> bool) (eps : f32).
Definition join (a b : X) : quality := evaluate E internal a b (stationary eps).
(** both sizes are below the epsilon *)
Definition small (s : state) : Prop := flt (ts_width s) eps = true /\ flt (ts_height s) eps = true.
Definition whole (s : state) : X := Extrusion E s eps.
(** nothing to be joined to: no tips yet, or a break-point *)
Definition ended (xs : list (option X)) : Prop := xs = [] \/ exists p, xs = p ++ [None].
Definition part (a : X) (s : state) (t : f32) : X := Extrusion E (lerp_shape E (x_state E a) s t) eps.
Definition tenth : R := IZR 13421773 * / IZR 134217728.

Inductive Step (xs : list (option X)) (s : state) (closing : bool) : list (option X) -> Prop :=
| gap_again : small s -> ended xs -> Step xs s closing xs
| gap p a : small s -> xs = p ++ [Some a] -> Step xs s closing (xs ++ [None])
| first : ~ small s -> ended xs -> Step xs s closing (xs ++ [Some (whole s)])
| joined p a : ~ small s -> xs = p ++ [Some a] -> join a (whole s) = GoodTangents -> Step xs s closing (xs ++ [Some (whole s)])
| between p a t : ~ small s -> xs = p ++ [Some a] -> join a (whole s) = BadTangents -> join a (part a s t) = GoodTangents ->
    is_finite t = true -> (0 <= fR t < 1)%R -> closing = true \/ (tenth <= fR t)%R -> Step xs s closing (xs ++ [Some (part a s t)])
| late p a t x : ~ small s -> xs = p ++ [Some a] -> join a (whole s) = BadTangents ->
    constrain E internal a (whole s) eps 7 = Found E t x -> (fR t < tenth)%R -> closing = false -> Step xs s closing xs
| nowhere p a : ~ small s -> xs = p ++ [Some a] -> join a (whole s) = BadTangents -> constrain E internal a (whole s) eps 7 = CannotFind E -> Step xs s closing xs
| inside p a : ~ small s -> xs = p ++ [Some a] -> join a (whole s) = FirstContainsSecond -> Step xs s closing xs
| swallow p ys a : ~ small s -> xs = p ++ map Some ys ++ [Some a] -> ended p -> join a (whole s) = SecondContainsFirst ->
    (forall y, In y ys -> contains (whole s) y = true) -> Step xs s closing (p ++ [Some (whole s)])
| disconnect p ys a : ~ small s -> xs = p ++ map Some ys ++ [Some a] -> join a (whole s) = SecondContainsFirst ->
    (exists y, In y ys /\ contains (whole s) y = false) -> Step xs s closing (xs ++ [None; Some (whole s)]).
(** a run of states, the last of which may be the last of its batch *)
Inductive Steps (closing : bool) : list (option X) -> list state -> list (option X) -> Prop :=
| no_step xs : Steps closing xs [] xs
| more_steps xs s ss ys zs : Step xs s (closing && match ss with [] => true | _ => false end) ys -> Steps closing ys ss zs -> Steps closing xs (s :: ss) zs.
(** the permanent tips after some batches *)
Inductive Fixed : list (list state * list state) -> list (option X) -> Prop :=
| no_batch : Fixed [] []
| one_more bs fixed volatile xs ys : Fixed bs xs -> Steps (match volatile with [] => true | _ => false end) xs fixed ys -> Fixed (bs ++ [(fixed, volatile)]) ys.

(** every tip follows a break-point or one that it is joined to well *)
Definition linked (xs : list (option X)) : Prop := forall p a b q, xs = p ++ Some a :: Some b :: q -> join a b = GoodTangents.
Definition no_idle_breaks (xs : list (option X)) : Prop := (forall q, xs <> None :: q) /\ forall p q, xs <> p ++ None :: None :: q.
(** [l] without some elements *)
Inductive selection {A} : list A -> list A -> Prop :=
| sel_nil : selection [] []
| sel_keep x l m : selection l m -> selection (x :: l) (x :: m)
| sel_drop x l m : selection l m -> selection l (x :: m).
Definition tips (xs : list (option X)) : list X := flat_map (fun o => match o with Some x => [x] | None => [] end) xs.
(** [x] was made for the state [s] *)
Definition made_for (x : X) (s : state) : Prop := x = whole s \/ exists a t, x = part a s t /\ is_finite t = true /\ (0 <= fR t < 1)%R.
End Spec.
