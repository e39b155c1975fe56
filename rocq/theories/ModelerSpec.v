(** Specification vocabulary for the input modeler. *)
From Coq Require Import ZArith List Bool Arith.
From Flocq Require Import IEEE754.BinarySingleNaN.
From Verif Require Import F32 BatchModel DurationModel ModelerModel.
Import ListNotations.
Local Open Scope nat_scope.

Notation mcall := (list stroke_input * list stroke_input * duration)%type.
Definition real_of (c : mcall) : list stroke_input := fst (fst c).
Definition pred_of (c : mcall) : list stroke_input := snd (fst c).

(** All real inputs of some calls *)
Definition all_real (cs : list mcall) : list stroke_input := concat (map real_of cs).

(** The same modeled stroke (everything but the backend and the current time) *)
Definition same_modeled {M Pay} (s s' : modeler M Pay) : Prop :=
  inputs s = inputs s' /\ s_stable s = s_stable s' /\ s_real s = s_real s' /\
  s_tool s = s_tool s' /\ s_unit s = s_unit s' /\ last_real s = last_real s' /\
  (inputs s <> [] -> s_complete_distance s = s_complete_distance s') /\
  (s_real s <> 0 -> s_real_time s = s_real_time s' /\ s_real_distance s = s_real_distance s').

Section Spacing.
Variable hyp : f32 -> f32 -> f32.
Context {Pay : Type}.
Definition apart (a b : modeled Pay) : f32 := hyp (fsub (mx b) (mx a)) (fsub (my b) (my a)).

(** Neighbouring modeled inputs are not closer than [eps], and traveled distance starts
    at 0 and adds up the distances between neighbours. *)
Definition well_spaced (eps : f32) (l : list (modeled Pay)) : Prop :=
  (forall a, nth_error l 0 = Some a -> mtraveled a = f0) /\
  (forall k a b, nth_error l k = Some a -> nth_error l (S k) = Some b ->
     flt (apart a b) eps = false /\ mtraveled b = fadd (mtraveled a) (apart a b)).
End Spacing.

(** ** What the smoothing backend is told, and what is kept of its answers *)
(** The first input is a kDown, the last a kUp, all others kMove; a lone input is a kDown. *)
Fixpoint events (first : bool) (l : list stroke_input) : list (event * stroke_input) :=
  match l with
  | [] => []
  | x :: l' => (if first then EDown else match l' with [] => EUp | _ => EMove end, x) :: events false l'
  end.

Section Drive.
Variables M Pay : Type.
Variable bupdate : M -> event -> stroke_input -> option (M * list (result Pay)).
Variable hyp : f32 -> f32 -> f32.
Variable eps : f32.
(** all results of a sequence of events, in order *)
Fixpoint drive (m : M) (es : list (event * stroke_input)) : option (list (result Pay)) :=
  match es with
  | [] => Some []
  | (e, x) :: es' =>
      match bupdate m e x with
      | Some (m', rs) => match drive m' es' with Some rs' => Some (rs ++ rs') | None => None end
      | None => None
      end
  end.
(** results closer than [eps] to the last one kept are dropped *)
Fixpoint thin (kept : option (result Pay)) (rs : list (result Pay)) : list (result Pay) :=
  match rs with
  | [] => []
  | r :: rs' =>
      match kept with
      | Some k => if flt (hyp (fsub (r_x r) (r_x k)) (fsub (r_y r) (r_y k))) eps
                  then thin kept rs' else r :: thin (Some r) rs'
      | None => r :: thin (Some r) rs'
      end
  end.
Definition as_result (m : modeled Pay) : result Pay := Build_result (mx m) (my m) (mtime m) (mpay m).
End Drive.
