(** Vocabulary of the Stroke properties. *)
From Coq Require Import ZArith Reals List Bool.
From Flocq Require Import IEEE754.BinarySingleNaN.
From Verif Require Import F32 BrushModel BrushSpec BatchModel StrokeModel.
Import ListNotations.

Section S.
Variables Tip Tex IM Col Mesh Group : Type.
Variable tips_eqb : list Tip -> list Tip -> bool.
Variable has_particles : list Tip -> bool.
Variable build : IM -> list Tip -> bool -> f32 -> f32 -> list stroke_input -> Mesh.
Variable from_groups : list Mesh -> option (list Group).
Variable empty_group : Group.
Notation stroke := (stroke Tip Tex IM Col Group).
Notation coat := (coat Tip Tex).
Notation family := (family Tip Tex IM).
Notation brush := (BrushModel.brush family Col).
Notation step := (stroke_step Tip Tex IM Col Mesh Group tips_eqb has_particles build from_groups empty_group).
Notation run := (stroke_run Tip Tex IM Col Mesh Group tips_eqb has_particles build from_groups empty_group).
Notation fresh := (stroke_of_inputs Tip Tex IM Col Mesh Group has_particles build from_groups empty_group).
Notation regen := (regenerate Tip Tex IM Col Mesh Group has_particles build from_groups empty_group).
Notation tips_equal := (coat_tips_equal Tip Tex tips_eqb).
Notation winding := (winding_particles Tip Tex has_particles).
Arguments s_brush {Tip Tex IM Col Group}. Arguments s_inputs {Tip Tex IM Col Group}.
Arguments s_shape {Tip Tex IM Col Group}.
Arguments coats {Tip Tex IM}. Arguments input_model {Tip Tex IM}. Arguments tips {Tip Tex}.

Definition legal_brush (b : brush) : Prop := legal_sizes (b_size b) (b_epsilon b).

(** The parts of a family which SetBrush/SetBrushFamily ignore but geometry uses *)
Definition same_hidden (f g : family) : Prop :=
  input_model f = input_model g /\
  Forall2 (fun c d => winding c = winding d) (coats f) (coats g).

(** The shape is the one a new Stroke with the same brush and inputs would get. *)
Definition up_to_date (s : stroke) : Prop := s_shape s = s_shape (fresh (s_brush s) (s_inputs s)).

(** Calls after which the shape is current *)
Definition tracked (s : stroke) (o : stroke_op Tip Tex IM Col) : Prop :=
  match o with
  | SBrush _ _ _ _ b => legal_brush b /\
      (B2R (b_size b) <> B2R (b_size (s_brush s)) \/
       B2R (b_epsilon b) <> B2R (b_epsilon (s_brush s)) \/
       tips_equal (coats (b_family b)) (coats (b_family (s_brush s))) = false \/
       same_hidden (b_family b) (b_family (s_brush s)))
  | SFamily _ _ _ _ f =>
      tips_equal (coats f) (coats (b_family (s_brush s))) = false \/ same_hidden f (b_family (s_brush s))
  | SBrushAndInputs _ _ _ _ b _ => legal_brush b
  | _ => True
  end.
Fixpoint tracked_history (s : stroke) (os : list (stroke_op Tip Tex IM Col)) : Prop :=
  match os with
  | [] => True
  | o :: os' => tracked s o /\ tracked_history (snd (step s o)) os'
  end.

(** One render group per brush coat *)
Definition counted (s : stroke) : Prop := length (s_shape s) = length (get_coats _ _ _ _ (s_brush s)).
End S.
