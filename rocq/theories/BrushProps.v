(** Property theorems about Brush. *)
From Coq Require Import ZArith Reals List Bool Lra.
From Flocq Require Import IEEE754.BinarySingleNaN.
From Verif Require Import F32 F32Lemmas BrushModel BrushSpec BrushProofs.
Import ListNotations.

(** C14: every brush obtained from Create and any history of setters has finite size
    and epsilon with 0 < epsilon <= size. *)
Theorem C14_brush_invariant : forall (Fam Col : Type) (f : Fam) (c : Col) s e b os,
  brush_create f c s e = Some b ->
  legal_sizes (b_size (brush_run b os)) (b_epsilon (brush_run b os)).
Proof.
  intros Fam Col f c s e b os H.
  apply (brush_run_legal Fam Col). destruct (create_spec Fam Col f c s e) as [A B].
  unfold brush_create in H, B.
  assert (D : legal_sizes s e \/ ~ legal_sizes s e).
  { unfold legal_sizes. destruct (is_finite s), (is_finite e), (Rlt_dec 0 (B2R e)), (Rle_dec (B2R e) (B2R s));
      try (right; intros (?&?&?&?); congruence || tauto); left; tauto. }
  destruct D as [D|D].
  - fold (brush_create f c s e) in H. rewrite (A D) in H. injection H as <-. exact D.
  - rewrite (B D) in H. discriminate.
Qed.
Print Assumptions C14_brush_invariant.

(** C14: Create succeeds exactly on legal sizes and stores what it was given. *)
Theorem C14_create_exact : forall (Fam Col : Type) (f : Fam) (c : Col) s e,
  (legal_sizes s e -> brush_create f c s e = Some (Build_brush f c s e)) /\
  (~ legal_sizes s e -> brush_create f c s e = None).
Proof. exact create_spec. Qed.
Print Assumptions C14_create_exact.

(** C14: on a legal brush each setter succeeds exactly if the result is legal; it then
    changes only its own field, and otherwise changes nothing. *)
Theorem C14_setters_exact : forall (Fam Col : Type) (b : brush Fam Col) v,
  legal_sizes (b_size b) (b_epsilon b) ->
  ((legal_sizes v (b_epsilon b) /\
    brush_set_size b v = (true, Build_brush (b_family b) (b_color b) v (b_epsilon b))) \/
   (~ legal_sizes v (b_epsilon b) /\ brush_set_size b v = (false, b))) /\
  ((legal_sizes (b_size b) v /\
    brush_set_epsilon b v = (true, Build_brush (b_family b) (b_color b) (b_size b) v)) \/
   (~ legal_sizes (b_size b) v /\ brush_set_epsilon b v = (false, b))).
Proof. intros Fam Col b v L. split; [apply (set_size_spec Fam Col)|apply (set_epsilon_spec Fam Col)]; exact L. Qed.
Print Assumptions C14_setters_exact.

(** a brush with several updates, some of them refused *)
Example C14_example :
  match brush_create tt tt (fZ 10) f1 with
  | Some b =>
      let b' := brush_run b [OSize (fZ 3); OEpsilon (fZ 4); OSize finf; OSize fnan; OEpsilon (fZ 2)] in
      fbits_eqb (b_size b') (fZ 3) && fbits_eqb (b_epsilon b') (fZ 2)
  | None => false
  end = true.
Proof. vm_compute. reflexivity. Qed.
