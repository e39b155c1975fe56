(** What a legal brush size and epsilon are, over the real values. *)
From Coq Require Import Reals.
From Flocq Require Import IEEE754.BinarySingleNaN.
From Verif Require Import F32.
Open Scope R_scope.
Definition legal_sizes (size epsilon : f32) : Prop :=
  is_finite size = true /\ is_finite epsilon = true /\ 0 < B2R epsilon /\ B2R epsilon <= B2R size.
