(** Facts about NaN shared by the two readings of [num]. *)
From Coq Require Import ZArith Reals Bool Lra.
From Flocq Require Import Core IEEE754.BinarySingleNaN.
From Verif Require Import F32 F32Lemmas NumModel.

Record laws (N : num) := {
  l_nan : nnan N (nNaN N) = true;
  l_fin : forall x, nfin N x = true -> nnan N x = false;
  l_add : forall x y, nnan N x = true \/ nnan N y = true -> nnan N (nadd N x y) = true;
  l_mul : forall x y, nnan N x = true \/ nnan N y = true -> nnan N (nmul N x y) = true;
  l_floor : forall x, nnan N x = true -> nnan N (nfloor N x) = true;
  l_lt_nan : forall x y, nnan N x = true -> nlt N x y = false;
  l_le_nan : forall x y, nnan N y = true -> nle N x y = false;
  l_lt_le : forall x y, nfin N x = true -> nfin N y = true -> nlt N x y = negb (nle N y x);
  l_fin0 : nfin N n0 = true;
  l_fin1 : nfin N n1 = true;
}.
Lemma l_nan_fin N (L : laws N) x : nnan N x = true -> nfin N x = false.
Proof. intros H. destruct (nfin N x) eqn:E; auto. apply (l_fin N L) in E. congruence. Qed.

Lemma flaws E : laws (fnum E).
Proof.
  constructor; cbn [fnum T nnan nNaN nfin nadd nmul nfloor nlt nle n0 n1 nZ ndy].
  - reflexivity.
  - intros [ | | |]; cbn; congruence.
  - intros x y [H|H]; [destruct x|destruct y]; try discriminate; try reflexivity. destruct x; reflexivity.
  - intros x y [H|H]; [destruct x|destruct y]; try discriminate; try reflexivity. destruct x; reflexivity.
  - intros [ | | |]; try discriminate; reflexivity.
  - intros [ | | |] y; try discriminate. reflexivity.
  - intros x [ | | |]; try discriminate. destruct x; reflexivity.
  - intros x y Hx Hy. apply finite_not_nan in Hx. apply finite_not_nan in Hy.
    destruct (fle y x) eqn:A; cbn.
    + apply fle_spec in A; auto. apply flt_false; auto.
    + apply fle_false in A; auto. apply flt_spec; auto.
  - reflexivity.
  - reflexivity.
Qed.

Lemma xlaws : laws xnum.
Proof.
  constructor; cbn [xnum T nnan nNaN nfin nadd nmul nfloor nlt nle n0 n1 nZ ndy].
  - reflexivity.
  - intros [ | |]; cbn; congruence.
  - intros x y [H|H]; [destruct x|destruct y]; try discriminate; try reflexivity. destruct x; reflexivity.
  - intros x y [H|H]; [destruct x|destruct y]; try discriminate; try reflexivity. destruct x; reflexivity.
  - intros [ | |]; try discriminate; reflexivity.
  - intros [ | |] y; try discriminate. reflexivity.
  - intros x [ | |]; try discriminate. unfold xle. destruct x as [ |[]|]; reflexivity.
  - intros [x| |] [y| |]; try discriminate. intros _ _. unfold xle, xlt, xeq.
    destruct (Rlt_bool_spec x y), (Rlt_bool_spec y x), (Req_bool_spec y x); cbn; try reflexivity; exfalso; lra.
  - reflexivity.
  - reflexivity.
Qed.
