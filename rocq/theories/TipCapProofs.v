From Coq Require Import ZArith Reals Lra Lia Psatz Bool Arith List.
From Verif Require Import NumModel EasingExact GeomModel GeomSpec GeomReal GeomExact CircleModel CircleSpec TipShapeModel TipCapModel TipCapSpec.
Import ListNotations.

Local Open Scope nat_scope.
Ltac tup := apply pair_equal_spec; split; [apply pair_equal_spec; split; cbn; lia|first [reflexivity|f_equal; rewrite ?app_length; cbn; lia]].
Section Lists.
Context {N : num}.
Variable right : vec N -> bool.
Implicit Types (l new a b : list (vec N)).
Definition tally l : nat := length (filter right l).
Lemma tally_app a b : tally (a ++ b) = tally a + tally b.
Proof. unfold tally. rewrite filter_app, app_length. reflexivity. Qed.
Lemma tally_le l : tally l <= length l.
Proof. unfold tally. induction l as [|p l IH]; [apply le_n|]. cbn. destruct (right p); cbn; lia. Qed.
Lemma tally_none l : tally l = 0 <-> forall p, In p l -> right p = false.
Proof.
  unfold tally. induction l as [|p l IH]; [cbn; tauto|]. cbn. destruct (right p) eqn:R; cbn.
  - split; [discriminate|]. intros H. rewrite (H p) in R by auto. discriminate.
  - rewrite IH. split; [intros H q [<-|I]; auto|intros H q I; apply H; auto].
Qed.
Lemma tally_all l : tally l = length l <-> forall p, In p l -> right p = true.
Proof.
  induction l as [|p l IH]; [cbn; tauto|]. pose proof (tally_le l) as L. unfold tally in *. cbn. destruct (right p) eqn:R; cbn.
  - split; [intros H q [<-|I]; [exact R|apply IH; [lia|exact I]]|intros H; f_equal; apply IH; auto].
  - split; [lia|intros H; rewrite (H p) in R by auto; discriminate].
Qed.
(** after a prefix without right points, after one that ends in the first run of right points, after that *)
Lemma count_later l : forall i c s, fold_left (count_step right) l (i, c, Some s) = (i + length l, c + tally l, Some s).
Proof. unfold tally. induction l as [|p l IH]; intros i c s; cbn; [rewrite !Nat.add_0_r; reflexivity|]. destruct (right p); cbn; rewrite IH; tup. Qed.
Lemma count_run l : forall i c, (exists a b p, l = a ++ p :: b /\ right p = false /\ (forall q, In q a -> right q = true) /\ fold_left (count_step right) l (i, S c, None) = (i + length l, S c + tally l, Some (i + length a - 1))) \/
  ((forall q, In q l -> right q = true) /\ fold_left (count_step right) l (i, S c, None) = (i + length l, S c + tally l, None)).
Proof.
  induction l as [|p l IH]; intros i c; [right; split; [contradiction|]; cbn; rewrite !Nat.add_0_r; reflexivity|]. cbn [fold_left count_step]. destruct (right p) eqn:R.
  - destruct (IH (S i) (S c)) as [(a & b & q & -> & Q & H & E)|[H E]].
    + left. exists (p :: a), b, q. split; [reflexivity|]. split; [exact Q|]. split; [intros x [<-|I]; auto|]. rewrite E. unfold tally. cbn. rewrite R. cbn. tup.
    + right. split; [intros x [<-|I]; auto|]. rewrite E. unfold tally. cbn. rewrite R. cbn. tup.
  - left. exists [], l, p. split; [reflexivity|]. split; [exact R|]. split; [contradiction|]. rewrite count_later. unfold tally. cbn. rewrite R. tup.
Qed.
Lemma count_start l : forall i, (tally l = 0 /\ fold_left (count_step right) l (i, 0, None) = (i + length l, 0, None)) \/
  exists a p b, l = a ++ p :: b /\ tally a = 0 /\ right p = true /\ fold_left (count_step right) l (i, 0, None) = fold_left (count_step right) b (S (i + length a), 1, None).
Proof.
  unfold tally. induction l as [|p l IH]; intros i; [left; cbn; rewrite Nat.add_0_r; auto|]. cbn [fold_left count_step filter]. destruct (right p) eqn:R.
  - right. exists [], p, l. cbn. rewrite Nat.add_0_r. auto.
  - destruct (IH (S i)) as [[T E]|(a & q & b & -> & T & Q & E)].
    + left. split; [exact T|]. rewrite E. tup.
    + right. exists (p :: a), q, b. cbn [app filter]. rewrite R. split; [reflexivity|]. split; [exact T|]. split; [exact Q|]. rewrite E. f_equal. tup.
Qed.
Theorem right_run_spec new : (tally new = 0 /\ right_run right new = (0, None)) \/
  exists l r b, new = l ++ r ++ b /\ tally l = 0 /\ r <> [] /\ (forall p, In p r -> right p = true) /\ (b = [] \/ exists p b', b = p :: b' /\ right p = false) /\
    right_run right new = (tally new, Some (length (l ++ r) - 1)).
Proof.
  unfold right_run. destruct (count_start new 0) as [[T E]|(a & p & b & -> & T & Q & E)]; [left; rewrite E; auto|]. right. rewrite E.
  assert (Tn : tally (a ++ p :: b) = S (tally b)) by (rewrite tally_app, T; unfold tally; cbn; rewrite Q; reflexivity).
  destruct (count_run b (S (0 + length a)) 0) as [(c & d & q & -> & Q' & H & E')|[H E']]; rewrite E'.
  - exists a, (p :: c), (q :: d). split; [reflexivity|]. split; [exact T|]. split; [discriminate|]. split; [intros x [<-|I]; auto|]. split; [right; eauto|]. rewrite Tn. f_equal. f_equal. rewrite app_length. cbn. lia.
  - exists a, (p :: b), []. rewrite app_nil_r. split; [reflexivity|]. split; [exact T|]. split; [discriminate|]. split; [intros x [<-|I]; auto|]. split; [auto|]. rewrite Tn. cbn [Nat.add]. f_equal. f_equal. lia.
Qed.
Lemma move_back_spec k : forall l r, k <= length r -> move_back k l r = (l ++ firstn k (rev r), rev (skipn k (rev r))).
Proof.
  induction k as [|k IH]; intros l r H; [cbn; rewrite app_nil_r, rev_involutive; reflexivity|]. destruct (rev r) as [|p q] eqn:E.
  - apply (f_equal (@length _)) in E. rewrite rev_length in E. cbn in E. lia.
  - assert (r = rev q ++ [p]) as -> by (rewrite <- (rev_involutive r), E; reflexivity). cbn [move_back]. rewrite last_last, removelast_last. rewrite app_length in H. cbn in H.
    rewrite IH by lia. rewrite rev_involutive, <- app_assoc. reflexivity.
Qed.
Lemma rotated a b (d : vec N) : a <> [] -> map (fun i => nth (if Nat.leb i (length a - 1) then length a - 1 - i else length a - 1 + length (a ++ b) - i) (a ++ b) d) (seq 0 (length (a ++ b))) = rev (b ++ a).
Proof.
  intros Ne. assert (La : 0 < length a) by (destruct a; [congruence|cbn; lia]). apply (nth_ext _ _ d d).
  - rewrite map_length, seq_length, rev_length, !app_length. lia.
  - intros i Hi. rewrite map_length, seq_length in Hi. set (f := fun i => nth (if Nat.leb i (length a - 1) then length a - 1 - i else length a - 1 + length (a ++ b) - i) (a ++ b) d). rewrite nth_indep with (d' := f 0) by (rewrite map_length, seq_length; exact Hi).
    rewrite map_nth, seq_nth by exact Hi. cbn [Nat.add]. unfold f. clear f. rewrite rev_nth by (rewrite app_length in *; lia). rewrite !app_length in *. destruct (Nat.leb_spec i (length a - 1)).
    + rewrite app_nth1 by lia. rewrite app_nth2 by lia. f_equal. lia.
    + rewrite app_nth2 by lia. rewrite app_nth1 by lia. f_equal. lia.
Qed.
End Lists.

Section Split.
Context {N : num}.
Variables forward center : vec N.
Notation right := (is_right forward center).
Lemma split_parts (old new : list (vec N)) : skipn (length (old ++ new) - length new) (old ++ new) = new /\ firstn (length (old ++ new) - length new) (old ++ new) = old.
Proof. rewrite app_length. replace (length old + length new - length new) with (length old + 0) by lia. split; [rewrite Nat.add_0_r; rewrite skipn_app, skipn_all, Nat.sub_diag; reflexivity|rewrite firstn_app_2; cbn; apply app_nil_r]. Qed.
Theorem move_spec old new rights : exists a b,
  new = a ++ b /\ move_new_right_points forward center (length new) (old ++ new) rights = (old ++ firstn (length new - tally right new) (b ++ a), rights ++ rev (skipn (length new - tally right new) (b ++ a))) /\
  (b = [] \/ (exists p b', b = p :: b' /\ right p = false)) /\ (tally right new <> 0 -> exists l r, a = l ++ r /\ r <> [] /\ tally right l = 0 /\ forall p, In p r -> right p = true).
Proof.
  unfold move_new_right_points. destruct (split_parts old new) as [-> ->]. destruct (right_run_spec right new) as [[T ->]|(l & r & b & -> & T & Ne & Hr & Hb & ->)].
  - exists new, []. rewrite app_nil_r, T, Nat.sub_0_r. cbn [app]. rewrite firstn_all, skipn_all. cbn. rewrite app_nil_r. split; [reflexivity|]. split; [reflexivity|]. split; [auto|congruence].
  - exists (l ++ r), b. split; [rewrite app_assoc; reflexivity|]. split.
    + rewrite app_assoc. rewrite rotated by (destruct l; [exact Ne|discriminate]). set (k := length ((l ++ r) ++ b) - tally right ((l ++ r) ++ b)). assert (Hk : k <= length (b ++ l ++ r)) by (unfold k; rewrite !app_length; lia). clearbody k.
      rewrite move_back_spec by (rewrite app_length, rev_length; lia). rewrite rev_app_distr, rev_involutive, firstn_app, skipn_app. replace (k - length (b ++ l ++ r)) with 0 by lia. cbn [firstn skipn]. rewrite app_nil_r, rev_app_distr, rev_involutive. reflexivity.
    + split; [exact Hb|]. intros _. exists l, r. auto.
Qed.
End Split.

Lemma take_right_spec {N : num} (right : vec N -> bool) l : forall out, exists a b, l = a ++ b /\ take_right right l out = (b, out ++ a) /\ (forall p, In p a -> right p = true) /\ (b = [] \/ exists p b', b = p :: b' /\ right p = false).
Proof.
  induction l as [|p l IH]; intros out; [exists [], []; cbn; rewrite app_nil_r; repeat split; auto; contradiction|]. cbn [take_right]. destruct (right p) eqn:R.
  - destruct (IH (out ++ [p])) as (a & b & -> & -> & H & B). exists (p :: a), b. rewrite <- app_assoc. repeat split; auto. intros q [<-|I]; auto.
  - exists [], (p :: l). cbn. rewrite app_nil_r. split; [reflexivity|]. split; [reflexivity|]. split; [intros q []|]. right. eauto.
Qed.

(** ** Runs around the outline *)
Section Runs.
Context {A : Type}.
Variable side : A -> bool.
Implicit Types (l a b : list A).
Definition all_ (v : bool) l : Prop := forall p, In p l -> side p = v.
Lemma all_app v a b : all_ v (a ++ b) <-> all_ v a /\ all_ v b.
Proof. unfold all_. split; [intros H; split; intros p I; apply H, in_or_app; auto|]. intros [H K] p I. apply in_app_or in I. destruct I; auto. Qed.
Definition runs l : Prop := exists v x y z, l = x ++ y ++ z /\ all_ v x /\ all_ (negb v) y /\ all_ v z.
Lemma two_runs_runs l : two_runs side l <-> runs l.
Proof.
  split.
  - intros (a & b & (x & y & -> & E) & L & R). symmetry in E. apply app_eq_app in E. destruct E as (m & [[-> ->]|[-> ->]]).
    + exists true, x, a, m. assert (Q : all_ true (m ++ x)) by exact R. apply all_app in Q. repeat split; tauto.
    + exists false, m, b, y. assert (Q : all_ false (y ++ m)) by exact L. apply all_app in Q. rewrite <- app_assoc. repeat split; tauto.
  - intros ([|] & x & y & z & -> & X & Y & Z).
    + exists y, (z ++ x). split; [exists x, (y ++ z); split; [reflexivity|rewrite app_assoc; reflexivity]|]. split; [exact Y|]. apply (all_app true). auto.
    + exists (z ++ x), y. split; [exists (x ++ y), z; rewrite !app_assoc; auto|]. split; [apply (all_app false); auto|exact Y].
Qed.
Lemma runs_rotate a b : runs (a ++ b) -> runs (b ++ a).
Proof.
  intros (v & x & y & z & E & X & Y & Z). apply app_eq_app in E. destruct E as (m & [[-> E]|[-> ->]]).
  - apply app_eq_app in E. destruct E as (k & [[-> ->]|[-> ->]]).
    + apply all_app in Y. exists (negb v), k, (z ++ x), m. rewrite negb_involutive, !app_assoc. split; [reflexivity|]. rewrite all_app. tauto.
    + apply all_app in Z. exists v, (b ++ x), y, k. rewrite <- !app_assoc. split; [reflexivity|]. rewrite all_app. tauto.
  - apply all_app in X. exists v, m, y, (z ++ a). rewrite <- !app_assoc. split; [reflexivity|]. rewrite all_app. tauto.
Qed.
(** such an outline that begins on the one and ends on the other side *)
Lemma runs_ends p w q : runs (p :: w ++ [q]) -> side p = false -> side q = true -> exists a b, p :: w ++ [q] = a ++ b /\ all_ false a /\ all_ true b.
Proof.
  intros (v & x & y & z & E & X & Y & Z) Pp Pq. destruct v.
  - destruct x as [|p' x]; [exists y, z; auto|]. injection E. intros _ ->. rewrite (X p') in Pp by (left; reflexivity). discriminate.
  - destruct (rev z) as [|q' r] eqn:Rz.
    + exists x, y. apply (f_equal (@rev _)) in Rz. rewrite rev_involutive in Rz. cbn in Rz. subst z. rewrite app_nil_r in E. auto.
    + apply (f_equal (@rev _)) in Rz. rewrite rev_involutive in Rz. cbn in Rz. subst z. rewrite !app_assoc in E. change (p :: w ++ [q]) with ((p :: w) ++ [q]) in E. apply app_inj_tail in E. destruct E as [_ ->]. rewrite (Z q') in Pq by (apply in_or_app; right; left; reflexivity). discriminate.
Qed.
(** no two points of one side apart by two of the other *)
Lemma runs_alternation l : (forall l0 (a : A) l1 (b : A) l2 c l3 d l4, l = l0 ++ a :: l1 ++ b :: l2 ++ c :: l3 ++ d :: l4 -> side a = side c -> side b = side d -> side a = side b) -> runs l.
Proof.
  intros H.
  assert (P : forall v l, (all_ v l) \/ exists x y, l = x ++ y /\ all_ v x /\ exists p y', y = p :: y' /\ side p = negb v).
  { clear. intros v l. induction l as [|p l IH]; [left; intros ? []|]. destruct (Bool.bool_dec (side p) v) as [E|E].
    - destruct IH as [K|(x & y & -> & X & R)]; [left; intros q [<-|I]; auto|]. right. exists (p :: x), y. split; [reflexivity|]. split; [intros q [<-|I]; auto|exact R].
    - right. exists [], (p :: l). split; [reflexivity|]. split; [intros ? []|]. exists p, l. split; [reflexivity|]. destruct (side p), v; try reflexivity; elim E; reflexivity. }
  destruct l as [|p l]; [exists true, [], [], []; repeat split; intros ? []|].
  destruct (P (side p) (p :: l)) as [K|(x & y & E & X & q & y' & -> & Q)]; [exists (side p), (p :: l), [], []; rewrite !app_nil_r; repeat split; auto; intros ? []|].
  destruct x as [|p' x]; [injection E as -> _; destruct (side q); discriminate Q|]. injection E as <- ->.
  destruct (P (negb (side p)) (q :: y')) as [K|(y & z & E & Y & r & z' & -> & R)]; [exists (side p), (p :: x), (q :: y'), []; rewrite app_nil_r; repeat split; auto; intros ? []|].
  destruct y as [|q' y]; [injection E as -> _; rewrite R in Q; destruct (side p); discriminate Q|]. injection E as <- ->.
  rewrite negb_involutive in R. destruct (P (side p) (r :: z')) as [K|(z & t & E & Z & s & t' & -> & S)]; [exists (side p), (p :: x), (q :: y), (r :: z'); repeat split; auto|].
  destruct z as [|r' z]; [injection E as -> _; rewrite S in R; destruct (side p); discriminate R|]. injection E as <- ->.
  exfalso. assert (C : side p = side q). { apply (H [] p x q y r z s t'); [reflexivity|congruence|congruence]. } rewrite Q in C. destruct (side p); discriminate C.
Qed.
End Runs.

(** ** Convex outlines *)
Local Open Scope R_scope.
Lemma right_x f c p : is_right (N := N) (pv f) (pv c) (pv p) = true <-> to_the_right f c p.
Proof. unfold is_right. rewrite sub_x, det_x, x0, lt_x. reflexivity. Qed.
Lemma quadrilateral f o a b c d :
  cross (minus c b) (minus d b) * cross f (minus a o) - cross (minus c a) (minus d a) * cross f (minus b o) + cross (minus b a) (minus d a) * cross f (minus c o) - cross (minus b a) (minus c a) * cross f (minus d o) = 0.
Proof. unfold cross, minus. cbn. ring. Qed.
Theorem convex_runs f o l : clockwise l -> runs (is_right (N := N) (pv f) (pv o)) (map pv l).
Proof.
  intros C. apply runs_alternation. intros l0 a l1 b l2 c l3 d l4 E Sac Sbd.
  apply map_eq_app in E. destruct E as (k0 & k & -> & <- & E). apply map_eq_cons in E. destruct E as (a' & k' & -> & <- & E). apply map_eq_app in E. destruct E as (k1 & k'' & -> & <- & E). apply map_eq_cons in E. destruct E as (b' & k2' & -> & <- & E).
  apply map_eq_app in E. destruct E as (k2 & k3' & -> & <- & E). apply map_eq_cons in E. destruct E as (c' & k3'' & -> & <- & E). apply map_eq_app in E. destruct E as (k3 & k4' & -> & <- & E). apply map_eq_cons in E. destruct E as (d' & k4 & -> & <- & _).
  assert (S1 : cross (minus c' b') (minus d' b') < 0). { apply (C (k0 ++ a' :: k1) b' k2 c' k3 d' k4). rewrite <- !app_assoc. reflexivity. }
  assert (S2 : cross (minus c' a') (minus d' a') < 0). { apply (C k0 a' (k1 ++ b' :: k2) c' k3 d' k4). rewrite <- !app_assoc. reflexivity. }
  assert (S3 : cross (minus b' a') (minus d' a') < 0). { apply (C k0 a' k1 b' (k2 ++ c' :: k3) d' k4). rewrite <- !app_assoc. reflexivity. }
  assert (S4 : cross (minus b' a') (minus c' a') < 0). { apply (C k0 a' k1 b' k2 c' (k3 ++ d' :: k4)). reflexivity. }
  pose proof (quadrilateral f o a' b' c' d') as Q. assert (X : forall p, is_right (N := N) (pv f) (pv o) (pv p) = false <-> 0 <= cross f (minus p o)).
  { intros p. rewrite <- Bool.not_true_iff_false, right_x. unfold to_the_right. split; intros; lra. }
  destruct (is_right (pv f) (pv o) (pv a')) eqn:Fa, (is_right (pv f) (pv o) (pv b')) eqn:Fb; try reflexivity; symmetry in Sac, Sbd; exfalso.
  - apply right_x in Fa, Sac. apply X in Fb, Sbd. unfold to_the_right in *. nra.
  - apply right_x in Fb, Sbd. apply X in Fa, Sac. unfold to_the_right in *. nra.
Qed.
