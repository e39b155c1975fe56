(** Bounds of the attributes of partitions, and of all partitions together *)
From Coq Require Import ZArith Bool Reals Lra Lia List.
From Flocq Require Import Core IEEE754.BinarySingleNaN.
From Verif Require Import F32 F32Lemmas MeshFormatModel PackModel MutableMeshModel MeshModel MeshProofs MeshSpec.
Import ListNotations.
Local Open Scope nat_scope.

Lemma smin_two (a b : f32) : is_finite a = true -> is_finite b = true -> is_finite (smin a b) = true /\ (B2R (smin a b) <= B2R a)%R /\ (B2R (smin a b) <= B2R b)%R /\ (smin a b = a \/ smin a b = b).
Proof.
  intros A B. unfold smin. destruct (flt b a) eqn:E; [apply flt_spec in E|apply flt_false in E]; try (apply finite_not_nan; assumption); rewrite !fX_finite in E by assumption; repeat split; try assumption; try lra; auto.
Qed.
Lemma smax_two (a b : f32) : is_finite a = true -> is_finite b = true -> is_finite (smax a b) = true /\ (B2R a <= B2R (smax a b))%R /\ (B2R b <= B2R (smax a b))%R /\ (smax a b = a \/ smax a b = b).
Proof.
  intros A B. unfold smax. destruct (flt a b) eqn:E; [apply flt_spec in E|apply flt_false in E]; try (apply finite_not_nan; assumption); rewrite !fX_finite in E by assumption; repeat split; try assumption; try lra; auto.
Qed.
Lemma smin_inf (x : f32) : is_finite x = true -> smin x finf = x.
Proof. intros F. unfold smin. assert (flt finf x = false) as -> by (destruct x as [?|?| |[] ? ? ?]; try discriminate; reflexivity). reflexivity. Qed.
Lemma smax_inf (x : f32) : is_finite x = true -> smax x (fopp finf) = x.
Proof. intros F. unfold smax. assert (flt x (fopp finf) = false) as -> by (destruct x as [?|?| |[] ? ? ?]; try discriminate; reflexivity). reflexivity. Qed.
Lemma least_in l l' x : (forall y, In y l <-> In y l') -> least l x -> least l' x.
Proof. intros H [A B]. split; [apply H, A|]. intros y I. apply B, H, I. Qed.
Lemma greatest_in l l' x : (forall y, In y l <-> In y l') -> greatest l x -> greatest l' x.
Proof. intros H [A B]. split; [apply H, A|]. intros y I. apply B, H, I. Qed.
Lemma least_two l l' x y : (forall v, In v (l ++ l') -> is_finite v = true) -> least l x -> least l' y -> least (l ++ l') (smin x y).
Proof.
  intros F [A B] [C D]. destruct (smin_two x y) as (_ & L1 & L2 & E); [apply F, in_or_app; auto..|]. split; [apply in_or_app; destruct E as [-> | ->]; auto|]. intros z I. apply in_app_or in I. destruct I as [I|I]; [specialize (B z I)|specialize (D z I)]; lra.
Qed.
Lemma greatest_two l l' x y : (forall v, In v (l ++ l') -> is_finite v = true) -> greatest l x -> greatest l' y -> greatest (l ++ l') (smax x y).
Proof.
  intros F [A B] [C D]. destruct (smax_two x y) as (_ & L1 & L2 & E); [apply F, in_or_app; auto..|]. split; [apply in_or_app; destruct E as [-> | ->]; auto|]. intros z I. apply in_app_or in I. destruct I as [I|I]; [specialize (B z I)|specialize (D z I)]; lra.
Qed.
Lemma least_fold l : forall m, (forall v, In v (m :: l) -> is_finite v = true) -> least (m :: l) (fold_left (fun m x => smin x m) l m).
Proof.
  induction l as [|x l IH]; intros m F; cbn [fold_left]; [split; [left; reflexivity|intros y [<- |[]]; lra]|].
  destruct (smin_two x m) as (Fs & L1 & L2 & E); [apply F; cbn; auto..|]. destruct (IH (smin x m)) as [A B]; [intros v [<- |I]; [exact Fs|apply F; cbn; auto]|]. split.
  - destruct A as [A|A]; [rewrite <- A; destruct E as [-> | ->]; cbn; auto|cbn; auto].
  - pose proof (B _ (or_introl eq_refl)) as B0. intros y [<- |[<- |I]]; [lra|lra|apply B; right; exact I].
Qed.
Lemma greatest_fold l : forall m, (forall v, In v (m :: l) -> is_finite v = true) -> greatest (m :: l) (fold_left (fun m x => smax x m) l m).
Proof.
  induction l as [|x l IH]; intros m F; cbn [fold_left]; [split; [left; reflexivity|intros y [<- |[]]; lra]|].
  destruct (smax_two x m) as (Fs & L1 & L2 & E); [apply F; cbn; auto..|]. destruct (IH (smax x m)) as [A B]; [intros v [<- |I]; [exact Fs|apply F; cbn; auto]|]. split.
  - destruct A as [A|A]; [rewrite <- A; destruct E as [-> | ->]; cbn; auto|cbn; auto].
  - pose proof (B _ (or_introl eq_refl)) as B0. intros y [<- |[<- |I]]; [lra|lra|apply B; right; exact I].
Qed.

(** ** Componentwise *)
Lemma zip2_length {A B C} (g : A -> B -> C) a b : length a = length b -> length (zip2 g a b) = length a.
Proof. intros H. unfold zip2. rewrite map_length, combine_length, H. lia. Qed.
Lemma zip2_nth {A B C} (g : A -> B -> C) (da : A) (db : B) (dc : C) : forall a b k, length a = length b -> k < length a -> nth k (zip2 g a b) dc = g (nth k a da) (nth k b db).
Proof. unfold zip2. induction a as [|x a IH]; intros [|y b] [|k] L K; cbn in *; try lia; [reflexivity|]. apply IH; lia. Qed.
Lemma nth_repeat' {A} (x d : A) n k : k < n -> nth k (repeat x n) d = x.
Proof. revert k. induction n as [|n IH]; intros [|k] H; try lia; cbn; [reflexivity|]. apply IH. lia. Qed.
Section Fold.
Variables (g : Z -> list f32) (n : nat).
Definition grow (b : bounds) (v : Z) : bounds := (zip2 smin (g v) (fst b), zip2 smax (g v) (snd b)).
Lemma fold_nth vis : forall b, (forall v, In v vis -> length (g v) = n) -> length (fst b) = n -> length (snd b) = n ->
  let r := fold_left grow vis b in length (fst r) = n /\ length (snd r) = n /\
  forall c, c < n -> nth c (fst r) f0 = fold_left (fun m x => smin x m) (map (fun v => nth c (g v) f0) vis) (nth c (fst b) f0) /\
                     nth c (snd r) f0 = fold_left (fun m x => smax x m) (map (fun v => nth c (g v) f0) vis) (nth c (snd b) f0).
Proof.
  induction vis as [|v vis IH]; intros b L L1 L2; cbn [fold_left map]; [auto|]. assert (LV : length (g v) = n) by (apply L; left; reflexivity).
  destruct (IH (grow b v)) as (A & B & C); [intros w W; apply L; right; exact W|cbn [grow fst]; rewrite zip2_length; congruence|cbn [grow snd]; rewrite zip2_length; congruence|].
  split; [exact A|]. split; [exact B|]. intros c K. destruct (C c K) as [-> ->]. cbn [grow fst snd]. rewrite !(zip2_nth _ f0 f0 f0) by congruence. split; reflexivity.
Qed.
Lemma fold_bounds vis : vis <> [] -> (forall v, In v vis -> length (g v) = n) -> (forall v x, In v vis -> In x (g v) -> is_finite x = true) ->
  let r := fold_left grow vis (repeat finf n, repeat (fopp finf) n) in length (fst r) = n /\ length (snd r) = n /\
  forall c, c < n -> least (map (fun v => nth c (g v) f0) vis) (nth c (fst r) f0) /\ greatest (map (fun v => nth c (g v) f0) vis) (nth c (snd r) f0).
Proof.
  intros NE L F r. destruct (fold_nth vis (repeat finf n, repeat (fopp finf) n) L) as (A & B & C); [apply repeat_length..|]. fold r in A, B, C. split; [exact A|]. split; [exact B|].
  intros c K. destruct (C c K) as [-> ->]. cbn [fst snd]. rewrite !nth_repeat' by exact K. destruct vis as [|v vis]; [contradiction|]. cbn [map fold_left].
  assert (FF : forall x, In x (nth c (g v) f0 :: map (fun v => nth c (g v) f0) vis) -> is_finite x = true).
  { intros x [<- |I]; [apply (F v); [left; reflexivity|apply nth_In; rewrite L by (left; reflexivity); exact K]|]. apply in_map_iff in I. destruct I as (w & <- & W). apply (F w); [right; exact W|apply nth_In; rewrite L by (right; exact W); exact K]. }
  rewrite smin_inf, smax_inf by (apply FF; left; reflexivity). split; [apply least_fold, FF|apply greatest_fold, FF].
Qed.
End Fold.

(** ** All partitions *)
(** [vals k c] of each part, the bounds [bs] of each part *)
Section Total.
Variables (ts : list atype).
Definition bounds_of (vals : nat -> nat -> list f32) (b : list bounds) : Prop := length b = length ts /\
  forall k t, nth_error ts k = Some t -> let x := nth k b ([], []) in length (fst x) = component_count t /\ length (snd x) = component_count t /\
    forall c, c < component_count t -> least (vals k c) (nth c (fst x) f0) /\ greatest (vals k c) (nth c (snd x) f0).
Definition finite_vals (vals : nat -> nat -> list f32) : Prop := forall k t c v, nth_error ts k = Some t -> c < component_count t -> In v (vals k c) -> is_finite v = true.
Lemma join_two v v' b b' : finite_vals v -> finite_vals v' -> bounds_of v b -> bounds_of v' b' -> bounds_of (fun k c => v k c ++ v' k c) (zip2 join_bounds b b').
Proof.
  intros F F' [L B] [L' B']. split; [rewrite zip2_length; congruence|]. intros k t T. assert (K : k < length b) by (rewrite L; apply nth_error_Some; congruence).
  rewrite (zip2_nth join_bounds ([], []) ([], []) ([], []) b b' k) by (try congruence; exact K). specialize (B k t T). specialize (B' k t T). cbv zeta in *. destruct B as (L1 & L2 & B), B' as (L1' & L2' & B'). unfold join_bounds. cbn [fst snd].
  rewrite !zip2_length by congruence. split; [exact L1|]. split; [exact L2|]. intros c C. rewrite !(zip2_nth _ f0 f0 f0) by congruence. destruct (B c C) as [B1 B2], (B' c C) as [B1' B2'].
  assert (FF : forall x, In x (v k c ++ v' k c) -> is_finite x = true) by (intros x I; apply in_app_or in I; destruct I as [I|I]; [apply (F k t c x T C I)|apply (F' k t c x T C I)]).
  split; [apply least_two|apply greatest_two]; assumption.
Qed.
Lemma total_ok {A} (vals : A -> nat -> nat -> list f32) (bd : A -> list bounds) : forall ps, ps <> [] -> (forall p, In p ps -> finite_vals (vals p) /\ bounds_of (vals p) (bd p)) ->
  bounds_of (fun k c => flat_map (fun p => vals p k c) ps) (total_bounds (map bd ps)).
Proof.
  intros [|p ps] NE H; [contradiction|]. clear NE. cbn [map total_bounds flat_map]. destruct (H p (or_introl eq_refl)) as [F0 B0]. assert (H' : forall q, In q ps -> finite_vals (vals q) /\ bounds_of (vals q) (bd q)) by (intros q I; apply H; right; exact I). clear H.
  assert (G : forall ps v b, (forall q, In q ps -> finite_vals (vals q) /\ bounds_of (vals q) (bd q)) -> finite_vals v -> bounds_of v b -> bounds_of (fun k c => v k c ++ flat_map (fun p => vals p k c) ps) (fold_left (fun cur add => zip2 join_bounds cur add) (map bd ps) b)).
  { clear. induction ps as [|q ps IH]; intros v b H F B; cbn [map fold_left flat_map].
    - destruct B as [L B]. split; [exact L|]. intros k t T. specialize (B k t T). cbv zeta in *. destruct B as (L1 & L2 & B). split; [exact L1|]. split; [exact L2|]. intros c C. rewrite app_nil_r. apply B, C.
    - destruct (H q (or_introl eq_refl)) as [Fq Bq]. assert (F' : finite_vals (fun k c => v k c ++ vals q k c)) by (intros k t c x T C I; apply in_app_or in I; destruct I as [I|I]; [apply (F k t c x T C I)|apply (Fq k t c x T C I)]).
      specialize (IH (fun k c => v k c ++ vals q k c) (zip2 join_bounds b (bd q)) (fun r I => H r (or_intror I)) F' (join_two _ _ _ _ F Fq B Bq)). destruct IH as [L B']. split; [exact L|]. intros k t T. specialize (B' k t T). cbv zeta in *. destruct B' as (L1 & L2 & B'). split; [exact L1|]. split; [exact L2|]. intros c C. rewrite app_assoc. apply B', C. }
  apply G; assumption.
Qed.
Lemma bounds_in v v' b : (forall k c x, In x (v k c) <-> In x (v' k c)) -> bounds_of v b -> bounds_of v' b.
Proof.
  intros H [L B]. split; [exact L|]. intros k t T. specialize (B k t T). cbv zeta in *. destruct B as (L1 & L2 & B). split; [exact L1|]. split; [exact L2|]. intros c C. destruct (B c C) as [B1 B2]. split; [eapply least_in, B1|eapply greatest_in, B2]; intros y; apply H.
Qed.
(** in the form of MeshCoding *)
Lemma bounds_of_BB v b : bounds_of v b -> forall k t x, nth_error ts k = Some t -> nth_error b k = Some x ->
  length (fst x) = component_count t /\ length (snd x) = component_count t /\ forall c lo hi, nth_error (fst x) c = Some lo -> nth_error (snd x) c = Some hi -> least (v k c) lo /\ greatest (v k c) hi.
Proof.
  intros [L B] k t x T X. specialize (B k t T). cbv zeta in B. rewrite (nth_error_nth _ _ _ X) in B. destruct B as (L1 & L2 & B). split; [exact L1|]. split; [exact L2|]. intros c lo hi E1 E2. assert (C : c < component_count t) by (rewrite <- L1; apply nth_error_Some; congruence).
  destruct (B c C) as [B1 B2]. rewrite (nth_error_nth _ _ _ E1) in B1. rewrite (nth_error_nth _ _ _ E2) in B2. auto.
Qed.
End Total.
