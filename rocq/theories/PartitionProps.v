(** C31: PartitionTriangles keeps every triangle. *)
From Coq Require Import ZArith Bool Lia List.
From Verif Require Import PartitionModel.
Import ListNotations.
Local Open Scope Z_scope.

(** ** Specification *)
(** The mesh indices that a partition's triangle stands for *)
Definition at_index (l : list Z) (i : Z) : option Z := if i <? 0 then None else nth_error l (Z.to_nat i).
Definition original (vs : list Z) (t : tri) : option tri :=
  let '(i, j, k) := t in
  match at_index vs i, at_index vs j, at_index vs k with Some a, Some b, Some c => Some (a, b, c) | _, _, _ => None end.
Definition originals (p : part) : list (option tri) := map (original (vertex_indices p)) (triangles p).
Definition used_by (ts : list tri) (v : Z) : Prop := exists t, In t ts /\ In v (corners t).
Definition good_part (max : Z) (p : part) : Prop :=
  NoDup (vertex_indices p) /\ size (vertex_indices p) <= max /\
  (forall i, 0 <= i < size (vertex_indices p) -> used_by (triangles p) i).

(** ** The map mirrors the vertex list *)
Definition mirrors (vs : list Z) (m : index_map) : Prop := NoDup vs /\ forall k i, lookup k m = Some i <-> at_index vs i = Some k.
Lemma at_index_some l i v : at_index l i = Some v <-> (0 <= i < size l /\ nth_error l (Z.to_nat i) = Some v).
Proof.
  unfold at_index, size. destruct (Z.ltb_spec i 0); [split; [discriminate|lia]|]. split; [|tauto]. intros H1. split; [|exact H1].
  assert (Z.to_nat i < length l)%nat by (apply nth_error_Some; congruence). lia.
Qed.
Lemma at_index_app l l' i v : at_index l i = Some v -> at_index (l ++ l') i = Some v.
Proof. rewrite !at_index_some. intros [B H]. unfold size in *. rewrite app_length. split; [lia|]. rewrite nth_error_app1 by lia. exact H. Qed.
Lemma at_index_last l v : at_index (l ++ [v]) (size l) = Some v.
Proof. apply at_index_some. unfold size. rewrite app_length. cbn. split; [lia|]. rewrite Nat2Z.id, nth_error_app2, Nat.sub_diag by lia. reflexivity. Qed.
Lemma at_index_in l i v : at_index l i = Some v -> In v l.
Proof. rewrite at_index_some. intros [_ H]. eapply nth_error_In, H. Qed.
Lemma lookup_cons k a i m : lookup k ((a, i) :: m) = if Z.eqb a k then Some i else lookup k m.
Proof. unfold lookup. cbn. destruct (Z.eqb a k); reflexivity. Qed.
Lemma in_at_index l v : In v l -> exists i, at_index l i = Some v.
Proof. intros H. apply In_nth_error in H. destruct H as [n H]. exists (Z.of_nat n). apply at_index_some. unfold size. rewrite Nat2Z.id. split; [|exact H]. assert (n < length l)%nat by (apply nth_error_Some; congruence). lia. Qed.
Lemma NoDup_snoc (l : list Z) v : NoDup l -> ~ In v l -> NoDup (l ++ [v]).
Proof. intros N I. apply NoDup_rev in N. rewrite <- (rev_involutive (l ++ [v])), rev_app_distr. apply NoDup_rev. cbn. constructor; [rewrite <- in_rev; exact I|exact N]. Qed.
Lemma place_ok k vs m vs' m' i : mirrors vs m -> place k vs m = (vs', m', i) ->
  mirrors vs' m' /\ at_index vs' i = Some k /\
  (exists d, vs' = vs ++ d /\ (d = [] \/ (d = [k] /\ i = size vs))) /\ (contains k m = true -> vs' = vs) /\ (contains k m = false -> vs' = vs ++ [k]) /\
  (forall a, contains a m' = contains a m || Z.eqb k a).
Proof.
  intros [N M] H. unfold place in H. destruct (lookup k m) as [j|] eqn:L.
  - injection H as <- <- <-. split; [split; assumption|]. split; [apply M, L|]. split; [exists []; rewrite app_nil_r; auto|]. split; [reflexivity|]. split; [unfold contains; rewrite L; discriminate|].
    intros a. destruct (Z.eqb_spec k a) as [<- |]; [unfold contains; rewrite L; reflexivity|rewrite orb_false_r; reflexivity].
  - injection H as <- <- <-. assert (NI : ~ In k vs) by (intros I; apply in_at_index in I; destruct I as [i I]; apply M in I; congruence).
    split; [|split; [apply at_index_last|split; [exists [k]; auto|split; [unfold contains; rewrite L; discriminate|split; [reflexivity|]]]]].
    + split; [apply NoDup_snoc; assumption|]. intros a i. rewrite lookup_cons. destruct (Z.eqb_spec k a) as [<- |E].
      * split; [intros H; injection H as <-; apply at_index_last|]. intros H. f_equal. apply at_index_some in H. destruct H as [B H]. unfold size in *. rewrite app_length in B. cbn in B.
        destruct (Z.eq_dec i (Z.of_nat (length vs))) as [->|D]; [reflexivity|]. rewrite nth_error_app1 in H by lia. apply nth_error_In in H. contradiction.
      * rewrite M. split; [apply at_index_app|]. intros H. apply at_index_some in H. destruct H as [B H]. unfold size in *. rewrite app_length in B. cbn in B. apply at_index_some. unfold size.
        destruct (Z.eq_dec i (Z.of_nat (length vs))) as [->|D]; [rewrite Nat2Z.id, nth_error_app2, Nat.sub_diag in H by lia; cbn in H; congruence|]. rewrite nth_error_app1 in H by lia. split; [lia|exact H].
    + intros a. unfold contains. rewrite lookup_cons. destruct (Z.eqb_spec k a); [rewrite orb_true_r; reflexivity|rewrite orb_false_r; reflexivity].
Qed.
Lemma original_grow vs d t x : original vs t = Some x -> original (vs ++ d) t = Some x.
Proof.
  destruct t as [[i j] k]. unfold original. destruct (at_index vs i) as [a|] eqn:A; [|discriminate]. destruct (at_index vs j) as [b|] eqn:B; [|discriminate]. destruct (at_index vs k) as [c|] eqn:C; [|discriminate].
  rewrite (at_index_app _ d _ _ A), (at_index_app _ d _ _ B), (at_index_app _ d _ _ C). trivial.
Qed.
Definition all_found (p : part) : Prop := forall t, In t (triangles p) -> original (vertex_indices p) t <> None.
Lemma add_ok t p m p' m' : mirrors (vertex_indices p) m -> all_found p -> add_triangle t p m = (p', m') ->
  mirrors (vertex_indices p') m' /\ all_found p' /\ originals p' = originals p ++ [Some t] /\
  size (vertex_indices p') <= size (vertex_indices p) + count_new t m /\
  ((forall i, 0 <= i < size (vertex_indices p) -> used_by (triangles p) i) -> forall i, 0 <= i < size (vertex_indices p') -> used_by (triangles p') i) /\
  (forall v, In v (vertex_indices p') <-> In v (vertex_indices p) \/ In v (corners t)) /\
  (exists x, triangles p' = triangles p ++ [x]).
Proof.
  intros M F H. destruct t as [[a b] c]. unfold add_triangle in H. destruct (place a (vertex_indices p) m) as [[vs1 m1] i] eqn:P1. destruct (place b vs1 m1) as [[vs2 m2] j] eqn:P2. destruct (place c vs2 m2) as [[vs3 m3] k] eqn:P3. injection H as <- <-. cbn [vertex_indices triangles].
  destruct (place_ok _ _ _ _ _ _ M P1) as (M1 & A1 & (d1 & D1 & E1) & T1 & F1 & C1). destruct (place_ok _ _ _ _ _ _ M1 P2) as (M2 & A2 & (d2 & D2 & E2) & T2 & F2 & C2). destruct (place_ok _ _ _ _ _ _ M2 P3) as (M3 & A3 & (d3 & D3 & E3) & T3 & F3 & C3).
  assert (V : vs3 = vertex_indices p ++ (d1 ++ d2 ++ d3)) by (rewrite D3, D2, D1, !app_assoc; reflexivity).
  assert (O : original vs3 (i, j, k) = Some (a, b, c)). { unfold original. rewrite A3, D3, (at_index_app _ d3 _ _ A2), D2, <- app_assoc, (at_index_app _ (d2 ++ d3) _ _ A1). reflexivity. }
  split; [exact M3|]. split; [intros t I; apply in_app_or in I; destruct I as [I|[<- |[]]]; [|cbn [vertex_indices]; congruence]|].
  { pose proof (F t I) as N. destruct (original (vertex_indices p) t) as [x|] eqn:X; [|contradiction]. cbn [vertex_indices]. rewrite V, (original_grow _ _ _ _ X). discriminate. }
  split; [unfold originals; cbn [vertex_indices triangles]; rewrite map_app; cbn [map]; rewrite O; f_equal; apply map_ext_in; intros t I|].
  { pose proof (F t I) as N. destruct (original (vertex_indices p) t) as [x|] eqn:X; [|contradiction]. rewrite V. apply original_grow, X. }
  split.
  { unfold count_new. cbn [corners filter]. unfold size. rewrite V, !app_length. pose proof (C1 b) as Cb. pose proof (C1 c) as Cc. pose proof (C2 c) as Cc2.
    assert (K1 : (length d1 <= if negb (contains a m) then 1 else 0)%nat). { destruct (contains a m) eqn:X; cbn [negb]; [|destruct E1 as [->|[-> _]]; cbn; lia]. specialize (T1 eq_refl). rewrite D1 in T1. apply (f_equal (@length Z)) in T1. rewrite app_length in T1. lia. }
    assert (K2 : (length d2 <= if negb (contains b m) then 1 else 0)%nat). { destruct (contains b m) eqn:X; cbn [negb]; [|destruct E2 as [->|[-> _]]; cbn; lia]. rewrite Cb in T2. specialize (T2 eq_refl). rewrite D2 in T2. apply (f_equal (@length Z)) in T2. rewrite app_length in T2. lia. }
    assert (K3 : (length d3 <= if negb (contains c m) then 1 else 0)%nat). { destruct (contains c m) eqn:X; cbn [negb]; [|destruct E3 as [->|[-> _]]; cbn; lia]. rewrite Cc2, Cc in T3. specialize (T3 eq_refl). rewrite D3 in T3. apply (f_equal (@length Z)) in T3. rewrite app_length in T3. lia. }
    destruct (negb (contains a m)), (negb (contains b m)), (negb (contains c m)); cbn [length]; lia. }
  split.
  { intros U q Q. destruct (Z_lt_le_dec q (size (vertex_indices p))) as [L|L]; [destruct (U q) as (t & I & J); [lia|]; exists t; split; [apply in_or_app; left; exact I|exact J]|].
    exists (i, j, k). split; [apply in_or_app; right; left; reflexivity|]. cbn [corners In]. unfold size in *. rewrite V, !app_length in Q. rewrite D2, D1, !app_length in E3. rewrite D1, app_length in E2.
    destruct E1 as [->|[-> E1]], E2 as [->|[-> E2]], E3 as [->|[-> E3]]; cbn [length] in *; lia. }
  split; [|exists (i, j, k); reflexivity].
  intros v. cbn [corners In]. split.
  - intros I. rewrite V in I. apply in_app_or in I. destruct I as [I|I]; [left; exact I|]. right. destruct E1 as [->|[-> E1]], E2 as [->|[-> E2]], E3 as [->|[-> E3]]; cbn in I; tauto.
  - intros [I|[<- |[<- |[<- |[]]]]]; [rewrite V; apply in_or_app; left; exact I|apply at_index_in in A1; rewrite D3, D2; apply in_or_app; left; apply in_or_app; left; exact A1|apply at_index_in in A2; rewrite D3; apply in_or_app; left; exact A2|apply at_index_in in A3; exact A3].
Qed.
Lemma count_new_3 t m : count_new t m <= 3.
Proof. destruct t as [[a b] c]. unfold count_new. cbn [corners filter]. destruct (negb (contains a m)), (negb (contains b m)), (negb (contains c m)); cbn; lia. Qed.
Lemma no_part_ok : mirrors [] [] /\ all_found no_part.
Proof. split; [split; [constructor|intros k i; split; [discriminate|intros H; apply at_index_some in H; unfold size in H; cbn in H; lia]]|intros t []]. Qed.
Definition distinct_corners (t : tri) : Prop := NoDup (corners t).
(** More than [max] distinct vertices among the corners of [ts] *)
Definition overfull (max : Z) (ts : list tri) : Prop := exists l, NoDup l /\ (forall v, In v l -> used_by ts v) /\ max < size l.
Lemma overfull_more max ts ts' : overfull max ts -> overfull max (ts ++ ts').
Proof. intros (l & N & U & S). exists l. split; [exact N|]. split; [|exact S]. intros v I. destruct (U v I) as (t & A & B). exists t. split; [apply in_or_app; left; exact A|exact B]. Qed.
Lemma contains_in vs m v : mirrors vs m -> contains v m = true <-> In v vs.
Proof.
  intros [_ M]. unfold contains. split.
  - destruct (lookup v m) as [i|] eqn:L; [|discriminate]. intros _. apply M in L. eapply at_index_in, L.
  - intros I. apply in_at_index in I. destruct I as [i I]. apply M in I. rewrite I. reflexivity.
Qed.
Lemma split_overfull max t p m seen : mirrors (vertex_indices p) m -> distinct_corners t -> (forall v, In v (vertex_indices p) -> used_by seen v) ->
  needs_split max t p m = true -> overfull max (seen ++ [t]).
Proof.
  intros M D U H. apply andb_prop in H. destruct H as [_ H]. apply Z.ltb_lt in H. exists (vertex_indices p ++ filter (fun k => negb (contains k m)) (corners t)). split; [|split].
  - assert (G : forall l, NoDup l -> (forall v, In v l -> ~ In v (vertex_indices p)) -> NoDup (vertex_indices p ++ l)).
    { destruct M as [N _]. clear -N. induction (vertex_indices p) as [|x xs IH]; intros l L A; [exact L|]. inversion N; subst. cbn. constructor; [intros I; apply in_app_or in I; destruct I as [I|I]; [contradiction|apply (A x I); left; reflexivity]|apply IH; [assumption..|]; intros v I J; apply (A v I); right; exact J]. }
    apply G; [apply NoDup_filter, D|]. intros v I J. apply filter_In in I. destruct I as [_ I]. apply (contains_in _ m v M) in J. rewrite J in I. discriminate.
  - intros v I. apply in_app_or in I. destruct I as [I|I]; [destruct (U v I) as (x & A & B); exists x; split; [apply in_or_app; left; exact A|exact B]|]. apply filter_In in I. exists t. split; [apply in_or_app; right; left; reflexivity|apply I].
  - unfold size, count_new in *. rewrite app_length. lia.
Qed.
Definition inv (max : Z) (seen : list tri) (done : list part) (p : part) (m : index_map) : Prop :=
  mirrors (vertex_indices p) m /\ all_found p /\ Forall (fun q => good_part max q /\ triangles q <> []) done /\ good_part max p /\
  concat (map originals (done ++ [p])) = map Some seen /\ (seen = [] \/ triangles p <> []) /\ (forall v, In v (vertex_indices p) -> used_by seen v).
Lemma loop_ok max : 3 <= max < 2 ^ 64 -> forall ts seen done p m, inv max seen done p m ->
  exists done' p' m', partition_loop max ts done p m = done' ++ [p'] /\ inv max (seen ++ ts) done' p' m' /\
    (Forall distinct_corners ts -> (length done < length done')%nat -> overfull max (seen ++ ts)) /\ (length done <= length done')%nat.
Proof.
  intros MX. induction ts as [|t ts IH]; intros seen done p m (M & F & DN & GP & CC & NE & US).
  - exists done, p, m. rewrite app_nil_r. split; [reflexivity|]. split; [repeat (split; [assumption|]); assumption|]. split; [lia|lia].
  - cbn [partition_loop]. destruct (needs_split max t p m) eqn:SP.
    + destruct (add_triangle t no_part []) as [p' m'] eqn:A. destruct no_part_ok as [M0 F0]. destruct (add_ok t no_part [] p' m' M0 F0 A) as (M' & F' & O' & S' & U' & V' & (x & X')).
      assert (SZ : max - 3 < size (vertex_indices p)) by (apply andb_prop in SP; destruct SP as [SP _]; rewrite Z.mod_small in SP by lia; apply Z.ltb_lt in SP; exact SP).
      assert (TP : triangles p <> []). { intros TP. destruct GP as (_ & _ & U). unfold size in SZ. destruct (vertex_indices p) as [|v vs] eqn:VI; [cbn in SZ; assert (max = 3) by lia; subst max|destruct (U 0) as (t' & I & _); [unfold size; cbn; lia|]; rewrite TP in I; contradiction].
        cbn in SZ. lia. }
      destruct (IH (seen ++ [t]) (done ++ [p]) p' m') as (done' & q & n & E & I & OV & LN).
      { split; [exact M'|]. split; [exact F'|]. split; [apply Forall_app; split; [exact DN|constructor; [split; assumption|constructor]]|]. split.
        - split; [apply M'|]. split; [eapply Z.le_trans; [exact S'|]; unfold size; cbn [vertex_indices no_part length]; pose proof (count_new_3 t []); lia|]. apply U'. intros i Hi. unfold size in Hi. cbn in Hi. lia.
        - split; [rewrite map_app, concat_app, CC; cbn [map concat]; rewrite O', app_nil_r, map_app; reflexivity|]. split; [right; rewrite X'; cbn; discriminate|].
          intros v Iv. apply V' in Iv. destruct Iv as [[]|Iv]. exists t. split; [apply in_or_app; right; left; reflexivity|exact Iv]. }
      exists done', q, n. rewrite <- app_assoc in I, OV. split; [exact E|]. split; [exact I|]. rewrite app_length in *. cbn [length] in *. split; [|lia]. intros DC _. inversion DC; subst.
      change (t :: ts) with ([t] ++ ts). rewrite app_assoc. apply overfull_more. apply (split_overfull max t p m seen); assumption.
    + destruct (add_triangle t p m) as [p' m'] eqn:A. destruct (add_ok t p m p' m' M F A) as (M' & F' & O' & S' & U' & V' & (x & X')).
      assert (SZ : size (vertex_indices p') <= max).
      { unfold needs_split in SP. apply andb_false_iff in SP. pose proof (count_new_3 t m). destruct SP as [SP|SP]; apply Z.ltb_ge in SP; [rewrite Z.mod_small in SP by lia|]; lia. }
      destruct (IH (seen ++ [t]) done p' m') as (done' & q & n & E & I & OV & LN).
      { split; [exact M'|]. split; [exact F'|]. split; [exact DN|]. split; [split; [apply M'|split; [exact SZ|apply U', GP]]|]. split.
        - rewrite map_app, concat_app in CC. cbn [map concat] in CC. rewrite app_nil_r in CC. rewrite map_app, concat_app. cbn [map concat]. rewrite O', app_nil_r, app_assoc, CC, map_app. reflexivity.
        - split; [right; rewrite X'; intros E; apply (f_equal (@length tri)) in E; rewrite app_length in E; cbn in E; lia|].
          intros v Iv. apply V' in Iv. destruct Iv as [Iv|Iv]; [destruct (US v Iv) as (y & Y & Z); exists y; split; [apply in_or_app; left; exact Y|exact Z]|]. exists t. split; [apply in_or_app; right; left; reflexivity|exact Iv]. }
      exists done', q, n. rewrite <- app_assoc in I, OV. split; [exact E|]. split; [exact I|]. split; [|exact LN]. intros DC L. inversion DC; subst. apply OV; assumption.
Qed.
Lemma partition_inv max ts : 3 <= max < 2 ^ 64 ->
  exists done p m, partition_triangles max ts = done ++ [p] /\ inv max ts done p m /\ (Forall distinct_corners ts -> done <> [] -> overfull max ts).
Proof.
  intros MX. destruct no_part_ok as [M0 F0]. destruct (loop_ok max MX ts [] [] no_part []) as (done & p & m & E & I & OV & _).
  { split; [exact M0|]. split; [exact F0|]. split; [constructor|]. split; [split; [constructor|split; [unfold size; cbn; lia|intros i Hi; unfold size in Hi; cbn in Hi; lia]]|]. split; [reflexivity|]. split; [left; reflexivity|intros v []]. }
  exists done, p, m. split; [exact E|]. split; [exact I|]. intros DC NE. apply OV; [exact DC|]. destruct done; [contradiction|cbn; lia].
Qed.

(** ** C31 *)
(** The partitions' triangles, translated back, are the given triangles, each once and in order *)
Theorem C31_keeps_triangles : forall max ts, 3 <= max < 2 ^ 64 -> concat (map originals (partition_triangles max ts)) = map Some ts.
Proof. intros max ts MX. destruct (partition_inv max ts MX) as (done & p & m & -> & (_ & _ & _ & _ & C & _) & _). exact C. Qed.
(** Every partition has at most [max] vertices, all different and all used; none is empty unless there are no triangles *)
Theorem C31_good_partitions : forall max ts, 3 <= max < 2 ^ 64 ->
  Forall (good_part max) (partition_triangles max ts) /\ (ts <> [] -> Forall (fun p => triangles p <> []) (partition_triangles max ts)).
Proof.
  intros max ts MX. destruct (partition_inv max ts MX) as (done & p & m & -> & (_ & _ & D & G & _ & NE & _) & _). split.
  - apply Forall_app. split; [eapply Forall_impl; [|exact D]; cbn; tauto|constructor; [exact G|constructor]].
  - intros T. apply Forall_app. split; [eapply Forall_impl; [|exact D]; cbn; tauto|constructor; [|constructor]]. destruct NE as [->|NE]; [contradiction|exact NE].
Qed.
(** Valid triangles that together use at most [max] vertices stay in one partition *)
Theorem C31_one_partition : forall max ts, 3 <= max < 2 ^ 64 -> Forall distinct_corners ts ->
  (forall l, NoDup l -> (forall v, In v l -> used_by ts v) -> size l <= max) -> exists p, partition_triangles max ts = [p].
Proof.
  intros max ts MX DC FIT. destruct (partition_inv max ts MX) as (done & p & m & -> & _ & OV). exists p. destruct done as [|q done]; [reflexivity|]. exfalso. destruct (OV DC) as (l & N & U & S); [discriminate|]. specialize (FIT l N U). lia.
Qed.
(** With a limit below 3 the unsigned subtraction wraps around and nothing is ever split *)
Theorem C31_small_limit_refuted : map (fun p => size (vertex_indices p)) (partition_triangles 2 [(0, 1, 2); (3, 4, 5)]) = [6].
Proof. vm_compute. reflexivity. Qed.
(** A triangle that repeats a vertex is counted as needing more room than it does *)
Theorem C31_repeated_corner_refuted : map vertex_indices (partition_triangles 4 [(0, 1, 2); (7, 7, 7)]) = [[0; 1; 2]; [7]].
Proof. vm_compute. reflexivity. Qed.

Example C31_example : map vertex_indices (partition_triangles 4 [(0, 1, 2); (2, 1, 3); (3, 4, 2); (2, 4, 3)]) = [[0; 1; 2; 3]; [3; 4; 2]] /\
  Forall distinct_corners [(0, 1, 2); (2, 1, 3)].
Proof. split; [vm_compute; reflexivity|]. repeat constructor; cbn; intuition lia. Qed.
Print Assumptions C31_keeps_triangles.
Print Assumptions C31_good_partitions.
Print Assumptions C31_one_partition.
Print Assumptions C31_small_limit_refuted.
Print Assumptions C31_repeated_corner_refuted.
