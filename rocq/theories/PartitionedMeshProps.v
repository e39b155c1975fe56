(** C36: render groups are kept apart. *)
From Coq Require Import ZArith Bool Arith Lia List.
From Verif Require Import NumModel GeomModel MeshFormatModel MeshFormatProps MutableMeshModel PartitionedMeshModel PartitionedMeshSpec.
Import ListNotations.
Local Open Scope Z_scope.

(** ** Where the groups begin *)
Definition starts {A} (ls : list (list A)) : list Z := map (fun i => Z.of_nat (length (concat (firstn i ls)))) (seq 0 (length ls)).
Lemma starts_length {A} (ls : list (list A)) : length (starts ls) = length ls. Proof. unfold starts. rewrite map_length, seq_length. reflexivity. Qed.
Lemma starts_nth {A} (ls : list (list A)) i : (i < length ls)%nat -> nth_error (starts ls) i = Some (Z.of_nat (length (concat (firstn i ls)))).
Proof. intros H. unfold starts. rewrite nth_error_map, (nth_error_nth' _ 0%nat) by (rewrite seq_length; exact H). rewrite seq_nth by exact H. reflexivity. Qed.
Lemma firstn_app_all {A} (a b : list A) : firstn (length a) (a ++ b) = a. Proof. rewrite firstn_app, Nat.sub_diag, firstn_all, firstn_O, app_nil_r. reflexivity. Qed.
Lemma skipn_app_all {A} (a b : list A) : skipn (length a) (a ++ b) = b. Proof. rewrite skipn_app, Nat.sub_diag, skipn_all. reflexivity. Qed.
Lemma group_part_starts {A} (ls : list (list A)) i l : Z.of_nat (length ls) < 2 ^ 32 -> Z.of_nat (length (concat ls)) < 2 ^ 64 -> nth_error ls i = Some l ->
  group_part (concat ls) (starts ls) (Z.of_nat i) = Some l.
Proof.
  intros L32 L64 H. assert (I : (i < length ls)%nat) by (apply nth_error_Some; congruence). unfold group_part, u32. rewrite starts_length. rewrite (Z.mod_small (Z.of_nat (length ls))) by lia. rewrite (proj2 (Z.ltb_lt _ _)) by lia. rewrite Nat2Z.id, (starts_nth ls i I).
  destruct (nth_error_split ls i H) as (a & b & E & La). assert (F : firstn i ls = a) by (rewrite E, <- La; apply firstn_app_all). rewrite F.
  assert (C : concat ls = concat a ++ l ++ concat b) by (rewrite E, concat_app; reflexivity). rewrite (Z.mod_small (Z.of_nat i + 1)) by lia.
  assert (Q : (if Z.of_nat i + 1 <? Z.of_nat (length ls) then nth (Z.to_nat (Z.of_nat i + 1)) (starts ls) 0 else Z.of_nat (length (concat ls))) = Z.of_nat (length (concat a ++ l))).
  { destruct (Z.ltb_spec (Z.of_nat i + 1) (Z.of_nat (length ls))) as [T|T].
    - replace (Z.to_nat (Z.of_nat i + 1)) with (S i) by lia. rewrite (nth_error_nth (starts ls) (S i) 0 (starts_nth ls (S i) ltac:(lia))). f_equal. f_equal.
      rewrite E. replace (S i) with (length (a ++ [l])) by (rewrite app_length; cbn; lia). replace (a ++ l :: b) with ((a ++ [l]) ++ b) by (rewrite <- app_assoc; reflexivity). rewrite firstn_app_all, concat_app. cbn. rewrite app_nil_r. reflexivity.
    - assert (b = []) as -> by (apply length_zero_iff_nil; rewrite E, app_length in T, I; cbn in T, I; lia). rewrite C. cbn [concat]. rewrite app_nil_r. reflexivity. }
  rewrite Q. unfold span_between. rewrite C. rewrite !app_length in *. rewrite (proj2 (Z.ltb_ge _ _)) by lia. replace (Z.of_nat (length (concat a) + length l) - Z.of_nat (length (concat a))) with (Z.of_nat (length l)) by lia. rewrite C, !app_length in L64. rewrite Z.mod_small by lia.
  rewrite Z.min_l by lia. rewrite !Nat2Z.id. f_equal. rewrite skipn_app_all. apply firstn_app_all.
Qed.
Lemma group_part_none {A} (l : list A) firsts i : Z.of_nat (length firsts) < 2 ^ 32 -> Z.of_nat (length firsts) <= i -> group_part l firsts i = None.
Proof. intros L H. unfold group_part, u32. rewrite Z.mod_small by lia. rewrite (proj2 (Z.ltb_ge _ _)) by lia. reflexivity. Qed.

Section C36.
Context {N : num} {M : Type}.
Variable MO : mesh_ops N M.
Notation from_mesh_groups := (from_mesh_groups MO).

Lemma concat_map_flat {A B} (f : A -> list B) l : concat (map f l) = flat_map f l. Proof. symmetry. apply flat_map_concat_map. Qed.
Lemma total_spec (gs : list (group M)) : fold_left Z.add (map (fun g => Z.of_nat (length (g_meshes g))) gs) 0 = mesh_total gs.
Proof.
  unfold mesh_total. assert (G : forall z, fold_left Z.add (map (fun g => Z.of_nat (length (g_meshes g))) gs) z = z + Z.of_nat (length (flat_map g_meshes gs))).
  { induction gs as [|g gs IH]; intros z; cbn [map fold_left flat_map]; [cbn; lia|]. rewrite IH, app_length. lia. }
  rewrite G. lia.
Qed.
(** the data put together *)
Lemma assemble_spec (gs : list (group M)) fs : Z.of_nat (length (flat_map g_meshes gs)) < 2 ^ 16 -> Z.of_nat (length (flat_map g_outlines gs)) < 2 ^ 32 ->
  fold_left append_group gs (Data [] [] [] [] fs) = Data (flat_map g_meshes gs) (flat_map g_outlines gs) (starts (map g_meshes gs)) (starts (map g_outlines gs)) fs.
Proof.
  induction gs as [|g gs IH] using rev_ind; intros H1 H2; [reflexivity|]. rewrite flat_map_app, app_length in H1, H2. cbn [flat_map] in H1, H2. rewrite app_nil_r in H1, H2. rewrite fold_left_app, IH by lia. cbn [fold_left]. unfold append_group. cbn [d_meshes d_outlines first_mesh first_outline d_formats].
  rewrite !flat_map_app. cbn [flat_map]. rewrite !app_nil_r. unfold u16z, u32. rewrite !Z.mod_small by lia.
  assert (ST : forall {A} (f : group M -> list A), starts (map f (gs ++ [g])) = starts (map f gs) ++ [Z.of_nat (length (flat_map f gs))]).
  { intros A f. unfold starts. rewrite !map_length, app_length. cbn [length]. rewrite Nat.add_1_r, seq_S, map_app. cbn [map Nat.add]. f_equal.
    - apply map_ext_in. intros i Hi. apply in_seq in Hi. rewrite map_app, firstn_app. replace (i - length (map f gs))%nat with 0%nat by (rewrite map_length; lia). cbn [firstn]. rewrite app_nil_r. reflexivity.
    - f_equal. f_equal. f_equal. rewrite map_app. replace (length gs) with (length (map f gs)) by apply map_length. rewrite firstn_app_all. apply concat_map_flat. }
  rewrite !ST. reflexivity.
Qed.
Lemma group_ok_spec g : formats_made MO (g_meshes g) -> (group_ok MO g = true <-> good_group MO g).
Proof.
  intros FM. unfold group_ok. rewrite !andb_true_iff, !forallb_forall. split.
  - intros [[H1 H2] H3]. constructor.
    + destruct (g_meshes g) as [|m0 ms] eqn:E; [intros m m' []|]. rewrite forallb_forall in H1. assert (K : forall m, In m (m0 :: ms) -> m_format MO m = m_format MO m0).
      { intros m [<- |I]; [reflexivity|]. specialize (H1 m I). destruct (FM m (or_intror I)) as (l & i & C). destruct (FM m0 (or_introl eq_refl)) as (l' & i' & C'). destruct (C28_equal _ _ _ _ _ _ C C') as (Q & _). apply Q in H1. destruct H1 as [-> ->]. congruence. }
      intros m m' I I'. rewrite (K m I), (K m' I'). reflexivity.
    + intros m I. specialize (H2 m I). apply negb_true_iff, Z.eqb_neq in H2. exact H2.
    + intros o I. specialize (H3 o I). unfold outline_ok in H3. apply andb_true_iff in H3. destruct H3 as [A B]. split; [intros ->; discriminate|]. intros mi vi J. rewrite forallb_forall in B. specialize (B _ J). cbn [fst snd] in B.
      destruct (nth_error (g_meshes g) (Z.to_nat mi)) as [m|]; [|discriminate]. exists m. split; [reflexivity|apply Z.ltb_lt, B].
  - intros [H1 H2 H3]. split; [split|].
    + destruct (g_meshes g) as [|m0 ms] eqn:E; [reflexivity|]. apply forallb_forall. intros m I. rewrite (H1 m m0 (or_intror I) (or_introl eq_refl)). destruct (FM m0 (or_introl eq_refl)) as (l' & i' & C'). apply (proj1 (C28_equal _ _ _ _ _ _ C' C')). auto.
    + intros m I. apply negb_true_iff, Z.eqb_neq, H2, I.
    + intros o I. destruct (H3 o I) as [A B]. unfold outline_ok. apply andb_true_iff. split; [destruct o; [contradiction|reflexivity]|]. apply forallb_forall. intros [mi vi] J. destruct (B mi vi J) as (m & E & L). cbn [fst snd]. rewrite E. apply Z.ltb_lt, L.
Qed.

(** Creation succeeds exactly under the documented conditions, with 65535 in place of 65536 *)
Theorem C36_created_iff gs : (forall g, In g gs -> formats_made MO (g_meshes g)) ->
  ((exists d, from_mesh_groups gs = Some d) <-> mesh_total gs <= 65535 /\ forall g, In g gs -> good_group MO g).
Proof.
  intros FM. unfold PartitionedMeshModel.from_mesh_groups. rewrite total_spec. destruct (Z.ltb_spec 65535 (mesh_total gs)) as [L|L]; [split; [intros (d & H); discriminate|lia]|]. destruct (forallb (group_ok MO) gs) eqn:E.
  - rewrite forallb_forall in E. split; [|eauto]. intros _. split; [exact L|]. intros g I. apply group_ok_spec; auto.
  - split; [intros (d & H); discriminate|]. intros [_ H]. exfalso. apply not_true_iff_false in E. apply E. apply forallb_forall. intros g I. apply group_ok_spec; auto.
Qed.
(** Every group reads as it was given, group by group; the meshes of all groups follow one another *)
Theorem C36_reads_as_given gs d : (forall g, In g gs -> formats_made MO (g_meshes g)) -> from_mesh_groups gs = Some d ->
  Z.of_nat (length gs) < 2 ^ 32 -> Z.of_nat (length (flat_map g_outlines gs)) < 2 ^ 32 ->
  render_group_count (Some d) = Z.of_nat (length gs) /\ meshes (Some d) = flat_map g_meshes gs /\
  forall i, 0 <= i ->
    match nth_error gs (Z.to_nat i) with
    | Some g => reads_as MO (Some d) i g
    | None => render_group_meshes (Some d) i = None /\ render_group_format (Some d) i = None /\ outline_count (Some d) i = None /\
              forall j k, outline (Some d) i j = None /\ outline_position MO (Some d) i j k = None
    end.
Proof.
  intros FM H L1 L2. assert (G : mesh_total gs <= 65535 /\ forall g, In g gs -> good_group MO g) by (apply C36_created_iff; eauto). destruct G as [T G].
  unfold PartitionedMeshModel.from_mesh_groups in H. rewrite total_spec, (proj2 (Z.ltb_ge _ _)) in H by lia. destruct (forallb (group_ok MO) gs); [|discriminate]. unfold mesh_total in T. rewrite assemble_spec in H by lia. injection H as <-.
  set (d := Data _ _ _ _ _). assert (C : render_group_count (Some d) = Z.of_nat (length gs)) by (cbn [render_group_count d first_mesh]; rewrite starts_length, map_length; unfold u32; apply Z.mod_small; lia). split; [exact C|]. split; [reflexivity|].
  intros i Hi. destruct (nth_error gs (Z.to_nat i)) as [g|] eqn:E.
  - assert (I : (Z.to_nat i < length gs)%nat) by (apply nth_error_Some; congruence). assert (LT : (i <? Z.of_nat (length gs)) = true) by (apply Z.ltb_lt; lia).
    assert (RM : render_group_meshes (Some d) i = Some (g_meshes g)).
    { cbn [render_group_meshes d d_meshes first_mesh]. rewrite <- concat_map_flat. replace i with (Z.of_nat (Z.to_nat i)) at 1 by lia. apply group_part_starts; [rewrite map_length; lia|rewrite concat_map_flat; lia|rewrite nth_error_map, E; reflexivity]. }
    assert (RO : outlines (Some d) i = Some (g_outlines g)).
    { unfold outlines. rewrite C, LT. cbn [d d_outlines first_outline]. rewrite <- concat_map_flat. replace i with (Z.of_nat (Z.to_nat i)) at 1 by lia. apply group_part_starts; [rewrite map_length; lia|rewrite concat_map_flat; lia|rewrite nth_error_map, E; reflexivity]. }
    assert (RF : render_group_format (Some d) i = Some (group_format MO g)) by (unfold render_group_format; rewrite C, LT; cbn [d d_formats]; rewrite nth_error_map, E; reflexivity).
    assert (GI : In g gs) by (eapply nth_error_In; exact E).
    assert (LO : Z.of_nat (length (g_outlines g)) < 2 ^ 32).
    { apply Z.le_lt_trans with (2 := L2). apply Nat2Z.inj_le. clear - GI. induction gs as [|x gs IH]; [destruct GI|]. cbn [flat_map]. rewrite app_length. destruct GI as [<- |GI]; [|specialize (IH GI)]; lia. }
    assert (OC : outline_count (Some d) i = Some (Z.of_nat (length (g_outlines g)))) by (unfold outline_count; rewrite RO; cbn; f_equal; apply Z.mod_small; lia).
    assert (OL : forall j, 0 <= j -> outline (Some d) i j = nth_error (g_outlines g) (Z.to_nat j)).
    { intros j J. unfold outline. rewrite OC, RO. destruct (Z.ltb_spec j (Z.of_nat (length (g_outlines g)))) as [K|K]; [reflexivity|]. symmetry. apply nth_error_None. lia. }
    constructor; [exact RM| | |exact OC|intros j J; apply OL; lia|].
    + intros m Im. rewrite RF. f_equal. unfold group_format. destruct (g_meshes g) as [|m0 ms] eqn:Em; [destruct Im|]. apply (same_format MO g (G g GI)); rewrite Em; [left; reflexivity|exact Im].
    + intros Em. rewrite RF. unfold group_format. rewrite Em. reflexivity.
    + intros j o J Eo Lo. assert (O : outline (Some d) i j = Some o) by (rewrite OL by exact J; exact Eo). split; [unfold outline_vertex_count; rewrite O; cbn; f_equal; apply Z.mod_small; lia|].
      intros k K. unfold outline_position. rewrite O, RM. destruct (nth_error o (Z.to_nat k)) as [[mi vi]|] eqn:Ek; [|reflexivity].
      destruct (proj2 (outlines_good MO g (G g GI) o (nth_error_In _ _ Eo)) mi vi (nth_error_In _ _ Ek)) as (m & Em & _). exists m. rewrite Em. split; reflexivity.
  - apply nth_error_None in E. assert (LT : (i <? Z.of_nat (length gs)) = false) by (apply Z.ltb_ge; lia). assert (RO : outlines (Some d) i = None) by (unfold outlines; rewrite C, LT; reflexivity).
    split; [cbn [render_group_meshes d d_meshes first_mesh]; apply group_part_none; rewrite starts_length, map_length; lia|]. split; [unfold render_group_format; rewrite C, LT; reflexivity|]. unfold outline_position, outline, outline_count. rewrite RO. auto.
Qed.
(** The limit of 65536 meshes that is documented is not the one enforced *)
Theorem C36_limit_refuted m : m_tcount MO m <> 0 -> formats_made MO [m] ->
  exists gs, mesh_total gs = 65536 /\ (forall g, In g gs -> good_group MO g /\ formats_made MO (g_meshes g)) /\ from_mesh_groups gs = None.
Proof.
  intros H F. assert (X : exists l, Z.of_nat (length l) = 65536 /\ forall x, In x l -> x = m).
  { exists (repeat m (Z.to_nat 65536)). split; [rewrite repeat_length, Z2Nat.id by lia; reflexivity|intros x I; eapply repeat_spec; exact I]. }
  destruct X as (l & L & R). exists [Group l []]. assert (T : mesh_total [Group l []] = 65536) by (unfold mesh_total; cbn [flat_map g_meshes]; rewrite app_nil_r; exact L).
  split; [exact T|]. split.
  - intros g [<- |[]]. cbn [g_meshes]. split; [constructor; cbn [g_meshes g_outlines]|].
    + intros x y Ix Iy. rewrite (R x Ix), (R y Iy). reflexivity.
    + intros x Ix. rewrite (R x Ix). exact H.
    + intros o [].
    + intros x Ix. rewrite (R x Ix). apply F. left. reflexivity.
  - unfold PartitionedMeshModel.from_mesh_groups. rewrite total_spec, T. reflexivity.
Qed.
(** WithEmptyGroups gives as many groups as asked for, with nothing in them *)
Theorem C36_empty_groups n : Z.of_nat n < 2 ^ 32 -> exists d, with_empty_groups MO n = Some d /\ render_group_count (Some d) = Z.of_nat n /\ meshes (Some d) = [] /\
  forall i, 0 <= i < Z.of_nat n -> render_group_meshes (Some d) i = Some [] /\ render_group_format (Some d) i = Some default_format /\ outline_count (Some d) i = Some 0.
Proof.
  intros L. unfold with_empty_groups. set (gs := repeat (Group [] []) n). assert (R : forall g, In g gs -> g = Group [] []) by (intros g I; eapply repeat_spec; exact I).
  assert (FN : forall {A} (f : group M -> list A), f (Group [] []) = [] -> flat_map f gs = []) by (intros A f Hf; unfold gs; clear -Hf; induction n; cbn; [reflexivity|rewrite Hf; assumption]).
  assert (FM : forall g, In g gs -> formats_made MO (g_meshes g)) by (intros g I; rewrite (R g I); intros m []).
  destruct (proj2 (C36_created_iff gs FM)) as (d & Hd). { split; [unfold mesh_total; rewrite FN by reflexivity; cbn; lia|]. intros g I. rewrite (R g I). constructor; cbn; tauto. }
  exists d. split; [exact Hd|]. destruct (C36_reads_as_given gs d FM Hd) as (A & B & C); [unfold gs; rewrite repeat_length; exact L|rewrite FN by reflexivity; cbn; lia|]. split; [rewrite A; unfold gs; rewrite repeat_length; reflexivity|]. split; [rewrite B; apply FN; reflexivity|].
  intros i Hi. specialize (C i (proj1 Hi)). destruct (nth_error gs (Z.to_nat i)) as [g|] eqn:E; [|apply nth_error_None in E; unfold gs in E; rewrite repeat_length in E; lia]. rewrite (R g (nth_error_In _ _ E)) in C. destruct C as [C1 _ C3 C4 _ _]. cbn [g_meshes g_outlines length Z.of_nat] in C1, C3, C4. split; [exact C1|]. split; [exact (C3 eq_refl)|exact C4].
Qed.
End C36.
(** two groups with different formats; the first has two meshes and an outline that crosses them *)
Section Example36.
Context {N : num}.
Definition ex_format (b : bool) : format :=
  match create (if b then [(5, 0)] else [(5, 0); (12, 1)])%nat k16BitUnpacked16BitPacked with Some f => f | None => default_format end.
Definition ex_ops : mesh_ops N (bool * Z) := Ops N (bool * Z) (fun m => ex_format (fst m)) (fun m => snd m) (fun _ => 1)
  (fun _ i => Some (V (nZ i) n0)) (fun _ _ => None) (fun _ => None).
Definition ex_groups : list (group (bool * Z)) := [Group [(true, 3); (true, 4)] [[(0, 2); (1, 3)]; [(1, 0)]]; Group [(false, 3)] []].
Example C36_example : exists d, from_mesh_groups ex_ops ex_groups = Some d /\ reads_as ex_ops (Some d) 0 (Group [(true, 3); (true, 4)] [[(0, 2); (1, 3)]; [(1, 0)]]) /\
  outline_position ex_ops (Some d) 0 0 1 = Some (V (nZ 3) n0).
Proof.
  assert (F : forall g, In g ex_groups -> formats_made ex_ops (g_meshes g)).
  { intros g _ [[|] z] _.
    - exists [(5, 0)]%nat, k16BitUnpacked16BitPacked. reflexivity.
    - exists [(5, 0); (12, 1)]%nat, k16BitUnpacked16BitPacked. reflexivity. }
  assert (G : forall g, In g ex_groups -> good_group ex_ops g).
  { intros g [<- |[<- |[]]]; constructor; cbn; try (intros m m' [<- |[<- |[]]] [<- |[<- |[]]]; reflexivity); try (intros m m' [<- |[]] [<- |[]]; reflexivity); try discriminate; try solve [intros o []].
    intros o [<- |[<- |[]]]; (split; [discriminate|]); intros mi vi I; cbn in I.
    - destruct I as [E|[E|[]]]; injection E as <- <-; eexists; (split; [reflexivity|]); cbn; lia.
    - destruct I as [E|[]]; injection E as <- <-; eexists; (split; [reflexivity|]); cbn; lia. }
  destruct (proj2 (C36_created_iff ex_ops ex_groups F)) as (d & E). { split; [unfold mesh_total; cbn; lia|exact G]. }
  destruct (C36_reads_as_given ex_ops ex_groups d F E ltac:(reflexivity) ltac:(reflexivity)) as (_ & _ & H). specialize (H 0 ltac:(lia)). cbn [ex_groups nth_error Z.to_nat] in H.
  exists d. split; [exact E|]. split; [exact H|]. destruct (reads_vertices _ _ _ _ H 0 _ ltac:(lia) eq_refl ltac:(reflexivity)) as [_ K]. destruct (K 1 ltac:(lia)) as (m & Em & ->). cbn in Em. injection Em as <-. reflexivity.
Qed.
End Example36.
Print Assumptions C36_created_iff.
Print Assumptions C36_reads_as_given.
Print Assumptions C36_limit_refuted.
Print Assumptions C36_empty_groups.
