(** Meshes of stroke vertices: the byte arrays hold exactly the list of vertices. *)
From Coq Require Import ZArith Bool Reals Lia Lra List.
From Flocq Require Import Core BinarySingleNaN.
From Verif Require Import F32 F32Lemmas BytesModel BytesLemmas MeshFormatModel MeshFormatProps PackModel PartitionModel MutableMeshModel MutableMeshSpec MutableMeshProofs MutableMeshProps StrokeVertexModel StrokeVertexSpec.
Import ListNotations.
Local Open Scope Z_scope.

Definition to_vertex (v : stroke_vertex) : vertex :=
  let a := non_position v in let '(h, s, l) := hsl a in
  [[fst (position v); snd (position v)]; [opacity a]; [h; s; l]; [fst (side_derivative a); snd (side_derivative a)]; [side_label a];
   [fst (forward_derivative a); snd (forward_derivative a)]; [forward_label a]; [fst (surface_uv a); snd (surface_uv a)]].
Definition stroke_shape : list nat := [2; 1; 3; 2; 1; 2; 1; 2]%nat.
Definition stroke_format (f : format) : Prop := wf f /\ shape_of f = stroke_shape /\ pos_index f = 0%nat.
Lemma all2_map {A B} (p : A -> A -> bool) (g : A -> B) a b : (forall x y, p x y = true -> g x = g y) -> all2 p a b = true -> map g a = map g b.
Proof. intros H. revert b. induction a as [|x a IH]; intros [|y b] E; try discriminate; [reflexivity|]. cbn in *. apply andb_true_iff in E as (E1 & E2). f_equal; [apply H, E1|apply IH, E2]. Qed.
Lemma full_layout full : full_mesh_format = Some full -> map (fun a => component_count (ty a)) (attrs full) = stroke_shape /\ pos_index full = 0%nat.
Proof.
  intros F. assert (H : option_map (fun g => (map (fun a => component_count (ty a)) (attrs g), pos_index g)) full_mesh_format = Some (stroke_shape, 0%nat)) by (vm_compute; reflexivity).
  rewrite F in H. cbn [option_map] in H. injection H as H1 H2. split; assumption.
Qed.
Lemma equivalent l i f full : create l i = Some f -> full_mesh_format = Some full -> unpacked_equiv f full = true -> stroke_format f.
Proof.
  intros C F U. split; [apply (created _ _ _ C)|]. destruct (full_layout full F) as (S & Q). unfold unpacked_equiv in U. apply andb_true_iff in U as (P & A). split.
  - unfold shape_of. rewrite (all2_map _ (fun a => component_count (ty a)) _ _ ltac:(intros x y H; apply andb_true_iff in H as (H & _); apply andb_true_iff in H as (_ & H); apply Nat.eqb_eq, H) A). exact S.
  - apply Nat.eqb_eq in P. rewrite P. exact Q.
Qed.
Lemma to_vertex_shape v : vertex_of_shape stroke_shape (to_vertex v).
Proof. destruct v as [p [o [[h s] l] sd sl fd fl uv]]. reflexivity. Qed.
Lemma to_vertex_bytes v : vbytes (to_vertex v) = floats_bytes (vertex_floats v).
Proof. destruct v as [p [o [[h s] l] sd sl fd fl uv]]. unfold to_vertex, vertex_floats, vbytes, floats_bytes. cbn [non_position hsl position opacity side_derivative side_label forward_derivative forward_label surface_uv map concat]. rewrite <- !app_assoc. reflexivity. Qed.
Lemma floats_vertex v : vertex_of_floats (vertex_floats v) = Some v.
Proof. destruct v as [[x y] [o [[h s] l] [a b] sl [c d] fl [u w]]]. reflexivity. Qed.
(** reading a vertex *)
Lemma get_vertex m vs ts i v : stroke_format (fmt m) -> rep m (map to_vertex vs) ts -> 0 <= i -> nth_error vs (Z.to_nat i) = Some v -> get_from_mesh m i = Some v /\ vertex_position m i = position v.
Proof.
  intros (WF & SH & PO) R I0 H. assert (H' : nth_error (map to_vertex vs) (Z.to_nat i) = Some (to_vertex v)) by (rewrite nth_error_map, H; reflexivity).
  assert (ST : ustride (fmt m) = 56%nat) by (rewrite (wf_stride _ WF), SH; reflexivity). split.
  - unfold get_from_mesh. rewrite (rep_v _ _ _ R), ST. replace (Z.to_nat (i * vertex_size)) with (Z.to_nat i * 56 + 0)%nat by (unfold vertex_size; lia).
    rewrite (peek_image (venc 56) 56 (venc_length _) _ _ _ _ _ H') by lia. rewrite peek_all by (symmetry; apply venc_length). rewrite <- ST, (venc_eq _ WF) by (rewrite SH; apply to_vertex_shape). rewrite to_vertex_bytes.
    replace 14%nat with (length (vertex_floats v)) by (destruct v as [p [o [[h s] l] sd sl fd fl uv]]; reflexivity). rewrite floats_back'. apply floats_vertex.
  - destruct (position v) as [x y] eqn:E. apply (read_position m (map to_vertex vs) ts i (to_vertex v)); try assumption. rewrite PO. destruct v as [p [o [[h s] l] sd sl fd fl uv]]. cbn in *. rewrite E. reflexivity.
Qed.
Lemma map_put {A B} (g : A -> B) l i x : map g (put i x l) = put i (g x) (map g l).
Proof. revert i. induction l as [|y l IH]; intros [|i]; cbn; f_equal. apply IH. Qed.
Lemma map_fit {A B} (g : A -> B) z n l : map g (fit z n l) = fit (g z) n (map g l).
Proof. revert l. induction n as [|n IH]; intros [|y l]; cbn; f_equal; apply (IH []) || apply IH. Qed.
(** writing one attribute *)
Lemma set_attribute m vs ts i k y v w : stroke_format (fmt m) -> rep m (map to_vertex vs) ts -> 0 <= i -> nth_error vs (Z.to_nat i) = Some v -> nth_error stroke_shape k = Some (length y) -> put k y (to_vertex v) = to_vertex w ->
  rep (set_float_vertex_attribute m i k y) (map to_vertex (put (Z.to_nat i) w vs)) ts.
Proof.
  intros (WF & SH & PO) R I0 H K E. rewrite map_put, <- E. apply rep_set_attribute; try assumption; [rewrite nth_error_map, H; reflexivity|rewrite SH; exact K].
Qed.
Lemma put_at {A} (l : list A) i y x : nth_error l i = Some x -> nth_error (put i y l) i = Some y.
Proof. intros H. apply put_nth. apply nth_error_Some. congruence. Qed.
Lemma set_position m vs ts i p v : stroke_format (fmt m) -> rep m (map to_vertex vs) ts -> 0 <= i -> nth_error vs (Z.to_nat i) = Some v ->
  rep (set_vertex_position m i p) (map to_vertex (put (Z.to_nat i) (StrokeVertex p (non_position v)) vs)) ts.
Proof.
  intros (WF & SH & PO) R I0 H. destruct p as [x y]. pose proof (rep_set_position m (map to_vertex vs) ts i (to_vertex v) x y WF R I0 ltac:(rewrite nth_error_map, H; reflexivity)) as Q. rewrite PO in Q. rewrite map_put.
  replace (to_vertex (StrokeVertex (x, y) (non_position v))) with (put 0 [x; y] (to_vertex v)); [exact Q|]. destruct v as [p [o [[h s] l] sd sl fd fl uv]]. reflexivity.
Qed.
Definition stored (a : attributes) : attributes :=
  let '(h, s, l) := hsl a in Attributes (clamp1 (opacity a)) (clamp1 h, clamp1 s, clamp1 l) (side_derivative a) (side_label a) (forward_derivative a) (forward_label a) (surface_uv a).
Lemma fmt_set m i k y : fmt (set_float_vertex_attribute m i k y) = fmt m. Proof. reflexivity. Qed.
Lemma set_non_position_rep m vs ts i a v : stroke_format (fmt m) -> rep m (map to_vertex vs) ts -> 0 <= i -> nth_error vs (Z.to_nat i) = Some v ->
  rep (set_non_position m i a) (map to_vertex (put (Z.to_nat i) (StrokeVertex (position v) (stored a)) vs)) ts.
Proof.
  intros F R I0 H. destruct v as [p [o0 [[h0 s0] l0] sd0 sl0 fd0 fl0 uv0]], a as [o [[h s] l] sd sl fd fl uv]. cbn [position].
  unfold set_non_position, set_side_derivative, set_side_label, set_forward_derivative, set_forward_label, set_surface_uv. cbn [opacity hsl side_derivative side_label forward_derivative forward_label surface_uv].
  assert (ST : forall m vs v k y w, rep m (map to_vertex vs) ts -> stroke_format (fmt m) -> nth_error vs (Z.to_nat i) = Some v -> nth_error stroke_shape k = Some (length y) -> put k y (to_vertex v) = to_vertex w ->
     rep (set_float_vertex_attribute m i k y) (map to_vertex (put (Z.to_nat i) w vs)) ts /\ nth_error (put (Z.to_nat i) w vs) (Z.to_nat i) = Some w) by (intros; split; [eapply set_attribute; eassumption|eapply put_at; eassumption]).
  destruct (ST _ _ _ 1%nat [clamp1 o] (StrokeVertex p (Attributes (clamp1 o) (h0, s0, l0) sd0 sl0 fd0 fl0 uv0)) R F H eq_refl eq_refl) as (R1 & H1).
  destruct (ST _ _ _ 2%nat [clamp1 h; clamp1 s; clamp1 l] (StrokeVertex p (Attributes (clamp1 o) (clamp1 h, clamp1 s, clamp1 l) sd0 sl0 fd0 fl0 uv0)) R1 F H1 eq_refl eq_refl) as (R2 & H2). rewrite put_put in R2, H2.
  destruct (ST _ _ _ 3%nat [fst sd; snd sd] (StrokeVertex p (Attributes (clamp1 o) (clamp1 h, clamp1 s, clamp1 l) sd sl0 fd0 fl0 uv0)) R2 F H2 eq_refl eq_refl) as (R3 & H3). rewrite put_put in R3, H3.
  destruct (ST _ _ _ 4%nat [sl] (StrokeVertex p (Attributes (clamp1 o) (clamp1 h, clamp1 s, clamp1 l) sd sl fd0 fl0 uv0)) R3 F H3 eq_refl eq_refl) as (R4 & H4). rewrite put_put in R4, H4.
  destruct (ST _ _ _ 5%nat [fst fd; snd fd] (StrokeVertex p (Attributes (clamp1 o) (clamp1 h, clamp1 s, clamp1 l) sd sl fd fl0 uv0)) R4 F H4 eq_refl eq_refl) as (R5 & H5). rewrite put_put in R5, H5.
  destruct (ST _ _ _ 6%nat [fl] (StrokeVertex p (Attributes (clamp1 o) (clamp1 h, clamp1 s, clamp1 l) sd sl fd fl uv0)) R5 F H5 eq_refl eq_refl) as (R6 & H6). rewrite put_put in R6, H6.
  destruct (ST _ _ _ 7%nat [fst uv; snd uv] (StrokeVertex p (Attributes (clamp1 o) (clamp1 h, clamp1 s, clamp1 l) sd sl fd fl uv)) R6 F H6 eq_refl eq_refl) as (R7 & H7). rewrite put_put in R7. exact R7.
Qed.
Lemma set_in_mesh_rep m vs ts i v w : stroke_format (fmt m) -> rep m (map to_vertex vs) ts -> 0 <= i -> nth_error vs (Z.to_nat i) = Some w ->
  rep (set_in_mesh m i v) (map to_vertex (put (Z.to_nat i) (StrokeVertex (position v) (stored (non_position v))) vs)) ts.
Proof.
  intros F R I0 H. unfold set_in_mesh. pose proof (set_position m vs ts i (position v) w F R I0 H) as R1. pose proof (put_at _ _ (StrokeVertex (position v) (non_position w)) _ H) as H1.
  pose proof (set_non_position_rep (set_vertex_position m i (position v)) _ ts i (non_position v) _ F R1 I0 H1) as R2. rewrite put_put in R2. exact R2.
Qed.
Lemma put_last {A} (l : list A) x y : put (length l) y (l ++ [x]) = l ++ [y].
Proof. apply (put_split l [] x y). Qed.
Lemma append_rep m vs ts v : stroke_format (fmt m) -> rep m (map to_vertex vs) ts -> count vs + 1 < 2 ^ 32 ->
  rep (append_to_mesh m v) (map to_vertex (vs ++ [StrokeVertex (position v) (stored (non_position v))])) ts.
Proof.
  intros F R B. destruct F as (WF & SH & PO). unfold append_to_mesh. destruct (position v) as [x y] eqn:E.
  pose proof (rep_append_vertex m _ ts x y WF R ltac:(unfold count in *; rewrite map_length; exact B)) as R1. rewrite SH, PO in R1.
  replace (put 0 [x; y] (blank stroke_shape)) with (to_vertex (StrokeVertex (x, y) (non_position blank_vertex))) in R1 by reflexivity.
  change [to_vertex ?w] with (map to_vertex [w]) in R1. rewrite <- map_app in R1.
  assert (V : u32 (vcount (append_vertex m (x, y)) - 1) = count vs). { rewrite (rep_vc _ _ _ R1). unfold count. rewrite map_length, app_length. cbn [length]. unfold count in B. rewrite u32_id; lia. }
  rewrite V. pose proof (set_non_position_rep (append_vertex m (x, y)) _ ts (count vs) (non_position v) (StrokeVertex (x, y) (non_position blank_vertex)) (conj WF (conj SH PO)) R1 ltac:(unfold count; lia)) as R2. unfold count in R2 at 1 3. rewrite Nat2Z.id in R2. rewrite put_last in R2. apply R2. apply nth_last.
Qed.
(** what clamping does *)
Lemma clamp1_limited x : limited x (clamp1 x).
Proof.
  unfold limited, clamp1, fclamp. destruct (fZ_exact 1) as (R1 & F1); [lia|]. destruct (fZ_exact (-1)) as (Rm & Fm); [lia|].
  destruct (is_nan x) eqn:NA. { left. destruct x; try discriminate. split; reflexivity. }
  right. destruct (is_finite x) eqn:FI.
  - destruct (flt x (fZ (-1))) eqn:L1.
    + apply flt_spec in L1; [|exact NA|reflexivity]. rewrite !fX_finite in L1 by assumption. rewrite Rm in L1. left. repeat split; assumption || reflexivity.
    + right. right. destruct (flt (fZ 1) x) eqn:L2.
      * apply flt_spec in L2; [|reflexivity|exact NA]. rewrite !fX_finite in L2 by assumption. rewrite R1 in L2. right. left. repeat split; assumption || reflexivity.
      * left. split; [reflexivity|]. split; [|reflexivity]. split.
        -- destruct (Rle_or_lt (-1) (B2R x)) as [G|G]; [exact G|]. exfalso. assert (flt x (fZ (-1)) = true); [|congruence]. apply flt_spec; [exact NA|reflexivity|]. rewrite !fX_finite by assumption. rewrite Rm. exact G.
        -- destruct (Rle_or_lt (B2R x) 1) as [G|G]; [exact G|]. exfalso. assert (flt (fZ 1) x = true); [|congruence]. apply flt_spec; [reflexivity|exact NA|]. rewrite !fX_finite by assumption. rewrite R1. exact G.
  - destruct x as [|[]| |]; try discriminate; cbn.
    + right. left. split; reflexivity.
    + right. right. right. right. split; reflexivity.
Qed.
Lemma limited_unique x y z : limited x y -> limited x z -> y = z.
Proof.
  unfold limited. intros P Q.
  destruct P as [(A & E)|[(A & B & E)|[(A & E)|[(A & B & E)|[(A & B & E)|(A & E)]]]]]; destruct Q as [(A' & E')|[(A' & B' & E')|[(A' & E')|[(A' & B' & E')|[(A' & B' & E')|(A' & E')]]]]];
    subst y z; try reflexivity; try (exfalso; lra); try (subst x; discriminate); try (destruct x; discriminate).
Qed.
Lemma stored_kept v : kept_as v (StrokeVertex (position v) (stored (non_position v))).
Proof. destruct v as [p [o [[h s] l] sd sl fd fl uv]]. unfold kept_as, stored. cbn. repeat split; apply clamp1_limited. Qed.
Lemma kept_unique v w w' : kept_as v w -> kept_as v w' -> w = w'.
Proof.
  destruct v as [p [o [[h s] l] sd sl fd fl uv]], w as [p1 [o1 [[h1 s1] l1] sd1 sl1 fd1 fl1 uv1]], w' as [p2 [o2 [[h2 s2] l2] sd2 sl2 fd2 fl2 uv2]]. unfold kept_as. cbn.
  intros (-> & O1 & H1 & S1 & L1 & -> & -> & -> & -> & ->) (-> & O2 & H2 & S2 & L2 & -> & -> & -> & -> & ->).
  rewrite (limited_unique _ _ _ O1 O2), (limited_unique _ _ _ H1 H2), (limited_unique _ _ _ S1 S2), (limited_unique _ _ _ L1 L2). reflexivity.
Qed.
(** the calls *)
Definition do_change (m : mesh) (i : Z) (c : change) : mesh :=
  match c with
  | SideDerivative d => set_side_derivative m i d | SideLabel l => set_side_label m i l | ForwardDerivative d => set_forward_derivative m i d
  | ForwardLabel l => set_forward_label m i l | SurfaceUv p => set_surface_uv m i p | Position p => set_vertex_position m i p
  end.
Definition do_op (m : mesh) (o : stroke_op) : mesh :=
  match o with
  | Append v => append_to_mesh m v | Put i v => set_in_mesh m i v | Change i c => do_change m i c
  | AddTriangle t => append_triangle_indices m t | PutTriangle j t => set_triangle_indices m j t | Truncate nv nt => resize_mesh m nv nt
  end.
Definition do_ops (m : mesh) (os : list stroke_op) : mesh := fold_left do_op os m.
Lemma do_op_fmt m o : fmt (do_op m o) = fmt m.
Proof. destruct o as [v|i v|i []| | |]; try reflexivity; destruct v as [p [o [[h s] l] sd sl fd fl uv]]; reflexivity. Qed.
Lemma do_ops_fmt os m : fmt (do_ops m os) = fmt m.
Proof. revert m. induction os as [|o os IH]; intros m; [reflexivity|]. cbn. etransitivity; [apply IH|apply do_op_fmt]. Qed.
Lemma do_op_rep m vs ts o vs' ts' : stroke_format (fmt m) -> rep m (map to_vertex vs) ts -> can (limit_of (fmt m)) (vs, ts) o -> does (vs, ts) o (vs', ts') -> rep (do_op m o) (map to_vertex vs') ts'.
Proof.
  intros F R C D. destruct o as [v|i v|i c|t|j t|nv nt]; cbn [can does do_op] in *.
  - destruct D as (w & K & E). injection E as -> ->. rewrite (kept_unique v w _ K (stored_kept v)). apply append_rep; assumption.
  - destruct D as (w & K & E). injection E as -> ->. rewrite (kept_unique v w _ K (stored_kept v)). destruct (nth_lt vs i C) as (u & U). apply set_in_mesh_rep with u; [assumption..|lia|exact U].
  - destruct D as (v & H & E). injection E as -> ->. destruct c; cbn [do_change changed]; destruct v as [p0 [o [[h s] li] sd sl fd fl uv]];
      try (eapply set_attribute; [exact F|exact R|lia|exact H|reflexivity|reflexivity]). apply (set_position m vs ts i p _ F R ltac:(lia) H).
  - injection D as -> ->. apply rep_append_triangle; tauto.
  - injection D as -> ->. destruct C as (C & K). destruct (nth_lt ts j C) as (t0 & N). apply rep_set_triangle with t0; try assumption. lia.
  - injection D as -> ->. rewrite map_fit. replace (to_vertex blank_vertex) with (blank (shape_of (fmt m))) by (rewrite (proj1 (proj2 F)); reflexivity). apply rep_resize; try tauto. apply F.
Qed.
Lemma do_ops_rep f os s : stroke_format f -> stroke_history (limit_of f) os s -> rep (do_ops (new_mesh f) os) (map to_vertex (fst s)) (snd s).
Proof.
  intros F H. induction H as [|os o [vs ts] [vs' ts'] H IH C D].
  - split; cbn; try reflexivity; intros ? [].
  - unfold do_ops. rewrite fold_left_app. cbn [fold_left]. fold (do_ops (new_mesh f) os). assert (E : fmt (do_ops (new_mesh f) os) = f) by apply do_ops_fmt. apply (do_op_rep _ vs ts o); [rewrite E; exact F|exact IH|rewrite E; exact C|exact D].
Qed.
