(** C71: a stroke that can be drawn is drawn from what its meshes report. *)
From Coq Require Import ZArith Bool Arith Reals Lia Lra List.
From Flocq Require Import Core IEEE754.BinarySingleNaN.
From Verif Require Import F32 BytesModel BytesLemmas NumModel MeshFormatModel MeshFormatProps PackModel PackProps MutableMeshModel MutableMeshProofs MeshModel MeshProofs MeshProps StrokeVertexModel StrokeVertexSpec ShaderUnpackModel ShaderUnpackSpec ShaderUnpackProps BehaviorModel DrawSpecModel DrawSpecSpec DrawSpecProofs.
Import ListNotations.
Local Open Scope nat_scope.
Notation total := MeshFormatProps.total.

(** ** C71 *)
(** A format is accepted exactly when it is one that can be drawn *)
Theorem C71_accepts : forall l i f, create l i = Some f -> (create_for_stroke f <> None <-> drawable (attributes_of f)).
Proof.
  intros l i f C. destruct (created_ids _ _ _ C) as [D I0]. unfold drawable.
  rewrite <- (pair_drawable f 0 2 position_and_opacity_type Float2In1Float Float1Unpacked Float2In3Bytes_XY12 Float1In1Byte); [|intros [] [] ?; cbn; intuition discriminate|discriminate|discriminate].
  rewrite <- (pair_drawable f 4 5 derivative_and_label_type Float2Unpacked Float1Unpacked Float2In3Bytes_XY12 Float1In1Byte); [|intros [] [] ?; cbn; intuition discriminate|discriminate|discriminate].
  rewrite <- (pair_drawable f 6 7 derivative_and_label_type Float2Unpacked Float1Unpacked Float2In3Bytes_XY12 Float1In1Byte); [|intros [] [] ?; cbn; intuition discriminate|discriminate|discriminate].
  rewrite <- (opt_drawable f D 1 hsl_type); [|intros [] ?; cbn; intuition discriminate|discriminate|discriminate].
  rewrite <- (opt_drawable f D 8 uv_type); [|intros [] ?; cbn; intuition discriminate|discriminate|discriminate].
  unfold create_for_stroke. split.
  - destruct (get_validated f) as [v|] eqn:V; [|congruence]. intros _. apply (validated_iff f D v I0) in V. destruct V as (A1 & A2 & A3 & A4 & A5). eauto 10.
  - intros ((a1 & A1) & (a2 & A2) & (a3 & A3) & (a4 & A4) & a5 & A5). assert (V : get_validated f = Some (Validated a1 a4 a2 a3 a5)) by (apply (validated_iff f D _ I0); auto). rewrite V. discriminate.
Qed.

(** The fields of the shader are where their parts are *)
Definition field_present (f : format) (n : sname) : Prop := match n with HslShift => In 1 (map aid (attrs f)) | SurfaceUv => In 8 (map aid (attrs f)) | _ => True end.
Lemma pair_covers f id id' find t o : pwf f -> (forall x y s, find x y = Some s -> stype_size s = packed_size x + packed_size y) -> pair_at f id id' find (t, o) ->
  covers f [id; id'] o (stype_size t) /\ o + stype_size t <= pstride f.
Proof.
  intros W F (k & a & b & s & A & B & IA & IB & FT & E). injection E as -> ->. pose proof (pwf_width f W a (nth_error_In _ _ A)) as WA. pose proof (pwf_width f W b (nth_error_In _ _ B)) as WB. rewrite (F _ _ _ FT). pose proof (next_offset f k a b W A B) as NO. pose proof (inside f _ b W B). split; [|lia].
  cbn [covers]. exists a. split; [apply (nth_error_In _ _ A)|]. split; [exact IA|]. split; [reflexivity|]. split; [lia|]. exists b. split; [apply (nth_error_In _ _ B)|]. split; [exact IB|]. split; [exact NO|]. split; lia.
Qed.
Lemma opt_covers f id find t o : pwf f -> (forall x s, find x = Some s -> stype_size s = packed_size x) -> opt_at f id find (Some (t, o)) -> covers f [id] o (stype_size t) /\ o + stype_size t <= pstride f.
Proof.
  intros W F [(_ & E)|(k & a & s & A & IA & FT & E)]; [discriminate|]. injection E as -> ->. pose proof (pwf_width f W a (nth_error_In _ _ A)) as WA. rewrite (F _ _ FT). pose proof (inside f _ a W A). split; [|lia].
  cbn [covers]. exists a. split; [apply (nth_error_In _ _ A)|]. split; [exact IA|]. split; [reflexivity|]. split; lia.
Qed.
Theorem C71_layout : forall l i f s, create l i = Some f -> create_for_stroke f = Some s ->
  sstride s = pstride f /\ NoDup (map sname_of (sattributes s)) /\ (forall n, In n (map sname_of (sattributes s)) <-> field_present f n) /\
  (forall a, In a (sattributes s) -> covers f (parts (sname_of a)) (soffset a) (stype_size (stype_of a)) /\ soffset a + stype_size (stype_of a) <= sstride s) /\
  (forall u k, In (u, Some k) (suniforms s) -> exists a, nth_error (attrs f) (Z.to_nat k) = Some a /\ unpacking_uniform (aid a) = Some u).
Proof.
  intros l i f s C H. pose proof (pcreated _ _ _ C) as W. destruct (created_ids _ _ _ C) as [D I0]. unfold create_for_stroke in H. destruct (get_validated f) as [v|] eqn:V; [|discriminate]. injection H as <-. apply (validated_iff f D v I0) in V.
  destruct v as [[tp op] vh [ts os] [tf of] vu]. cbn [for_position for_hsl for_side for_forward for_uv] in *. destruct V as (P & Hh & S4 & S6 & U). cbn [sstride sattributes suniforms].
  assert (P1 : forall x y s, position_and_opacity_type x y = Some s -> stype_size s = packed_size x + packed_size y) by (intros [] [] s0 E; cbn in E; try discriminate; injection E as <-; reflexivity).
  assert (P2 : forall x y s, derivative_and_label_type x y = Some s -> stype_size s = packed_size x + packed_size y) by (intros [] [] s0 E; cbn in E; try discriminate; injection E as <-; reflexivity).
  assert (P3 : forall x s, hsl_type x = Some s -> stype_size s = packed_size x) by (intros [] s0 E; cbn in E; try discriminate; injection E as <-; reflexivity).
  assert (P4 : forall x s, uv_type x = Some s -> stype_size s = packed_size x) by (intros [] s0 E; cbn in E; try discriminate; injection E as <-; reflexivity).
  assert (HH : (vh = None /\ ~ In 1 (map aid (attrs f))) \/ (exists x, vh = Some x /\ In 1 (map aid (attrs f)))) by (destruct Hh as [(N & ->)|(k & a & t & K & I & _ & ->)]; [left; auto|right; eexists; split; [reflexivity|rewrite <- I; apply in_map, (nth_error_In _ _ K)]]).
  assert (HU : (vu = None /\ ~ In 8 (map aid (attrs f))) \/ (exists x, vu = Some x /\ In 8 (map aid (attrs f)))) by (destruct U as [(N & ->)|(k & a & t & K & I & _ & ->)]; [left; auto|right; eexists; split; [reflexivity|rewrite <- I; apply in_map, (nth_error_In _ _ K)]]).
  split; [reflexivity|]. split; [|split; [|split]].
  - destruct HH as [(-> & _)|([] & -> & _)], HU as [(-> & _)|([] & -> & _)]; cbn [optional_attr map app sattr sname_of]; repeat constructor; cbn [In]; intuition discriminate.
  - intros n. destruct HH as [(-> & HH)|([] & -> & HH)], HU as [(-> & HU)|([] & -> & HU)]; destruct n; cbn [optional_attr map app sattr sname_of field_present In]; intuition (try discriminate).
  - intros a I. cbn [In sattr fst snd] in I. rewrite in_app_iff in I. destruct I as [<-|[<-|[<-|[I|I]]]]; cbn [sattr fst snd sname_of soffset stype_of parts].
    + exact (pair_covers f _ _ _ _ _ W P1 P).
    + exact (pair_covers f _ _ _ _ _ W P2 S4).
    + exact (pair_covers f _ _ _ _ _ W P2 S6).
    + destruct vh as [[th oh]|]; [|destruct I]. destruct I as [<-|[]]. cbn [sname_of soffset stype_of parts sattr fst snd]. exact (opt_covers f _ _ _ _ W P3 Hh).
    + destruct vu as [[tu ou]|]; [|destruct I]. destruct I as [<-|[]]. cbn [sname_of soffset stype_of parts sattr fst snd]. exact (opt_covers f _ _ _ _ W P4 U).
  - apply pair_in in S4, S6. intros u k I. cbn [In] in I. destruct I as [E|[E|[E|[E|[E|[E|[]]]]]]]; try discriminate E; injection E as <- <-.
    + destruct (index_cases f kPosition D) as [(N & _)|(k & a & K & IA & ->)]; [contradiction|]. rewrite Nat2Z.id. exists a. rewrite IA. auto.
    + destruct (index_cases f kSideDerivative D) as [(N & _)|(k & a & K & IA & ->)]; [exfalso; apply N, S4|]. rewrite Nat2Z.id. exists a. rewrite IA. auto.
    + destruct (index_cases f kForwardDerivative D) as [(N & _)|(k & a & K & IA & ->)]; [exfalso; apply N, S6|]. rewrite Nat2Z.id. exists a. rewrite IA. auto.
Qed.

(** ** Reading *)
Section Reading.
Variables (m : imesh) (i : Z) (W : pwf (iformat m)) (I : (0 <= i < 65536)%Z).
Notation f := (iformat m).
Notation here o n := (peek (Z.to_nat i * pstride f + o) n (ivdata m)).
Lemma pair_bytes k a b : nth_error (attrs f) k = Some a -> nth_error (attrs f) (S k) = Some b -> here (poff a) (packed_size (ty a) + packed_size (ty b)) = packed_attribute m i k ++ packed_attribute m i (S k).
Proof.
  intros A B. rewrite peek_plus, (packed_at m i k a W I A), (packed_at m i _ b W I B). f_equal. f_equal. rewrite (next_offset f k a b W A B), (pwf_width f W a (nth_error_In _ _ A)). lia.
Qed.
Lemma stored_floats k a : nth_error (attrs f) k = Some a -> is_unpacked (ty a) = true -> stored m i k -> exists l, packed_attribute m i k = floats_bytes l /\ length l = component_count (ty a) /\ iattribute m i k = Some l.
Proof.
  intros A U (p & E & S). rewrite (attr_here f k a A), U in S. destruct S as (l & -> & L). exists l. split; [exact E|]. split; [exact L|]. eapply floats_stored; eassumption.
Qed.
Lemma stored_ints k a : nth_error (attrs f) k = Some a -> is_unpacked (ty a) = false -> stored m i k -> exists p ns, packed_attribute m i k = packed_bytes p /\ in_range (ty a) ns /\ pack_ints (ty a) ns = Some p /\ iattribute m i k = unpack_attribute (ty a) (nth k (coding m) []) p.
Proof.
  intros A U (p & E & S). rewrite (attr_here f k a A), U in S. destruct S as (ns & R & P). exists p, ns. split; [exact E|]. split; [exact R|]. split; [exact P|]. eapply bytes_stored; eassumption.
Qed.
Lemma as_uniform_two c : length c = 2 -> exists px py, c = [px; py] /\ as_uniform c = Some (as_transform px py).
Proof. destruct c as [|px [|py [|]]]; try discriminate. intros _. exists px, py. auto. Qed.
Lemma some_inj {A} (x y : A) : Some x = Some y -> x = y. Proof. congruence. Qed.
Lemma head_inj {A} (x y : A) : [x] = [y] -> x = y. Proof. congruence. Qed.
Lemma custom_one b w : ty b = Float1In1Byte -> custom_params b = Some w -> exists q, w = [q].
Proof. intros T C. unfold custom_params in C. rewrite T in C. repeat match type of C with (if ?c then _ else _) = _ => destruct c end; try discriminate C; apply some_inj in C; subst w; eauto. Qed.
(** three bytes of a point and one of another value *)
Lemma bytes_pair k a b w tr : nth_error (attrs f) k = Some a -> nth_error (attrs f) (S k) = Some b -> ty a = Float2In3Bytes_XY12 -> ty b = Float1In1Byte ->
  stored m i k -> stored m i (S k) -> length (nth k (coding m) []) = 2 -> as_uniform (nth k (coding m) []) = Some tr -> custom_params b = Some w -> nth (S k) (coding m) [] = w ->
  exists x y z v p n, map in_full (here (poff a) 4) = [x; y; z; in_full n] /\ unpack_float2_ubyte3 tr x y z = p /\ exactly m i k [fst p; snd p] /\
    read_by_shader (aid b) [in_full n] = Some [v] /\ nearly m i (S k) b [v] /\ (aid b = kSideLabel \/ aid b = kForwardLabel -> exactly m i (S k) [v]).
Proof.
  intros A B TA TB SA SB L T CP CO. destruct (as_uniform_two _ L) as (px & py & CE & CU). rewrite CU in T. injection T as <-.
  destruct (stored_ints k a A ltac:(rewrite TA; reflexivity) SA) as (p & ns & E & R & P & V). destruct (stored_ints _ b B ltac:(rewrite TB; reflexivity) SB) as (p' & ns' & E' & R' & P' & V'). rewrite CE in V.
  destruct (C70_attributes b w ns' p' CP R' P') as (l & ws & RS & UA & AC & LB). rewrite CO in V'. rewrite UA in V'.
  pose proof (pair_bytes k a b A B) as PB. rewrite TA, TB in *. change (packed_size Float2In3Bytes_XY12 + packed_size Float1In1Byte) with 4 in PB. rewrite PB, E, E'.
  destruct (C70_points _ px py ns p (or_intror eq_refl) R P) as (x0 & y0 & SP & UP). rewrite UP in V.
  destruct (stored_back _ _ _ (eq_refl : is_unpacked Float2In3Bytes_XY12 = false) P) as (_ & LP). destruct (stored_back _ _ _ (eq_refl : is_unpacked Float1In1Byte = false) P') as (_ & LP').
  unfold pack_ints in P, P'. repeat (destruct ns as [|? ns]; try discriminate P). repeat (destruct ns' as [|? ns']; try discriminate P'). injection P as <-. injection P' as <-. cbn [packed_bytes app map fed shader_point] in *. apply some_inj in SP.
  assert (LW : length ws = 1). { destruct (custom_one b w TB CP) as (q & ->). unfold unpack_attribute, is_unpacked in UA. cbn [packed_bits unpack_ints unpack_singles] in UA. apply some_inj in UA. rewrite <- UA. reflexivity. }
  destruct ws as [|v' [|]]; try discriminate LW. destruct l as [|v [|]]; cbn [length repeat all_close] in AC; try tauto. 
  eexists. eexists. eexists. exists v, (x0, y0). eexists. split; [reflexivity|]. split; [exact SP|]. split; [exact V|]. split; [exact RS|]. split.
  - exists [v']. split; [exact V'|]. rewrite TB. cbn [is_unpacked packed_bits length repeat all_close]. exact AC.
  - intros Q. specialize (LB Q). rewrite LB. exact V'.
Qed.
(** a point and another value *)
Definition params_ok (k : nat) (a : attribute) : Prop := length (nth k (coding m) []) = component_count (ty a) /\ (forall ps, custom_params a = Some ps -> nth k (coding m) [] = ps).
Lemma read_position k a b t tr : nth_error (attrs f) k = Some a -> nth_error (attrs f) (S k) = Some b -> aid b = kOpacityShift -> position_and_opacity_type (ty a) (ty b) = Some t ->
  stored m i k -> stored m i (S k) -> params_ok k a -> params_ok (S k) b -> as_uniform (nth k (coding m) []) = Some tr ->
  exists p o, overload_position tr (t, fetched in_full t (here (poff a) (stype_size t))) = Some (p, o) /\ exactly m i k [fst p; snd p] /\ nearly m i (S k) b [o].
Proof.
  intros A B IB T SA SB (LA & _) (LB & CB) U. destruct (ty a) eqn:TA; try discriminate T; destruct (ty b) eqn:TB; try discriminate T; apply some_inj in T; subst t.
  - destruct (stored_ints k a A ltac:(rewrite TA; reflexivity) SA) as (p & ns & E & R & P & V). destruct (stored_floats _ b B ltac:(rewrite TB; reflexivity) SB) as (l & E' & LL & V'). rewrite TA in *. rewrite TB in LL. cbn [component_count] in *.
    destruct (as_uniform_two _ LA) as (px & py & CE & CU). rewrite CU in U. apply some_inj in U. subst tr. rewrite CE in V. destruct (C70_points _ px py ns p (or_introl eq_refl) R P) as (x0 & y0 & SP & UP). rewrite UP in V.
    pose proof (pair_bytes k a b A B) as PB. rewrite TA, TB in PB. cbn [packed_size Nat.add] in PB. cbn [stype_size fetched]. rewrite PB, E, E'.
    unfold pack_ints in P. repeat (destruct ns as [|? ns]; try discriminate P). apply some_inj in P. subst p. cbn [fed shader_point] in SP. apply some_inj in SP. cbn [packed_bytes]. destruct l as [|o [|]]; try discriminate LL.
    match goal with |- context [floats_bytes [?v] ++ floats_bytes [o]] => change (floats_bytes [v] ++ floats_bytes [o]) with (floats_bytes [v; o]); pose proof (floats_back' [v; o]) as FB; cbn [length] in FB; rewrite FB; clear FB end.
    exists (x0, y0), o. cbn [overload_position]. unfold unpack_position_float. rewrite SP. split; [reflexivity|]. split; [exact V|]. exists [o]. split; [exact V'|]. rewrite TB. reflexivity.
  - assert (CP : custom_params b = Some [opacity_params]) by (unfold custom_params; rewrite IB, TB; reflexivity).
    destruct (bytes_pair k a b _ tr A B TA TB SA SB LA U CP (CB _ CP)) as (x & y & z & v & p & n & E & UP & X & RS & NV & _). cbn [stype_size fetched]. rewrite E. cbn [overload_position]. unfold unpack_position_bytes. rewrite UP. exists p, v.
    rewrite IB in RS. cbn [read_by_shader shader_opacity kOpacityShift] in RS. apply some_inj in RS. split; [|split; assumption]. do 2 f_equal. exact (head_inj _ _ RS).
Qed.
Lemma read_derivative k a b t tr : nth_error (attrs f) k = Some a -> nth_error (attrs f) (S k) = Some b -> aid b = kSideLabel \/ aid b = kForwardLabel -> derivative_and_label_type (ty a) (ty b) = Some t ->
  stored m i k -> stored m i (S k) -> params_ok k a -> params_ok (S k) b -> as_uniform (nth k (coding m) []) = Some tr ->
  exists p o, overload_derivative tr (t, fetched in_full t (here (poff a) (stype_size t))) = Some (p, o) /\ exactly m i k [fst p; snd p] /\ exactly m i (S k) [o].
Proof.
  intros A B IB T SA SB (LA & _) (LB & CB) U. destruct (ty a) eqn:TA; try discriminate T; destruct (ty b) eqn:TB; try discriminate T; apply some_inj in T; subst t.
  - destruct (stored_floats _ a A ltac:(rewrite TA; reflexivity) SA) as (l & E & LL & V). destruct (stored_floats _ b B ltac:(rewrite TB; reflexivity) SB) as (l' & E' & LL' & V'). rewrite TA in LL. rewrite TB in LL'. cbn [component_count] in *.
    pose proof (pair_bytes k a b A B) as PB. rewrite TA, TB in PB. cbn [packed_size Nat.add] in PB. cbn [stype_size fetched]. rewrite PB, E, E'. destruct l as [|x [|y [|]]]; try discriminate LL. destruct l' as [|o [|]]; try discriminate LL'.
    change (floats_bytes [x; y] ++ floats_bytes [o]) with (floats_bytes [x; y; o]). pose proof (floats_back' [x; y; o]) as FB. cbn [length] in FB. rewrite FB. exists (x, y), o. cbn [overload_derivative fst snd]. unfold unpack_derivative_float3. split; [reflexivity|]. split; assumption.
  - assert (CP : custom_params b = Some [label_params]) by (unfold custom_params; destruct IB as [-> | ->]; rewrite TB; reflexivity).
    destruct (bytes_pair k a b _ tr A B TA TB SA SB LA U CP (CB _ CP)) as (x & y & z & v & p & n & E & UP & X & RS & NV & EV). cbn [stype_size fetched]. rewrite E. cbn [overload_derivative]. unfold unpack_derivative_bytes. rewrite UP. exists p, v.
    split; [|split; [exact X|exact (EV IB)]]. assert (Q : shader_label [in_full n] = Some [v]) by (destruct IB as [EI|EI]; rewrite EI in RS; exact RS). cbn [shader_label] in Q. apply some_inj in Q. do 2 f_equal. exact (head_inj _ _ Q).
Qed.
Lemma read_hsl k a t : nth_error (attrs f) k = Some a -> aid a = kColorShiftHsl -> hsl_type (ty a) = Some t -> stored m i k -> params_ok k a ->
  exists h s l, overload_hsl (t, fetched in_full t (here (poff a) (stype_size t))) = Some (h, s, l) /\ nearly m i k a [h; s; l].
Proof.
  intros A IA T SA (LA & CA). pose proof (packed_at m i k a W I A) as PA. destruct (ty a) eqn:TA; try discriminate T; apply some_inj in T; subst t; cbn [packed_size] in PA; cbn [stype_size fetched]; rewrite <- PA.
  - destruct (stored_floats _ a A ltac:(rewrite TA; reflexivity) SA) as (l & E & LL & V). rewrite TA in LL. destruct l as [|x [|y [|z [|]]]]; try discriminate LL. rewrite E. pose proof (floats_back' [x; y; z]) as FB. cbn [length] in FB. rewrite FB. exists x, y, z. split; [reflexivity|]. exists [x; y; z]. split; [exact V|]. rewrite TA. reflexivity.
  - destruct (stored_ints k a A ltac:(rewrite TA; reflexivity) SA) as (p & ns & E & R & P & V). assert (CP : custom_params a = Some [hsl_params; hsl_params; hsl_params]) by (unfold custom_params; rewrite IA, TA; reflexivity).
    rewrite (CA _ CP) in V. destruct (C70_attributes a _ ns p CP R P) as (l & ws & RS & UA & AC & _). rewrite UA in V. rewrite IA in RS. cbn [read_by_shader kColorShiftHsl] in RS. rewrite E. rewrite TA in P. unfold pack_ints in P. repeat (destruct ns as [|? ns]; try discriminate P). apply some_inj in P. subst p. cbn [packed_bytes map fed shader_color overload_hsl] in *.
    destruct (unpack_hsl_bytes _ _ _ _) as [[h s] v]. apply some_inj in RS. subst l. exists h, s, v. split; [reflexivity|]. exists ws. split; [exact V|]. rewrite TA. exact AC.
Qed.
Lemma read_uv k a t : nth_error (attrs f) k = Some a -> aid a = kSurfaceUv -> uv_type (ty a) = Some t -> stored m i k -> params_ok k a ->
  exists x y, overload_uv (t, fetched in_full t (here (poff a) (stype_size t))) = Some (x, y) /\ nearly m i k a [x; y].
Proof.
  intros A IA T SA (LA & CA). pose proof (packed_at m i k a W I A) as PA. destruct (ty a) eqn:TA; try discriminate T; apply some_inj in T; subst t; cbn [packed_size] in PA; cbn [stype_size fetched]; rewrite <- PA.
  - destruct (stored_floats _ a A ltac:(rewrite TA; reflexivity) SA) as (l & E & LL & V). rewrite TA in LL. destruct l as [|x [|y [|]]]; try discriminate LL. rewrite E. pose proof (floats_back' [x; y]) as FB. cbn [length] in FB. rewrite FB. exists x, y. split; [reflexivity|]. exists [x; y]. split; [exact V|]. rewrite TA. reflexivity.
  - destruct (stored_ints k a A ltac:(rewrite TA; reflexivity) SA) as (p & ns & E & R & P & V). assert (CP : custom_params a = Some [u_params; v_params]) by (unfold custom_params; rewrite IA, TA; reflexivity).
    rewrite (CA _ CP) in V. destruct (C70_attributes a _ ns p CP R P) as (l & ws & RS & UA & AC & _). rewrite UA in V. rewrite IA in RS. cbn [read_by_shader kSurfaceUv] in RS. rewrite E. rewrite TA in P. unfold pack_ints in P. repeat (destruct ns as [|? ns]; try discriminate P). apply some_inj in P. subst p. cbn [packed_bytes map fed shader_uv overload_uv] in *.
    destruct (unpack_uv_bytes _ _ _ _) as [h s]. apply some_inj in RS. subst l. exists h, s. split; [reflexivity|]. exists ws. split; [exact V|]. rewrite TA. exact AC.
Qed.
End Reading.

(** The uniforms can be set, the shader runs, and what it sees of a vertex is what the mesh reports *)
Theorem C71_reads : forall l j m s i, create l j = Some (iformat m) -> create_for_stroke (iformat m) = Some s -> coded_for_strokes m -> (0 <= i < 65536)%Z ->
  (forall k, k < length (attrs (iformat m)) -> stored m i k) ->
  exists u v, mesh_uniforms s m = Some u /\ run_main in_full s u (ivdata m) (Z.to_nat i) = Some v /\ agrees m i v.
Proof.
  intros l j m s i C H (LC & CO) I ST. pose proof (pcreated _ _ _ C) as W. destruct (created_ids _ _ _ C) as [D I0]. set (f := iformat m) in *. unfold create_for_stroke in H. destruct (get_validated f) as [v|] eqn:V; [|discriminate]. apply some_inj in H. apply (validated_iff f D v I0) in V.
  destruct v as [vp vh vs vf vu]. cbn [for_position for_hsl for_side for_forward for_uv] in *. destruct V as (P & Hh & S4 & S6 & U).
  assert (KL : forall k a, nth_error (attrs f) k = Some a -> k < length (attrs f)) by (intros k a K; apply nth_error_Some; congruence).
  destruct P as (kp & a0 & a2 & tp & A0 & A2 & J0 & J2 & T0 & ->). destruct S4 as (ks & a4 & a5 & ts & A4 & A5 & J4 & J5 & T4 & ->). destruct S6 as (kf & a6 & a7 & tf & A6 & A7 & J6 & J7 & T6 & ->).
  assert (LU : forall k a id, nth_error (attrs f) k = Some a -> unpacking_uniform (aid a) = Some id -> length (nth k (coding m) []) = 2).
  { intros k a id K UU. rewrite (proj1 (CO k a K)). unfold unpacking_uniform in UU. destruct (Nat.eqb_spec (aid a) kPosition) as [E|_]; [assert (k = kp) by (eapply (same_place f D); [exact K|exact A0|rewrite E, J0; reflexivity]); subst k; assert (a = a0) by congruence; subst a; destruct (ty a0); try discriminate T0; reflexivity|].
    destruct (Nat.eqb_spec (aid a) kSideDerivative) as [E|_]; [assert (k = ks) by (eapply (same_place f D); [exact K|exact A4|rewrite E, J4; reflexivity]); subst k; assert (a = a4) by congruence; subst a; destruct (ty a4); try discriminate T4; reflexivity|].
    destruct (Nat.eqb_spec (aid a) kForwardDerivative) as [E|_]; [assert (k = kf) by (eapply (same_place f D); [exact K|exact A6|rewrite E, J6; reflexivity]); subst k; assert (a = a6) by congruence; subst a; destruct (ty a6); try discriminate T6; reflexivity|discriminate]. }
  set (L := map (fun k => (attr_at f k, nth k (coding m) [])) (seq 0 (length (attrs f)))).
  assert (IL : forall a c, In (a, c) L -> exists k, nth_error (attrs f) k = Some a /\ c = nth k (coding m) []).
  { intros a c Q. apply in_map_iff in Q. destruct Q as (k & E & K). apply in_seq in K. injection E as <- <-. exists k. split; [apply attr_at_nth; lia|reflexivity]. }
  assert (IN : forall k a, nth_error (attrs f) k = Some a -> In (a, nth k (coding m) []) L).
  { intros k a K. apply in_map_iff. exists k. rewrite (attr_here f k a K). split; [reflexivity|]. apply in_seq. specialize (KL k a K). lia. }
  destruct (transforms_set s L) with (u := fun _ : uniform_id => @None transform) as (u & UE & US & _).
  { intros a c id Q UU. destruct (IL a c Q) as (k & K & ->). destruct (as_uniform_two _ (LU k a id K UU)) as (px & py & _ & ->). discriminate. }
  { intros a c id _ UU. rewrite <- H. cbn [suniforms]. unfold unpacking_uniform in UU. destruct (Nat.eqb (aid a) kPosition); [apply some_inj in UU; subst id; reflexivity|]. destruct (Nat.eqb (aid a) kSideDerivative); [apply some_inj in UU; subst id; reflexivity|]. destruct (Nat.eqb (aid a) kForwardDerivative); [apply some_inj in UU; subst id; reflexivity|discriminate]. }
  { unfold L. rewrite map_map. cbn [fst]. rewrite map_attr_at. exact D. }
  assert (U0 : exists t, as_uniform (nth kp (coding m) []) = Some t /\ u PositionUnpackingTransform = Some t) by (destruct (as_uniform_two _ (LU kp a0 PositionUnpackingTransform A0 ltac:(rewrite J0; reflexivity))) as (px & py & _ & E); eexists; split; [exact E|]; rewrite <- E; apply (US a0 _ _ (IN _ _ A0)); rewrite J0; reflexivity).
  assert (U4 : exists t, as_uniform (nth ks (coding m) []) = Some t /\ u SideDerivativeUnpackingTransform = Some t) by (destruct (as_uniform_two _ (LU ks a4 SideDerivativeUnpackingTransform A4 ltac:(rewrite J4; reflexivity))) as (px & py & _ & E); eexists; split; [exact E|]; rewrite <- E; apply (US a4 _ _ (IN _ _ A4)); rewrite J4; reflexivity).
  assert (U6 : exists t, as_uniform (nth kf (coding m) []) = Some t /\ u ForwardDerivativeUnpackingTransform = Some t) by (destruct (as_uniform_two _ (LU kf a6 ForwardDerivativeUnpackingTransform A6 ltac:(rewrite J6; reflexivity))) as (px & py & _ & E); eexists; split; [exact E|]; rewrite <- E; apply (US a6 _ _ (IN _ _ A6)); rewrite J6; reflexivity).
  destruct U0 as (t0 & AU0 & U0). destruct U4 as (t4 & AU4 & U4). destruct U6 as (t6 & AU6 & U6).
  destruct (read_position m i W I kp a0 a2 tp t0 A0 A2 J2 T0 (ST _ (KL _ _ A0)) (ST _ (KL _ _ A2)) (CO _ _ A0) (CO _ _ A2) AU0) as (p & o & RP & XP & NO).
  destruct (read_derivative m i W I ks a4 a5 ts t4 A4 A5 (or_introl J5) T4 (ST _ (KL _ _ A4)) (ST _ (KL _ _ A5)) (CO _ _ A4) (CO _ _ A5) AU4) as (sd & sl & RS & XS & XL).
  destruct (read_derivative m i W I kf a6 a7 tf t6 A6 A7 (or_intror J7) T6 (ST _ (KL _ _ A6)) (ST _ (KL _ _ A7)) (CO _ _ A6) (CO _ _ A7) AU6) as (fd & fl & RF & XF & XFL).
  assert (HH : exists h, used (is_some vh) (bind (fetch in_full s (ivdata m) (Z.to_nat i) HslShift) overload_hsl) = Some h /\
     (forall k a, nth_error (attrs f) k = Some a -> aid a = 1 -> exists x y z, h = Some (x, y, z) /\ nearly m i k a [x; y; z]) /\ (~ In 1 (map aid (attrs f)) -> h = None)).
  { destruct Hh as [(N & ->)|(k & a & t & K & J & T & ->)].
    - exists None. split; [reflexivity|]. split; [|auto]. intros k a K J. exfalso. apply N. rewrite <- J. apply in_map, (nth_error_In _ _ K).
    - destruct (read_hsl m i W I k a t K J T (ST _ (KL _ _ K)) (CO _ _ K)) as (x & y & z & R & NE). exists (Some (x, y, z)). split; [|split].
      + rewrite <- H. unfold fetch. cbn [sattributes app optional_attr find sattr sname_of sname_eqb is_some used bind stype_of soffset sstride fst snd]. fold f. fold f in R. rewrite R. reflexivity.
      + intros k' a' K' J'. assert (k' = k) by (eapply (same_place f D); [exact K'|exact K|congruence]). subst k'. assert (a' = a) by congruence. subst a'. eauto 6.
      + intros N. exfalso. apply N. rewrite <- J. apply in_map, (nth_error_In _ _ K). }
  assert (HU : exists h, used (is_some vu) (bind (fetch in_full s (ivdata m) (Z.to_nat i) SurfaceUv) overload_uv) = Some h /\
     (forall k a, nth_error (attrs f) k = Some a -> aid a = 8 -> exists x y, h = Some (x, y) /\ nearly m i k a [x; y]) /\ (~ In 8 (map aid (attrs f)) -> h = None)).
  { destruct U as [(N & ->)|(k & a & t & K & J & T & ->)].
    - exists None. split; [reflexivity|]. split; [|auto]. intros k a K J. exfalso. apply N. rewrite <- J. apply in_map, (nth_error_In _ _ K).
    - destruct (read_uv m i W I k a t K J T (ST _ (KL _ _ K)) (CO _ _ K)) as (x & y & R & NE). exists (Some (x, y)). split; [|split].
      + rewrite <- H. unfold fetch. destruct vh as [xh|]; cbn [sattributes app optional_attr find sattr sname_of sname_eqb is_some used bind stype_of soffset sstride fst snd]; fold f; fold f in R; rewrite R; reflexivity.
      + intros k' a' K' J'. assert (k' = k) by (eapply (same_place f D); [exact K'|exact K|congruence]). subst k'. assert (a' = a) by congruence. subst a'. eauto 6.
      + intros N. exfalso. apply N. rewrite <- J. apply in_map, (nth_error_In _ _ K). }
  destruct HH as (h & HE & HA & HN). destruct HU as (uv & UVE & UA & UN).
  exists u, (VertexSeen p o (sd, sl) (fd, fl) h uv). split; [exact UE|]. split.
  - unfold run_main. assert (SM : smain s = StrokeMain (is_some vh) (is_some vu)) by (rewrite <- H; reflexivity). rewrite SM, U0, U4, U6, HE, UVE. cbn [bind].
    assert (G0 : fetch in_full s (ivdata m) (Z.to_nat i) PositionAndOpacityShift = Some (tp, fetched in_full tp (peek (Z.to_nat i * pstride f + poff a0) (stype_size tp) (ivdata m)))) by (rewrite <- H; reflexivity).
    assert (G4 : fetch in_full s (ivdata m) (Z.to_nat i) SideDerivativeAndLabel = Some (ts, fetched in_full ts (peek (Z.to_nat i * pstride f + poff a4) (stype_size ts) (ivdata m)))) by (rewrite <- H; reflexivity).
    assert (G6 : fetch in_full s (ivdata m) (Z.to_nat i) ForwardDerivativeAndLabel = Some (tf, fetched in_full tf (peek (Z.to_nat i * pstride f + poff a6) (stype_size tf) (ivdata m)))) by (rewrite <- H; reflexivity).
    fold f in RP, RS, RF. rewrite G0, G4, G6. cbn [bind]. rewrite RP, RS, RF. reflexivity.
  - assert (ONE : forall k a k' a', nth_error (attrs f) k = Some a -> nth_error (attrs f) k' = Some a' -> aid a = aid a' -> k = k' /\ a = a') by (intros k a k' a' K K' E; assert (k = k') by (eapply (same_place f D); eassumption); subst k'; split; congruence).
    split; [|split; assumption]. intros k a K. cbn [seen_position seen_opacity seen_side seen_forward seen_hsl seen_uv fst snd]. fold f in K. split; [|split; [|split; [|split; [|split; [|split; [|split]]]]]]; intros E.
    + destruct (ONE _ _ _ _ K A0 ltac:(congruence)) as [-> ->]. exact XP.
    + destruct (ONE _ _ _ _ K A2 ltac:(congruence)) as [-> ->]. exact NO.
    + destruct (ONE _ _ _ _ K A4 ltac:(congruence)) as [-> ->]. exact XS.
    + destruct (ONE _ _ _ _ K A5 ltac:(congruence)) as [-> ->]. exact XL.
    + destruct (ONE _ _ _ _ K A6 ltac:(congruence)) as [-> ->]. exact XF.
    + destruct (ONE _ _ _ _ K A7 ltac:(congruence)) as [-> ->]. exact XFL.
    + exact (HA k a K E).
    + exact (UA k a K E).
Qed.

(** ** In-progress strokes *)
(** The format must be exactly that of stroke vertices, and the shader sees the fields of the vertex *)
Definition sees (v : vertex_seen) (x : stroke_vertex) : Prop :=
  let a := non_position x in
  v = VertexSeen (position x) (opacity a) (side_derivative a, side_label a) (forward_derivative a, forward_label a) (Some (hsl a)) (Some (surface_uv a)).
Lemma floats_peek n : forall k o d, 4 * (k + n) <= 56 -> bytes_floats n (peek (o + 4 * k) (4 * n) d) = firstn n (skipn k (bytes_floats 14 (peek o 56 d))).
Proof.
  assert (G : forall N n k l, k + n <= N -> bytes_floats n (firstn (4 * n) (skipn (4 * k) l)) = firstn n (skipn k (bytes_floats N (firstn (4 * N) l)))).
  { clear n. assert (F0 : forall n l, bytes_floats n (firstn (4 * n) l) = bytes_floats n l).
    { induction n as [|n IH]; intros l; [reflexivity|]. cbn [bytes_floats]. rewrite firstn_firstn. replace (Nat.min 4 (4 * S n)) with 4 by lia. f_equal. rewrite skipn_firstn_comm. replace (4 * S n - 4) with (4 * n) by lia. apply IH. }
    assert (F1 : forall N k l, k <= N -> skipn k (bytes_floats N l) = bytes_floats (N - k) (skipn (4 * k) l)).
    { induction N as [|N IH]; intros [|k] l K; try reflexivity; try lia. change (bytes_floats (S N) l) with (bytes_float (firstn 4 l) :: bytes_floats N (skipn 4 l)). rewrite skipn_cons. rewrite IH by lia. rewrite skipn_plus. replace (4 + 4 * k) with (4 * S k) by lia. reflexivity. }
    assert (F2 : forall n N l, n <= N -> firstn n (bytes_floats N l) = bytes_floats n l).
    { induction n as [|n IH]; intros [|N] l K; try reflexivity; try lia. cbn [bytes_floats firstn]. rewrite IH by lia. reflexivity. }
    intros N n k l K. rewrite !F0, F1, F2 by lia. reflexivity. }
  intros k o d K. unfold peek. rewrite <- (skipn_plus o (4 * k)). apply (G 14 n k). lia.
Qed.
Theorem C71_in_progress : forall l i f, create l i = Some f ->
  (create_for_in_progress f <> None <-> l = map (fun x => (type_byte (fst x), snd x)) full_attributes /\ i = k32BitUnpacked16BitPacked) /\
  forall s load u mesh n, create_for_in_progress f = Some s -> (0 <= n)%Z ->
    exists x v, get_from_mesh mesh n = Some x /\ run_main load s u (vdata mesh) (Z.to_nat n) = Some v /\ sees v x.
Proof.
  intros l i f C. unfold create_for_in_progress. destruct full_mesh_format as [full|] eqn:F; [|discriminate F]. destruct (C28_equal _ _ _ _ _ _ C F) as (EQ & _). split.
  - destruct (format_eqb f full); split; try congruence; intros H; [apply EQ; reflexivity|]. apply EQ in H. discriminate.
  - intros s load u mesh n H N. destruct (format_eqb f full); [|discriminate]. apply some_inj in H. subst s.
    assert (ST : option_map (fun full => (ustride full, map (fun k => uoff (attr_at full k)) [0; 2; 3; 5; 7])) full_mesh_format = Some (56, [0; 12; 24; 36; 48])) by (vm_compute; reflexivity). rewrite F in ST. cbn [option_map map] in ST. injection ST as S0 O0 O2 O3 O5 O7.
    unfold get_from_mesh, vertex_size. replace (Z.to_nat (n * 56)) with (Z.to_nat n * 56) by nia. set (o := Z.to_nat n * 56). unfold run_main. cbn [smain specification_in_progress]. unfold fetch. cbn [sattributes specification_in_progress find sname_of sname_eqb sstride stype_of soffset stype_size fetched]. rewrite S0, O0, O2, O3, O5, O7. fold o.
    pose proof (floats_peek 3 0 o (vdata mesh) ltac:(lia)) as P0. pose proof (floats_peek 3 3 o (vdata mesh) ltac:(lia)) as P2. pose proof (floats_peek 3 6 o (vdata mesh) ltac:(lia)) as P3. pose proof (floats_peek 3 9 o (vdata mesh) ltac:(lia)) as P5. pose proof (floats_peek 2 12 o (vdata mesh) ltac:(lia)) as P7. cbn [Nat.mul Nat.add] in P0, P2, P3, P5, P7.
    rewrite P0, P2, P3, P5, P7. clear P0 P2 P3 P5 P7. destruct (bytes_floats 14 (peek o 56 (vdata mesh))) as [|x0 [|x1 [|x2 [|x3 [|x4 [|x5 [|x6 [|x7 [|x8 [|x9 [|x10 [|x11 [|x12 [|x13 [|]]]]]]]]]]]]]]] eqn:B; try (apply (f_equal (@length f32)) in B; cbn in B; discriminate B).
    cbn [skipn firstn bind float3 float2 vertex_of_floats]. eexists. eexists. split; [reflexivity|]. split; [reflexivity|]. reflexivity.
Qed.

(** ** Which attributes are kept *)
Section Coats.
Context (N : num).
(** some behavior of some tip writes the hue, the saturation or the luminosity *)
Definition shifts_color (tips : list (brush_tip N)) : Prop :=
  exists tip b t lo hi, In tip tips /\ In b (behaviors tip) /\ In (TargetNode t lo hi) b /\ (t = kHueOffsetInRadians \/ t = kSaturationMultiplier \/ t = kLuminosity).
Lemma shifts_iff tips : existsb (uses_color_shift N) tips = true <-> shifts_color tips.
Proof.
  rewrite existsb_exists. split.
  - intros (tip & I & U). unfold uses_color_shift in U. apply existsb_exists in U. destruct U as (b & B & U). apply existsb_exists in U. destruct U as (n & J & T). destruct n as [| | | | | | | |t lo hi] eqn:E; try discriminate T. exists tip, b, t, lo, hi. repeat (split; [assumption|]). destruct t; try discriminate T; auto.
  - intros (tip & b & t & lo & hi & I & B & J & T). exists tip. split; [exact I|]. apply existsb_exists. exists b. split; [exact B|]. apply existsb_exists. eexists. split; [exact J|]. destruct T as [->|[->| ->]]; reflexivity.
Qed.
(** Whatever is kept, the meshes of a finished stroke can be drawn; colour shifts and texture coordinates are kept exactly when everything is
    kept or the brush coat can use them; the rest is always kept, in its order *)
Theorem C71_copied : forall r tips winding, exists l i f, copied_format N r tips winding = Some f /\ create l i = Some f /\ drawable (attributes_of f) /\
  (In 1 (map snd (attributes_of f)) <-> r = RetainAll \/ shifts_color tips) /\ (In 8 (map snd (attributes_of f)) <-> r = RetainAll \/ In true winding) /\
  exists keep, attributes_of f = filter keep full_attributes /\ forall t id, In (t, id) full_attributes -> id <> 1 -> id <> 8 -> keep (t, id) = true.
Proof.
  intros r tips winding. assert (WI : In true winding <-> existsb (fun w => w) winding = true) by (rewrite existsb_exists; split; [eauto|intros (x & I & ->); exact I]).
  set (A := fun c w => filter (fun x : atype * nat => (negb (snd x =? 1) || c) && (negb (snd x =? 8) || w)) full_attributes).
  assert (G : forall om c w, om = map snd (filter (fun x : atype * nat => negb ((negb (snd x =? 1) || c) && (negb (snd x =? 8) || w))) full_attributes) ->
     exists l i f, (match full_mesh_format with Some full => without_attributes full om | None => None end) = Some f /\ create l i = Some f /\ attributes_of f = A c w).
  { intros om c w ->. exists (map (fun x => (type_byte (fst x), snd x)) (A c w)), k32BitUnpacked16BitPacked. destruct c, w; (eexists; split; [vm_compute; reflexivity|split; vm_compute; reflexivity]). }
  set (c := existsb (uses_color_shift N) tips). set (w := existsb (fun w => w) winding).
  assert (H : exists l i f, copied_format N r tips winding = Some f /\ create l i = Some f /\ attributes_of f = match r with RetainAll => A true true | RetainUsed => A c w end).
  { unfold copied_format. destruct full_mesh_format as [full|] eqn:F; [|discriminate F]. assert (IDS : map aid (attrs full) = map snd full_attributes). { assert (X : option_map (fun g => map aid (attrs g)) full_mesh_format = Some (map snd full_attributes)) by (vm_compute; reflexivity). rewrite F in X. apply some_inj in X. exact X. }
    destruct r.
    - destruct (G [] true true) as (l & i & f & E); [vm_compute; reflexivity|]. try rewrite F in E. exists l, i, f. exact E.
    - destruct (G (omitted N RetainUsed full tips winding) c w) as (l & i & f & E); [|exists l, i, f; exact E]. unfold omitted, required_ids. rewrite IDS. fold c. fold w. destruct c, w; vm_compute; reflexivity. }
  destruct H as (l & i & f & E & C & AT). exists l, i, f. split; [exact E|]. split; [exact C|]. rewrite AT, <- shifts_iff, WI. fold c. fold w.
  assert (DR : forall c w, drawable (A c w)).
  { intros c0 w0. split; [right; exists []; eexists; reflexivity|]. split; [right|split; [right|split]].
    - exists ((Float2In3Bytes_XY12, 0) :: (Float1In1Byte, 2) :: if c0 then [(Float3In4Bytes_XYZ10, 1)] else []). destruct c0; eexists; reflexivity.
    - exists ((Float2In3Bytes_XY12, 0) :: (Float1In1Byte, 2) :: (if c0 then [(Float3In4Bytes_XYZ10, 1)] else []) ++ [(Float2In3Bytes_XY12, 4); (Float1In1Byte, 5)]). destruct c0; eexists; reflexivity.
    - intros t I. apply filter_In in I. destruct I as [I _]. unfold full_attributes, kPosition, kOpacityShift, kColorShiftHsl, kSideDerivative, kSideLabel, kForwardDerivative, kForwardLabel, kSurfaceUv in I. cbn [In] in I. intuition congruence.
    - intros t I. apply filter_In in I. destruct I as [I _]. unfold full_attributes, kPosition, kOpacityShift, kColorShiftHsl, kSideDerivative, kSideLabel, kForwardDerivative, kForwardLabel, kSurfaceUv in I. cbn [In] in I. intuition congruence. }
  assert (I1 : forall c w, In 1 (map snd (A c w)) <-> c = true) by (intros [] []; vm_compute; intuition (discriminate || congruence)).
  assert (I8 : forall c w, In 8 (map snd (A c w)) <-> w = true) by (intros [] []; vm_compute; intuition (discriminate || congruence)).
  assert (KP : forall c w, exists keep, A c w = filter keep full_attributes /\ forall t id, In (t, id) full_attributes -> id <> 1 -> id <> 8 -> keep (t, id) = true).
  { intros c0 w0. eexists. split; [reflexivity|]. intros t id _ N1 N8. cbn [snd]. apply Nat.eqb_neq in N1, N8. rewrite N1, N8. reflexivity. }
  destruct r; rewrite I1, I8; (split; [apply DR|]); (split; [intuition (discriminate || congruence)|]); (split; [intuition (discriminate || congruence)|]); apply KP.
Qed.
End Coats.
Print Assumptions C71_accepts.
Print Assumptions C71_layout.
Print Assumptions C71_reads.
Print Assumptions C71_in_progress.
Print Assumptions C71_copied.
