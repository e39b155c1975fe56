(** The control circles in exact arithmetic. *)
From Coq Require Import ZArith Reals Lra Lia Psatz Bool List.
From Flocq Require Import Core.
From Verif Require Import NumModel EasingExact BehaviorMeaning BehaviorModel BehaviorExact GeomModel AffineModel GeomSpec GeomReal GeomExact AffineProofs CircleModel CircleSpec CircleProofs TipShapeModel TipShapeSpec.
Import ListNotations.
Local Open Scope R_scope.

Definition state (t : tip) : @tip_state N :=
  @Build_tip_state N (Fin (px (t_at t))) (Fin (py (t_at t))) (Fin (t_width t)) (Fin (t_height t)) (Fin (t_rounding t)) (Fin (t_rotation t)) (Fin (t_slant t)) (Fin (t_pinch t)) (Fin 0) (Fin 1) (Fin 0) (Fin 1).
Definition model_circles (l : discs) : list (circle N) := map (fun d => circ (fst d) (snd d)) l.
(** the radius, half sizes and bottom half width that are used *)
Definition snap (m v : R) : R := if Rlt_bool (2 * v) m then 0 else v.
Definition used_radius (t : tip) (m : R) : R := if Rlt_bool (ideal_radius t) m then 0 else ideal_radius t.
Definition used_x (t : tip) (m : R) : R := snap m (t_width t / 2 - used_radius t m).
Definition used_y (t : tip) (m : R) : R := snap m (t_height t / 2 - used_radius t m).
Definition used_b (t : tip) (m : R) : R := snap m ((1 - t_pinch t) * used_x t m).
Definition used (t : tip) (m : R) : list (R * R) :=
  let x := used_x t m in let y := used_y t m in let b := used_b t m in
  if Req_bool x 0 && Req_bool y 0 then [(0, 0)]
  else if Req_bool y 0 then [(x, 0); (- x, 0)]
  else if Req_bool x 0 then [(0, y); (0, - y)]
  else if Req_bool b 0 then [(x, y); (- x, y); (0, - y)]
  else [(x, y); (- x, y); (- b, - y); (b, - y)].
Definition used_discs (t : tip) (m : R) : discs := map (fun xy => (placed t (fst xy) (snd xy), used_radius t m)) (used t m).
Lemma corner_x t r x y : 0 <= r -> corner (N := N) (state t) (Fin r) (Fin x) (Fin y) = Some (circ (placed t x y) r).
Proof.
  intros R. unfold corner, make_circle. rewrite x0. rewrite (proj2 (le_x _ _)) by exact R. f_equal. unfold circ. f_equal. unfold apply, compose, translate, rotate, padd, state, placed, plus, turned, pv.
  rewrite x0, x1e. cbn. f_equal; f_equal; ring.
Qed.
Lemma ideal_radius_bound t : valid t -> 0 <= ideal_radius t <= Rmin (t_width t / 2) (t_height t / 2).
Proof. intros (W & H & R & _). unfold ideal_radius. assert (0 <= Rmin (t_width t / 2) (t_height t / 2)) by (apply Rmin_glb; lra). nra. Qed.
Lemma used_radius_bound t m : valid t -> 0 <= used_radius t m <= Rmin (t_width t / 2) (t_height t / 2) /\ (used_radius t m = 0 \/ m <= used_radius t m) /\ Rabs (used_radius t m - ideal_radius t) <= Rmax 0 m.
Proof.
  intros V. pose proof (ideal_radius_bound t V) as B. unfold used_radius. destruct (Rlt_bool_spec (ideal_radius t) m) as [L|L].
  - split; [lra|]. split; [left; reflexivity|]. rewrite Rabs_left1 by lra. pose proof (Rmax_r 0 m). lra.
  - split; [exact B|]. split; [right; exact L|]. replace (ideal_radius t - ideal_radius t) with 0 by ring. rewrite Rabs_R0. apply Rmax_l.
Qed.
Lemma snap_eq m v : (if nlt N (nmul N (nZ 2) (Fin v)) (Fin m) then n0 else (Fin v : T N)) = Fin (snap m v).
Proof. rewrite xZ, x0. cbn [nmul nlt N xmul xlt]. unfold snap. destruct (Rlt_bool (2 * v) m); reflexivity. Qed.
Lemma snap_zero m v : 0 < m -> Req_bool (snap m v) 0 = Rlt_bool (2 * v) m.
Proof. intros M. unfold snap. destruct (Rlt_bool_spec (2 * v) m); [apply Req_bool_true; reflexivity|apply Req_bool_false; lra]. Qed.
Lemma snap_ok m v : 0 <= v -> 0 < m -> 0 <= snap m v <= v /\ (snap m v = 0 \/ m <= 2 * snap m v) /\ v - snap m v < m / 2 /\ (snap m v = 0 \/ snap m v = v).
Proof. intros V M. unfold snap. destruct (Rlt_bool_spec (2 * v) m); repeat split; lra. Qed.
Lemma eq_bool a b : neqb N (Fin a) (Fin b) = Req_bool a b. Proof. reflexivity. Qed.
Theorem circles_x t m : valid t -> 0 < m -> control_circles (N := N) (state t) (Fin m) = Some (model_circles (used_discs t m)).
Proof.
  intros V M. destruct (used_radius_bound t m V) as ((R0 & R1) & _). destruct V as (W & H & R & Pc). pose proof (Rmin_l (t_width t / 2) (t_height t / 2)). pose proof (Rmin_r (t_width t / 2) (t_height t / 2)).
  unfold control_circles, used_discs, used, model_circles. rewrite map_map. cbn [state ts_width ts_height ts_percent_radius ts_pinch ts_x ts_y]. rewrite !x0, !x1e.
  assert (negb (nle N (Fin 0) (Fin (t_width t)) && nle N (Fin 0) (Fin (t_height t)) && nle N (Fin 0) (Fin (t_rounding t)) && nle N (Fin (t_rounding t)) (Fin 1) && nle N (Fin 0) (Fin (t_pinch t)) && nle N (Fin (t_pinch t)) (Fin 1)) = false) as ->.
  { rewrite !(proj2 (le_x _ _)) by lra. reflexivity. }
  assert (HW : forall v, nmul N half (Fin v) = Fin (v / 2)) by (intros v; rewrite half_x; cbn; f_equal; field). rewrite !HW.
  assert (HR : circle_radius (N := N) (Fin (t_rounding t)) (Fin (t_width t / 2)) (Fin (t_height t / 2)) (Fin m) = Fin (used_radius t m)).
  { unfold circle_radius. rewrite min_x, x0. cbn [nmul nlt N xmul xlt]. unfold used_radius, ideal_radius. destruct (Rlt_bool _ m); reflexivity. }
  rewrite HR. assert (HS : forall a b, nsub N (Fin a) (Fin b) = Fin (a - b)) by reflexivity. rewrite !HS. rewrite <- x0, !snap_eq. fold (used_x t m). fold (used_y t m). rewrite x0. rewrite !eq_bool.
  assert (HO : forall v, nopp N (Fin v) = Fin (- v)) by reflexivity. rewrite !HO. assert (HM : forall a b, nmul N (Fin a) (Fin b) = Fin (a * b)) by reflexivity.
  rewrite xZ, !HM, ?HO. assert (HL : forall a b, nlt N (Fin a) (Fin b) = Rlt_bool a b) by reflexivity. rewrite !HL. rewrite <- snap_zero by exact M. fold (used_b t m). rewrite !corner_x by exact R0.
  assert (HP : (1 - t_pinch t) * used_x t m <> used_b t m -> used_b t m = 0). { unfold used_b, snap. destruct (Rlt_bool _ m); [reflexivity|]. intros Q. elim Q. reflexivity. }
  destruct (Req_bool (used_x t m) 0 && Req_bool (used_y t m) 0).
  - unfold make_circle. rewrite x0, (proj2 (le_x _ _)) by exact R0. cbn [all_of map fst snd]. f_equal. f_equal. unfold circ, pv, placed, plus, turned. cbn [px py]. f_equal. f_equal; f_equal; ring.
  - destruct (Req_bool (used_y t m) 0); [reflexivity|]. destruct (Req_bool (used_x t m) 0); [reflexivity|]. destruct (Req_bool_spec (used_b t m) 0) as [Z|Z]; [reflexivity|].
    destruct (Req_dec ((1 - t_pinch t) * used_x t m) (used_b t m)) as [->|Q]; [reflexivity|]. elim Z. exact (HP Q).
Qed.
Lemma used_ok t m : valid t -> 0 < m -> 0 <= used_x t m /\ 0 <= used_y t m /\ 0 <= used_b t m <= used_x t m /\
  (used_x t m = 0 \/ m <= 2 * used_x t m) /\ (used_y t m = 0 \/ m <= 2 * used_y t m) /\ (used_b t m = 0 \/ m <= 2 * used_b t m).
Proof.
  intros V M. destruct (used_radius_bound t m V) as ((R0 & R1) & _). destruct V as (W & H & R & Pc). pose proof (Rmin_l (t_width t / 2) (t_height t / 2)). pose proof (Rmin_r (t_width t / 2) (t_height t / 2)).
  destruct (snap_ok m (t_width t / 2 - used_radius t m)) as ((A1 & A2) & A3 & _); try lra. destruct (snap_ok m (t_height t / 2 - used_radius t m)) as ((B1 & B2) & B3 & _); try lra.
  fold (used_x t m) in *. fold (used_y t m) in *. assert (0 <= (1 - t_pinch t) * used_x t m <= used_x t m) by nra. destruct (snap_ok m ((1 - t_pinch t) * used_x t m)) as ((C1 & C2) & C3 & _); try lra. fold (used_b t m) in *.
  repeat split; try lra; assumption.
Qed.

(** ** How far discs reach *)
Lemma unit_len u : unit u -> len u = 1. Proof. intros U. unfold len. unfold unit, inner in *. rewrite U. apply sqrt_1. Qed.
Lemma reach_iff l u h : unit u -> (forall c r, In (c, r) l -> 0 <= r) ->
  reach l u h <-> (forall c r, In (c, r) l -> inner c u + r <= h) /\ exists c r, In (c, r) l /\ inner c u + r = h.
Proof.
  intros U R. unfold reach, supports, discs_set. split.
  - intros (A & p & (c & r & I & D) & E).
    assert (B : forall c r, In (c, r) l -> inner c u + r <= h). { intros d s J. destruct (proj2 (supports_disc d s u _ (R _ _ J) U) eq_refl) as (_ & q & Dq & <-). apply A. exists d, s. split; assumption. }
    split; [exact B|]. exists c, r. split; [exact I|]. pose proof (B _ _ I). destruct (proj2 (supports_disc c r u _ (R _ _ I) U) eq_refl) as (Q & _). pose proof (Q p D). lra.
  - intros (B & c & r & I & E). split.
    + intros p (d & s & J & D). destruct (proj2 (supports_disc d s u _ (R _ _ J) U) eq_refl) as (Q & _). pose proof (Q p D). pose proof (B _ _ J). lra.
    + destruct (proj2 (supports_disc c r u _ (R _ _ I) U) eq_refl) as (_ & q & Dq & E'). exists q. split; [exists c, r; split; assumption|lra].
Qed.
(** the two directions of the tip's own coordinates *)
Definition along_x (t : tip) (u : pt) : R := inner (turned (t_rotation t) (P 1 0)) u.
Definition along_y (t : tip) (u : pt) : R := inner (turned (t_rotation t) (turned (t_slant t) (P 0 1))) u.
Lemma placed_inner t x y u : inner (placed t x y) u = inner (t_at t) u + x * along_x t u + y * along_y t u.
Proof. unfold placed, along_x, along_y, inner, plus, turned. cbn. ring. Qed.
Lemma turned_len a p : len (turned a p) = len p.
Proof. unfold len. f_equal. unfold inner, turned. cbn. pose proof (sin2_cos2 a) as S. unfold Rsqr in S. transitivity ((px p * px p + py p * py p) * (sin a * sin a + cos a * cos a)); [ring|rewrite S; ring]. Qed.
Lemma cauchy_abs a b : Rabs (inner a b) <= len a * len b.
Proof.
  unfold Rabs. destruct (Rcase_abs (inner a b)) as [L|L]; [|apply cauchy]. pose proof (cauchy (P (- px a) (- py a)) b) as C. replace (len (P (- px a) (- py a))) with (len a) in C by (unfold len, inner; cbn; f_equal; ring).
  replace (inner (P (- px a) (- py a)) b) with (- inner a b) in C by (unfold inner; cbn; ring). exact C.
Qed.
Lemma along_bound t u : unit u -> Rabs (along_x t u) <= 1 /\ Rabs (along_y t u) <= 1.
Proof.
  intros U. assert (L1 : len (P 1 0) = 1) by (unfold len, inner; cbn; replace (1 * 1 + 0 * 0) with 1 by ring; apply sqrt_1). assert (L2 : len (P 0 1) = 1) by (unfold len, inner; cbn; replace (0 * 0 + 1 * 1) with 1 by ring; apply sqrt_1).
  split; [pose proof (cauchy_abs (turned (t_rotation t) (P 1 0)) u) as C|pose proof (cauchy_abs (turned (t_rotation t) (turned (t_slant t) (P 0 1))) u) as C]; rewrite ?turned_len, ?L1, ?L2, (unit_len u U), Rmult_1_l in C; exact C.
Qed.
Lemma used_in t m c r : In (c, r) (used_discs t m) <-> exists x y, In (x, y) (used t m) /\ c = placed t x y /\ r = used_radius t m.
Proof.
  unfold used_discs. rewrite in_map_iff. split.
  - intros ((x & y) & E & I). injection E. intros. exists x, y. cbn in *. subst. auto.
  - intros (x & y & I & -> & ->). exists (x, y). split; [reflexivity|exact I].
Qed.
Lemma small_product d m a : Rabs d <= m -> Rabs a <= 1 -> - m <= d * a <= m.
Proof. intros D A. pose proof (Rabs_pos d). apply Rabs_le_inv. rewrite Rabs_mult. pose proof (Rabs_pos a). nra. Qed.
Theorem used_close t m u h h' : valid t -> 0 < m -> unit u -> reach (used_discs t m) u h -> reach (ideal t) u h' -> Rabs (h - h') <= 3 * m.
Proof.
  intros V M U A B. destruct (used_radius_bound t m V) as ((R0 & R1) & _ & _). pose proof (ideal_radius_bound t V) as (I0 & I1).
  apply reach_iff in A; [|exact U|intros c r I; apply used_in in I; destruct I as (? & ? & _ & _ & ->); exact R0].
  apply reach_iff in B; [|exact U|unfold ideal; intros c r I; cbn [In] in I; repeat destruct I as [I|I]; try (injection I; intros; subst; exact I0); contradiction].
  destruct (along_bound t u U) as [Ba Bb]. pose proof (Rmin_l (t_width t / 2) (t_height t / 2)) as ML. pose proof (Rmin_r (t_width t / 2) (t_height t / 2)) as MR.
  assert (DR : 0 <= ideal_radius t - used_radius t m <= m) by (unfold used_radius; destruct (Rlt_bool_spec (ideal_radius t) m); lra).
  destruct V as (W & H & _ & Pc). set (R' := ideal_radius t) in *. set (r := used_radius t m) in *. set (X := t_width t / 2 - R') in *. set (Y := t_height t / 2 - R') in *.
  destruct (snap_ok m (t_width t / 2 - r)) as ((A1 & A2) & A3 & A4 & A5); try lra. destruct (snap_ok m (t_height t / 2 - r)) as ((B1 & B2) & B3 & B4 & B5); try lra.
  unfold r in A1, A2, A3, A4, B1, B2, B3, B4. fold (used_x t m) in A1, A2, A3, A4. fold (used_y t m) in B1, B2, B3, B4. fold r in A2, A4, B2, B4. clear A5 B5.
  assert (HB : 0 <= (1 - t_pinch t) * used_x t m) by nra. destruct (snap_ok m ((1 - t_pinch t) * used_x t m)) as ((C1 & C2) & C3 & C4 & _); try lra. fold (used_b t m) in C1, C2, C3, C4.
  set (x := used_x t m) in *. set (y := used_y t m) in *. set (b := used_b t m) in *. set (b' := (1 - t_pinch t) * X).
  assert (DX : Rabs (x - X) <= m) by (apply Rabs_le; unfold X; lra). assert (DY : Rabs (y - Y) <= m) by (apply Rabs_le; unfold Y; lra).
  assert (DB : Rabs (b - b') <= m). { apply Rabs_le. unfold b'. assert (- (m / 2) < x - X) by (unfold X; lra). assert (x - X <= m) by (unfold X; lra). nra. }
  assert (X0 : 0 <= X) by (unfold X; lra). assert (Y0 : 0 <= Y) by (unfold Y; lra). assert (B0 : 0 <= b' <= X) by (unfold b'; nra).
  set (a := along_x t u) in *. set (e := along_y t u) in *. set (o := inner (t_at t) u) in *.
  pose proof (small_product _ _ _ DX Ba) as PX. pose proof (small_product _ _ _ DY Bb) as PY. pose proof (small_product _ _ _ DB Ba) as PB.
  destruct A as (Au & Ae). destruct B as (Bu & Be).
  assert (Au' : forall p q, In (p, q) (used t m) -> o + p * a + q * e + r <= h) by (intros p q I; unfold o, a, e; rewrite <- (placed_inner t p q u); apply Au; apply used_in; exists p, q; auto).
  assert (Bu' : o + X * a + Y * e + R' <= h' /\ o + - X * a + Y * e + R' <= h' /\ o + - b' * a + - Y * e + R' <= h' /\ o + b' * a + - Y * e + R' <= h').
  { unfold o, a, e. rewrite <- !placed_inner. unfold ideal in Bu. fold R' X Y b' in Bu. repeat split; apply Bu; cbn [In]; tauto. }
  assert (SX : Rabs (b' * a) <= X * Rabs a). { rewrite Rabs_mult, (Rabs_pos_eq b') by lra. pose proof (Rabs_pos a). nra. }
  assert (Be' : h' = o + X * a + Y * e + R' \/ h' = o + - X * a + Y * e + R' \/ h' = o + - b' * a + - Y * e + R' \/ h' = o + b' * a + - Y * e + R').
  { destruct Be as (c & s & I & E). unfold ideal in I. fold R' X Y b' in I. unfold o, a, e. rewrite <- !placed_inner. cbn [In] in I. repeat destruct I as [I|I]; try (injection I; intros; subst; tauto). contradiction. }
  assert (Ae' : exists p q, In (p, q) (used t m) /\ h = o + p * a + q * e + r). { destruct Ae as (c & s & I & E). apply used_in in I. destruct I as (p & q & I & -> & ->). exists p, q. split; [exact I|]. rewrite placed_inner in E. unfold o, a, e. fold r in E. lra. }
  clear Au Ae Bu Be. destruct Ae' as (p & q & I & Eh). destruct Bu' as (U1 & U2 & U3 & U4). clearbody a e o. clear Ba Bb.
  unfold used in Au', I. fold x y b in Au', I. clearbody x y b b' X Y r R'.
  assert (UP : h - h' <= 3 * m).
  { destruct (Req_bool_spec x 0) as [Zx|Zx], (Req_bool_spec y 0) as [Zy|Zy]; cbn [andb] in I; [| | |destruct (Req_bool_spec b 0) as [Zb|Zb]]; cbn [In] in I; repeat destruct I as [I|I]; try contradiction; injection I; intros; subst p q; subst; lra. }
  assert (DN : h' - h <= 3 * m).
  { destruct (Req_bool_spec x 0) as [Zx|Zx], (Req_bool_spec y 0) as [Zy|Zy]; cbn [andb] in Au'; [| | |destruct (Req_bool_spec b 0) as [Zb|Zb]].
    - pose proof (Au' 0 0 ltac:(cbn; tauto)). subst x y. assert (Rabs (b' * a) <= m). { assert (Rabs (X * a) <= m) by (apply Rabs_le; lra). rewrite Rabs_mult, (Rabs_pos_eq X) in H1 by lra. lra. } apply Rabs_le_inv in H1. destruct Be' as [->|[->|[->| ->]]]; lra.
    - pose proof (Au' 0 y ltac:(cbn; tauto)). pose proof (Au' 0 (- y) ltac:(cbn; tauto)). subst x. assert (Rabs (b' * a) <= m). { assert (Rabs (X * a) <= m) by (apply Rabs_le; lra). rewrite Rabs_mult, (Rabs_pos_eq X) in H2 by lra. lra. } apply Rabs_le_inv in H2. destruct Be' as [->|[->|[->| ->]]]; lra.
    - pose proof (Au' x 0 ltac:(cbn; tauto)). pose proof (Au' (- x) 0 ltac:(cbn; tauto)). subst y. apply Rabs_le_inv in SX. unfold Rabs in SX. destruct (Rcase_abs a); destruct Be' as [->|[->|[->| ->]]]; lra.
    - pose proof (Au' x y ltac:(cbn; tauto)). pose proof (Au' (- x) y ltac:(cbn; tauto)). pose proof (Au' 0 (- y) ltac:(cbn; tauto)). subst b. destruct Be' as [->|[->|[->| ->]]]; lra.
    - pose proof (Au' x y ltac:(cbn; tauto)). pose proof (Au' (- x) y ltac:(cbn; tauto)). pose proof (Au' (- b) (- y) ltac:(cbn; tauto)). pose proof (Au' b (- y) ltac:(cbn; tauto)). destruct Be' as [->|[->|[->| ->]]]; lra. }
  apply Rabs_le. lra.
Qed.

(** ** Bounds *)
Lemma circle_bounds_x c r : 0 <= r -> circle_bounds (N := N) (circ c r) = Some (bx (px c - r) (py c - r) (px c + r) (py c + r)).
Proof.
  intros R. unfold circle_bounds, rect_from_center. cbn [circ center radius]. rewrite xZ, x0. cbn [nmul N xmul]. rewrite !(proj2 (le_x _ _)) by lra. cbn [andb]. rewrite n2_x. cbn [pv vx vy ndiv nsub nadd N xdiv]. rewrite Req_bool_false by lra.
  cbn [xsub xopp xadd]. unfold bx. f_equal. f_equal; f_equal; field.
Qed.
Definition tight (l : discs) (x0 y0 x1 y1 : R) : Prop :=
  (forall c r, In (c, r) l -> x0 <= px c - r /\ y0 <= py c - r /\ px c + r <= x1 /\ py c + r <= y1) /\
  (exists c r, In (c, r) l /\ px c - r = x0) /\ (exists c r, In (c, r) l /\ py c - r = y0) /\ (exists c r, In (c, r) l /\ px c + r = x1) /\ (exists c r, In (c, r) l /\ py c + r = y1).
Lemma min_cases a b : (Rmin a b = a \/ Rmin a b = b) /\ Rmin a b <= a /\ Rmin a b <= b.
Proof. unfold Rmin. destruct (Rle_dec a b); repeat split; try lra; tauto. Qed.
Lemma max_cases a b : (Rmax a b = a \/ Rmax a b = b) /\ a <= Rmax a b /\ b <= Rmax a b.
Proof. unfold Rmax. destruct (Rle_dec a b); repeat split; try lra; tauto. Qed.
Lemma bounds_fold l : forall k x0 y0 x1 y1, (forall c r, In (c, r) (k ++ l) -> 0 <= r) -> tight k x0 y0 x1 y1 ->
  exists x0' y0' x1' y1', fold_left (fun b c => match b, circle_bounds (N := N) c with Some b, Some r => Some (rect_join b r) | _, _ => None end) (model_circles l) (Some (bx x0 y0 x1 y1)) = Some (bx x0' y0' x1' y1') /\ tight (k ++ l) x0' y0' x1' y1'.
Proof.
  induction l as [|[c r] l IH]; intros k a0 b0 a1 b1 R T.
  - exists a0, b0, a1, b1. rewrite app_nil_r. split; [reflexivity|exact T].
  - cbn [model_circles map fold_left fst snd]. rewrite circle_bounds_x by (apply (R c); apply in_or_app; right; left; reflexivity). unfold rect_join. cbn [bx x_min y_min x_max y_max]. rewrite !min_x, !max_x.
    replace (k ++ (c, r) :: l) with ((k ++ [(c, r)]) ++ l) in R |- * by (rewrite <- app_assoc; reflexivity).
    apply (IH (k ++ [(c, r)]) (Rmin a0 (px c - r)) (Rmin b0 (py c - r)) (Rmax a1 (px c + r)) (Rmax b1 (py c + r))); [exact R|].
    destruct T as (T & E1 & E2 & E3 & E4). pose proof (min_cases a0 (px c - r)) as (M1 & M1' & M1''). pose proof (min_cases b0 (py c - r)) as (M2 & M2' & M2''). pose proof (max_cases a1 (px c + r)) as (M3 & M3' & M3''). pose proof (max_cases b1 (py c + r)) as (M4 & M4' & M4'').
    split; [|split; [|split; [|split]]].
    + intros d s I. apply in_app_or in I. destruct I as [I|[I|[]]]; [specialize (T _ _ I); lra|injection I; intros; subst; lra].
    + destruct M1 as [-> | ->]; [destruct E1 as (d & s & I & E); exists d, s; split; [apply in_or_app; left; exact I|exact E]|exists c, r; split; [apply in_or_app; right; left; reflexivity|reflexivity]].
    + destruct M2 as [-> | ->]; [destruct E2 as (d & s & I & E); exists d, s; split; [apply in_or_app; left; exact I|exact E]|exists c, r; split; [apply in_or_app; right; left; reflexivity|reflexivity]].
    + destruct M3 as [-> | ->]; [destruct E3 as (d & s & I & E); exists d, s; split; [apply in_or_app; left; exact I|exact E]|exists c, r; split; [apply in_or_app; right; left; reflexivity|reflexivity]].
    + destruct M4 as [-> | ->]; [destruct E4 as (d & s & I & E); exists d, s; split; [apply in_or_app; left; exact I|exact E]|exists c, r; split; [apply in_or_app; right; left; reflexivity|reflexivity]].
Qed.
Theorem bounds_x v l : l <> [] -> (forall c r, In (c, r) l -> 0 <= r) -> exists x0 y0 x1 y1, bounds (N := N) (Shape v (model_circles l)) = Some (bx x0 y0 x1 y1) /\ tight l x0 y0 x1 y1.
Proof.
  intros Ne R. destruct l as [|[c r] l]; [congruence|]. unfold bounds. cbn [s_circles model_circles map fst snd]. rewrite circle_bounds_x by (apply (R c); left; reflexivity). apply (bounds_fold l [(c, r)]); [exact R|].
  split; [intros d s [I|[]]; injection I; intros; subst; lra|]. repeat split; exists c, r; (split; [left; reflexivity|reflexivity]).
Qed.
Lemma tight_reach l x0 y0 x1 y1 : (forall c r, In (c, r) l -> 0 <= r) -> tight l x0 y0 x1 y1 <->
  reach l (P (-1) 0) (- x0) /\ reach l (P 0 (-1)) (- y0) /\ reach l (P 1 0) x1 /\ reach l (P 0 1) y1.
Proof.
  intros R. rewrite !reach_iff; try exact R; try (unfold unit; cbn; ring). unfold inner. cbn [px py]. split.
  - intros (T & E1 & E2 & E3 & E4). repeat split; try (intros c r I; specialize (T _ _ I); lra).
    + destruct E1 as (c & r & I & E). exists c, r. split; [exact I|lra].
    + destruct E2 as (c & r & I & E). exists c, r. split; [exact I|lra].
    + destruct E3 as (c & r & I & E). exists c, r. split; [exact I|lra].
    + destruct E4 as (c & r & I & E). exists c, r. split; [exact I|lra].
  - intros ((A1 & B1) & (A2 & B2) & (A3 & B3) & (A4 & B4)). split; [intros c r I; specialize (A1 _ _ I); specialize (A2 _ _ I); specialize (A3 _ _ I); specialize (A4 _ _ I); lra|]. repeat split.
    + destruct B1 as (c & r & I & E). exists c, r. split; [exact I|lra].
    + destruct B2 as (c & r & I & E). exists c, r. split; [exact I|lra].
    + destruct B3 as (c & r & I & E). exists c, r. split; [exact I|lra].
    + destruct B4 as (c & r & I & E). exists c, r. split; [exact I|lra].
Qed.
(** ** No circle is doubled *)
Lemma placed_inj t x y x' y' : cos (t_slant t) <> 0 -> placed t x y = placed t x' y' -> x = x' /\ y = y'.
Proof.
  intros C E. assert (E1 : turned (t_rotation t) (plus (P x 0) (turned (t_slant t) (P 0 y))) = turned (t_rotation t) (plus (P x' 0) (turned (t_slant t) (P 0 y')))).
  { unfold placed, plus at 1 3 in E. apply (f_equal px) in E as A. apply (f_equal py) in E as B. cbn [px py] in A, B. apply pt_eq; lra. }
  assert (E2 : plus (P x 0) (turned (t_slant t) (P 0 y)) = plus (P x' 0) (turned (t_slant t) (P 0 y'))).
  { set (p := plus (P x 0) (turned (t_slant t) (P 0 y))) in *. set (q := plus (P x' 0) (turned (t_slant t) (P 0 y'))) in *. clearbody p q. apply (f_equal px) in E1 as A. apply (f_equal py) in E1 as B. unfold turned in A, B. cbn [px py] in A, B.
    pose proof (sin2_cos2 (t_rotation t)) as S. unfold Rsqr in S. apply pt_eq.
    - transitivity (px p * (sin (t_rotation t) * sin (t_rotation t) + cos (t_rotation t) * cos (t_rotation t))); [rewrite S; ring|]. transitivity (px q * (sin (t_rotation t) * sin (t_rotation t) + cos (t_rotation t) * cos (t_rotation t))); [|rewrite S; ring]. set (s := sin (t_rotation t)) in *. set (c := cos (t_rotation t)) in *. transitivity (c * (px p * c - py p * s) + s * (px p * s + py p * c)); [ring|]. rewrite A, B. ring.
    - transitivity (py p * (sin (t_rotation t) * sin (t_rotation t) + cos (t_rotation t) * cos (t_rotation t))); [rewrite S; ring|]. transitivity (py q * (sin (t_rotation t) * sin (t_rotation t) + cos (t_rotation t) * cos (t_rotation t))); [|rewrite S; ring]. set (s := sin (t_rotation t)) in *. set (c := cos (t_rotation t)) in *. transitivity (c * (px p * s + py p * c) - s * (px p * c - py p * s)); [ring|]. rewrite A, B. ring. }
  apply (f_equal px) in E2 as A. apply (f_equal py) in E2 as B. unfold plus, turned in A, B. cbn [px py] in A, B. assert (y = y') by (apply (Rmult_eq_reg_r (cos (t_slant t))); [lra|exact C]). subst y'. split; [lra|reflexivity].
Qed.
Lemma used_nodup t m : valid t -> 0 < m -> NoDup (used t m) /\ (1 <= length (used t m) <= 4)%nat.
Proof.
  intros V M. destruct (used_ok t m V M) as (X0 & Y0 & B0 & _). unfold used. destruct (Req_bool_spec (used_x t m) 0) as [Zx|Zx], (Req_bool_spec (used_y t m) 0) as [Zy|Zy]; cbn [andb]; [| | |destruct (Req_bool_spec (used_b t m) 0) as [Zb|Zb]];
    (split; [|cbn [length]; lia]); repeat constructor; cbn [In]; intros Q; repeat destruct Q as [Q|Q]; try contradiction; apply pair_equal_spec in Q; lra.
Qed.
