(** Rect, quad and segment operations in exact arithmetic. *)
From Coq Require Import ZArith Reals Lra Psatz Bool List.
From Flocq Require Import Core.
From Verif Require Import NumModel EasingExact GeomModel GeomSpec GeomReal GeomExact GeomMeet.
Import ListNotations.
Local Open Scope R_scope.

(** ** Intersection of any two objects *)
Inductive thing := TPoint (a : pt) | TSegment (a b : pt) | TTriangle (a b c : pt) | TRect (x0 y0 x1 y1 : R) | TQuad (c : pt) (w h r s : R).
Definition thing_set (t : thing) : shape :=
  match t with TPoint a => point_set a | TSegment a b => seg_set a b | TTriangle a b c => tri_set a b c | TRect x0 y0 x1 y1 => box_set x0 y0 x1 y1 | TQuad c w h r s => quad_set c w h r s end.
Definition thing_ok (t : thing) : Prop :=
  match t with TRect x0 y0 x1 y1 => x0 <= x1 /\ y0 <= y1 | TQuad _ w _ _ _ => 0 <= w | _ => True end.
Definition thing_object (t : thing) : object N :=
  match t with TPoint a => OPoint (pv a) | TSegment a b => OSegment (sg a b) | TTriangle a b c => OTriangle (tr a b c) | TRect x0 y0 x1 y1 => ORect (bx x0 y0 x1 y1) | TQuad c w h r s => OQuad (qd c w h r s) end.
Theorem intersects_x a b : thing_ok a -> thing_ok b -> (intersects (thing_object a) (thing_object b) = true <-> meet (thing_set a) (thing_set b)).
Proof.
  intros A B. destruct a, b; cbn [thing_ok thing_object thing_set intersects] in *.
  - rewrite meet_point, veq_x; reflexivity.
  - rewrite meet_point; apply point_segment.
  - rewrite meet_point; apply triangle_contains.
  - rewrite meet_point; apply box_contains.
  - rewrite meet_point; apply quad_contains_x; exact B.
  - rewrite meet_sym; rewrite meet_point; apply point_segment.
  - apply segments.
  - apply segment_triangle.
  - apply segment_box; apply B.
  - apply segment_quad; exact B.
  - rewrite meet_sym; rewrite meet_point; apply triangle_contains.
  - rewrite meet_sym; apply segment_triangle.
  - apply triangles.
  - apply triangle_box; apply B.
  - apply triangle_quad; exact B.
  - rewrite meet_sym; rewrite meet_point; apply box_contains.
  - rewrite meet_sym; apply segment_box; apply A.
  - rewrite meet_sym; apply triangle_box; apply A.
  - apply boxes; (apply A || apply B).
  - apply box_quad; (apply A || exact B).
  - rewrite meet_sym; rewrite meet_point; apply quad_contains_x; exact A.
  - rewrite meet_sym; apply segment_quad; exact A.
  - rewrite meet_sym; apply triangle_quad; exact A.
  - rewrite meet_sym; apply box_quad; (apply B || exact A).
  - apply quads; assumption.
Qed.
(** ** Rects *)
Lemma set_width_x x0 y0 x1 y1 w : rect_set_width (bx x0 y0 x1 y1) (Fin w : T N) = if Rle_bool 0 w then Some (bx ((x0 + x1) / 2 - w / 2) y0 ((x0 + x1) / 2 + w / 2) y1) else None.
Proof.
  unfold rect_set_width. rewrite EasingExact.x0, n2_x. destruct (Rle_bool_spec 0 w) as [H|H].
  - rewrite (proj2 (le_x 0 w)) by exact H. cbn [bx x_min x_max y_min y_max ndiv nadd nsub N xadd xdiv xsub xopp]. rewrite !Req_bool_false by lra. reflexivity.
  - rewrite (proj2 (le_xf 0 w)) by exact H. reflexivity.
Qed.
Lemma set_height_x x0 y0 x1 y1 h : rect_set_height (bx x0 y0 x1 y1) (Fin h : T N) = if Rle_bool 0 h then Some (bx x0 ((y0 + y1) / 2 - h / 2) x1 ((y0 + y1) / 2 + h / 2)) else None.
Proof.
  unfold rect_set_height. rewrite EasingExact.x0, n2_x. destruct (Rle_bool_spec 0 h) as [H|H].
  - rewrite (proj2 (le_x 0 h)) by exact H. cbn [bx x_min x_max y_min y_max ndiv nadd nsub N xadd xdiv xsub xopp]. rewrite !Req_bool_false by lra. reflexivity.
  - rewrite (proj2 (le_xf 0 h)) by exact H. reflexivity.
Qed.
(** each side moves outwards by [d]; if they would cross, both stop in the middle *)
Definition side_low (a b d : R) : R := if Rlt_bool (b + d) (a - d) then (a + b) / 2 else a - d.
Definition side_high (a b d : R) : R := if Rlt_bool (b + d) (a - d) then (a + b) / 2 else b + d.
Lemma offset_x x0 y0 x1 y1 h v : rect_offset (bx x0 y0 x1 y1) (Fin h : T N) (Fin v : T N) = bx (side_low x0 x1 h) (side_low y0 y1 v) (side_high x0 x1 h) (side_high y0 y1 v).
Proof.
  unfold rect_offset. cbn [bx x_min x_max y_min y_max nadd nsub N xadd xsub xopp]. fold (bx (x0 + - h) (y0 + - v) (x1 + h) (y1 + v)).
  assert (E : (if nlt N (rect_width (bx (x0 + - h) (y0 + - v) (x1 + h) (y1 + v))) n0 then match rect_set_width (bx (x0 + - h) (y0 + - v) (x1 + h) (y1 + v)) n0 with Some q => q | None => bx (x0 + - h) (y0 + - v) (x1 + h) (y1 + v) end else bx (x0 + - h) (y0 + - v) (x1 + h) (y1 + v))
    = bx (side_low x0 x1 h) (y0 + - v) (side_high x0 x1 h) (y1 + v)).
  { unfold rect_width. cbn [bx x_min x_max nsub N xsub xopp xadd]. rewrite EasingExact.x0. unfold side_low, side_high. destruct (Rlt_bool_spec (x1 + h) (x0 - h)) as [L|L].
    - rewrite (proj2 (lt_x _ _)) by lra. rewrite set_width_x, Rle_bool_true by lra. unfold bx. f_equal; f_equal; lra.
    - rewrite (proj2 (lt_xf _ _)) by lra. reflexivity. }
  cbv zeta. rewrite E. clear E. unfold rect_height. cbn [bx y_min y_max nsub N xsub xopp xadd]. rewrite EasingExact.x0. fold (bx (side_low x0 x1 h) (y0 + - v) (side_high x0 x1 h) (y1 + v)).
  assert (S1 : side_low y0 y1 v = if Rlt_bool (y1 + v) (y0 - v) then (y0 + y1) / 2 else y0 - v) by reflexivity. assert (S2 : side_high y0 y1 v = if Rlt_bool (y1 + v) (y0 - v) then (y0 + y1) / 2 else y1 + v) by reflexivity.
  rewrite S1, S2. destruct (Rlt_bool_spec (y1 + v) (y0 - v)) as [L|L].
  - rewrite (proj2 (lt_x _ _)) by lra. rewrite set_height_x, Rle_bool_true by lra. unfold bx. f_equal; f_equal; lra.
  - rewrite (proj2 (lt_xf _ _)) by lra. reflexivity.
Qed.
Lemma from_center_x c w h : rect_from_center (pv c) (Fin w : T N) (Fin h : T N) = if Rle_bool 0 w && Rle_bool 0 h then Some (bx (px c - w / 2) (py c - h / 2) (px c + w / 2) (py c + h / 2)) else None.
Proof.
  unfold rect_from_center. rewrite x0, n2_x. destruct (Rle_bool_spec 0 w) as [H|H].
  - rewrite (proj2 (le_x 0 w)) by exact H. destruct (Rle_bool_spec 0 h) as [K|K].
    + rewrite (proj2 (le_x 0 h)) by exact K. cbn [andb pv vx vy ndiv nadd nsub N xadd xdiv xsub xopp]. rewrite !Req_bool_false by lra. reflexivity.
    + rewrite (proj2 (le_xf 0 h)) by exact K. reflexivity.
  - rewrite (proj2 (le_xf 0 w)) by exact H. reflexivity.
Qed.
Lemma ratio_x x0 y0 x1 y1 : rect_aspect_ratio (bx x0 y0 x1 y1) = if Req_bool (y1 - y0) 0 then None else Some (Fin ((x1 - x0) / (y1 - y0))).
Proof.
  unfold rect_aspect_ratio, rect_height, rect_width. cbn [bx x_min x_max y_min y_max nsub N xsub xopp xadd ndiv xdiv]. rewrite EasingExact.x0. cbn [neqb N xeq].
  change (y1 + - y0) with (y1 - y0). change (x1 + - x0) with (x1 - x0). destruct (Req_bool (y1 - y0) 0); reflexivity.
Qed.
Lemma scale_x x0 y0 x1 y1 s t : x0 <= x1 -> y0 <= y1 -> 0 <= s -> 0 <= t -> rect_scale (bx x0 y0 x1 y1) (Fin s : T N) (Fin t : T N) =
  Some (bx ((x0 + x1) / 2 - s * (x1 - x0) / 2) ((y0 + y1) / 2 - t * (y1 - y0) / 2) ((x0 + x1) / 2 + s * (x1 - x0) / 2) ((y0 + y1) / 2 + t * (y1 - y0) / 2)).
Proof.
  intros X Y S0 T0. unfold rect_scale. rewrite EasingExact.x0, !(proj2 (le_x _ _)) by assumption. cbn [andb]. rewrite half_x, x1e. unfold rect_width, rect_height. cbn [bx x_min x_max y_min y_max nopp nsub nmul N xsub xopp xadd xmul].
  fold (bx x0 y0 x1 y1). rewrite offset_x. f_equal. unfold bx, side_low, side_high.
  assert (0 <= s * (x1 - x0)) by (apply Rmult_le_pos; lra). assert (0 <= t * (y1 - y0)) by (apply Rmult_le_pos; lra).
  rewrite !Rlt_bool_false by lra. f_equal; f_equal; lra.
Qed.
(** ** Quad::Join *)
Lemma sign_x x : sign1 (N := N) (Fin x) = Fin (if Rlt_bool x 0 then -1 else 1).
Proof. unfold sign1. cbn [nsign N xneg]. rewrite x1e. destruct (Rlt_bool x 0); reflexivity. Qed.
Definition sgn (x : R) : R := if Rlt_bool x 0 then -1 else 1.
Lemma sgn_abs x : sgn x * Rabs x = x.
Proof. unfold sgn. destruct (Rlt_bool_spec x 0); [rewrite Rabs_left by lra; lra|rewrite Rabs_pos_eq by lra; lra]. Qed.
(** coordinates of a point along the unit axes *)
Definition ucoord (c : pt) (r s : R) (p : pt) : R := cos r * (px p - px c) + sin r * (py p - py c) - s * (cos r * (py p - py c) - sin r * (px p - px c)).
Definition vcoord (c : pt) (r : R) (p : pt) : R := cos r * (py p - py c) - sin r * (px p - px c).
Lemma quad_iff c w h r s p : 0 <= w -> (quad_set c w h r s p <-> Rabs (ucoord c r s p) <= / 2 * w /\ Rabs (vcoord c r p) <= / 2 * Rabs h).
Proof.
  intros W. rewrite quad_coords by exact W. unfold ucoord, vcoord. split.
  - intros (A & B & HA & HB & E1 & E2). destruct (axes_inv r s A B) as [I1 I2]. cbn zeta in I1, I2. rewrite <- E1, <- E2 in I1, I2. rewrite I2, I1. auto.
  - intros [HA HB]. destruct (axes_coords r s (px p - px c) (py p - py c)) as (A & B & Ex & Ey & EB & EA). rewrite <- EB in *. rewrite EB in HB. exists A, B. rewrite EA. rewrite <- EB in HB. repeat split; try assumption; rewrite <- ?EA; auto.
Qed.
Definition joined (c : pt) (w h r s : R) (p : pt) : pt * R * R :=
  let A := ucoord c r s p in let B := vcoord c r p in
  let w' := Rmax w (/ 2 * w + Rabs A) in let h' := Rmax (Rabs h) (/ 2 * Rabs h + Rabs B) in
  let du := / 2 * sgn A * (w' - w) in let dv := / 2 * sgn B * (h' - Rabs h) in
  (P (px c + du * cos r + dv * (s * cos r - sin r)) (py c + du * sin r + dv * (s * sin r + cos r)), w', sgn h * h').
Lemma join_x c w h r s p : 0 <= w -> quad_join (qd c w h r s) (pv p) = let '(c', w', h') := joined c w h r s p in qd c' w' h' r s.
Proof.
  intros Hw. unfold quad_join. rewrite unit_axes_x. cbn [qd q_center q_width q_height q_rotation q_shear]. rewrite sub_x, dot_x, !det_x, half_x.
  set (A := ucoord c r s p). set (B := vcoord c r p).
  assert (EB : det2 (P (cos r) (sin r)) (sub p c) = B) by (unfold det2, sub, B, vcoord; cbn; ring). rewrite EB.
  assert (EA : dot2 (P (cos r) (sin r)) (sub p c) - s * B = A) by (unfold dot2, sub, A, B, ucoord, vcoord; cbn; ring).
  assert (EV : det2 (P (s * cos r - sin r) (s * sin r + cos r)) (sub p c) = - A).
  { unfold det2, sub, A, ucoord. cbn [px py]. ring. }
  rewrite EV. cbn [nmul nsub nabs N xmul xsub xopp xadd nadd nopp]. change (dot2 (P (cos r) (sin r)) (sub p c) + - (s * B)) with (dot2 (P (cos r) (sin r)) (sub p c) - s * B). rewrite EA, !sign_x.
  change (nadd N (Fin (/ 2 * w)) (Fin (Rabs A))) with (Fin (/ 2 * w + Rabs A)). rewrite !max_x. unfold joined. fold A B. cbn [nmul nsub N xmul xsub xopp xadd nadd].
  unfold padd, vscale, qd, pv. cbn [vx vy nmul nadd N xmul xadd px py]. fold (sgn h). fold (sgn B).
  set (w' := Rmax w (/ 2 * w + Rabs A)). set (h' := Rmax (Rabs h) (/ 2 * Rabs h + Rabs B)).
  assert (DU : (- / 2) * (if Rlt_bool (- A) 0 then -1 else 1) * (w' + - w) = / 2 * sgn A * (w' - w)).
  { unfold sgn. destruct (Rlt_bool_spec (- A) 0), (Rlt_bool_spec A 0); try lra. assert (A0 : A = 0) by lra. unfold w'. rewrite A0, Rabs_R0, Rmax_left by lra. ring. }
  assert (DV : / 2 * sgn B * sgn h * (sgn h * h' + - h) = / 2 * sgn B * (h' - Rabs h)).
  { rewrite <- (sgn_abs h) at 3. assert (SS : sgn h * sgn h = 1) by (unfold sgn; destruct (Rlt_bool h 0); ring). transitivity (/ 2 * sgn B * (sgn h * sgn h) * (h' - Rabs h)); [ring|rewrite SS; ring]. }
  rewrite DU, DV. f_equal. f_equal; f_equal; ring.
Qed.
Lemma coords_shift c r s du dv p : let c' := P (px c + du * cos r + dv * (s * cos r - sin r)) (py c + du * sin r + dv * (s * sin r + cos r)) in
  ucoord c' r s p = ucoord c r s p - du /\ vcoord c' r p = vcoord c r p - dv.
Proof.
  pose proof (unit1 r) as U. cbn zeta. unfold ucoord, vcoord. cbn [px py]. split.
  - transitivity (cos r * (px p - px c) + sin r * (py p - py c) - s * (cos r * (py p - py c) - sin r * (px p - px c)) - du * (cos r * cos r + sin r * sin r)); [ring|rewrite U; ring].
  - transitivity (cos r * (py p - py c) - sin r * (px p - px c) - dv * (cos r * cos r + sin r * sin r)); [ring|rewrite U; ring].
Qed.
Lemma coords_onto c r s A B : exists p, ucoord c r s p = A /\ vcoord c r p = B.
Proof.
  exists (P (px c + (A * cos r + B * (s * cos r - sin r))) (py c + (A * sin r + B * (s * sin r + cos r)))). destruct (axes_inv r s A B) as [I1 I2]. cbn zeta in I1, I2.
  unfold ucoord, vcoord. cbn [px py]. replace (px c + (A * cos r + B * (s * cos r - sin r)) - px c) with (A * cos r + B * (s * cos r - sin r)) by ring. replace (py c + (A * sin r + B * (s * sin r + cos r)) - py c) with (A * sin r + B * (s * sin r + cos r)) by ring. auto.
Qed.
(** one axis: the interval of half-width [k/2] around 0, stretched to reach [a] *)
Lemma stretch k a : 0 <= k -> let k' := Rmax k (/ 2 * k + Rabs a) in let d := / 2 * sgn a * (k' - k) in
  k <= k' /\ Rabs (a - d) <= / 2 * k' /\ (forall x, Rabs x <= / 2 * k -> Rabs (x - d) <= / 2 * k') /\
  (Rabs a <= / 2 * k -> k' = k /\ d = 0) /\
  (forall x, Rabs (x - d) <= / 2 * k' -> - / 2 * k <= x <= / 2 * k \/ 0 <= x <= a \/ a <= x <= 0).
Proof.
  intros K. cbn zeta. unfold sgn. assert (AB : forall x y, Rabs x <= y <-> - y <= x <= y) by (intros; unfold Rabs; destruct (Rcase_abs x); lra).
  destruct (Rle_dec (Rabs a) (/ 2 * k)) as [L|L].
  - rewrite (Rmax_left k) by lra. replace (/ 2 * (if Rlt_bool a 0 then -1 else 1) * (k - k)) with 0 by ring. split; [lra|]. rewrite Rminus_0_r. split; [exact L|]. split; [intros x H; rewrite Rminus_0_r; exact H|]. split; [auto|]. intros x H. rewrite Rminus_0_r in H. apply AB in H. lra.
  - assert (L' : / 2 * k < Rabs a) by lra. rewrite (Rmax_right k) by lra. split; [lra|]. destruct (Rlt_bool_spec a 0) as [Q|Q].
    + rewrite (Rabs_left a) in * by lra. split; [apply AB; lra|]. split; [intros x H; apply AB in H; apply AB; lra|]. split; [lra|]. intros x H. apply AB in H. lra.
    + rewrite (Rabs_pos_eq a) in * by lra. split; [apply AB; lra|]. split; [intros x H; apply AB in H; apply AB; lra|]. split; [lra|]. intros x H. apply AB in H. lra.
Qed.
Theorem join_grows c w h r s p : 0 <= w -> exists c' w' h', quad_join (qd c w h r s) (pv p) = qd c' w' h' r s /\ 0 <= w' /\
  (forall q, quad_set c w h r s q -> quad_set c' w' h' r s q) /\ quad_set c' w' h' r s p /\
  (quad_set c w h r s p -> c' = c /\ w' = w /\ h' = h) /\
  (forall c2 w2 h2, 0 <= w2 -> (forall q, quad_set c w h r s q -> quad_set c2 w2 h2 r s q) -> quad_set c2 w2 h2 r s p -> forall q, quad_set c' w' h' r s q -> quad_set c2 w2 h2 r s q).
Proof.
  intros W. rewrite (join_x c w h r s p W). unfold joined.
  destruct (stretch w (ucoord c r s p) W) as (U1 & U2 & U3 & U4 & U5). destruct (stretch (Rabs h) (vcoord c r p) (Rabs_pos h)) as (V1 & V2 & V3 & V4 & V5). cbn zeta in *.
  set (A := ucoord c r s p) in *. set (B := vcoord c r p) in *. set (w' := Rmax w (/ 2 * w + Rabs A)) in *. set (h' := Rmax (Rabs h) (/ 2 * Rabs h + Rabs B)) in *.
  set (du := / 2 * sgn A * (w' - w)) in *. set (dv := / 2 * sgn B * (h' - Rabs h)) in *.
  eexists _, _, _. split; [reflexivity|]. assert (W' : 0 <= w') by lra. split; [exact W'|].
  set (c' := P (px c + du * cos r + dv * (s * cos r - sin r)) (py c + du * sin r + dv * (s * sin r + cos r))).
  assert (SH : forall q, ucoord c' r s q = ucoord c r s q - du /\ vcoord c' r q = vcoord c r q - dv) by (intros q; apply coords_shift).
  assert (HH : Rabs (sgn h * h') = h') by (unfold sgn; destruct (Rlt_bool h 0); [replace (-1 * h') with (- h') by ring; rewrite Rabs_Ropp|rewrite Rmult_1_l]; apply Rabs_pos_eq; pose proof (Rabs_pos h); lra).
  assert (NEW : forall q, quad_set c' w' (sgn h * h') r s q <-> Rabs (ucoord c r s q - du) <= / 2 * w' /\ Rabs (vcoord c r q - dv) <= / 2 * h').
  { intros q. rewrite quad_iff by exact W'. destruct (SH q) as [-> ->]. rewrite HH. tauto. }
  split; [intros q; rewrite NEW, quad_iff by exact W; intros [H1 H2]; auto|].
  split; [apply NEW; auto|]. split.
  - rewrite quad_iff by exact W. intros [H1 H2]. destruct (U4 H1) as [E1 E2], (V4 H2) as [E3 E4]. split; [unfold c'; rewrite E2, E4; apply pt_eq; cbn; ring|]. split; [exact E1|]. rewrite E3. apply sgn_abs.
  - intros c2 w2 h2 W2 H Hp q. rewrite NEW. intros [K1 K2]. rewrite quad_iff by exact W2.
    assert (D : exists a b, forall x, ucoord c2 r s x = ucoord c r s x - a /\ vcoord c2 r x = vcoord c r x - b).
    { exists (ucoord c r s c2), (vcoord c r c2). intros x. unfold ucoord, vcoord. split; ring. }
    destruct D as (a & b & D).
    assert (AB : forall x y, Rabs x <= y <-> - y <= x <= y) by (intros; unfold Rabs; destruct (Rcase_abs x); lra).
    assert (G : forall x y, - / 2 * w <= x <= / 2 * w -> - / 2 * Rabs h <= y <= / 2 * Rabs h -> - / 2 * w2 <= x - a <= / 2 * w2 /\ - / 2 * Rabs h2 <= y - b <= / 2 * Rabs h2).
    { intros x y Hx Hy. destruct (coords_onto c r s x y) as (z & Z1 & Z2). assert (Q : quad_set c w h r s z) by (apply quad_iff; [exact W|]; rewrite Z1, Z2; split; apply AB; lra).
      apply H in Q. apply quad_iff in Q; [|exact W2]. destruct (D z) as [D1 D2]. rewrite D1, D2, Z1, Z2, !AB in Q. lra. }
    pose proof (Rabs_pos h) as PH. destruct (G (- / 2 * w) (- / 2 * Rabs h)) as [G1 G2]; [lra..|]. destruct (G (/ 2 * w) (/ 2 * Rabs h)) as [G3 G4]; [lra..|]. destruct (G 0 0) as [G5 G6]; [lra..|].
    apply quad_iff in Hp; [|exact W2]. destruct (D p) as [D1 D2]. rewrite D1, D2, !AB in Hp. fold A in Hp. fold B in Hp. destruct (D q) as [-> ->]. rewrite !AB.
    specialize (U5 _ K1). specialize (V5 _ K2). split; [clear - U5 G1 G3 G5 Hp; lra|clear - V5 G2 G4 G6 Hp; lra].
Qed.
