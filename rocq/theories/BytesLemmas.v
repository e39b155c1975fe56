(** Reading back what was written to a byte array *)
From Coq Require Import ZArith Bool Reals Lia Lra List.
From Flocq Require Import Core IEEE754.BinarySingleNaN.
From Verif Require Import F32 F32Lemmas BytesModel.
Import ListNotations.
Local Open Scope Z_scope.

Lemma le_bytes_length n z : length (le_bytes n z) = n. Proof. revert z. induction n; cbn; intros; [reflexivity|]. rewrite IHn. reflexivity. Qed.
Lemma le_back n z : 0 <= z < 256 ^ Z.of_nat n -> le_value (le_bytes n z) = z.
Proof.
  revert z. induction n as [|n IH]; intros z H; cbn [le_bytes le_value]; [cbn in H; lia|]. rewrite Nat2Z.inj_succ, Z.pow_succ_r in H by lia. rewrite IH; [pose proof (Z_div_mod_eq_full z 256); lia|].
  split; [apply Z.div_pos; lia|apply Z.div_lt_upper_bound; lia].
Qed.
Lemma le_bytes_0 n : le_bytes n 0 = repeat 0 n. Proof. induction n; cbn; [reflexivity|]. rewrite IHn. reflexivity. Qed.
Lemma le_bytes_byte n z b : In b (le_bytes n z) -> 0 <= b < 256.
Proof. revert z. induction n as [|n IH]; intros z []; [subst; apply Z.mod_pos_bound; lia|eapply IH; eassumption]. Qed.

Lemma finite_bounds (s : bool) m e (B : SpecFloat.bounded 24 128 m e = true) : Z.pos m < 2 ^ 24 /\ -149 <= e <= 104 /\ (Z.pos m < 2 ^ 23 -> e = -149).
Proof.
  clear s. unfold SpecFloat.bounded in B. apply andb_prop in B. destruct B as [C L]. apply Z.leb_le in L. unfold SpecFloat.canonical_mantissa in C. apply Zeq_bool_eq in C. unfold SpecFloat.fexp, SpecFloat.emin in C.
  rewrite Digits.Zpos_digits2_pos in C. pose proof (Digits.Zdigits_correct radix2 (Z.pos m)) as D. set (d := Digits.Zdigits radix2 (Z.pos m)) in *. rewrite (Z.abs_eq (Z.pos m)) in D by lia. change (radix_val radix2) with 2 in D.
  assert (D0 : 0 < d) by (unfold d; apply Digits.Zdigits_gt_0; lia). assert (DL : d <= 24) by lia.
  assert (P : 2 ^ d <= 2 ^ 24) by (apply Z.pow_le_mono_r; lia). split; [lia|]. split; [lia|].
  intros M. assert (d < 24). { destruct (Z_lt_le_dec d 24); [assumption|]. assert (d = 24) by lia. rewrite H in D. change (24 - 1) with 23 in D. lia. } lia.
Qed.
Lemma fdy_back m e (B : SpecFloat.bounded 24 128 m e = true) : fdy (Z.pos m) e = B754_finite false m e B.
Proof.
  pose proof (fdy_exact (Z.pos m) e) as H. assert (G : generic_format radix2 fexp32 (F2R (Float radix2 (Z.pos m) e))) by (pose proof (generic_format_B2R 24 128 (B754_finite false m e B)) as K; cbn [B2R cond_Zopp] in K; exact K).
  assert (L : (Rabs (F2R (Float radix2 (Z.pos m) e)) < big)%R) by (pose proof (abs_B2R_lt_emax 24 128 (B754_finite false m e B)) as K; cbn [B2R cond_Zopp] in K; exact K).
  destruct (H G L) as [R F]. apply B2R_inj; [|reflexivity|exact R]. apply is_finite_strict_B2R. rewrite R. apply Rgt_not_eq. apply F2R_gt_0. cbn. lia.
Qed.
Lemma fopp_finite m e B : fopp (B754_finite false m e B) = B754_finite true m e B. Proof. reflexivity. Qed.
Lemma bits_range x : 0 <= float_bits x < 2 ^ 32.
Proof.
  destruct x as [s|s| |s m e B]; cbn [float_bits]; try (destruct s); try lia. all: destruct (finite_bounds false m e B) as (M & E & _); destruct (Z.ltb_spec (Z.pos m) (2 ^ 23)); change (2 ^ 31) with 2147483648; change (2 ^ 23) with 8388608 in *; change (2 ^ 24) with 16777216 in *; change (2 ^ 32) with 4294967296; lia.
Qed.
Lemma bits_back x : bits_float (float_bits x) = x.
Proof.
  destruct x as [s|s| |s m e B]; [destruct s; vm_compute; reflexivity|destruct s; vm_compute; reflexivity|vm_compute; reflexivity|destruct s].
  all: destruct (finite_bounds false m e B) as (M & E & C); unfold bits_float; cbn [float_bits]; set (w := if Z.pos m <? 2 ^ 23 then Z.pos m else (e + 150) * 2 ^ 23 + (Z.pos m - 2 ^ 23)).
  all: assert (W : 0 <= w < 2 ^ 31) by (unfold w; destruct (Z.ltb_spec (Z.pos m) (2 ^ 23)); change (2 ^ 31) with 2147483648; change (2 ^ 23) with 8388608 in *; change (2 ^ 24) with 16777216 in *; lia).
  all: assert (WD : w / 2 ^ 23 = if Z.pos m <? 2 ^ 23 then 0 else e + 150) by (unfold w; destruct (Z.ltb_spec (Z.pos m) (2 ^ 23)); change (2 ^ 23) with 8388608 in *; change (2 ^ 24) with 16777216 in *; symmetry; [apply Z.div_unique with (Z.pos m)|apply Z.div_unique with (Z.pos m - 8388608)]; lia).
  all: assert (WM : w mod 2 ^ 23 = if Z.pos m <? 2 ^ 23 then Z.pos m else Z.pos m - 2 ^ 23) by (unfold w; destruct (Z.ltb_spec (Z.pos m) (2 ^ 23)); change (2 ^ 23) with 8388608 in *; change (2 ^ 24) with 16777216 in *; symmetry; [apply Z.mod_unique with 0|apply Z.mod_unique with (e + 150)]; lia).
  all: assert (WS : forall q, (q * 2 ^ 31 + w) / 2 ^ 23 = q * 256 + w / 2 ^ 23 /\ (q * 2 ^ 31 + w) mod 2 ^ 23 = w mod 2 ^ 23 /\ (q * 2 ^ 31 + w) / 2 ^ 31 = q) by (intros q; replace (q * 2 ^ 31 + w) with (w + (q * 256) * 2 ^ 23) by (change (2 ^ 31) with (256 * 2 ^ 23); ring); split; [rewrite Z.div_add by lia; lia|split; [apply Z.mod_add; lia|replace (w + q * 256 * 2 ^ 23) with (w + q * 2 ^ 31) by (change (2 ^ 31) with (256 * 2 ^ 23); ring); rewrite Z.div_add by lia; rewrite Z.div_small by lia; lia]]).
  - replace (2 ^ 31 + w) with (1 * 2 ^ 31 + w) by lia. destruct (WS 1) as (A & A2 & A3). rewrite A, A2, A3, WD, WM. cbn [Z.eqb]. destruct (Z.ltb_spec (Z.pos m) (2 ^ 23)) as [L|L].
    + change ((1 * 256 + 0) mod 256) with 0. cbn [Z.eqb]. rewrite <- (C L), (fdy_back m e B). reflexivity.
    + replace ((1 * 256 + (e + 150)) mod 256) with (e + 150) by (symmetry; rewrite Z.add_comm, Z.mod_add, Z.mod_small by lia; reflexivity). destruct (Z.eqb_spec (e + 150) 255); [lia|]. destruct (Z.eqb_spec (e + 150) 0); [lia|]. replace (Z.pos m - 2 ^ 23 + 2 ^ 23) with (Z.pos m) by lia. replace (e + 150 - 150) with e by lia. rewrite (fdy_back m e B). reflexivity.
  - replace (0 + w) with (0 * 2 ^ 31 + w) by lia. destruct (WS 0) as (A & A2 & A3). rewrite A, A2, A3, WD, WM. cbn [Z.eqb]. destruct (Z.ltb_spec (Z.pos m) (2 ^ 23)) as [L|L].
    + change ((0 * 256 + 0) mod 256) with 0. cbn [Z.eqb]. rewrite <- (C L), (fdy_back m e B). reflexivity.
    + replace ((0 * 256 + (e + 150)) mod 256) with (e + 150) by (symmetry; rewrite Z.mul_0_l, Z.add_0_l, Z.mod_small by lia; reflexivity). destruct (Z.eqb_spec (e + 150) 255); [lia|]. destruct (Z.eqb_spec (e + 150) 0); [lia|]. replace (Z.pos m - 2 ^ 23 + 2 ^ 23) with (Z.pos m) by lia. replace (e + 150 - 150) with e by lia. rewrite (fdy_back m e B). reflexivity.
Qed.
Lemma float_bytes_length x : length (float_bytes x) = 4%nat. Proof. apply le_bytes_length. Qed.
Lemma float_back x : bytes_float (float_bytes x) = x.
Proof. unfold bytes_float, float_bytes. rewrite le_back by (pose proof (bits_range x); change (256 ^ Z.of_nat 4) with (2 ^ 32); lia). apply bits_back. Qed.
Lemma float_zero : float_bytes f0 = [0; 0; 0; 0]. Proof. reflexivity. Qed.
Lemma floats_bytes_length l : length (floats_bytes l) = (4 * length l)%nat.
Proof. unfold floats_bytes. induction l as [|x l IH]; [reflexivity|]. cbn [map concat]. rewrite app_length, IH, float_bytes_length. cbn [length]. lia. Qed.
Lemma firstn_exact {A} (l l' : list A) n : n = length l -> firstn n (l ++ l') = l.
Proof. intros ->. rewrite firstn_app, Nat.sub_diag, firstn_all. cbn. apply app_nil_r. Qed.
Lemma skipn_exact {A} (l l' : list A) n : n = length l -> skipn n (l ++ l') = l'.
Proof. intros ->. rewrite skipn_app, Nat.sub_diag, skipn_all. reflexivity. Qed.
Lemma floats_back l r : bytes_floats (length l) (floats_bytes l ++ r) = l.
Proof.
  unfold floats_bytes. induction l as [|x l IH]; [reflexivity|]. cbn [map concat length bytes_floats]. rewrite <- app_assoc. rewrite firstn_exact by reflexivity. rewrite skipn_exact by reflexivity. rewrite float_back, IH. reflexivity.
Qed.
(** ** Arrays of equal-sized records *)
Section Chunks.
Context {A : Type} (enc : A -> list Z) (w : nat) (Hw : forall a, length (enc a) = w).
Definition image (l : list A) : list Z := concat (map enc l).
Lemma image_length l : length (image l) = (length l * w)%nat.
Proof. unfold image. induction l as [|a l IH]; [reflexivity|]. cbn [map concat length]. rewrite app_length, IH, Hw. lia. Qed.
Lemma image_app l l' : image (l ++ l') = image l ++ image l'. Proof. unfold image. rewrite map_app, concat_app. reflexivity. Qed.
Lemma image_split l i a : nth_error l i = Some a -> exists l1 l2, l = l1 ++ a :: l2 /\ length l1 = i /\ image l = image l1 ++ enc a ++ image l2.
Proof.
  intros H. apply nth_error_split in H. destruct H as (l1 & l2 & -> & L). exists l1, l2. split; [reflexivity|]. split; [exact L|]. rewrite image_app. reflexivity.
Qed.
(** reading [n] bytes at [off] inside record [i] *)
Lemma peek_image l i a off n : nth_error l i = Some a -> (off + n <= w)%nat -> peek (i * w + off) n (image l) = peek off n (enc a).
Proof.
  intros H B. destruct (image_split l i a H) as (l1 & l2 & -> & L & ->). unfold peek. rewrite skipn_app, image_length, L. rewrite (skipn_all2 (image l1)) by (rewrite image_length, L; lia). cbn [app].
  replace (i * w + off - i * w)%nat with off by lia. rewrite skipn_app, firstn_app. rewrite skipn_length, Hw. replace (n - (w - off))%nat with 0%nat by lia. cbn [firstn]. apply app_nil_r.
Qed.
(** writing inside record [i] changes that record only *)
Lemma poke_image l i a b off bs : nth_error l i = Some a -> (off + length bs <= w)%nat -> poke off bs (enc a) = enc b ->
  poke (i * w + off) bs (image l) = image (firstn i l ++ b :: skipn (S i) l).
Proof.
  intros H B E. destruct (image_split l i a H) as (l1 & l2 & -> & L & ->). rewrite (firstn_exact l1 (a :: l2) i) by (symmetry; exact L).
  replace (skipn (S i) (l1 ++ a :: l2)) with l2 by (replace (l1 ++ a :: l2) with ((l1 ++ [a]) ++ l2) by (rewrite <- app_assoc; reflexivity); symmetry; apply skipn_exact; rewrite app_length; cbn; lia).
  rewrite image_app. change (image (b :: l2)) with (enc b ++ image l2). rewrite <- E. unfold poke.
  assert (LI : length (image l1) = (i * w)%nat) by (rewrite image_length, L; reflexivity).
  rewrite firstn_app, LI. rewrite (firstn_all2 (image l1)) by lia. replace (i * w + off - i * w)%nat with off by lia. rewrite firstn_app, Hw. replace (off - w)%nat with 0%nat by lia. cbn [firstn]. rewrite app_nil_r.
  rewrite skipn_app, LI. rewrite (skipn_all2 (image l1)) by lia. cbn [app]. replace (i * w + off + length bs - i * w)%nat with (off + length bs)%nat by lia. rewrite skipn_app, Hw. replace (off + length bs - w)%nat with 0%nat by lia. cbn [skipn]. rewrite <- !app_assoc. reflexivity.
Qed.
Lemma firstn_image l n : firstn (n * w) (image l) = image (firstn n l).
Proof.
  revert n. induction l as [|a l IH]; intros n; [rewrite !firstn_nil; reflexivity|]. destruct n as [|n]; [reflexivity|]. cbn [firstn]. change (image (a :: l)) with (enc a ++ image l). change (image (a :: firstn n l)) with (enc a ++ image (firstn n l)). rewrite <- IH.
  rewrite firstn_app, Hw. replace (S n * w - w)%nat with (n * w)%nat by lia. rewrite firstn_all2 by (rewrite Hw; lia). reflexivity.
Qed.
Lemma resize_image l z n : enc z = repeat 0 w -> resize (n * w) (image l) = image (firstn n l ++ repeat z (n - length l)).
Proof.
  intros Z0. unfold resize. rewrite firstn_image, image_length, image_app. f_equal. rewrite <- Nat.mul_sub_distr_r. generalize (n - length l)%nat. intros k. induction k as [|k IH]; [reflexivity|]. cbn [repeat]. change (image (z :: repeat z k)) with (enc z ++ image (repeat z k)). rewrite <- IH, Z0, <- repeat_app. reflexivity.
Qed.
End Chunks.
Lemma peek_all l n : n = length l -> peek 0 n l = l. Proof. intros ->. unfold peek. cbn [skipn]. apply firstn_all. Qed.
Lemma poke_all l bs : length bs = length l -> poke 0 bs l = bs. Proof. intros H. unfold poke. cbn [firstn app Nat.add]. rewrite H, skipn_all. apply app_nil_r. Qed.
