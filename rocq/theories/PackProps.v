(** C29: the integers of a packed attribute are laid out as documented and are read back unchanged. *)
From Coq Require Import ZArith Bool Reals Lia Lra List.
From Flocq Require Import Core IEEE754.BinarySingleNaN.
From Verif Require Import F32 F32Lemmas NumModel EasingBezier MeshFormatModel PackModel.
Import ListNotations.
Local Open Scope Z_scope.

(** ** The documented layout (mesh_format.h 79-146): a packed value is a sequence of words, bytes or 24-bit mantissas; the
    components fill the bits from the most significant one on, and left-over bits at the end are zero. *)
Inductive words_in := Bytes | Mantissas.
Definition layout (t : atype) : option (words_in * nat * list Z) :=
  match t with
  | Float1Unpacked | Float2Unpacked | Float3Unpacked | Float4Unpacked => None
  | Float1In1Byte => Some (Bytes, 1%nat, [8])
  | Float2In1Float => Some (Mantissas, 1%nat, [12; 12])
  | Float2In3Bytes_XY12 => Some (Bytes, 3%nat, [12; 12])
  | Float2In4Bytes_X12_Y20 => Some (Bytes, 4%nat, [12; 20])
  | Float3In1Float => Some (Mantissas, 1%nat, [8; 8; 8])
  | Float3In2Floats => Some (Mantissas, 2%nat, [16; 16; 16])
  | Float3In4Bytes_XYZ10 => Some (Bytes, 4%nat, [10; 10; 10])
  | Float4In1Float => Some (Mantissas, 1%nat, [6; 6; 6; 6])
  | Float4In2Floats => Some (Mantissas, 2%nat, [12; 12; 12; 12])
  | Float4In3Floats => Some (Mantissas, 3%nat, [18; 18; 18; 18])
  end.
Definition word_bits (w : words_in) : Z := match w with Bytes => 8 | Mantissas => 24 end.
(** The number whose bits are those of the components one after the other *)
Fixpoint joined (widths ns : list Z) (acc : Z) : Z :=
  match widths, ns with w :: widths, n :: ns => joined widths ns (acc * 2 ^ w + n) | _, _ => acc end.
Definition fits (w n : Z) : Prop := 0 <= n < 2 ^ w.
Definition total (l : list Z) : Z := fold_right Z.add 0 l.
(** [p] holds the words [ws] *)
Definition holds (w : words_in) (p : packed) (ws : list Z) : Prop :=
  match w, p with
  | Bytes, PBytes l => l = ws
  | Mantissas, PFloats l => Forall2 (fun f n => is_finite f = true /\ B2R f = IZR n) l ws
  | _, _ => False
  end.
Definition laid_out (t : atype) (p : packed) (ns : list Z) : Prop :=
  exists w k widths ws, layout t = Some (w, k, widths) /\ holds w p ws /\ length ws = k /\ Forall (fits (word_bits w)) ws /\
    joined (repeat (word_bits w) k) ws 0 = joined widths ns 0 * 2 ^ (Z.of_nat k * word_bits w - total widths).
Definition in_range (t : atype) (ns : list Z) : Prop :=
  exists w k widths, layout t = Some (w, k, widths) /\ Forall2 fits widths ns.

(** ** Shifts and masks as arithmetic *)
Lemma lor_add x y n : (0 <= n)%Z -> (0 <= y < 2 ^ n)%Z -> Z.lor (Z.shiftl x n) y = (x * 2 ^ n + y)%Z.
Proof.
  intros N Y. rewrite <- Z.shiftl_mul_pow2 by exact N. rewrite Z.add_nocarry_lxor; [rewrite <- Z.lxor_lor; [reflexivity|]|]; apply Z.bits_inj'; intros k K; rewrite Z.land_spec, Z.bits_0, Z.shiftl_spec by exact K.
  all: destruct (Z_lt_le_dec k n); [rewrite Z.testbit_neg_r by lia; reflexivity|].
  all: assert (T : Z.testbit y k = false) by (destruct (Z.eq_dec y 0) as [-> |Y0]; [apply Z.bits_0|apply Z.bits_above_log2; [lia|apply Z.log2_lt_pow2; [lia|]; eapply Z.lt_le_trans; [apply Y|apply Z.pow_le_mono_r; lia]]]); rewrite T, andb_false_r; reflexivity.
Qed.
Lemma shl x k : 0 <= k -> 0 <= x * 2 ^ k < 2 ^ 32 -> shl32 x k = x * 2 ^ k.
Proof. intros K X. unfold shl32. rewrite Z.shiftl_mul_pow2 by exact K. apply Z.mod_small, X. Qed.
Lemma lor_mul x y k : 0 <= k -> 0 <= y < 2 ^ k -> Z.lor (x * 2 ^ k) y = x * 2 ^ k + y.
Proof. intros K Y. rewrite <- Z.shiftl_mul_pow2 at 1 by assumption. apply lor_add; assumption. Qed.
Lemma mask x m w : m = Z.ones w -> 0 <= w -> Z.land x m = x mod 2 ^ w.
Proof. intros -> W. apply Z.land_ones, W. Qed.
Lemma field_spec x m w k : m = Z.shiftl (Z.ones w) k -> 0 <= w -> 0 <= k -> field x m k = (x / 2 ^ k) mod 2 ^ w.
Proof. intros -> W K. unfold field. rewrite Z.shiftr_land, Z.shiftr_shiftl_l, Z.sub_diag, Z.shiftl_0_r, Z.land_ones, Z.shiftr_div_pow2 by lia. reflexivity. Qed.
Lemma back n : 0 <= n < 2 ^ 24 -> to_u32 (to_float n) = n.
Proof.
  intros N. unfold to_u32, to_float. destruct (fZ_exact n) as [R F]; [lia|]. destruct (ftoZ_spec (fZ n)) as [A B]; [rewrite R; apply IZR_le; lia|]. rewrite R in A, B. apply le_IZR in A.
  assert (B' : (IZR n < IZR (ftoZ (fZ n) + 1))%R) by (rewrite plus_IZR; exact B). apply lt_IZR in B'. lia.
Qed.
Lemma held l : Forall (fits 24) l -> holds Mantissas (PFloats (map to_float l)) l.
Proof.
  unfold holds. induction l as [|n l IH]; intros H; inversion H; subst; constructor; [|apply IH; assumption].
  unfold fits in *. destruct (fZ_exact n) as [R F]; [lia|]. split; assumption.
Qed.

Ltac pows := repeat match goal with
  | |- context [2 ^ Z.pos ?p] => let v := eval vm_compute in (2 ^ Z.pos p) in change (2 ^ Z.pos p) with v in *
  | H : context [2 ^ Z.pos ?p] |- _ => let v := eval vm_compute in (2 ^ Z.pos p) in change (2 ^ Z.pos p) with v in H
  end.
Ltac arith := pows; Z.to_euclidean_division_equations; lia.
Ltac simpl_bits :=
  repeat first
    [ rewrite (field_spec _ 16773120 12 12) by (reflexivity || lia) | rewrite (field_spec _ 252 6 2) by (reflexivity || lia)
    | rewrite (field_spec _ 16711680 8 16) by (reflexivity || lia) | rewrite (field_spec _ 65280 8 8) by (reflexivity || lia)
    | rewrite (field_spec _ 16776960 16 8) by (reflexivity || lia) | rewrite (field_spec _ 16515072 6 18) by (reflexivity || lia)
    | rewrite (field_spec _ 258048 6 12) by (reflexivity || lia) | rewrite (field_spec _ 4032 6 6) by (reflexivity || lia)
    | rewrite (field_spec _ 16777152 18 6) by (reflexivity || lia)
    | rewrite (mask _ 4095 12) by (reflexivity || lia) | rewrite (mask _ 15 4) by (reflexivity || lia) | rewrite (mask _ 255 8) by (reflexivity || lia)
    | rewrite (mask _ 63 6) by (reflexivity || lia) | rewrite (mask _ 3 2) by (reflexivity || lia) | rewrite (mask _ 65535 16) by (reflexivity || lia)
    | rewrite (mask _ 262143 18) by (reflexivity || lia)
    | rewrite Z.shiftr_div_pow2 by lia ].
(** The words of each type, computed arithmetically *)
Definition words (t : atype) (ns : list Z) : list Z :=
  match t, ns with
  | Float1In1Byte, [a] => [a]
  | Float2In1Float, [a; b] => [a * 2 ^ 12 + b]
  | Float2In3Bytes_XY12, [a; b] => [a / 2 ^ 4; (a mod 2 ^ 4) * 2 ^ 4 + b / 2 ^ 8; b mod 2 ^ 8]
  | Float2In4Bytes_X12_Y20, [a; b] => [a / 2 ^ 4; (a mod 2 ^ 4) * 2 ^ 4 + b / 2 ^ 16; (b / 2 ^ 8) mod 2 ^ 8; b mod 2 ^ 8]
  | Float3In1Float, [a; b; c] => [a * 2 ^ 16 + b * 2 ^ 8 + c]
  | Float3In2Floats, [a; b; c] => [a * 2 ^ 8 + b / 2 ^ 8; (b mod 2 ^ 8) * 2 ^ 16 + c]
  | Float3In4Bytes_XYZ10, [a; b; c] => [a / 2 ^ 2; (a mod 2 ^ 2) * 2 ^ 6 + b / 2 ^ 4; (b mod 2 ^ 4) * 2 ^ 4 + c / 2 ^ 6; (c mod 2 ^ 6) * 2 ^ 2]
  | Float4In1Float, [a; b; c; d] => [a * 2 ^ 18 + b * 2 ^ 12 + c * 2 ^ 6 + d]
  | Float4In2Floats, [a; b; c; d] => [a * 2 ^ 12 + b; c * 2 ^ 12 + d]
  | Float4In3Floats, [a; b; c; d] => [a * 2 ^ 6 + b / 2 ^ 12; (b mod 2 ^ 12) * 2 ^ 12 + c / 2 ^ 6; (c mod 2 ^ 6) * 2 ^ 18 + d]
  | _, _ => []
  end.
Ltac open_range H :=
  let w := fresh "w" in let k := fresh "k" in let ws := fresh "widths" in let L := fresh "L" in
  destruct H as (w & k & ws & L & H); cbn [layout] in L; try discriminate L; injection L as <- <- <-;
  repeat match goal with F : Forall2 fits (_ :: _) _ |- _ => inversion F; subst; clear F | F : Forall2 fits [] _ |- _ => inversion F; subst; clear F end; unfold fits in *.
Lemma words_fit t ns w k widths : layout t = Some (w, k, widths) -> in_range t ns ->
  length (words t ns) = k /\ Forall (fits (word_bits w)) (words t ns).
Proof.
  intros L H. destruct t; cbn [layout] in L; try discriminate L; injection L as <- <- <-; open_range H; cbn [words length word_bits]; (split; [reflexivity|]); repeat constructor; unfold fits; arith.
Qed.
Lemma words_joined t ns w k widths : layout t = Some (w, k, widths) -> in_range t ns ->
  joined (repeat (word_bits w) k) (words t ns) 0 = joined widths ns 0 * 2 ^ (Z.of_nat k * word_bits w - total widths).
Proof.
  intros L H. destruct t; cbn [layout] in L; try discriminate L; injection L as <- <- <-; open_range H; cbn [words word_bits repeat joined total fold_right]; simpl Z.of_nat; match goal with |- context [2 ^ (?a * ?b - ?c)] => let v := eval vm_compute in (a * b - c) in change (a * b - c) with v end; try change (2 ^ 0) with 1; arith.
Qed.
Definition as_packed (t : atype) (ws : list Z) : packed := if is_packed_as_float t then PFloats (map to_float ws) else PBytes ws.
Ltac modsmall := repeat match goal with |- context [to_byte ?x] => change (to_byte x) with (x mod 256) end.
Ltac close_eq := repeat match goal with |- Some _ = Some _ => f_equal | |- PBytes _ = PBytes _ => f_equal | |- PFloats _ = PFloats _ => f_equal | |- _ :: _ = _ :: _ => f_equal | |- to_float _ = to_float _ => f_equal end.
Lemma pack_words t ns : in_range t ns -> pack_ints t ns = Some (as_packed t (words t ns)).
Proof.
  intros H. destruct t; open_range H; cbn [pack_ints words as_packed is_packed_as_float map]; modsmall; simpl_bits; close_eq; try reflexivity.
  all: rewrite <- ?Z.lor_assoc, ?shl by arith; try rewrite (lor_mul _ _ 6) by arith; try rewrite (lor_mul _ _ 8) by arith; try rewrite (lor_mul _ _ 12) by arith; try rewrite (lor_mul _ _ 16) by arith; try rewrite (lor_mul _ _ 18) by arith; try arith.
Qed.

Lemma unpack_words t ns : in_range t ns -> unpack_ints t (as_packed t (words t ns)) = Some ns.
Proof.
  intros H. destruct t; pose proof H as H'; open_range H'; try (eapply words_fit in H; [|reflexivity]); cbn [as_packed words is_packed_as_float map unpack_ints] in *.
  all: destruct H as [_ H]; repeat match goal with F : Forall _ (_ :: _) |- _ => inversion F; subst; clear F | F : Forall _ [] |- _ => clear F end; unfold fits in *; cbn [word_bits] in *.
  all: rewrite ?back by assumption; simpl_bits; rewrite ?shl by arith.
  all: try rewrite (lor_mul _ _ 6) by arith; try rewrite (lor_mul _ _ 8) by arith; try rewrite (lor_mul _ _ 12) by arith; close_eq; try arith.
Qed.
Lemma u32_of f n : is_finite f = true /\ B2R f = IZR n -> 0 <= n -> to_u32 f = n.
Proof.
  intros [F R] N. unfold to_u32. destruct (ftoZ_spec f) as [A B]; [rewrite R; apply IZR_le, N|]. rewrite R in A, B. apply le_IZR in A.
  assert (B' : (IZR n < IZR (ftoZ f + 1))%R) by (rewrite plus_IZR; exact B). apply lt_IZR in B'. lia.
Qed.

(** ** C29 *)
(** Packing in-range integers gives the documented layout, and they are read back unchanged *)
Theorem C29_roundtrip : forall t ns, in_range t ns ->
  exists p, pack_ints t ns = Some p /\ laid_out t p ns /\ unpack_ints t p = Some ns.
Proof.
  intros t ns H. exists (as_packed t (words t ns)). split; [apply pack_words, H|]. split; [|apply unpack_words, H].
  destruct H as (w & k & widths & L & F). assert (H : in_range t ns) by (exists w, k, widths; split; assumption).
  destruct (words_fit t ns w k widths L H) as [N W]. exists w, k, widths, (words t ns). split; [exact L|]. split; [|split; [exact N|split; [exact W|apply words_joined; assumption]]].
  unfold as_packed. destruct t; try discriminate L; cbn [layout] in L; injection L as <- <- <-; cbn [is_packed_as_float]; first [apply held, W|reflexivity].
Qed.
(** Reading any well-formed packed value gives in-range integers, those at the documented places: left-over bits are ignored *)
Theorem C29_decode : forall t w k widths p ws, layout t = Some (w, k, widths) ->
  holds w p ws -> length ws = k -> Forall (fits (word_bits w)) ws ->
  exists ns, unpack_ints t p = Some ns /\ Forall2 fits widths ns /\
    joined widths ns 0 = joined (repeat (word_bits w) k) ws 0 / 2 ^ (Z.of_nat k * word_bits w - total widths).
Proof.
  intros t w k widths p ws L H N W. destruct t; cbn [layout] in L; try discriminate L; injection L as <- <- <-.
  all: repeat (destruct ws as [|? ws]; try discriminate N); clear N; destruct p as [l|l]; cbn [holds] in H; try contradiction; subst; cbn [word_bits] in W.
  all: repeat match goal with F : Forall _ (_ :: _) |- _ => inversion F; subst; clear F | F : Forall _ [] |- _ => clear F | F : Forall2 _ _ (_ :: _) |- _ => inversion F; subst; clear F | F : Forall2 _ _ [] |- _ => inversion F; subst; clear F end; unfold fits in *.
  all: cbn [unpack_ints word_bits repeat joined total fold_right]; simpl Z.of_nat.
  all: repeat match goal with R : is_finite ?f = true /\ B2R ?f = IZR ?n |- _ => rewrite !(u32_of f n R) by lia; clear R end.
  all: match goal with |- context [2 ^ (?a * ?b - ?c)] => let v := eval vm_compute in (a * b - c) in change (a * b - c) with v end; try change (2 ^ 0) with 1.
  all: simpl_bits; rewrite ?shl by arith; try rewrite (lor_mul _ _ 6) by arith; try rewrite (lor_mul _ _ 8) by arith; try rewrite (lor_mul _ _ 12) by arith.
  all: eexists; split; [reflexivity|]; split; [repeat constructor; unfold fits; arith|]; cbn [joined]; arith.
Qed.
(** The layout agrees with the sizes and widths that MeshFormat reports, and every type of the enumeration is covered *)
Theorem C29_sizes : forall t,
  match layout t with
  | None => is_unpacked t = true
  | Some (w, k, widths) => packed_bits t = Some (map Z.to_nat widths) /\ is_packed_as_float t = (match w with Bytes => false | Mantissas => true end) /\
      packed_size t = (match w with Bytes => k | Mantissas => 4 * k end)%nat /\ total widths <= Z.of_nat k * word_bits w
  end.
Proof. intros []; cbn; repeat split; lia. Qed.

Example C29_example : in_range Float4In3Floats [262143; 4097; 65; 200000] /\
  pack_ints Float3In4Bytes_XYZ10 [1023; 513; 66] = Some (PBytes [255; 224; 17; 8]).
Proof. split; [|vm_compute; reflexivity]. exists Mantissas, 3%nat, [18; 18; 18; 18]. split; [reflexivity|]. repeat constructor; unfold fits; cbn; lia. Qed.
Print Assumptions C29_roundtrip.
Print Assumptions C29_decode.
Print Assumptions C29_sizes.
