From Coq Require Import Ascii String List ZArith Bool Arith Lia ZifyBool ZifyNat.
From Verif Require Import UriModel UriSpec.
Import ListNotations.
Open Scope list_scope.

Local Arguments Nat.ltb : simpl never.

Fixpoint span_len (delims l : bytes) : nat :=
  match l with
  | [] => 0
  | c :: l' => if existsb (Ascii.eqb c) delims then 0 else S (span_len delims l')
  end.

Lemma span_len_le d l : span_len d l <= length l.
Proof. induction l as [|c l IH]; cbn; [lia|]. destruct existsb; lia. Qed.

Lemma find_first_of_from_spec d s : forall skip idx,
  find_first_of_from s d skip idx =
  (let l := skipn skip s in
   if span_len d l <? length l then Some (idx + skip + span_len d l) else None).
Proof.
  induction s as [|c s IH]; intros skip idx; cbn -[Nat.ltb].
  - rewrite skipn_nil. reflexivity.
  - destruct skip as [|k]; cbn -[Nat.ltb].
    + destruct (existsb (Ascii.eqb c) d) eqn:E; cbn [length].
      * destruct (Nat.ltb_spec 0 (S (length s))); [f_equal; lia|lia].
      * rewrite IH. cbn zeta. cbn [skipn]. destruct (Nat.ltb_spec (span_len d s) (length s));
        destruct (Nat.ltb_spec (S (span_len d s)) (S (length s))); try lia; f_equal; lia.
    + rewrite IH. cbn zeta. destruct (_ <? _); f_equal; lia.
Qed.

Lemma distance_spec pre l d :
  distance_to_next_delimiter_or_end (pre ++ l) (length pre) d = span_len d l.
Proof.
  unfold distance_to_next_delimiter_or_end, find_first_of.
  rewrite find_first_of_from_spec. cbn zeta.
  rewrite skipn_app, Nat.sub_diag, skipn_all. cbn [app skipn].
  rewrite app_length.
  pose proof (span_len_le d l).
  destruct (Nat.ltb_spec (span_len d l) (length l)); lia.
Qed.

Lemma skipn_pre pre (l : bytes) : skipn (length pre) (pre ++ l) = l.
Proof. rewrite skipn_app, Nat.sub_diag, skipn_all. reflexivity. Qed.

Lemma starts_with_spec p : forall s,
  starts_with s p = true <-> exists r, s = p ++ r.
Proof.
  induction p as [|c p IH]; intros s; cbn.
  - split; [intros _; exists s; reflexivity|destruct s; reflexivity].
  - destruct s as [|c' s].
    + split; [discriminate|intros [r Hr]; discriminate].
    + cbn [starts_with]. rewrite andb_true_iff, Ascii.eqb_eq, IH. split.
      * intros [-> [r ->]]. exists r; reflexivity.
      * intros [r Hr]. injection Hr as -> ->. split; [reflexivity|exists r; reflexivity].
Qed.

Lemma is_lower_or_hyphen_spec s :
  is_lower_or_hyphen s = true <-> Forall lower_or_hyphen s.
Proof.
  unfold is_lower_or_hyphen. rewrite forallb_forall, Forall_forall.
  assert (H : forall c, ascii_islower c || Ascii.eqb c "-" = true <-> lower_or_hyphen c).
  { intros c. rewrite orb_true_iff, Ascii.eqb_eq. unfold lower_or_hyphen, ascii_islower, code.
    change (nat_of_ascii "a") with 97. change (nat_of_ascii "z") with 122.
    rewrite andb_true_iff, !Nat.leb_le. reflexivity. }
  split; intros Hs c Hc; apply H; auto.
Qed.

Lemma is_digit_spec s : is_digit s = true <-> Forall digit s.
Proof.
  unfold is_digit. rewrite forallb_forall, Forall_forall.
  assert (H : forall c, ascii_isdigit c = true <-> digit c).
  { intros c. unfold digit, ascii_isdigit, code.
    change (nat_of_ascii "0") with 48. change (nat_of_ascii "9") with 57.
    rewrite andb_true_iff, !Nat.leb_le. reflexivity. }
  split; intros Hs c Hc; apply H; auto.
Qed.

(** [l = w ++ r] where [w] is the longest prefix without delimiters *)
Lemma span_split d l : exists w r, l = w ++ r /\ length w = span_len d l
  /\ (forall c, In c w -> existsb (Ascii.eqb c) d = false)
  /\ (r = [] \/ exists c r', r = c :: r' /\ existsb (Ascii.eqb c) d = true).
Proof.
  induction l as [|c l IH]; cbn.
  - exists [], []; cbn; intuition.
  - destruct (existsb (Ascii.eqb c) d) eqn:E.
    + exists [], (c :: l). cbn. intuition. right; eauto.
    + destruct IH as (w & r & -> & Hl & Hw & Hr). exists (c :: w), r. cbn.
      repeat split; auto. intros c' [->|Hc]; auto.
Qed.

Lemma span_len_app d w r :
  (forall c, In c w -> existsb (Ascii.eqb c) d = false) ->
  (r = [] \/ exists c r', r = c :: r' /\ existsb (Ascii.eqb c) d = true) ->
  span_len d (w ++ r) = length w.
Proof.
  intros Hw Hr. induction w as [|c w IH]; cbn.
  - destruct Hr as [->|(c & r' & -> & E)]; cbn; [reflexivity|]. rewrite E; reflexivity.
  - rewrite (Hw c) by (left; reflexivity). rewrite IH; [reflexivity|].
    intros c' H; apply Hw; right; exact H.
Qed.

Lemma firstn_pre (w r : bytes) : firstn (length w) (w ++ r) = w.
Proof. rewrite firstn_app, firstn_all, Nat.sub_diag. cbn. apply app_nil_r. Qed.

(** The characters that can end a part are neither letters, digits nor hyphens *)
Lemma lower_not_delim c : lower_or_hyphen c ->
  existsb (Ascii.eqb c) (lit "/:?#") = false /\ existsb (Ascii.eqb c) (lit "/?#") = false.
Proof.
  intros H.
  assert (forall x, In x (lit "/:?#") -> c <> x).
  { intros x Hx ->. destruct H as [H| ->].
    - cbn in Hx. change (nat_of_ascii "a") with 97 in H. change (nat_of_ascii "z") with 122 in H.
      repeat (destruct Hx as [<-|Hx]; [cbn in H; lia|]). exact Hx.
    - cbn in Hx. repeat (destruct Hx as [Hx|Hx]; [discriminate|]). exact Hx. }
  split; apply not_true_is_false; rewrite existsb_exists; intros (x & Hx & Heq);
    apply Ascii.eqb_eq in Heq; apply (H0 x); auto.
  cbn in *; tauto.
Qed.

Lemma digit_not_delim c : digit c -> existsb (Ascii.eqb c) (lit "/:?#") = false.
Proof.
  intros H. apply not_true_is_false; rewrite existsb_exists; intros (x & Hx & Heq).
  apply Ascii.eqb_eq in Heq; subst x. unfold digit in H.
  change (nat_of_ascii "0") with 48 in H. change (nat_of_ascii "9") with 57 in H.
  cbn in Hx. repeat (destruct Hx as [<-|Hx]; [cbn in H; lia|]). exact Hx.
Qed.

(** [ends d r]: the rest [r] is empty or starts with a delimiter *)
Definition ends (d r : bytes) : Prop :=
  r = [] \/ exists c r', r = c :: r' /\ existsb (Ascii.eqb c) d = true.

(** Common core of the part parsers, once the leading delimiter is consumed. *)
Definition part (u : bytes) (position : nat) (d : bytes) : part_range * bytes :=
  let range := MkRange position (distance_to_next_delimiter_or_end u position d) in
  (range, substr u (start range) (len range)).

Lemma part_split pre l d :
  exists w r, l = w ++ r /\ ends d r
   /\ (forall c, In c w -> existsb (Ascii.eqb c) d = false)
   /\ distance_to_next_delimiter_or_end (pre ++ l) (length pre) d = length w
   /\ substr (pre ++ l) (length pre) (length w) = w.
Proof.
  destruct (span_split d l) as (w & r & -> & Hl & Hw & Hr).
  exists w, r. repeat split; auto.
  - rewrite distance_spec. symmetry; exact Hl.
  - unfold substr. rewrite skipn_pre. apply firstn_pre.
Qed.

Lemma part_join pre w r d :
  ends d r -> (forall c, In c w -> existsb (Ascii.eqb c) d = false) ->
  distance_to_next_delimiter_or_end (pre ++ w ++ r) (length pre) d = length w
   /\ substr (pre ++ w ++ r) (length pre) (length w) = w.
Proof.
  intros Hr Hw. rewrite distance_spec, span_len_app by assumption.
  split; [reflexivity|]. unfold substr. rewrite skipn_pre. apply firstn_pre.
Qed.

Lemma empty_test (A : Type) (w : bytes) (x y : A) :
  (if match w with [] => true | _ => false end then x else y)
  = match w with [] => x | _ => y end.
Proof. destruct w; reflexivity. Qed.

Section NameParser.
  Variable lead d : bytes.
  Hypothesis Hd : forall c, lower_or_hyphen c -> existsb (Ascii.eqb c) d = false.

  Definition name_parser (u : bytes) (position : nat) : option (part_range * nat) :=
    let position := position + length lead in
    let range := MkRange position (distance_to_next_delimiter_or_end u position d) in
    let position := position + len range in
    let name := substr u (start range) (len range) in
    if match name with [] => true | _ => false end then None
    else if negb (is_lower_or_hyphen name) then None
    else Some (range, position).

  Lemma name_parser_spec pre l range p :
    name_parser (pre ++ lead ++ l) (length pre) = Some (range, p) <->
    exists w r, l = w ++ r /\ ends d r /\ is_name w
      /\ range = MkRange (length (pre ++ lead)) (length w)
      /\ p = length (pre ++ lead ++ w).
  Proof.
    unfold name_parser. cbn zeta. rewrite app_assoc, <- app_length. cbn [start len].
    rewrite empty_test. split.
    - destruct (part_split (pre ++ lead) l d) as (w & r & -> & Hr & Hw & Hdist & Hsub).
      rewrite Hdist, Hsub. destruct w as [|c w]; [discriminate|].
      destruct (is_lower_or_hyphen (c :: w)) eqn:E; [|discriminate].
      intros H. injection H as <- <-. apply is_lower_or_hyphen_spec in E.
      exists (c :: w), r. repeat split; auto; [discriminate|].
      rewrite (app_assoc pre lead), (app_length (pre ++ lead)); reflexivity.
    - intros (w & r & -> & Hr & [Hne Hlow] & -> & ->).
      destruct (part_join (pre ++ lead) w r d Hr) as [Hdist Hsub].
      { intros c Hc. apply Hd. rewrite Forall_forall in Hlow. auto. }
      rewrite Hdist, Hsub. destruct w as [|c w]; [congruence|].
      apply is_lower_or_hyphen_spec in Hlow. rewrite Hlow. cbn [negb].
      rewrite (app_assoc pre lead), (app_length (pre ++ lead)). reflexivity.
  Qed.
End NameParser.

Lemma reg_present_spec pre l range p :
  parse_reg_name_if_present (pre ++ lit "//" ++ l) (length pre) = Some (range, p) <->
    exists w r, l = w ++ r /\ ends (lit "/?#") r /\ is_name w
      /\ range = MkRange (length (pre ++ lit "//")) (length w)
      /\ p = length (pre ++ lit "//" ++ w).
Proof.
  rewrite <- name_parser_spec by (intros c Hc; apply lower_not_delim, Hc).
  unfold parse_reg_name_if_present, substr_from. rewrite skipn_pre.
  destruct (starts_with (lit "//" ++ l) (lit "//")) eqn:E; [reflexivity|].
  exfalso. apply not_true_iff_false in E. apply E, starts_with_spec. eauto.
Qed.

Lemma asset_type_spec pre l range p :
  parse_asset_type (pre ++ lit "/" ++ l) (length pre) = Some (range, p) <->
    exists w r, l = w ++ r /\ ends (lit "/:?#") r /\ is_name w
      /\ range = MkRange (length (pre ++ lit "/")) (length w)
      /\ p = length (pre ++ lit "/" ++ w).
Proof.
  rewrite <- name_parser_spec by (intros c Hc; apply lower_not_delim, Hc).
  unfold parse_asset_type, substr_from. rewrite skipn_pre.
  destruct (starts_with (lit "/" ++ l) (lit "/")) eqn:E; [reflexivity|].
  exfalso. apply not_true_iff_false in E. apply E, starts_with_spec. eauto.
Qed.

Lemma asset_name_spec pre l range p :
  parse_asset_name (pre ++ lit ":" ++ l) (length pre) = Some (range, p) <->
    exists w r, l = w ++ r /\ ends (lit "/:?#") r /\ is_name w
      /\ range = MkRange (length (pre ++ lit ":")) (length w)
      /\ p = length (pre ++ lit ":" ++ w).
Proof.
  rewrite <- name_parser_spec by (intros c Hc; apply lower_not_delim, Hc).
  unfold parse_asset_name, substr_from. rewrite skipn_pre.
  change (match lit ":" ++ l with [] => true | _ :: _ => false end) with false. cbn iota.
  destruct (starts_with (lit ":" ++ l) (lit ":")) eqn:E; [reflexivity|].
  exfalso. apply not_true_iff_false in E. apply E, starts_with_spec. eauto.
Qed.

Lemma revision_spec pre l range p :
  parse_revision_if_present (pre ++ lit ":" ++ l) (length pre) = Some (range, p) <->
    exists w r, l = w ++ r /\ ends (lit "/:?#") r /\ is_revision w
      /\ range = MkRange (length (pre ++ lit ":")) (length w)
      /\ p = length (pre ++ lit ":" ++ w).
Proof.
  unfold parse_revision_if_present, substr_from. rewrite skipn_pre.
  destruct (starts_with (lit ":" ++ l) (lit ":")) eqn:E;
    [|exfalso; apply not_true_iff_false in E; apply E, starts_with_spec; eauto].
  cbn [negb]. cbn zeta. clear E. rewrite app_assoc, <- app_length. cbn [start len].
  set (pl := pre ++ lit ":"). split.
  - destruct (part_split pl l (lit "/:?#")) as (w & r & -> & Hr & Hw & Hdist & Hsub).
    rewrite Hdist, Hsub. destruct w as [|c w]; [discriminate|].
    destruct (is_digit (c :: w)) eqn:E; [|discriminate]. cbn [negb].
    destruct (Ascii.eqb_spec c "0"); [discriminate|].
    destruct (Nat.ltb_spec 9 (length (c :: w))); [discriminate|].
    intros H'. injection H' as <- <-. apply is_digit_spec in E.
    exists (c :: w), r. repeat split; auto; try discriminate.
    + cbn. congruence.
    + subst pl. rewrite (app_assoc pre), !app_length; cbn; lia.
  - intros (w & r & -> & Hr & (Hne & Hdig & Hz & Hlen) & -> & ->).
    destruct (part_join pl w r (lit "/:?#") Hr) as [Hdist Hsub].
    { intros c Hc. apply digit_not_delim. rewrite Forall_forall in Hdig. auto. }
    rewrite Hdist, Hsub. destruct w as [|c w]; [congruence|].
    apply is_digit_spec in Hdig. rewrite Hdig. cbn [negb].
    destruct (Ascii.eqb_spec c "0"); [subst c; cbn in Hz; congruence|].
    destruct (Nat.ltb_spec 9 (length (c :: w))); [lia|].
    f_equal. f_equal. subst pl. rewrite (app_assoc pre), !app_length; cbn; lia.
Qed.

(** *** Scheme *)
Lemma tolower_i c : ascii_tolower c = "i"%char <-> In c ["i"; "I"]%char.
Proof.
  split; [|cbn; intros [<-|[<-|[]]]; reflexivity].
  destruct c as [[] [] [] [] [] [] [] []]; cbn; intro H; try discriminate; auto.
Qed.
Lemma tolower_n c : ascii_tolower c = "n"%char <-> In c ["n"; "N"]%char.
Proof.
  split; [|cbn; intros [<-|[<-|[]]]; reflexivity].
  destruct c as [[] [] [] [] [] [] [] []]; cbn; intro H; try discriminate; auto.
Qed.
Lemma tolower_k c : ascii_tolower c = "k"%char <-> In c ["k"; "K"]%char.
Proof.
  split; [|cbn; intros [<-|[<-|[]]]; reflexivity].
  destruct c as [[] [] [] [] [] [] [] []]; cbn; intro H; try discriminate; auto.
Qed.
Lemma tolower_colon c : ascii_tolower c = ":"%char <-> c = ":"%char.
Proof.
  split; [|intros ->; reflexivity].
  destruct c as [[] [] [] [] [] [] [] []]; cbn; intro H; try discriminate; auto.
Qed.

Lemma scheme_spec s : starts_with_ignore_case s (lit "ink:") = true <->
  exists p r, s = p ++ r /\ is_scheme p.
Proof.
  split.
  - destruct s as [|a [|b [|c [|e r]]]]; cbn -[ascii_tolower Ascii.eqb]; try discriminate;
      repeat rewrite ?andb_true_r, ?andb_false_r, ?andb_true_iff, ?Ascii.eqb_eq; try (intuition discriminate).
    change (ascii_tolower "i") with "i"%char. change (ascii_tolower "n") with "n"%char.
    change (ascii_tolower "k") with "k"%char. change (ascii_tolower ":") with ":"%char.
    rewrite tolower_i, tolower_n, tolower_k, tolower_colon.
    intros (Ha & Hb & Hc & -> & _).
    exists [a; b; c; ":"%char], r. split; [reflexivity|]. exists a, b, c. auto.
  - intros (p & r & -> & i & n & k & -> & Hi & Hn & Hk).
    cbn -[ascii_tolower Ascii.eqb]. apply tolower_i in Hi. apply tolower_n in Hn. apply tolower_k in Hk.
    rewrite Hi, Hn, Hk. destruct r; reflexivity.
Qed.

Lemma bytes_eqb_spec a : forall b, bytes_eqb a b = true <-> a = b.
Proof.
  induction a as [|x a IH]; intros [|y b]; cbn; try (split; congruence).
  rewrite andb_true_iff, Ascii.eqb_eq, IH. split; [intros [-> ->]|injection 1 as -> ->]; auto.
Qed.

(** *** Numbers *)
Lemma atoi_acc_spec s : Forall digit s -> forall v,
  atoi_acc s v = Some (fold_left (fun v c => 10 * v + (Z.of_nat (nat_of_ascii c) - 48))%Z s v).
Proof.
  induction 1 as [|c s Hc Hs IH]; intros v; cbn [atoi_acc fold_left]; [reflexivity|].
  assert (E : ascii_isdigit c = true).
  { unfold digit in Hc. change (nat_of_ascii "0") with 48 in Hc.
    change (nat_of_ascii "9") with 57 in Hc. unfold ascii_isdigit, code. lia. }
  rewrite E, IH. unfold code. f_equal. f_equal. lia.
Qed.

Lemma decimal_bound s : Forall digit s -> forall v, (0 <= v)%Z ->
  (0 <= fold_left (fun v c => 10 * v + (Z.of_nat (nat_of_ascii c) - 48))%Z s v
     < (v + 1) * 10 ^ Z.of_nat (length s))%Z.
Proof.
  induction 1 as [|c s Hc Hs IH]; intros v Hv; cbn [length fold_left].
  - change (10 ^ Z.of_nat 0)%Z with 1%Z. lia.
  - unfold digit in Hc. change (nat_of_ascii "0") with 48 in Hc.
    change (nat_of_ascii "9") with 57 in Hc.
    rewrite Nat2Z.inj_succ, Z.pow_succ_r by lia.
    specialize (IH (10 * v + (Z.of_nat (nat_of_ascii c) - 48)))%Z.
    assert (0 < 10 ^ Z.of_nat (length s))%Z by (apply Z.pow_pos_nonneg; lia).
    nia.
Qed.

Lemma simple_atoi_revision d : is_revision d -> simple_atoi d = Some (decimal_value d).
Proof.
  intros (Hne & Hd & _ & Hl). unfold simple_atoi, decimal_value. destruct d as [|c d]; [congruence|].
  rewrite (atoi_acc_spec _ Hd). destruct (decimal_bound _ Hd 0%Z ltac:(lia)) as [H1 H2].
  assert (10 ^ Z.of_nat (length (c :: d)) <= 10 ^ 9)%Z by (apply Z.pow_le_mono_r; lia).
  set (v := fold_left _ _ _) in *. destruct (Z.leb_spec v 2147483647); [reflexivity|lia].
Qed.

(** *** Parse *)
Lemma name_hd w : is_name w -> exists c w', w = c :: w' /\ lower_or_hyphen c.
Proof. intros [Hne Hf]. destruct w as [|c w]; [congruence|]. inversion Hf; subst; eauto. Qed.

Lemma substr_pre pre w r : substr (pre ++ w ++ r) (length pre) (length w) = w.
Proof. unfold substr. rewrite skipn_pre. apply firstn_pre. Qed.

Lemma substr_pre2 pre lead w r :
  substr (pre ++ lead ++ w ++ r) (length (pre ++ lead)) (length w) = w.
Proof. rewrite (app_assoc pre lead). apply substr_pre. Qed.

Lemma starts_with_hd_false a p s : (forall r, s <> a :: r) -> starts_with s (a :: p) = false.
Proof.
  intros H. apply not_true_is_false. rewrite starts_with_spec. intros [r Hr].
  cbn in Hr. eapply H; exact Hr.
Qed.

(** The part of [Parse] that follows the optional registered name *)
Definition parse_path (u : bytes) (reg : bytes) (position : nat) : option uri :=
  match parse_asset_type u position with
  | None => None
  | Some (range, position) =>
    let ty := substr u (start range) (len range) in
    match parse_asset_name u position with
    | None => None
    | Some (range, position) =>
      let name := substr u (start range) (len range) in
      match parse_revision_if_present u position with
      | None => None
      | Some (range, position) =>
        let rev := match simple_atoi (substr u (start range) (len range)) with
                   | Some v => v | None => default_revision_number end in
        if negb (position =? length u) then None
        else if bytes_eqb ty (lit "brush-family") then Some (MkUri reg name rev BrushFamily)
        else if bytes_eqb ty (lit "texture") then Some (MkUri reg name rev Texture)
        else None
      end
    end
  end.

Inductive path_of (reg : bytes) : bytes -> uri -> Prop :=
| PathOf : forall ty t name rev revision,
    is_asset_type ty t -> is_name name ->
    ((rev = [] /\ revision = 1%Z)
     \/ (exists d, is_revision d /\ rev = text ":" ++ d /\ revision = decimal_value d)) ->
    path_of reg (text "/" ++ ty ++ text ":" ++ name ++ rev) (MkUri reg name revision t).

Lemma asset_type_name ty t : is_asset_type ty t -> is_name ty.
Proof.
  intros [[-> _]|[-> _]]; (split; [discriminate|]); apply is_lower_or_hyphen_spec; reflexivity.
Qed.

Lemma no_lead a s : (~ exists r, s = lit a ++ r) -> starts_with s (lit a) = false.
Proof. intros H. apply not_true_is_false. rewrite starts_with_spec. exact H. Qed.

Lemma revision_absent pre :
  parse_revision_if_present (pre ++ []) (length pre) = Some (empty_range, length pre).
Proof.
  unfold parse_revision_if_present, substr_from. rewrite skipn_pre. reflexivity.
Qed.

Lemma parse_path_spec pre l reg u :
  parse_path (pre ++ l) reg (length pre) = Some u <-> path_of reg l u.
Proof.
  split.
  - intros H. unfold parse_path in H.
    destruct (parse_asset_type (pre ++ l) (length pre)) as [[rng1 p1]|] eqn:E1; [|discriminate].
    assert (exists r1, l = lit "/" ++ r1) as [r1 ->].
    { revert E1. unfold parse_asset_type, substr_from. rewrite skipn_pre.
      destruct (starts_with l (lit "/")) eqn:E; [|discriminate].
      intros _. apply starts_with_spec in E. exact E. }
    apply asset_type_spec in E1. destruct E1 as (ty & r2 & -> & Hend & Hty & -> & ->).
    cbn [start len] in H.
    change (lit "/" ++ ty ++ r2) with ((lit "/") ++ (ty ++ r2)) in H.
    rewrite (app_assoc pre (lit "/")) in H. rewrite substr_pre in H.
    rewrite (app_assoc pre), <- (app_assoc (pre ++ lit "/")) in H || idtac.
    cbn zeta in H.
    replace ((pre ++ lit "/") ++ ty ++ r2) with ((pre ++ lit "/" ++ ty) ++ r2) in H
      by (rewrite <- !app_assoc; reflexivity).
    replace (length ((pre ++ lit "/") ++ ty)) with (length (pre ++ lit "/" ++ ty)) in H
      by (rewrite <- !app_assoc; reflexivity).
    set (pre2 := pre ++ lit "/" ++ ty) in *.
    destruct (parse_asset_name (pre2 ++ r2) (length pre2)) as [[rng2 p2]|] eqn:E2; [|discriminate].
    assert (exists r3, r2 = lit ":" ++ r3) as [r3 ->].
    { revert E2. unfold parse_asset_name, substr_from. rewrite skipn_pre.
      destruct r2 as [|c r2]; [discriminate|].
      destruct (starts_with (c :: r2) (lit ":")) eqn:E; [|discriminate].
      intros _. apply starts_with_spec in E. exact E. }
    apply asset_name_spec in E2. destruct E2 as (name & r4 & -> & Hend2 & Hname & -> & ->).
    cbn [start len] in H. rewrite (app_assoc pre2) in H. rewrite substr_pre in H.
    cbn zeta in H.
    replace ((pre2 ++ lit ":") ++ name ++ r4) with ((pre2 ++ lit ":" ++ name) ++ r4) in H
      by (rewrite <- !app_assoc; reflexivity).
    set (pre3 := pre2 ++ lit ":" ++ name) in *.
    destruct (parse_revision_if_present (pre3 ++ r4) (length pre3)) as [[rng3 p3]|] eqn:E3; [|discriminate].
    destruct (starts_with r4 (lit ":")) eqn:Er.
    + apply starts_with_spec in Er. destruct Er as [r5 ->].
      apply revision_spec in E3. destruct E3 as (d & r6 & -> & Hend3 & Hrev & -> & ->).
      cbn [start len] in H. rewrite substr_pre2 in H.
      rewrite (simple_atoi_revision _ Hrev) in H.
      destruct (Nat.eqb_spec (length (pre3 ++ lit ":" ++ d)) (length (pre3 ++ lit ":" ++ d ++ r6)))
        as [Hl|]; [|discriminate]. cbn [negb] in H.
      assert (r6 = []) as ->.
      { rewrite !app_length in Hl. destruct r6; [reflexivity|cbn in Hl; lia]. }
      assert (Hp : forall t, is_asset_type ty t ->
        path_of reg (lit "/" ++ ty ++ lit ":" ++ name ++ lit ":" ++ d ++ [])
          (MkUri reg name (decimal_value d) t)).
      { intros t Ht. apply (PathOf reg ty t name (lit ":" ++ d ++ []) _ Ht Hname).
        right. exists d. rewrite app_nil_r. auto. }
      destruct (bytes_eqb ty (lit "brush-family")) eqn:Eb.
      * injection H as <-. apply bytes_eqb_spec in Eb. apply Hp. left; auto.
      * destruct (bytes_eqb ty (lit "texture")) eqn:Et; [|discriminate].
        injection H as <-. apply bytes_eqb_spec in Et. apply Hp. right; auto.
    + assert (rng3 = empty_range /\ p3 = length pre3) as [-> ->].
      { revert E3. unfold parse_revision_if_present, substr_from. rewrite skipn_pre, Er.
        cbn [negb]. injection 1 as <- <-; auto. }
      change (substr (pre3 ++ r4) (start empty_range) (len empty_range)) with (@nil ascii) in H.
      cbn [simple_atoi] in H.
      destruct (Nat.eqb_spec (length pre3) (length (pre3 ++ r4))) as [Hl|]; [|discriminate].
      cbn [negb] in H.
      assert (r4 = []) as ->.
      { rewrite !app_length in Hl. destruct r4; [reflexivity|cbn in Hl; lia]. }
      assert (Hp : forall t, is_asset_type ty t ->
        path_of reg (lit "/" ++ ty ++ lit ":" ++ name ++ [])
          (MkUri reg name default_revision_number t)).
      { intros t Ht. apply (PathOf reg ty t name [] _ Ht Hname). left; auto. }
      destruct (bytes_eqb ty (lit "brush-family")) eqn:Eb.
      * injection H as <-. apply bytes_eqb_spec in Eb. apply Hp. left; auto.
      * destruct (bytes_eqb ty (lit "texture")) eqn:Et; [|discriminate].
        injection H as <-. apply bytes_eqb_spec in Et. apply Hp. right; auto.
  - intros H. destruct H as [ty t name rev revision Hty Hname Hrev].
    change text with lit in *.
    pose proof (asset_type_name _ _ Hty) as Htyn.
    assert (Hend_rev : ends (lit "/:?#") rev).
    { destruct Hrev as [[-> _]|(d & _ & -> & _)]; [left; reflexivity|right].
      exists ":"%char, d. split; reflexivity. }
    unfold parse_path.
    assert (E1 : parse_asset_type (pre ++ lit "/" ++ ty ++ lit ":" ++ name ++ rev) (length pre)
      = Some (MkRange (length (pre ++ lit "/")) (length ty), length (pre ++ lit "/" ++ ty))).
    { apply asset_type_spec. exists ty, (lit ":" ++ name ++ rev). repeat split; auto; try apply Htyn.
      right. exists ":"%char, (name ++ rev). split; reflexivity. }
    rewrite E1. cbn [start len]. cbn zeta.
    rewrite (app_assoc pre (lit "/")), substr_pre.
    replace ((pre ++ lit "/") ++ ty ++ lit ":" ++ name ++ rev)
      with ((pre ++ lit "/" ++ ty) ++ lit ":" ++ name ++ rev) by (rewrite <- !app_assoc; reflexivity).
    set (pre2 := pre ++ lit "/" ++ ty).
    assert (E2 : parse_asset_name (pre2 ++ lit ":" ++ name ++ rev) (length pre2)
      = Some (MkRange (length (pre2 ++ lit ":")) (length name), length (pre2 ++ lit ":" ++ name))).
    { apply asset_name_spec. exists name, rev. repeat split; auto; apply Hname. }
    rewrite E2. cbn [start len]. rewrite (app_assoc pre2 (lit ":")), substr_pre.
    replace ((pre2 ++ lit ":") ++ name ++ rev) with ((pre2 ++ lit ":" ++ name) ++ rev)
      by (rewrite <- !app_assoc; reflexivity).
    set (pre3 := pre2 ++ lit ":" ++ name).
    assert (Hfin : forall rv,
      (if bytes_eqb ty (lit "brush-family") then Some (MkUri reg name rv BrushFamily)
       else if bytes_eqb ty (lit "texture") then Some (MkUri reg name rv Texture) else None)
      = Some (MkUri reg name rv t)).
    { intros rv. destruct Hty as [[-> ->]|[-> ->]]; reflexivity. }
    destruct Hrev as [[-> ->]|(d & Hd & -> & ->)].
    + rewrite revision_absent.
      change (substr (pre3 ++ []) (start empty_range) (len empty_range)) with (@nil ascii).
      cbn [simple_atoi]. rewrite app_nil_r, Nat.eqb_refl. cbn [negb].
      apply Hfin.
    + assert (E3 : parse_revision_if_present (pre3 ++ lit ":" ++ d) (length pre3)
        = Some (MkRange (length (pre3 ++ lit ":")) (length d), length (pre3 ++ lit ":" ++ d))).
      { apply revision_spec. exists d, []. rewrite app_nil_r. repeat split; auto; try apply Hd.
        left; reflexivity. }
      rewrite E3. cbn [start len].
      replace (substr (pre3 ++ lit ":" ++ d) (length (pre3 ++ lit ":")) (length d)) with d.
      2:{ rewrite <- (app_nil_r d) at 2. rewrite (app_assoc pre3).
          symmetry. apply substr_pre. }
      rewrite (simple_atoi_revision _ Hd), Nat.eqb_refl. cbn [negb].
      apply Hfin.
Qed.

(** After the scheme: optional registered name, then the path. *)
Definition parse_rest (u : bytes) (position : nat) : option uri :=
  match substr_from u position with
  | [] => None
  | c :: _ =>
    if negb (Ascii.eqb c "/"%char) then None
    else
      match parse_reg_name_if_present u position with
      | None => None
      | Some (range, position) =>
        let reg := substr u (start range) (len range) in
        let reg := match reg with [] => ink_reg_name | _ => reg end in
        parse_path u reg position
      end
  end.

Lemma parse_unfold u : u <> [] -> parse u = parse_rest u (first_position_after_scheme u).
Proof. destruct u; [congruence|reflexivity]. Qed.

Inductive rest_of : bytes -> uri -> Prop :=
| RestOf : forall auth reg path u,
    ((auth = [] /\ reg = text "ink") \/ (is_name reg /\ auth = text "//" ++ reg)) ->
    path_of reg path u -> rest_of (auth ++ path) u.

Lemma path_hd reg l u : path_of reg l u -> exists c l', l = "/"%char :: c :: l' /\ lower_or_hyphen c.
Proof.
  intros [ty t name rev revision Hty _ _]. apply asset_type_name, name_hd in Hty.
  destruct Hty as (c & w & -> & Hc). exists c. eexists; split; [reflexivity|exact Hc].
Qed.

Lemma slash_not_lower : ~ lower_or_hyphen "/"%char.
Proof.
  intros [H|H]; [|discriminate].
  change (nat_of_ascii "a") with 97 in H; change (nat_of_ascii "/") with 47 in H; lia.
Qed.

Lemma parse_rest_spec pre l u :
  parse_rest (pre ++ l) (length pre) = Some u <-> rest_of l u.
Proof.
  unfold parse_rest, substr_from. rewrite skipn_pre. split.
  - destruct l as [|c l]; [discriminate|].
    destruct (Ascii.eqb_spec c "/") as [->|]; [|discriminate]. cbn [negb].
    destruct (starts_with ("/"%char :: l) (lit "//")) eqn:Es.
    + apply starts_with_spec in Es. destruct Es as [r Hr]. rewrite Hr.
      destruct (parse_reg_name_if_present (pre ++ lit "//" ++ r) (length pre)) as [[rng p]|] eqn:E; [|discriminate].
      apply reg_present_spec in E. destruct E as (reg & r2 & -> & Hend & Hreg & -> & ->).
      cbn [start len]. rewrite (app_assoc pre), substr_pre.
      replace (match reg with [] => ink_reg_name | _ :: _ => reg end) with reg
        by (destruct Hreg as [? _]; destruct reg; congruence).
      replace ((pre ++ lit "//") ++ reg ++ r2) with ((pre ++ lit "//" ++ reg) ++ r2)
        by (rewrite <- !app_assoc; reflexivity).
      cbn zeta. intros H. apply parse_path_spec in H.
      replace (lit "//" ++ reg ++ r2) with ((lit "//" ++ reg) ++ r2) by (rewrite <- app_assoc; reflexivity).
      eapply RestOf; [right|exact H]. split; [exact Hreg|reflexivity].
    + assert (E : parse_reg_name_if_present (pre ++ "/"%char :: l) (length pre) = Some (empty_range, length pre)).
      { unfold parse_reg_name_if_present, substr_from. rewrite skipn_pre, Es. reflexivity. }
      rewrite E.
      change (substr (pre ++ "/"%char :: l) (start empty_range) (len empty_range)) with (@nil ascii).
      cbn zeta. intros H. apply parse_path_spec in H.
      apply (RestOf [] ink_reg_name _ _); [left; auto|exact H].
  - intros H. destruct H as [auth reg path u Hauth Hpath].
    destruct (path_hd _ _ _ Hpath) as (c & l' & Hl' & Hc).
    destruct Hauth as [[-> ->]|[Hreg ->]].
    + cbn [app]. rewrite Hl'. cbn [Ascii.eqb]. rewrite <- Hl'.
      assert (E : parse_reg_name_if_present (pre ++ path) (length pre) = Some (empty_range, length pre)).
      { unfold parse_reg_name_if_present, substr_from. rewrite skipn_pre.
        rewrite no_lead; [reflexivity|]. intros [r Hr]. rewrite Hl' in Hr. cbn in Hr.
        injection Hr as -> _. exact (slash_not_lower Hc). }
      change (negb (Ascii.eqb "/" "/")) with false. cbn iota.
      rewrite E.
      change (substr (pre ++ path) (start empty_range) (len empty_range)) with (@nil ascii).
      cbn zeta. apply parse_path_spec. exact Hpath.
    + change text with lit. rewrite <- app_assoc. cbn [app lit list_ascii_of_string].
      change (negb (Ascii.eqb "/" "/")) with false. cbn iota.
      change ("/"%char :: "/"%char :: reg ++ path) with (lit "//" ++ reg ++ path).
      assert (E : parse_reg_name_if_present (pre ++ lit "//" ++ reg ++ path) (length pre)
        = Some (MkRange (length (pre ++ lit "//")) (length reg), length (pre ++ lit "//" ++ reg))).
      { apply reg_present_spec. exists reg, path. repeat split; auto; try apply Hreg.
        right. exists "/"%char, (c :: l'). split; [exact Hl'|reflexivity]. }
      rewrite E. cbn [start len]. rewrite (app_assoc pre), substr_pre.
      replace (match reg with [] => ink_reg_name | _ :: _ => reg end) with reg
        by (destruct Hreg as [? _]; destruct reg; congruence).
      replace ((pre ++ lit "//") ++ reg ++ path) with ((pre ++ lit "//" ++ reg) ++ path)
        by (rewrite <- !app_assoc; reflexivity).
      cbn zeta. apply parse_path_spec. exact Hpath.
Qed.

Lemma rest_hd l u : rest_of l u -> exists l', l = "/"%char :: l'.
Proof.
  intros [auth reg path v Ha Hp]. destruct (path_hd _ _ _ Hp) as (c & l' & -> & _).
  destruct Ha as [[-> _]|[_ ->]]; eexists; reflexivity.
Qed.

Lemma ink_uri_rest s u : ink_uri s u <->
  exists scheme l, s = scheme ++ l /\ (scheme = [] \/ is_scheme scheme) /\ rest_of l u.
Proof.
  split.
  - intros [scheme auth ty name rev reg t revision Hs Ha Ht Hn Hr].
    exists scheme, (auth ++ text "/" ++ ty ++ text ":" ++ name ++ rev).
    repeat split; auto. apply (RestOf auth reg); [exact Ha|]. constructor; auto.
  - intros (scheme & l & -> & Hs & Hr). destruct Hr as [auth reg path u Ha Hp].
    destruct Hp. constructor; auto.
Qed.

Lemma scheme_hd p : is_scheme p -> exists c q, p = c :: q /\ c <> "/"%char /\ length p = 4.
Proof.
  intros (i & n & k & -> & Hi & _). exists i. eexists. split; [reflexivity|]. split; [|reflexivity].
  cbn in Hi. intros ->. intuition discriminate.
Qed.

Lemma first_position_with_scheme p l : is_scheme p ->
  first_position_after_scheme (p ++ l) = length p.
Proof.
  intros Hp. unfold first_position_after_scheme.
  replace (starts_with_ignore_case (p ++ l) (lit "ink:")) with true.
  - destruct (scheme_hd p Hp) as (_ & _ & _ & _ & ->). reflexivity.
  - symmetry. apply scheme_spec. eauto.
Qed.

Theorem parse_exact s u :
  parse s = Some u <-> (s = [] /\ u = default_uri) \/ ink_uri s u.
Proof.
  destruct s as [|a s'].
  - split.
    + cbn. injection 1 as <-. left; auto.
    + intros [[_ ->]|H]; [reflexivity|].
      apply ink_uri_rest in H. destruct H as (scheme & l & Hl & _ & Hr).
      destruct (rest_hd _ _ Hr) as [l' ->]. destruct scheme; discriminate.
  - set (s := a :: s'). assert (Hne : s <> []) by (unfold s; discriminate).
    rewrite parse_unfold by exact Hne.
    rewrite ink_uri_rest. split.
    + intros H. right.
      unfold first_position_after_scheme in H.
      destruct (starts_with_ignore_case s (lit "ink:")) eqn:E.
      * apply scheme_spec in E. destruct E as (p & r & Hs & Hp). rewrite Hs in H |- *.
        destruct (scheme_hd p Hp) as (_ & _ & _ & _ & Hlen).
        change (length (lit "ink:")) with 4 in H. rewrite <- Hlen in H.
        apply parse_rest_spec in H. exists p, r. auto.
      * apply (parse_rest_spec []) in H. exists [], s. auto.
    + intros [[Hnil _]|(scheme & l & Hs & Hsch & Hr)]; [congruence|].
      rewrite Hs. destruct Hsch as [->|Hsch].
      * cbn [app]. unfold first_position_after_scheme.
        destruct (starts_with_ignore_case l (lit "ink:")) eqn:E.
        -- exfalso. apply scheme_spec in E. destruct E as (p & r & Hl & Hp).
           destruct (scheme_hd p Hp) as (c & q & -> & Hc & _).
           destruct (rest_hd _ _ Hr) as [l' Hl']. rewrite Hl' in Hl. injection Hl as Hc' _. congruence.
        -- apply (parse_rest_spec []). exact Hr.
      * rewrite first_position_with_scheme by exact Hsch. apply parse_rest_spec. exact Hr.
Qed.

(** *** Normalisation *)
Lemma digit_of_nat n : n < 10 -> nat_of_ascii (ascii_of_nat (48 + n)) = 48 + n.
Proof. intros H. apply nat_ascii_embedding. lia. Qed.

Lemma digits_fuel_shape fuel : forall z acc, (0 <= z < 10 ^ Z.of_nat fuel)%Z -> fuel <> 0 ->
  exists d, digits_fuel fuel z acc = d ++ acc /\ d <> [] /\ Forall digit d
    /\ fold_left (fun v c => 10 * v + (Z.of_nat (nat_of_ascii c) - 48))%Z d 0%Z = z
    /\ (z <> 0%Z -> hd_error d <> Some "0"%char)
    /\ (forall k, (0 <= k)%Z -> (z < 10 ^ k)%Z -> (k <> 0)%Z -> (Z.of_nat (length d) <= k)%Z).
Proof.
  induction fuel as [|fuel IH]; intros z acc Hz Hf; [congruence|].
  cbn [digits_fuel].
  assert (Hm : (0 <= z mod 10 < 10)%Z) by (apply Z.mod_pos_bound; lia).
  set (c := ascii_of_nat (48 + Z.to_nat (z mod 10))).
  assert (Hc : nat_of_ascii c = 48 + Z.to_nat (z mod 10)) by (apply digit_of_nat; lia).
  assert (Hdig : digit c).
  { unfold digit. change (nat_of_ascii "0") with 48. change (nat_of_ascii "9") with 57.
    rewrite Hc. lia. }
  clearbody c.
  destruct (Z.ltb_spec z 10) as [Hlt|Hge].
  - exists [c]. rewrite Z.mod_small in Hc by lia. repeat split; try discriminate; auto.
    + cbn [fold_left]. rewrite Hc. lia.
    + intros Hnz. cbn. injection 1 as He. apply (f_equal nat_of_ascii) in He. rewrite Hc in He.
      change (nat_of_ascii "0") with 48 in He. lia.
    + intros k Hk _ Hk0. cbn [length]. lia.
  - assert (Hq : (0 <= z / 10 < 10 ^ Z.of_nat fuel)%Z).
    { rewrite Nat2Z.inj_succ, Z.pow_succ_r in Hz by lia. split; [apply Z.div_pos; lia|].
      apply Z.div_lt_upper_bound; lia. }
    assert (Hf' : fuel <> 0).
    { intros ->. cbn in Hq. assert (1 <= z / 10)%Z by (apply Z.div_le_lower_bound; lia). lia. }
    destruct (IH (z / 10)%Z (c :: acc) Hq Hf') as (d & Hd & Hne & Hall & Hval & Hhd & Hlen).
    exists (d ++ [c]). rewrite Hd, <- app_assoc. cbn [app]. repeat split.
    + destruct d; discriminate.
    + apply Forall_app; auto.
    + rewrite fold_left_app, Hval. cbn [fold_left]. rewrite Hc.
      pose proof (Z.div_mod z 10). lia.
    + intros _. destruct d as [|e d]; [congruence|]. cbn. apply Hhd.
      assert (1 <= z / 10)%Z by (apply Z.div_le_lower_bound; lia). lia.
    + intros k Hk Hzk Hk0. rewrite app_length. cbn [length].
      assert (k <> 1)%Z by (intros ->; change (10 ^ 1)%Z with 10%Z in Hzk; lia).
      assert (Hk1 : (Z.of_nat (length d) <= k - 1)%Z).
      { apply Hlen; try lia.
        replace (10 ^ k)%Z with (10 * 10 ^ (k - 1))%Z in Hzk
          by (rewrite <- Z.pow_succ_r by lia; f_equal; lia).
        apply Z.div_lt_upper_bound; lia. }
      lia.
Qed.

Lemma revision_string z : (0 < z < 10 ^ 9)%Z ->
  is_revision (int32_to_string z) /\ decimal_value (int32_to_string z) = z.
Proof.
  intros Hz. unfold int32_to_string. destruct (Z.ltb_spec z 0); [lia|].
  destruct (digits_fuel_shape 10 z []) as (d & Hd & Hne & Hall & Hval & Hhd & Hlen).
  - change (10 ^ Z.of_nat 10)%Z with (10 * 10 ^ 9)%Z. lia.
  - discriminate.
  - rewrite app_nil_r in Hd. rewrite Hd. split; [|exact Hval]. repeat split; auto.
    + apply Hhd; lia.
    + specialize (Hlen 9%Z). lia.
Qed.

Lemma decimal_value_pos d : is_revision d -> (0 < decimal_value d < 10 ^ 9)%Z.
Proof.
  intros (Hne & Hd & Hz & Hl). unfold decimal_value.
  destruct d as [|c d]; [congruence|]. cbn [fold_left].
  inversion Hd as [|? ? Hc Hd']; subst.
  assert (Hc1 : (1 <= Z.of_nat (nat_of_ascii c) - 48 <= 9)%Z).
  { unfold digit in Hc. change (nat_of_ascii "0") with 48 in Hc.
    change (nat_of_ascii "9") with 57 in Hc.
    assert (nat_of_ascii c <> 48); [|lia].
    intros E. apply Hz. cbn. f_equal. rewrite <- (ascii_nat_embedding c), E. reflexivity. }
  set (v := (10 * 0 + (Z.of_nat (nat_of_ascii c) - 48))%Z) in *.
  assert (Hv1 : (1 <= v <= 9)%Z) by lia. clearbody v.
  destruct (decimal_bound d Hd' v ltac:(lia)) as [_ H2].
  assert (Hmono : (v <= fold_left (fun v c => 10 * v + (Z.of_nat (nat_of_ascii c) - 48)) d v)%Z).
  { assert (Hv : (0 <= v)%Z) by lia. clear -Hd' Hv. revert v Hv. induction Hd' as [|e d He Hd IH]; intros v Hv; cbn [fold_left].
    - lia.
    - unfold digit in He. change (nat_of_ascii "0") with 48 in He.
      specialize (IH (10 * v + (Z.of_nat (nat_of_ascii e) - 48)))%Z. lia. }
  assert ((v + 1) * 10 ^ Z.of_nat (length d) <= 10 ^ 9)%Z; [|lia].
  cbn [length] in Hl.
  assert (10 ^ Z.of_nat (length d) <= 10 ^ 8)%Z by (apply Z.pow_le_mono_r; lia).
  assert (0 < 10 ^ Z.of_nat (length d))%Z by (apply Z.pow_pos_nonneg; lia).
  change (10 ^ 9)%Z with (10 * 10 ^ 8)%Z. nia.
Qed.

(** Everything Parse can return *)
Lemma parse_result s u : parse s = Some u ->
  u = default_uri \/
  (is_name (reg_name u) /\ is_name (asset_name u) /\ (0 < revision_number u < 10 ^ 9)%Z
   /\ asset_ty u <> Uninitialized).
Proof.
  intros H. apply parse_exact in H. destruct H as [[_ ->]|H]; [left; reflexivity|right].
  destruct H as [scheme auth ty name rev reg t revision Hs Ha Ht Hn Hr]. cbn.
  repeat split; try apply Hn.
  - destruct Ha as [[_ ->]|[Hreg _]]; [discriminate|apply Hreg].
  - destruct Ha as [[_ ->]|[Hreg _]]; [apply is_lower_or_hyphen_spec; reflexivity|apply Hreg].
  - destruct Hr as [[_ ->]|(d & Hd & _ & ->)]; [lia|apply decimal_value_pos in Hd; lia].
  - destruct Hr as [[_ ->]|(d & Hd & _ & ->)]; [lia|apply decimal_value_pos in Hd; lia].
  - destruct Ht as [[_ ->]|[_ ->]]; discriminate.
Qed.

Lemma normal_parse u :
  is_name (reg_name u) -> is_name (asset_name u) -> (0 < revision_number u < 10 ^ 9)%Z ->
  asset_ty u <> Uninitialized -> ink_uri (to_normalized_string u) u.
Proof.
  destruct u as [reg name rv t]. cbn [reg_name asset_name revision_number asset_ty].
  intros Hreg Hname Hrv Ht.
  unfold to_normalized_string, has_ink_reg_name. cbn [reg_name asset_name revision_number asset_ty].
  set (auth := if negb (bytes_eqb reg ink_reg_name) then lit "//" ++ reg else []).
  set (rev := if negb (rv =? default_revision_number)%Z then lit ":" ++ int32_to_string rv else []).
  assert (H : ink_uri ([] ++ auth ++ text "/" ++ asset_type_string t ++ text ":" ++ name ++ rev)
                (MkUri reg name rv t)).
  { constructor; auto.
    - unfold auth. destruct (bytes_eqb reg ink_reg_name) eqn:E.
      + apply bytes_eqb_spec in E. left. auto.
      + right. auto.
    - destruct t; [congruence|left|right]; split; reflexivity.
    - unfold rev. destruct (Z.eqb_spec rv default_revision_number) as [->|].
      + left. auto.
      + right. exists (int32_to_string rv). destruct (revision_string rv Hrv). auto. }
  destruct t; [congruence|exact H|exact H].
Qed.

Theorem parse_normalized s u : parse s = Some u -> parse (to_normalized_string u) = Some u.
Proof.
  intros H. apply parse_exact. destruct (parse_result _ _ H) as [->|(H1 & H2 & H3 & H4)].
  - left. auto.
  - right. apply normal_parse; auto.
Qed.

Lemma uri_eqb_spec a b : uri_eqb a b = true <-> a = b.
Proof.
  destruct a as [r1 n1 v1 t1], b as [r2 n2 v2 t2]. unfold uri_eqb. cbn.
  rewrite !andb_true_iff, !bytes_eqb_spec, Z.eqb_eq.
  split; [|injection 1 as -> -> -> ->; destruct t2; auto].
  intros [[[Ht ->] ->] ->]. f_equal. destruct t1, t2; try discriminate; reflexivity.
Qed.

Theorem normalized_injective s1 s2 u1 u2 :
  parse s1 = Some u1 -> parse s2 = Some u2 ->
  (uri_eqb u1 u2 = true <-> to_normalized_string u1 = to_normalized_string u2).
Proof.
  intros H1 H2. rewrite uri_eqb_spec. split; [intros ->; reflexivity|].
  intros E. apply parse_normalized in H1, H2. rewrite E in H1. congruence.
Qed.

(** Shortest: no string that parses to the same Uri is shorter. *)
Lemma decimal_injective d : is_revision d -> int32_to_string (decimal_value d) = d.
Proof.
  intros H. pose proof (decimal_value_pos d H) as Hp.
  destruct (revision_string _ Hp) as [H' Hv].
  (* two digit strings without leading zero and the same value are equal *)
  assert (Hinj : forall a b, Forall digit a -> Forall digit b ->
     length a = length b -> forall v w, 
     fold_left (fun v c => 10 * v + (Z.of_nat (nat_of_ascii c) - 48))%Z a v =
     fold_left (fun v c => 10 * v + (Z.of_nat (nat_of_ascii c) - 48))%Z b w -> a = b /\ v = w).
  { induction a as [|x a IHa] using rev_ind; intros b Ha Hb Hl v w Hvw.
    - destruct b; [auto|discriminate].
    - destruct b as [|y b' _] using rev_ind; [rewrite app_length in Hl; cbn in Hl; lia|].
      rewrite !app_length in Hl. cbn in Hl. rewrite !fold_left_app in Hvw. cbn [fold_left] in Hvw.
      apply Forall_app in Ha, Hb. destruct Ha as [Ha Hx], Hb as [Hb Hy].
      inversion Hx as [|? ? Hx' _]; inversion Hy as [|? ? Hy' _]; subst.
      unfold digit in Hx', Hy'. change (nat_of_ascii "0") with 48 in *. change (nat_of_ascii "9") with 57 in *.
      match type of Hvw with (10 * ?A + _ = 10 * ?B + _)%Z => assert (HAB : A = B) by lia end.
      destruct (IHa b' Ha Hb ltac:(lia) v w HAB) as [-> ->].
      split; [|reflexivity]. f_equal. f_equal.
      rewrite <- (ascii_nat_embedding x), <- (ascii_nat_embedding y). f_equal. lia. }
  set (e := int32_to_string (decimal_value d)) in *.
  (* lengths agree because of the leading non-zero digit *)
  assert (Hlow : forall a, is_revision a -> (10 ^ Z.of_nat (length a - 1) <= decimal_value a)%Z).
  { intros a (Hne & Ha & Hz & _). destruct a as [|c a]; [congruence|]. cbn [length].
    unfold decimal_value. cbn [fold_left]. replace (S (length a) - 1) with (length a) by lia.
    inversion Ha as [|? ? Hc Ha']; subst.
    assert (Hc1 : (1 <= 10 * 0 + (Z.of_nat (nat_of_ascii c) - 48))%Z).
    { unfold digit in Hc. change (nat_of_ascii "0") with 48 in Hc.
      assert (nat_of_ascii c <> 48); [|lia].
      intros E. apply Hz. cbn. f_equal. rewrite <- (ascii_nat_embedding c), E. reflexivity. }
    revert Hc1. generalize (10 * 0 + (Z.of_nat (nat_of_ascii c) - 48))%Z as v.
    assert (G : forall v, (1 <= v)%Z -> (v * 10 ^ Z.of_nat (length a) <= fold_left (fun v c => 10 * v + (Z.of_nat (nat_of_ascii c) - 48)) a v)%Z).
    { clear -Ha'. induction Ha' as [|e a He Ha IH]; intros v Hv; cbn [length fold_left].
      - change (10 ^ Z.of_nat 0)%Z with 1%Z. lia.
      - unfold digit in He. change (nat_of_ascii "0") with 48 in He.
        rewrite Nat2Z.inj_succ, Z.pow_succ_r by lia.
        specialize (IH (10 * v + (Z.of_nat (nat_of_ascii e) - 48)))%Z.
        assert (0 < 10 ^ Z.of_nat (length a))%Z by (apply Z.pow_pos_nonneg; lia). nia. }
    intros v Hv1. specialize (G v Hv1).
    assert (0 < 10 ^ Z.of_nat (length a))%Z by (apply Z.pow_pos_nonneg; lia). nia. }
  assert (Hup : forall a, is_revision a -> (decimal_value a < 10 ^ Z.of_nat (length a))%Z).
  { intros a (_ & Ha & _). destruct (decimal_bound a Ha 0%Z ltac:(lia)). unfold decimal_value. lia. }
  assert (Hlen : length e = length d).
  { assert (Hone : forall a b, is_revision a -> is_revision b -> decimal_value a = decimal_value b -> length a <= length b).
    { intros a b Ha Hb Hab. destruct (le_gt_dec (length a) (length b)); [assumption|exfalso].
      pose proof (Hlow a Ha). pose proof (Hup b Hb).
      assert (10 ^ Z.of_nat (length b) <= 10 ^ Z.of_nat (length a - 1))%Z by (apply Z.pow_le_mono_r; lia). lia. }
    apply Nat.le_antisymm; apply Hone; auto. }
  destruct (Hinj e d) with (v := 0%Z) (w := 0%Z) as [-> _]; auto; [apply H'|apply H].
Qed.

Theorem normalized_shortest s u : parse s = Some u -> length (to_normalized_string u) <= length s.
Proof.
  intros H. apply parse_exact in H. destruct H as [[-> ->]|H]; [cbn; lia|].
  destruct H as [scheme auth ty name rev reg t revision Hs Ha Ht Hn Hr].
  assert (Hty : asset_type_string t = ty) by (destruct Ht as [[-> ->]|[-> ->]]; reflexivity).
  unfold to_normalized_string, has_ink_reg_name. cbn [reg_name asset_name revision_number asset_ty].
  assert (G : length ((if negb (bytes_eqb reg ink_reg_name) then lit "//" ++ reg else [])
     ++ lit "/" ++ ty ++ lit ":" ++ name ++
      (if negb (revision =? default_revision_number)%Z then lit ":" ++ int32_to_string revision else []))
     <= length (scheme ++ auth ++ text "/" ++ ty ++ text ":" ++ name ++ rev)).
  { change text with lit in *. repeat rewrite app_length.
    assert (length (if negb (bytes_eqb reg ink_reg_name) then lit "//" ++ reg else []) <= length auth).
    { destruct Ha as [[-> ->]|[_ ->]].
      - change ink_reg_name with (lit "ink"). replace (bytes_eqb (lit "ink") (lit "ink")) with true by reflexivity. cbn; lia.
      - destruct (negb _); [lia|cbn; lia]. }
    assert (length (if negb (revision =? default_revision_number)%Z then lit ":" ++ int32_to_string revision else []) <= length rev).
    { destruct Hr as [[-> ->]|(d & Hd & -> & ->)]; [cbn; lia|].
      rewrite decimal_injective by exact Hd. destruct (negb (decimal_value d =? _)%Z); cbn; lia. }
    lia. }
  destruct t; [|rewrite Hty; exact G|rewrite Hty; exact G].
  destruct Ht as [[_ ?]|[_ ?]]; discriminate.
Qed.
