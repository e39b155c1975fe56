(** Property theorems about StrokeInputModeler.  The smoothing backend ([reset],
    [bupdate]), [hyp] and the epsilon are arbitrary; [m_run (m_start b h) cs] is the
    modeler after StartStroke and the ExtendStroke calls [cs] (real inputs, predicted
    inputs, current time), whatever state [b], [h] an earlier stroke left behind. *)
From Coq Require Import ZArith Reals List Bool Arith Lia.
From Flocq Require Import IEEE754.BinarySingleNaN.
From Verif Require Import F32 F32Lemmas BatchModel BatchProps DurationModel ModelerModel ModelerSpec ModelerProofs.
Import ListNotations.
Local Open Scope nat_scope.

Section Props.
Variables M Pay : Type.
Variable reset : option f32 -> M.
Variable bupdate : M -> event -> stroke_input -> option (M * list (result Pay)).
Variable hyp : f32 -> f32 -> f32.
Variable eps : f32.
Notation start := (m_start M Pay).
Notation extend := (m_extend M Pay reset bupdate hyp eps).
Notation run := (m_run M Pay reset bupdate hyp eps).

(** C27: modeled inputs counted as stable are never changed or removed by later calls;
    the stable count never decreases; stable <= real <= all. *)
Theorem C27_stable_never_changes : forall b h cs1 cs2 s1 s2,
  run (start b h) cs1 = Some s1 -> run s1 cs2 = Some s2 ->
  firstn (s_stable s1) (inputs s2) = firstn (s_stable s1) (inputs s1) /\
  s_stable s1 <= s_stable s2 /\ s_stable s2 <= s_real s2 /\ s_real s2 <= length (inputs s2).
Proof. exact (stability M Pay reset bupdate hyp eps). Qed.

(** C27: neighbouring modeled inputs are never closer than epsilon; traveled distance
    starts at zero and is the sum of the distances between neighbours. *)
Theorem C27_spacing : forall b h cs s, run (start b h) cs = Some s -> well_spaced hyp eps (inputs s).
Proof. exact (spacing M Pay reset bupdate hyp eps). Qed.

(** C27: traveled distance never decreases along the stroke, as long as it is a number. *)
Theorem C27_traveled_distance_grows : forall b h cs s k x y, flt f0 eps = true ->
  run (start b h) cs = Some s ->
  nth_error (inputs s) k = Some x -> nth_error (inputs s) (S k) = Some y ->
  is_nan (mtraveled y) = false -> fle (mtraveled x) (mtraveled y) = true.
Proof. exact (traveled_grows M Pay reset bupdate hyp eps). Qed.

(** C27: the complete time is the later of the current time and the last modeled input. *)
Theorem C27_complete_time : forall b h cs re pr t s, run (start b h) (cs ++ [(re, pr, t)]) = Some s ->
  match nth_error (inputs s) (length (inputs s) - 1) with
  | Some z => s_complete_time s = (if flt (mtime z) t then t else mtime z)
  | None => s_complete_time s = t
  end.
Proof. exact (complete_time M Pay reset bupdate hyp eps). Qed.

(** C51: how the inputs were split over calls does not matter: after a call with any
    input the modeled stroke is that of a new modeler given all real inputs at once
    with the latest prediction.  All earlier predictions leave no trace. *)
Theorem C51_chunking_does_not_matter : forall b h b' h' cs re pr t t' s,
  run (start b h) (cs ++ [(re, pr, t)]) = Some s -> re ++ pr <> [] ->
  exists s', extend (start b' h') (all_real cs ++ re) pr t' = Some s' /\ same_modeled s s'.
Proof. exact (chunking M Pay reset bupdate hyp eps). Qed.

(** C51: the inputs reach the backend as one stream (kDown, kMove.., kUp; all real inputs,
    then the latest prediction), and what is kept of its answers is every result at
    least epsilon from the previous one kept.  The stable part answers the real inputs
    but the last, the real part all real inputs. *)
Theorem C51_event_stream : forall b h cs re pr t s,
  run (start b h) (cs ++ [(re, pr, t)]) = Some s -> re ++ pr <> [] ->
  let R := all_real cs ++ re in
  let es := events true (R ++ pr) in
  let answers es' l := exists rs, drive M Pay bupdate (reset (batch_unit_length R)) es' = Some rs /\
    map (as_result Pay) l = thin Pay hyp eps None rs in
  answers (firstn (length R - 1) es) (firstn (s_stable s) (inputs s)) /\
  answers (firstn (length R) es) (firstn (s_real s) (inputs s)) /\
  answers es (inputs s).
Proof. exact (event_stream M Pay reset bupdate hyp eps). Qed.

(** C51: a call without inputs removes a visible prediction, and otherwise changes nothing. *)
Theorem C51_idle_call : forall b h cs t s1 s,
  run (start b h) cs = Some s1 -> extend s1 [] [] t = Some s ->
  (s_real s1 = length (inputs s1) /\ same_modeled s1 s) \/
  (s_real s1 <> length (inputs s1) /\
   exists s', extend (start b h) (all_real cs) [] t = Some s' /\ same_modeled s s').
Proof. exact (idle_call M Pay reset bupdate hyp eps). Qed.
End Props.
Print Assumptions C27_stable_never_changes.
Print Assumptions C27_spacing.
Print Assumptions C27_traveled_distance_grows.
Print Assumptions C27_complete_time.
Print Assumptions C51_chunking_does_not_matter.
Print Assumptions C51_event_stream.
Print Assumptions C51_idle_call.

(** ** Concrete backends *)
Definition l1_norm (x y : f32) : f32 := fadd (fabs x) (fabs y).
Section Toy.
(** reports the position of every input, and [up x] for the last input of an update *)
Variable up : f32 -> list f32.
Definition toy_result (i : stroke_input) (x : f32) : result unit := Build_result x (py i) (etime i) tt.
Definition toy_update (m : nat) (e : event) (i : stroke_input) : option (nat * list (result unit)) :=
  Some (S m, map (toy_result i) (match e with EUp => up (px i) | _ => [px i] end)).
Definition toy_run (e : f32) := m_run nat unit (fun _ => 0) toy_update l1_norm e
  (m_start nat unit 7 true).
End Toy.
Definition obs_x (s : option (modeler nat unit)) : option (list f32 * list nat) :=
  match s with Some s => Some (map mx (inputs s), [s_stable s; s_real s]) | None => None end.
Definition obs_eqb (a b : option (list f32 * list nat)) : bool :=
  match a, b with
  | Some (l, c), Some (l', c') => list_eqb fbits_eqb l l' && list_eqb Nat.eqb c c'
  | None, None => true
  | _, _ => false
  end.
Definition on_line (l : list Z) : list stroke_input := map (fun k => inp k 0 k) l.
Definition overshoot (x : f32) : list f32 := [x; fadd x (fZ 3)].

(** two calls with real inputs and predictions, against all at once *)
Example C51_example :
  obs_eqb (obs_x (toy_run overshoot f1 [(on_line [0; 2]%Z, on_line [4; 6]%Z, fZ 1); (on_line [3]%Z, on_line [5]%Z, fZ 2)]))
          (Some (map fZ [0; 2; 3; 5; 8]%Z, [2; 3])) &&
  obs_eqb (obs_x (toy_run overshoot f1 [(on_line [0; 2; 3]%Z, on_line [5]%Z, fZ 2)]))
          (Some (map fZ [0; 2; 3; 5; 8]%Z, [2; 3])) = true.
Proof. vm_compute. reflexivity. Qed.

Definition all_below (z : Z) (s : modeler nat unit) : bool := forallb (fun i => flt (mx i) (fZ z)) (inputs s).
Definition shifted (x : f32) : list f32 := [fadd x f1].
(** Runs that succeed and whose results meet a test *)
Definition passes {A B} (o : option A) (k : A -> option B) (test : A -> B -> bool) : bool :=
  match o with Some s => match k s with Some s' => test s s' | None => false end | None => false end.
Lemma passes_inv {A B} (o : option A) (k : A -> option B) test : passes o k test = true ->
  exists s s', o = Some s /\ k s = Some s' /\ test s s' = true.
Proof. unfold passes. destruct o as [s|]; [|discriminate]. destruct (k s) as [s'|] eqn:E; [|discriminate]. eauto. Qed.

(** C51: the empty call is not the call with an empty prediction when the prediction had
    left nothing visible: the last real input stays modeled as if more would follow. *)
Definition hidden_calls : list mcall := [(on_line [0; 5]%Z, on_line [4]%Z, fZ 1)].
Theorem C51_idle_call_forgets_hidden_prediction_refuted :
  ~ (forall (M Pay : Type) reset bupdate hyp eps b h cs t s s',
     m_run M Pay reset bupdate hyp eps (m_start M Pay b h) (cs ++ [([], [], t)]) = Some s ->
     m_extend M Pay reset bupdate hyp eps (m_start M Pay b h) (all_real cs) [] t = Some s' ->
     inputs s = inputs s').
Proof.
  intros H.
  destruct (passes_inv
    (m_run nat unit (fun _ => 0) (toy_update shifted) l1_norm (fZ 2) (m_start nat unit 7 true) (hidden_calls ++ [([], [], fZ 2)]))
    (fun _ => m_extend nat unit (fun _ => 0) (toy_update shifted) l1_norm (fZ 2) (m_start nat unit 7 true) (all_real hidden_calls) [] (fZ 2))
    (fun s s' => all_below 6 s && negb (all_below 6 s'))) as (s & s' & E & E' & K).
  { vm_compute. reflexivity. }
  pose proof (H nat unit _ _ _ _ _ _ _ _ _ _ E E') as X. unfold all_below in K. rewrite X in K.
  destruct (forallb _ _) in K; discriminate K.
Qed.
Print Assumptions C51_idle_call_forgets_hidden_prediction_refuted.

(** C27: unlike the stable count, the real count can go down: the last real input is
    modeled again when a prediction follows it. *)
Theorem C27_real_count_grows_refuted :
  ~ (forall (M Pay : Type) reset bupdate hyp eps b h cs1 cs2 s1 s2,
     m_run M Pay reset bupdate hyp eps (m_start M Pay b h) cs1 = Some s1 ->
     m_run M Pay reset bupdate hyp eps s1 cs2 = Some s2 -> s_real s1 <= s_real s2).
Proof.
  intros H.
  destruct (passes_inv
    (m_run nat unit (fun _ => 0) (toy_update overshoot) l1_norm f1 (m_start nat unit 7 true) [(on_line [0; 5]%Z, [], fZ 1)])
    (fun s => m_run nat unit (fun _ => 0) (toy_update overshoot) l1_norm f1 s [([], on_line [6]%Z, fZ 2)])
    (fun s s' => s_real s' <? s_real s)) as (s & s' & E & E' & K).
  { vm_compute. reflexivity. }
  pose proof (H nat unit _ _ _ _ _ _ _ _ _ _ E E'). apply Nat.ltb_lt in K. lia.
Qed.
Print Assumptions C27_real_count_grows_refuted.

(** C27: the total traveled distance is stale once a prediction without real inputs is
    withdrawn: no modeled input is left but the distance is not 0. *)
Theorem C27_distance_of_empty_stroke_refuted :
  ~ (forall (M Pay : Type) reset bupdate hyp eps b h cs s,
     m_run M Pay reset bupdate hyp eps (m_start M Pay b h) cs = Some s -> inputs s = [] ->
     feq (s_complete_distance s) f0 = true).
Proof.
  intros H.
  destruct (passes_inv
    (m_run nat unit (fun _ => 0) (toy_update overshoot) l1_norm f1 (m_start nat unit 7 true)
       [([], on_line [0; 5]%Z, fZ 1); ([], [], fZ 2)]) Some
    (fun s _ => (length (inputs s) =? 0) && negb (feq (s_complete_distance s) f0))) as (s & s' & E & _ & K).
  { vm_compute. reflexivity. }
  apply (H nat unit) in E.
  - rewrite E in K. rewrite andb_comm in K. discriminate K.
  - destruct (inputs s); [reflexivity|discriminate K].
Qed.
Print Assumptions C27_distance_of_empty_stroke_refuted.
