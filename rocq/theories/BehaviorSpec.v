(** What brush behaviors are required to do, stated on expression trees. *)
From Coq Require Import ZArith List Bool.
From Verif Require Import NumModel EasingModel EasingSpec BehaviorModel.
Import ListNotations.

Section BehaviorSpec.
Context {N : num}.
Notation F := (T N).

(** *** The graph: expressions over stroke data, and targets fed by one expression each.
    [M] is what is remembered per damping node: nothing for a graph as such, the last
    output (if any) for a graph being executed. *)
Inductive expr (M : Type) : Type :=
| XSource (s : source) (o : out_of_range) (lo hi : F)
| XConst (v : F)
| XFallback (p : optional_property) (a : expr M)
| XTool (t : tool_types) (a : expr M)
| XDamp (d : damping_source) (gap : F) (mem : M) (a : expr M)
| XResponse (f : easing N) (a : expr M)
| XBinary (op : binary_op) (a b : expr M)
| XInterp (i : interpolation) (a b c : expr M).
Record root (M : Type) := Root { r_target : target; r_lo : F; r_hi : F; r_expr : expr M; r_modifier : F }.

(** *** Flattened listings: operands in order, then the node.  After a value, complete
    listings of other targets may follow before it is used. *)
Inductive lists_value {M : Type} : list (node N) -> expr M -> list (root M) -> Prop :=
| lv_source s o lo hi b rs : lists b rs ->
    lists_value (SourceNode s o lo hi :: b) (XSource M s o lo hi) rs
| lv_const v b rs : lists b rs -> lists_value (ConstantNode v :: b) (XConst M v) rs
| lv_fallback p l e rs b rs' : lists_value l e rs -> lists b rs' ->
    lists_value (l ++ FallbackFilterNode p :: b) (XFallback M p e) (rs ++ rs')
| lv_tool t l e rs b rs' : lists_value l e rs -> lists b rs' ->
    lists_value (l ++ ToolTypeFilterNode t :: b) (XTool M t e) (rs ++ rs')
| lv_damp d g mem l e rs b rs' : lists_value l e rs -> lists b rs' ->
    lists_value (l ++ DampingNode d g :: b) (XDamp M d g mem e) (rs ++ rs')
| lv_response f l e rs b rs' : lists_value l e rs -> lists b rs' ->
    lists_value (l ++ ResponseNode f :: b) (XResponse M f e) (rs ++ rs')
| lv_binary o l1 e1 rs1 l2 e2 rs2 b rs' : lists_value l1 e1 rs1 -> lists_value l2 e2 rs2 -> lists b rs' ->
    lists_value (l1 ++ l2 ++ BinaryOpNode o :: b) (XBinary M o e1 e2) (rs1 ++ rs2 ++ rs')
| lv_interp i l1 e1 rs1 l2 e2 rs2 l3 e3 rs3 b rs' :
    lists_value l1 e1 rs1 -> lists_value l2 e2 rs2 -> lists_value l3 e3 rs3 -> lists b rs' ->
    lists_value (l1 ++ l2 ++ l3 ++ InterpolationNode i :: b) (XInterp M i e1 e2 e3) (rs1 ++ rs2 ++ rs3 ++ rs')
with lists {M : Type} : list (node N) -> list (root M) -> Prop :=
| ls_nil : lists [] []
| ls_target t lo hi md l e rs b rs' : lists_value l e rs -> lists b rs' ->
    lists (l ++ TargetNode t lo hi :: b) (rs ++ Root M t lo hi e md :: rs').

(** *** The plain flattening of the header: post-order, one target after the other *)
Fixpoint postorder {M} (e : expr M) : list (node N) :=
  match e with
  | XSource _ s o lo hi => [SourceNode s o lo hi]
  | XConst _ v => [ConstantNode v]
  | XFallback _ p a => postorder a ++ [FallbackFilterNode p]
  | XTool _ t a => postorder a ++ [ToolTypeFilterNode t]
  | XDamp _ d g _ a => postorder a ++ [DampingNode d g]
  | XResponse _ f a => postorder a ++ [ResponseNode f]
  | XBinary _ o a b => postorder a ++ postorder b ++ [BinaryOpNode o]
  | XInterp _ i a b c => postorder a ++ postorder b ++ postorder c ++ [InterpolationNode i]
  end.
Definition flattened {M} (rs : list (root M)) : list (node N) :=
  flat_map (fun r => postorder (r_expr M r) ++ [TargetNode (r_target M r) (r_lo M r) (r_hi M r)]) rs.

(** *** Documented conditions on each node: brush_behavior.h, "To be valid" *)
Definition in_unit (x : F) : Prop := nfin N x = true /\ nle N n0 x = true /\ nle N x n1 = true.
Fixpoint xs_ordered (ps : list (F * F)) : Prop :=
  match ps with
  | p :: ((q :: _) as r) => nle N (fst p) (fst q) = true /\ xs_ordered r
  | _ => True
  end.
Definition documented_easing (e : easing N) : Prop :=
  match e with
  | EPredef p => (0 <= p <= 6)%Z
  | EBezier x1 y1 x2 y2 => in_unit x1 /\ in_unit x2 /\ nfin N y1 = true /\ nfin N y2 = true
  | ELinear ps => Forall (fun p => in_unit (fst p) /\ nfin N (snd p) = true) ps /\ xs_ordered ps
  | ESteps c s => (0 <= s <= 3)%Z /\ (1 <= c)%Z /\ (s = kJumpNone -> 2 <= c)%Z
  end.
Definition finite_distinct (lo hi : F) : Prop := nfin N lo = true /\ nfin N hi = true /\ neqb N lo hi = false.
Definition documented_node (n : node N) : Prop :=
  match n with
  | SourceNode s o lo hi =>
      (forall z, s <> OtherSource z) /\ (forall z, o <> OtherOutOfRange z) /\
      (s = kTimeSinceInputInSeconds \/ s = kTimeSinceInputInMillis -> o = kClamp) /\ finite_distinct lo hi
  | ConstantNode v => nfin N v = true
  | FallbackFilterNode p => forall z, p <> OtherProperty z
  | ToolTypeFilterNode t => t <> {| t_unknown := false; t_mouse := false; t_touch := false; t_stylus := false |}
  | DampingNode d g => (forall z, d <> OtherDamping z) /\ nfin N g = true /\ nle N n0 g = true
  | ResponseNode e => documented_easing e
  | BinaryOpNode o => forall z, o <> OtherBinaryOp z
  | InterpolationNode i => forall z, i <> OtherInterpolation z
  | TargetNode t lo hi => (forall z, t <> OtherTarget z) /\ finite_distinct lo hi
  end.

(** *** Evaluating an expression for one input.  A value is null ([None]) or a number that
    is not NaN.  The arithmetic of single nodes is that of the code (its exact meaning is
    property C53). *)
Definition not_nan (v : F) : option F := if nnan N v then None else Some v.
Definition finite_only (v : F) : option F := if nfin N v then Some v else None.

Definition damp_step (c : context N) (d : damping_source) (gap : F) (mem v : option F) : option F :=
  match v, mem with
  | None, _ => mem (* null input: keep the previous output *)
  | Some x, None => Some x (* first value: snap *)
  | Some x, Some old =>
      if neqb N gap n0 then Some x
      else
        match cx_prev c, d with
        | Some prev, kDistanceInCentimeters =>
            match st_unit (cx_state c) with
            | None => Some x
            | Some u => not_nan (damp_transition x old (nmul N u (nsub N (traveled (cx_input c)) (m_traveled prev))) gap)
            end
        | Some prev, kDistanceInMultiplesOfBrushSize =>
            not_nan (damp_transition x old (nsub N (traveled (cx_input c)) (m_traveled prev)) (nmul N (cx_size c) gap))
        | Some prev, kTimeInSeconds =>
            not_nan (damp_transition x old (dur_sub (elapsed (cx_input c)) (m_elapsed prev)) gap)
        | _, _ => mem
        end
  end.
Definition binary_step (o : binary_op) (a b : option F) : option F :=
  match o, a, b with
  | kProduct, Some x, Some y => finite_only (nmul N x y)
  | kSum, Some x, Some y => finite_only (nadd N x y)
  | _, _, _ => None
  end.
Definition interp_step (i : interpolation) (a b c : option F) : option F :=
  match i, a, b, c with
  | kLerp, Some p, Some lo, Some hi => finite_only (lerp lo hi p)
  | kInverseLerp, Some p, Some lo, Some hi => if neqb N lo hi then None else finite_only (inverse_lerp lo hi p)
  | _, _, _, _ => None
  end.
Inductive evals (c : context N) : expr (option F) -> option F -> expr (option F) -> Prop :=
| ev_source s o lo hi :
    evals c (XSource _ s o lo hi)
      (match get_source_value (cx_input c) (cx_dir c) (cx_size c) (cx_state c) s with
       | None => None
       | Some v => not_nan (apply_out_of_range o (inverse_lerp lo hi v))
       end) (XSource _ s o lo hi)
| ev_const v : evals c (XConst _ v) (Some v) (XConst _ v)
| ev_fallback p a v a' : evals c a v a' ->
    evals c (XFallback _ p a) (if is_property_present p (cx_input c) then None else v) (XFallback _ p a')
| ev_tool t a v a' : evals c a v a' ->
    evals c (XTool _ t a) (if is_tool_type_enabled t (st_tool (cx_state c)) then v else None) (XTool _ t a')
| ev_damp d g mem a v a' : evals c a v a' ->
    evals c (XDamp _ d g mem a) (damp_step c d g mem v) (XDamp _ d g (damp_step c d g mem v) a')
| ev_response_null f a a' : evals c a None a' -> evals c (XResponse _ f a) None (XResponse _ f a')
| ev_response f a x y a' : evals c a (Some x) a' -> eases f x y ->
    evals c (XResponse _ f a) (not_nan y) (XResponse _ f a')
| ev_binary o a b v w a' b' : evals c a v a' -> evals c b w b' ->
    evals c (XBinary _ o a b) (binary_step o v w) (XBinary _ o a' b')
| ev_interp i a b d u v w a' b' d' : evals c a u a' -> evals c b v b' -> evals c d w d' ->
    evals c (XInterp _ i a b d) (interp_step i u v w) (XInterp _ i a' b' d').
(** one input: every target takes the value of its expression, mapped to its range; on
    null it keeps its modifier *)
Definition target_steps (c : context N) (r r' : root (option F)) : Prop :=
  exists v e', evals c (r_expr _ r) v e' /\
    r' = Root _ (r_target _ r) (r_lo _ r) (r_hi _ r) e'
           (match v with None => r_modifier _ r | Some x => lerp (r_lo _ r) (r_hi _ r) x end).
Definition all_step (c : context N) : list (root (option F)) -> list (root (option F)) -> Prop := Forall2 (target_steps c).
(** many inputs *)
Fixpoint all_steps (cs : list (context N)) (rs rs' : list (root (option F))) : Prop :=
  match cs with
  | [] => rs' = rs
  | c :: cs' => exists rs1, all_step c rs rs1 /\ all_steps cs' rs1 rs'
  end.
(** nothing remembered, modifiers that change nothing *)
Fixpoint fresh_expr (e : expr (option F)) : Prop :=
  match e with
  | XSource _ _ _ _ _ | XConst _ _ => True
  | XFallback _ _ a | XTool _ _ a | XResponse _ _ a => fresh_expr a
  | XDamp _ _ _ mem a => mem = None /\ fresh_expr a
  | XBinary _ _ a b => fresh_expr a /\ fresh_expr b
  | XInterp _ _ a b c => fresh_expr a /\ fresh_expr b /\ fresh_expr c
  end.
Definition multiplies (t : target) : bool :=
  match t with
  | kWidthMultiplier | kHeightMultiplier | kSizeMultiplier | kSaturationMultiplier | kOpacityMultiplier => true
  | _ => false
  end.
Definition fresh_root (r : root (option F)) : Prop :=
  fresh_expr (r_expr _ r) /\ r_modifier _ r = if multiplies (r_target _ r) then n1 else n0.

(** the node list executed for one input after the other *)
Fixpoint run_inputs (code : list (rnode N)) (cs : list (context N)) (m : machine N) : option (machine N) :=
  match cs with
  | [] => Some m
  | c :: r => match process_nodes c code m with Some m' => run_inputs code r m' | None => None end
  end.
(** every input but the first of a stroke has a predecessor *)
Definition has_history (cs : list (context N)) : Prop :=
  match cs with [] => True | _ :: r => Forall (fun c => cx_prev c <> None) r end.
End BehaviorSpec.
Arguments expr : clear implicits.
Arguments root : clear implicits.
