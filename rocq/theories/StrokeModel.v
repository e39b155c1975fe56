(** Model of Stroke (/repo/ink/strokes/stroke.h, stroke.cc).

    Opaque parameters: brush tips (with their operator==), texture data, input
    models, colors, and the geometry code: [build] is what a StrokeShapeBuilder
    started with (input model, tip, winding-texture-particle flag, size, epsilon)
    and fed all inputs produces (mesh, outlines and format), and [from_groups] is
    PartitionedMesh::FromMutableMeshGroups, which may fail.
    Simplification: the thread-local builders are reset by StartStroke, so [build]
    is a function; PartitionedMesh is its list of render groups. *)
From Coq Require Import ZArith List Bool Arith.
From Flocq Require Import IEEE754.BinarySingleNaN.
From Verif Require Import F32 BrushModel BatchModel.
Import ListNotations.

Section Stroke.
Variables Tip Tex IM Col Mesh Group : Type.
Variable tips_eqb : list Tip -> list Tip -> bool.
Variable has_particles : list Tip -> bool.
Variable build : IM -> list Tip -> bool -> f32 -> f32 -> list stroke_input -> Mesh.
Variable from_groups : list Mesh -> option (list Group).
Variable empty_group : Group.

(** BrushPaint: texture layers, each with its mapping (kWinding or not) *)
Record layer := { is_winding : bool; tex : Tex }.
Record coat := { tips : list Tip; paint : list layer }.
Record family := { coats : list coat; input_model : IM }.
Notation brush := (BrushModel.brush family Col).
Definition get_coats (b : brush) : list coat := coats (b_family b).

Record stroke := { s_brush : brush; s_inputs : list stroke_input; s_shape : list Group }.

(** BrushCoatTipsAreEqual, stroke.cc 41-52 *)
Fixpoint coat_tips_equal (c1 c2 : list coat) : bool :=
  match c1, c2 with
  | [], [] => true
  | a :: c1', b :: c2' => tips_eqb (tips a) (tips b) && coat_tips_equal c1' c2'
  | _, _ => false
  end.

(** IsWindingTextureCoat, stroke_shape_builder.cc 35-40, and the per-tip flag 73-77 *)
Definition is_winding_coat (c : coat) : bool :=
  match paint c with [l] => is_winding l | _ => false end.
Definition winding_particles (c : coat) : bool := is_winding_coat c && has_particles (tips c).

(** PartitionedMesh::WithEmptyGroups *)
Definition with_empty_groups (n : nat) : list Group := repeat empty_group n.

(** RegenerateShape, stroke.cc 146-200 *)
Definition regenerate (b : brush) (inputs : list stroke_input) : list Group :=
  let cs := get_coats b in
  match cs, inputs with
  | [], _ | _, [] => with_empty_groups (length cs)
  | _, _ =>
      match from_groups
              (map (fun c => build (input_model (b_family b)) (tips c) (winding_particles c)
                                   (b_size b) (b_epsilon b) inputs) cs) with
      | Some g => g
      | None => with_empty_groups (length cs)
      end
  end.

(** Constructors, stroke.cc 56-71; the third CHECK-fails ([None]) on a wrong group count *)
Definition stroke_new (b : brush) : stroke :=
  {| s_brush := b; s_inputs := []; s_shape := with_empty_groups (length (get_coats b)) |}.
Definition stroke_of_inputs (b : brush) (i : list stroke_input) : stroke :=
  {| s_brush := b; s_inputs := i; s_shape := regenerate b i |}.
Definition stroke_of_shape (b : brush) (i : list stroke_input) (g : list Group) : option stroke :=
  if length g =? length (get_coats b) then Some {| s_brush := b; s_inputs := i; s_shape := g |}
  else None.

Definition with_brush (s : stroke) (b : brush) : stroke :=
  {| s_brush := b; s_inputs := s_inputs s; s_shape := s_shape s |}.
Definition refresh (s : stroke) : stroke :=
  {| s_brush := s_brush s; s_inputs := s_inputs s; s_shape := regenerate (s_brush s) (s_inputs s) |}.

(** SetBrushAndInputs, stroke.cc 73-78 *)
Definition set_brush_and_inputs (s : stroke) (b : brush) (i : list stroke_input) : stroke :=
  refresh {| s_brush := b; s_inputs := i; s_shape := s_shape s |}.

(** SetBrush, stroke.cc 80-90 *)
Definition set_brush (s : stroke) (b : brush) : stroke :=
  let needs_regenerate :=
    fne (b_size b) (b_size (s_brush s)) || fne (b_epsilon b) (b_epsilon (s_brush s))
    || negb (coat_tips_equal (get_coats b) (get_coats (s_brush s))) in
  let s' := with_brush s b in
  if needs_regenerate then refresh s' else s'.

(** SetBrushFamily, stroke.cc 92-99 *)
Definition set_brush_family (s : stroke) (f : family) : stroke :=
  let needs_regenerate := negb (coat_tips_equal (coats f) (get_coats (s_brush s))) in
  let s' := with_brush s (brush_set_family (s_brush s) f) in
  if needs_regenerate then refresh s' else s'.

(** SetBrushColor, stroke.cc 101 *)
Definition set_brush_color (s : stroke) (c : Col) : stroke :=
  with_brush s (brush_set_color (s_brush s) c).

(** SetBrushSize, stroke.cc 103-113 *)
Definition set_brush_size (s : stroke) (v : f32) : bool * stroke :=
  if feq v (b_size (s_brush s)) then (true, s)
  else match brush_set_size (s_brush s) v with
       | (false, b) => (false, with_brush s b)
       | (true, b) => (true, refresh (with_brush s b))
       end.

(** SetBrushEpsilon, stroke.cc 115-125 *)
Definition set_brush_epsilon (s : stroke) (v : f32) : bool * stroke :=
  if feq v (b_epsilon (s_brush s)) then (true, s)
  else match brush_set_epsilon (s_brush s) v with
       | (false, b) => (false, with_brush s b)
       | (true, b) => (true, refresh (with_brush s b))
       end.

(** SetInputs, stroke.cc 127-131.  The argument is a reference, either to the
    stroke's own inputs ([None]) or to another batch; Append to a cleared batch
    copies (stroke_input_batch.cc 329-336, property C06). *)
Definition set_inputs (s : stroke) (arg : option (list stroke_input)) : stroke :=
  let cleared := [] in
  let read := match arg with None => cleared | Some l => l end in
  refresh {| s_brush := s_brush s; s_inputs := cleared ++ read; s_shape := s_shape s |}.

Inductive stroke_op :=
| SBrushAndInputs (b : brush) (i : list stroke_input)
| SBrush (b : brush)
| SFamily (f : family)
| SColor (c : Col)
| SSize (v : f32)
| SEpsilon (v : f32)
| SInputs (arg : option (list stroke_input)).

Definition stroke_step (s : stroke) (o : stroke_op) : bool * stroke :=
  match o with
  | SBrushAndInputs b i => (true, set_brush_and_inputs s b i)
  | SBrush b => (true, set_brush s b)
  | SFamily f => (true, set_brush_family s f)
  | SColor c => (true, set_brush_color s c)
  | SSize v => set_brush_size s v
  | SEpsilon v => set_brush_epsilon s v
  | SInputs a => (true, set_inputs s a)
  end.
Definition stroke_run (s : stroke) (os : list stroke_op) : stroke :=
  fold_left (fun s o => snd (stroke_step s o)) os s.
End Stroke.
