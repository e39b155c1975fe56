(** Model of Brush (/repo/ink/brush/brush.h, brush.cc).  The family and the color are
    opaque payloads. *)
From Coq Require Import ZArith List Bool.
From Flocq Require Import IEEE754.BinarySingleNaN.
From Verif Require Import F32.
Import ListNotations.

Section Brush.
Variables Fam Col : Type.

(** brush.h: the data members *)
Record brush := { b_family : Fam; b_color : Col; b_size : f32; b_epsilon : f32 }.

(** ValidateBrushSize, brush.cc 30-37 *)
Definition validate_size (size : f32) : bool :=
  if negb (fisfinite size) || fle size f0 then false else true.
(** ValidateBrushEpsilon, brush.cc 39-47 *)
Definition validate_epsilon (epsilon : f32) : bool :=
  if negb (fisfinite epsilon) || fle epsilon f0 then false else true.
(** ValidateBrushSizeRelativeToEpsilon, brush.cc 49-58 *)
Definition validate_relative (size epsilon : f32) : bool :=
  if flt size epsilon then false else true.

(** Brush::Create, brush.cc 66-81 *)
Definition brush_create (f : Fam) (c : Col) (size epsilon : f32) : option brush :=
  if negb (validate_size size) then None
  else if negb (validate_epsilon epsilon) then None
  else if negb (validate_relative size epsilon) then None
  else Some {| b_family := f; b_color := c; b_size := size; b_epsilon := epsilon |}.

(** Brush::SetSize, brush.cc 83-94: (ok, new value) *)
Definition brush_set_size (b : brush) (size : f32) : bool * brush :=
  if negb (validate_size size) then (false, b)
  else if negb (validate_relative size (b_epsilon b)) then (false, b)
  else (true, {| b_family := b_family b; b_color := b_color b; b_size := size;
                 b_epsilon := b_epsilon b |}).
(** Brush::SetEpsilon, brush.cc 96-107 *)
Definition brush_set_epsilon (b : brush) (epsilon : f32) : bool * brush :=
  if negb (validate_epsilon epsilon) then (false, b)
  else if negb (validate_relative (b_size b) epsilon) then (false, b)
  else (true, {| b_family := b_family b; b_color := b_color b; b_size := b_size b;
                 b_epsilon := epsilon |}).
(** SetFamily, SetColor (inline in brush.h) *)
Definition brush_set_family (b : brush) (f : Fam) : brush :=
  {| b_family := f; b_color := b_color b; b_size := b_size b; b_epsilon := b_epsilon b |}.
Definition brush_set_color (b : brush) (c : Col) : brush :=
  {| b_family := b_family b; b_color := c; b_size := b_size b; b_epsilon := b_epsilon b |}.

Inductive brush_op :=
| OSize (s : f32) | OEpsilon (e : f32) | OFamily (f : Fam) | OColor (c : Col).
Definition brush_step (b : brush) (o : brush_op) : bool * brush :=
  match o with
  | OSize s => brush_set_size b s
  | OEpsilon e => brush_set_epsilon b e
  | OFamily f => (true, brush_set_family b f)
  | OColor c => (true, brush_set_color b c)
  end.
Definition brush_run (b : brush) (os : list brush_op) : brush :=
  fold_left (fun b o => snd (brush_step b o)) os b.
End Brush.
Arguments b_family {Fam Col}. Arguments b_color {Fam Col}.
Arguments b_size {Fam Col}. Arguments b_epsilon {Fam Col}.
Arguments Build_brush {Fam Col}.
Arguments brush_create {Fam Col}. Arguments brush_set_size {Fam Col}.
Arguments brush_set_epsilon {Fam Col}. Arguments brush_set_family {Fam Col}.
Arguments brush_set_color {Fam Col}. Arguments brush_step {Fam Col}. Arguments brush_run {Fam Col}.
Arguments OSize {Fam Col}. Arguments OEpsilon {Fam Col}. Arguments OFamily {Fam Col}. Arguments OColor {Fam Col}.
