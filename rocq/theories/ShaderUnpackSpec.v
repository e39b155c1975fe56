(** What the shader is given for a packed attribute, and how far what it reads may be from what was packed. *)
From Coq Require Import ZArith Reals List.
From Flocq Require Import IEEE754.BinarySingleNaN.
From Verif Require Import F32 MeshFormatModel PackModel ShaderUnpackModel StrokeVertexSpec.
Import ListNotations.

(** floats as they are, bytes each as a [load]ed value *)
Definition fed (load : Z -> f32) (p : packed) : list f32 := match p with PFloats l => l | PBytes l => map load l end.
(** a byte is loaded as the 32-bit float nearest to it over 255, or as the nearest 16-bit float *)
Definition in_full : Z -> f32 := load32.
Definition in_half (b : Z) : f32 := of_half (load16 b).
(** the parameters of the two components of a point, as the uniform that the shader gets *)
Definition as_transform (px py : params) : transform := Transform (offset px) (scale px) (offset py) (scale py).
(** what reads the attribute with a number: colour 1, opacity 2, labels 5 and 7, texture coordinates 8 *)
Definition read_by_shader (id : nat) (x : list f32) : option (list f32) :=
  match id with 1 => shader_color x | 2 => shader_opacity x | 5 | 7 => shader_label x | 8 => shader_uv x | _ => None end.
(** how far the two ways of reading may differ: labels not at all, the rest by 2^-20 *)
Definition slack (id : nat) : R := match id with 5 | 7 => 0%R | _ => (/ 1048576)%R end.
Definition shader_losses (id : nat) : list R := map (fun e => (e + slack id)%R) (losses id).
