(** MeshFormat: /repo/ink/geometry/mesh_format.{h,cc}.
    Attribute types and ids are uint8 enumerations that a caller may fill with any byte, so Create takes bytes.  An index
    format outside its enumeration crashes (UnpackedIndexSize) and is not modelled.  Not modelled: strings, hashing. *)
From Coq Require Import ZArith Bool Arith Lia List.
Import ListNotations.

(** AttributeType: mesh_format.h 75-163, in the order of their values *)
Inductive atype :=
  | Float1Unpacked | Float1In1Byte
  | Float2Unpacked | Float2In1Float | Float2In3Bytes_XY12 | Float2In4Bytes_X12_Y20
  | Float3Unpacked | Float3In1Float | Float3In2Floats | Float3In4Bytes_XYZ10
  | Float4Unpacked | Float4In1Float | Float4In2Floats | Float4In3Floats.
Definition all_types : list atype :=
  [Float1Unpacked; Float1In1Byte; Float2Unpacked; Float2In1Float; Float2In3Bytes_XY12; Float2In4Bytes_X12_Y20;
   Float3Unpacked; Float3In1Float; Float3In2Floats; Float3In4Bytes_XYZ10; Float4Unpacked; Float4In1Float; Float4In2Floats; Float4In3Floats].
(** IsValidAttributeType, as the named value if there is one: mesh_format.cc 41-60 *)
Definition type_of (b : nat) : option atype := nth_error all_types b.
(** AttributeId: mesh_format.h 176-196; IsValidAttributeId: mesh_format.cc 62-86.  kPosition is 0, kCustom9 is 18. *)
Definition kPosition : nat := 0.
Definition valid_id (b : nat) : bool := b <? 19.
(** IndexFormat: mesh_format.h 226-229 *)
Inductive ifmt := k16BitUnpacked16BitPacked | k32BitUnpacked16BitPacked.
Definition ifmt_eqb (a b : ifmt) : bool :=
  match a, b with k16BitUnpacked16BitPacked, k16BitUnpacked16BitPacked | k32BitUnpacked16BitPacked, k32BitUnpacked16BitPacked => true | _, _ => false end.
Definition kMaxVertexAttributes : nat := 16. (* internal/mesh_constants.h 22 *)

(** ComponentCount: mesh_format.cc 184-207 *)
Definition component_count (t : atype) : nat :=
  match t with
  | Float1Unpacked | Float1In1Byte => 1
  | Float2Unpacked | Float2In1Float | Float2In3Bytes_XY12 | Float2In4Bytes_X12_Y20 => 2
  | Float3Unpacked | Float3In1Float | Float3In2Floats | Float3In4Bytes_XYZ10 => 3
  | Float4Unpacked | Float4In1Float | Float4In2Floats | Float4In3Floats => 4
  end.
(** PackedBitsPerComponent: 209-237 *)
Definition packed_bits (t : atype) : option (list nat) :=
  match t with
  | Float1Unpacked | Float2Unpacked | Float3Unpacked | Float4Unpacked => None
  | Float1In1Byte => Some [8]
  | Float2In1Float | Float2In3Bytes_XY12 => Some [12; 12]
  | Float2In4Bytes_X12_Y20 => Some [12; 20]
  | Float4In2Floats => Some [12; 12; 12; 12]
  | Float3In1Float => Some [8; 8; 8]
  | Float3In2Floats => Some [16; 16; 16]
  | Float3In4Bytes_XYZ10 => Some [10; 10; 10]
  | Float4In1Float => Some [6; 6; 6; 6]
  | Float4In3Floats => Some [18; 18; 18; 18]
  end.
(** IsUnpackedType: mesh_format.h 301-303; UnpackedAttributeSize: mesh_format.cc 239-241 *)
Definition is_unpacked (t : atype) : bool := match packed_bits t with None => true | Some _ => false end.
Definition unpacked_size (t : atype) : nat := 4 * component_count t.
(** IsPackedAsFloat: 243-263 *)
Definition is_packed_as_float (t : atype) : bool :=
  match t with
  | Float2In1Float | Float3In1Float | Float3In2Floats | Float4In1Float | Float4In2Floats | Float4In3Floats => true
  | _ => false
  end.
(** PackedAttributeSize: 265-289 *)
Definition packed_size (t : atype) : nat :=
  match t with
  | Float1In1Byte => 1
  | Float2In3Bytes_XY12 => 3
  | Float1Unpacked | Float2In1Float | Float3In1Float | Float4In1Float | Float2In4Bytes_X12_Y20 | Float3In4Bytes_XYZ10 => 4
  | Float2Unpacked | Float3In2Floats | Float4In2Floats => 8
  | Float3Unpacked | Float4In3Floats => 12
  | Float4Unpacked => 16
  end.
(** UnpackedIndexSize: 291-300 *)
Definition unpacked_index_size (i : ifmt) : nat := match i with k16BitUnpacked16BitPacked => 2 | k32BitUnpacked16BitPacked => 4 end.

(** MeshFormat::Attribute: mesh_format.h 204-219; MeshFormat: 340-348 *)
Record attribute := Attr { ty : atype; aid : nat; uoff : nat; poff : nat; uwidth : nat; pwidth : nat }.
Record format := Format { attrs : list attribute; pos_index : nat; index_format : ifmt; ustride : nat; pstride : nat; istride : nat }.
(** PopulateOffsetWidthAndStride: mesh_format.cc 302-318, with its 16-bit offsets *)
Definition u16 (n : nat) : nat := n mod 2 ^ 16.
Fixpoint populate (l : list (atype * nat)) (u p : nat) : list attribute * nat * nat :=
  match l with
  | [] => ([], u, p)
  | (t, i) :: l =>
      let '(r, u', p') := populate l (u16 (u + unpacked_size t)) (u16 (p + packed_size t)) in
      (Attr t i u p (unpacked_size t) (packed_size t) :: r, u', p')
  end.
Definition build (l : list (atype * nat)) (pos : nat) (i : ifmt) : format :=
  let '(a, u, p) := populate l 0 0 in Format a pos i u p (unpacked_index_size i).
(** MeshFormat(): 90-97 *)
Definition default_format : format := build [(Float2Unpacked, kPosition)] 0 k32BitUnpacked16BitPacked.
(** The loop of Create, 111-135: the ids seen so far, the index of the position so far, the types read *)
Fixpoint scan (l : list (nat * nat)) (i : nat) (seen : list nat) (pos : option nat) : option (list (atype * nat) * option nat) :=
  match l with
  | [] => Some ([], pos)
  | (tb, ib) :: l =>
      match type_of tb with
      | None => None
      | Some t =>
          if negb (valid_id ib) then None
          else if existsb (Nat.eqb ib) seen then None
          else match scan l (i + 1) (ib :: seen) (if Nat.eqb ib kPosition then Some i else pos) with
               | Some (r, p) => Some ((t, ib) :: r, p)
               | None => None
               end
      end
  end.
(** Create: 99-160 *)
Definition create (l : list (nat * nat)) (i : ifmt) : option format :=
  match l with
  | [] => None
  | _ =>
    if kMaxVertexAttributes <? length l then None
    else match scan l 0 [] None with
         | None | Some (_, None) => None
         | Some (r, Some pos) =>
             match nth_error r pos with
             | Some (t, _) => if Nat.eqb (component_count t) 2 then Some (build r pos i) else None
             | None => None
             end
         end
  end.
(** the byte of a type, as passed back to Create *)
Definition type_byte (t : atype) : nat :=
  match t with
  | Float1Unpacked => 0 | Float1In1Byte => 1 | Float2Unpacked => 2 | Float2In1Float => 3 | Float2In3Bytes_XY12 => 4 | Float2In4Bytes_X12_Y20 => 5
  | Float3Unpacked => 6 | Float3In1Float => 7 | Float3In2Floats => 8 | Float3In4Bytes_XYZ10 => 9
  | Float4Unpacked => 10 | Float4In1Float => 11 | Float4In2Floats => 12 | Float4In3Floats => 13
  end.
(** The loop of WithoutAttributes, 171-176: the ids not yet removed, as a list without duplicates *)
Fixpoint drop_attrs (l : list attribute) (todo : list nat) : list (nat * nat) * list nat :=
  match l with
  | [] => ([], todo)
  | a :: l =>
      if existsb (Nat.eqb (aid a)) todo then drop_attrs l (filter (fun x => negb (Nat.eqb x (aid a))) todo)
      else let '(r, t) := drop_attrs l todo in ((type_byte (ty a), aid a) :: r, t)
  end.
(** WithoutAttributes: 162-182 *)
Definition without_attributes (f : format) (ids : list nat) : option format :=
  let todo := nodup Nat.eq_dec ids in
  if existsb (Nat.eqb kPosition) todo then None
  else match drop_attrs (attrs f) todo with
       | (r, []) => create r (index_format f)
       | (_, _ :: _) => None
       end.
(** IsPackedEquivalent, IsUnpackedEquivalent, operator==: 320-384, 399-407 *)
Fixpoint all2 {A} (p : A -> A -> bool) (a b : list A) : bool :=
  match a, b with
  | [], [] => true
  | x :: a, y :: b => p x y && all2 p a b
  | _, _ => false
  end.
Definition same_type (a b : attribute) : bool := Nat.eqb (type_byte (ty a)) (type_byte (ty b)).
Definition packed_equiv (f g : format) : bool :=
  Nat.eqb (pos_index f) (pos_index g) && all2 (fun a b => Nat.eqb (aid a) (aid b) && same_type a b) (attrs f) (attrs g).
Definition unpacked_equiv (f g : format) : bool :=
  Nat.eqb (pos_index f) (pos_index g) &&
  all2 (fun a b => Nat.eqb (aid a) (aid b) && Nat.eqb (component_count (ty a)) (component_count (ty b)) && Nat.eqb (uwidth a) (uwidth b)) (attrs f) (attrs g).
Definition format_eqb (f g : format) : bool :=
  all2 (fun a b => same_type a b && Nat.eqb (aid a) (aid b)) (attrs f) (attrs g) && ifmt_eqb (index_format f) (index_format g).
