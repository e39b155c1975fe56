(** Model of ink/types/uri.h and ink/types/uri.cc. *)
From Coq Require Import Ascii String List ZArith Bool Arith.
Import ListNotations.
Open Scope list_scope.

(** A C++ [absl::string_view]/[std::string] is a list of bytes. *)
Definition bytes := list ascii.
Definition lit (s : string) : bytes := list_ascii_of_string s.

Fixpoint bytes_eqb (a b : bytes) : bool :=
  match a, b with
  | [], [] => true
  | x :: a', y :: b' => Ascii.eqb x y && bytes_eqb a' b'
  | _, _ => false
  end.

(** uri.h:57-65 [Uri::AssetType] *)
Inductive asset_type := Uninitialized | BrushFamily | Texture.

(** uri.h:147-150: the four data members, with their default values. *)
Record uri := MkUri {
  reg_name : bytes;
  asset_name : bytes;
  revision_number : Z;
  asset_ty : asset_type }.
Definition default_uri : uri := MkUri [] [] 0%Z Uninitialized.

(** uri.cc:36 [kDefaultRevisionNumber] *)
Definition default_revision_number : Z := 1%Z.
(** uri.h:73 [InkRegName] *)
Definition ink_reg_name : bytes := lit "ink".

Definition code (c : ascii) : nat := nat_of_ascii c.

(** absl::ascii_islower, absl::ascii_isdigit, absl::ascii_tolower *)
Definition ascii_islower (c : ascii) : bool :=
  (97 <=? code c) && (code c <=? 122).
Definition ascii_isdigit (c : ascii) : bool :=
  (48 <=? code c) && (code c <=? 57).
Definition ascii_tolower (c : ascii) : ascii :=
  if (65 <=? code c) && (code c <=? 90) then ascii_of_nat (code c + 32) else c.

(** uri.cc:38-41 [IsLowerOrHyphen] *)
Definition is_lower_or_hyphen (s : bytes) : bool :=
  forallb (fun c => ascii_islower c || Ascii.eqb c "-"%char) s.

(** uri.cc:43-45 [IsDigit] *)
Definition is_digit (s : bytes) : bool := forallb ascii_isdigit s.

(** [absl::string_view::find_first_of(delims, position)]; [None] is npos. *)
Fixpoint find_first_of_from (s delims : bytes) (skip idx : nat) : option nat :=
  match s with
  | [] => None
  | c :: s' =>
      match skip with
      | S skip' => find_first_of_from s' delims skip' (S idx)
      | O => if existsb (Ascii.eqb c) delims then Some idx
             else find_first_of_from s' delims O (S idx)
      end
  end.
Definition find_first_of (s delims : bytes) (position : nat) : option nat :=
  find_first_of_from s delims position 0.

(** uri.cc:47-54 [DistanceToNextDelimeterOrEnd]; std::min(npos, length) is length *)
Definition distance_to_next_delimiter_or_end (complete_uri : bytes)
    (position : nat) (delims : bytes) : nat :=
  (match find_first_of complete_uri delims position with
   | Some k => Nat.min k (length complete_uri)
   | None => length complete_uri
   end) - position.

(** [absl::StartsWith] *)
Fixpoint starts_with (s prefix : bytes) : bool :=
  match prefix, s with
  | [], _ => true
  | p :: prefix', c :: s' => Ascii.eqb c p && starts_with s' prefix'
  | _ :: _, [] => false
  end.

(** [absl::StartsWithIgnoreCase] *)
Fixpoint starts_with_ignore_case (s prefix : bytes) : bool :=
  match prefix, s with
  | [], _ => true
  | p :: prefix', c :: s' =>
      Ascii.eqb (ascii_tolower c) (ascii_tolower p) && starts_with_ignore_case s' prefix'
  | _ :: _, [] => false
  end.

(** uri.cc:56-62 [FirstPositionAfterScheme] *)
Definition first_position_after_scheme (complete_uri : bytes) : nat :=
  if starts_with_ignore_case complete_uri (lit "ink:") then length (lit "ink:") else 0.

(** [string_view::substr(pos, n)] for pos <= size and [substr(pos)] *)
Definition substr (s : bytes) (pos n : nat) : bytes := firstn n (skipn pos s).
Definition substr_from (s : bytes) (pos : nat) : bytes := skipn pos s.

(** uri.h:128-131 [PartRange] *)
Record part_range := MkRange { start : nat; len : nat }.
Definition empty_range := MkRange 0 0.

(** The parsers return a StatusOr<PartRange> and update [position] by
    reference; [None] is an error status (the message is not modelled). *)

(** uri.cc:82-113 [ParseRegNameIfPresent] *)
Definition parse_reg_name_if_present (complete_uri : bytes) (position : nat)
  : option (part_range * nat) :=
  if negb (starts_with (substr_from complete_uri position) (lit "//")) then
    Some (empty_range, position)
  else
    let position := position + length (lit "//") in
    let range := MkRange position
      (distance_to_next_delimiter_or_end complete_uri position (lit "/?#")) in
    let position := position + len range in
    let name := substr complete_uri (start range) (len range) in
    if match name with [] => true | _ => false end then None
    else if negb (is_lower_or_hyphen name) then None
    else Some (range, position).

(** uri.cc:115-149 [ParseAssetType] *)
Definition parse_asset_type (complete_uri : bytes) (position : nat)
  : option (part_range * nat) :=
  if negb (starts_with (substr_from complete_uri position) (lit "/")) then None
  else
    let position := position + length (lit "/") in
    let range := MkRange position
      (distance_to_next_delimiter_or_end complete_uri position (lit "/:?#")) in
    let position := position + len range in
    let name := substr complete_uri (start range) (len range) in
    if match name with [] => true | _ => false end then None
    else if negb (is_lower_or_hyphen name) then None
    else Some (range, position).

(** uri.cc:151-189 [ParseAssetName] *)
Definition parse_asset_name (complete_uri : bytes) (position : nat)
  : option (part_range * nat) :=
  if match substr_from complete_uri position with [] => true | _ => false end then None
  else if negb (starts_with (substr_from complete_uri position) (lit ":")) then None
  else
    let position := position + length (lit ":") in
    let range := MkRange position
      (distance_to_next_delimiter_or_end complete_uri position (lit "/:?#")) in
    let position := position + len range in
    let name := substr complete_uri (start range) (len range) in
    if match name with [] => true | _ => false end then None
    else if negb (is_lower_or_hyphen name) then None
    else Some (range, position).

(** uri.cc:191-233 [ParseRevisionIfPresent] *)
Definition parse_revision_if_present (complete_uri : bytes) (position : nat)
  : option (part_range * nat) :=
  if negb (starts_with (substr_from complete_uri position) (lit ":")) then
    Some (empty_range, position)
  else
    let position := position + length (lit ":") in
    let range := MkRange position
      (distance_to_next_delimiter_or_end complete_uri position (lit "/:?#")) in
    let position := position + len range in
    let revision := substr complete_uri (start range) (len range) in
    match revision with
    | [] => None
    | c :: _ =>
        if negb (is_digit revision) then None
        else if Ascii.eqb c "0"%char then None
        else if 9 <? length revision then None
        else Some (range, position)
    end.

(** [absl::SimpleAtoi<int32_t>] restricted to strings without sign and
    whitespace: fails on the empty string, on non-digits and on overflow.
    (Parse only calls it on "" or on strings of digits.) *)
Fixpoint atoi_acc (s : bytes) (acc : Z) : option Z :=
  match s with
  | [] => Some acc
  | c :: s' =>
      if ascii_isdigit c then
        atoi_acc s' (acc * 10 + (Z.of_nat (code c) - 48))%Z
      else None
  end.
Definition simple_atoi (s : bytes) : option Z :=
  match s with
  | [] => None
  | _ => match atoi_acc s 0 with
         | Some v => if (v <=? 2147483647)%Z then Some v else None
         | None => None
         end
  end.

(** uri.cc:235-296 [Uri::Parse] *)
Definition parse (u : bytes) : option uri :=
  match u with
  | [] => Some default_uri
  | _ =>
    let position := first_position_after_scheme u in
    match substr_from u position with
    | [] => None
    | c :: _ =>
      if negb (Ascii.eqb c "/"%char) then None
      else
        match parse_reg_name_if_present u position with
        | None => None
        | Some (range, position) =>
          let reg := substr u (start range) (len range) in
          let reg := match reg with [] => ink_reg_name | _ => reg end in
          match parse_asset_type u position with
          | None => None
          | Some (range, position) =>
            let ty := substr u (start range) (len range) in
            match parse_asset_name u position with
            | None => None
            | Some (range, position) =>
              let name := substr u (start range) (len range) in
              match parse_revision_if_present u position with
              | None => None
              | Some (range, position) =>
                let rev :=
                  match simple_atoi (substr u (start range) (len range)) with
                  | Some v => v
                  | None => default_revision_number
                  end in
                if negb (position =? length u) then None
                else if bytes_eqb ty (lit "brush-family") then
                  Some (MkUri reg name rev BrushFamily)
                else if bytes_eqb ty (lit "texture") then
                  Some (MkUri reg name rev Texture)
                else None
              end
            end
          end
        end
    end
  end.

(** [absl::StrAppend] of an int32_t: decimal, minus sign if negative. *)
Fixpoint digits_fuel (fuel : nat) (z : Z) (acc : bytes) : bytes :=
  match fuel with
  | O => acc
  | S fuel' =>
      let acc := ascii_of_nat (48 + Z.to_nat (z mod 10)) :: acc in
      if (z <? 10)%Z then acc else digits_fuel fuel' (z / 10) acc
  end.
Definition int32_to_string (z : Z) : bytes :=
  if (z <? 0)%Z then "-"%char :: digits_fuel 10 (- z) [] else digits_fuel 10 z [].

(** uri.cc:68-78 [ToFormattedString(AssetType)] *)
Definition asset_type_string (t : asset_type) : bytes :=
  match t with
  | Uninitialized => lit "uninitialized"
  | BrushFamily => lit "brush-family"
  | Texture => lit "texture"
  end.

(** uri.h:97 [HasInkRegName] *)
Definition has_ink_reg_name (u : uri) : bool := bytes_eqb (reg_name u) ink_reg_name.

(** uri.cc:298-313 [ToNormalizedString] *)
Definition to_normalized_string (u : uri) : bytes :=
  match asset_ty u with
  | Uninitialized => []
  | _ =>
      (if negb (has_ink_reg_name u) then lit "//" ++ reg_name u else [])
        ++ lit "/" ++ asset_type_string (asset_ty u) ++ lit ":" ++ asset_name u
        ++ (if negb (revision_number u =? default_revision_number)%Z
            then lit ":" ++ int32_to_string (revision_number u) else [])
  end.

Definition asset_type_eqb (a b : asset_type) : bool :=
  match a, b with
  | Uninitialized, Uninitialized | BrushFamily, BrushFamily | Texture, Texture => true
  | _, _ => false
  end.

(** uri.h:168-172 [operator==] *)
Definition uri_eqb (a b : uri) : bool :=
  asset_type_eqb (asset_ty a) (asset_ty b) && bytes_eqb (reg_name a) (reg_name b)
  && bytes_eqb (asset_name a) (asset_name b)
  && (revision_number a =? revision_number b)%Z.
