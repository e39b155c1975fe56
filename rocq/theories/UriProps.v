(** Property theorems C01, C02 (ink/types/uri). *)
From Coq Require Import Ascii String List ZArith.
From Verif Require Import UriModel UriSpec UriProofs.
Import ListNotations.

(** C01: Parse succeeds with [u] exactly on the strings that denote [u]. *)
Theorem C01_parse_accepts_exactly_the_grammar : forall s u,
  parse s = Some u <-> (s = [] /\ u = MkUri [] [] 0 Uninitialized) \/ ink_uri s u.
Proof. exact parse_exact. Qed.
Print Assumptions C01_parse_accepts_exactly_the_grammar.

Example C01_accepts :
  parse (text "InK://my-app/texture:blue-noise:42")
  = Some (MkUri (text "my-app") (text "blue-noise") 42 Texture).
Proof. vm_compute. reflexivity. Qed.
Example C01_rejects : parse (text "/texture:noise:01") = None /\ parse (text "ink:") = None
  /\ parse (text "/texture:noise#x") = None /\ parse (text "/mesh:noise") = None
  /\ parse (text "/texture:noise:1234567890") = None.
Proof. repeat split; vm_compute; reflexivity. Qed.

(** C02: parsing the normalised string of any parsed Uri gives it back. *)
Theorem C02_normalized_round_trip : forall s u,
  parse s = Some u -> parse (to_normalized_string u) = Some u.
Proof. exact parse_normalized. Qed.
Print Assumptions C02_normalized_round_trip.

(** C02: Uris are equal exactly when their normalised strings are. *)
Theorem C02_equal_iff_same_normalized : forall s1 s2 u1 u2,
  parse s1 = Some u1 -> parse s2 = Some u2 ->
  (uri_eqb u1 u2 = true <-> to_normalized_string u1 = to_normalized_string u2).
Proof. exact normalized_injective. Qed.
Print Assumptions C02_equal_iff_same_normalized.

(** C02: "The returned string will be as short as possible" (uri.h:85) *)
Theorem C02_normalized_is_shortest : forall s u,
  parse s = Some u -> length (to_normalized_string u) <= length s.
Proof. exact normalized_shortest. Qed.
Print Assumptions C02_normalized_is_shortest.

Example C02_normalizes : exists u,
  parse (text "INK://ink/brush-family:pen:1") = Some u
  /\ to_normalized_string u = text "/brush-family:pen"
  /\ parse (text "/brush-family:pen") = Some u.
Proof. eexists. repeat split; vm_compute; reflexivity. Qed.
