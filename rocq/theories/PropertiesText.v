(** Properties C14-C19, C48, C52 and C53: IRI texts, literals and decimal numerals. Statements use
    ModelText.v for the library functions and SpecText.v for their meaning. *)

From Coq Require Import NArith ZArith String List Bool.
From Verif Require Import Bytes ModelTypes ModelObject ModelText SpecText ProofText ProofLiteral ExamplesText.
Import ListNotations.
Local Open Scope N_scope.

(** ** C14 *)

Theorem C14_iri_from_string_canonical : forall s,
  (s = [] /\ iri_from_string s = None) \/
  (s <> [] /\ exists ns rem, iri_from_string s = Some (ns, rem) /\ canonical_split s ns rem).
Proof. exact iri_from_string_canonical. Qed.
Print Assumptions C14_iri_from_string_canonical.

Theorem C14_canonical_split_unique : forall s ns rem ns' rem',
  canonical_split s ns rem -> canonical_split s ns' rem' -> ns = ns' /\ rem = rem'.
Proof. exact canonical_split_unique. Qed.
Print Assumptions C14_canonical_split_unique.

Example C14_case : iri_from_string ex_text = Some (bs "http://ex.org/ns#", bs "Item-1") /\
                   iri_from_string (bs "http://x/a1b") = Some (bs "http://x/", bs "a1b") /\
                   iri_from_string (bs "http://x/12") = Some (bs "http://x/12", []) /\ iri_from_string [] = None.
Proof. exact ex_split. Qed.

(** ** C15 *)

Theorem C15_iri_parts_text : forall p s, fst (iri_of_parts p s) ++ snd (iri_of_parts p s) = p ++ s.
Proof. exact iri_of_parts_text. Qed.
Print Assumptions C15_iri_parts_text.

Theorem C15_iri_parts_of_iri : forall s ns rem,
  iri_from_string s = Some (ns, rem) -> iri_of_parts ns rem = (ns, rem).
Proof. exact iri_parts_roundtrip. Qed.
Print Assumptions C15_iri_parts_of_iri.

(** ** C16 *)

Theorem C16_same_text_same_iri_refuted : exists p s iri, p ++ s <> [] /\ iri_of_parts p s = iri /\
  iri_from_string (p ++ s) <> Some iri /\
  exists iri', iri_from_string (p ++ s) = Some iri' /\ fst iri' ++ snd iri' = fst iri ++ snd iri.
Proof. exact parts_counterexample. Qed.
Print Assumptions C16_same_text_same_iri_refuted.

(** Missing from the full claim: prefixes ending with a name joined to a suffix of name characters
    that starts with a digit, dot or hyphen. The side condition is exact. *)
Theorem C16_same_text_same_iri_partial : forall p s, p ++ s <> [] ->
  (iri_from_string (p ++ s) = Some (iri_of_parts p s) <->
   ~ (exists u v, p = u ++ v /\ ncname v) \/ ~ name_continuation s).
Proof. exact iri_parts_vs_string. Qed.
Print Assumptions C16_same_text_same_iri_partial.

Example C16_case : ~ name_continuation (bs "Item-1") /\ name_continuation (bs "1b").
Proof. exact ex_suffix_ok. Qed.

(** ** C17 *)

Theorem C17_has_iri_string : forall ns rem s, has_iri_string (ns, rem) s = true <-> s = ns ++ rem.
Proof. exact has_iri_string_spec. Qed.
Print Assumptions C17_has_iri_string.

Example C17_case : has_iri_string (bs "http://ex.org/ns#", bs "Item-1") ex_text = true /\
                   has_iri_string (bs "http://ex.org/ns#", bs "Item-1") (bs "http://ex.org/ns#Item-2") = false.
Proof. exact ex_has_iri. Qed.

(** ** C18 *)

Theorem C18_plain_literal : forall v, exists o, literal_plain v = LObj o /\ cowl_literal (Some v) DLNull = LObj o /\
  literal_get_value o = v /\
  literal_get_datatype o = OEnt ET_DATATYPE (bs "http://www.w3.org/2001/XMLSchema#") (bs "string") /\
  literal_get_lang o = None.
Proof. exact plain_getters. Qed.
Print Assumptions C18_plain_literal.

Theorem C18_typed_literal : forall v ns rem, exists o, literal_typed v ns rem = LObj o /\
  literal_get_value o = v /\ literal_get_datatype o = OEnt ET_DATATYPE ns rem /\ literal_get_lang o = None.
Proof. exact typed_getters. Qed.
Print Assumptions C18_typed_literal.

Theorem C18_literal_with_datatype : forall v ns rem,
  ~ (ns = bs "http://www.w3.org/1999/02/22-rdf-syntax-ns#" /\ (rem = bs "langString" \/ rem = bs "PlainLiteral")) ->
  exists o, cowl_literal (Some v) (DLDatatype ns rem) = LObj o /\
  literal_get_value o = v /\ literal_get_datatype o = OEnt ET_DATATYPE ns rem /\ literal_get_lang o = None.
Proof. exact datatype_getters. Qed.
Print Assumptions C18_literal_with_datatype.

Theorem C18_tagged_literal : forall v l, l <> [] ->
  exists o l', literal_lang v l = LObj o /\ cowl_literal (Some v) (DLLang l) = LObj o /\
  literal_get_value o = v /\
  literal_get_datatype o = OEnt ET_DATATYPE (bs "http://www.w3.org/1999/02/22-rdf-syntax-ns#") (bs "langString") /\
  literal_get_lang o = Some l' /\ Forall2 lower_case l l'.
Proof. exact lang_getters. Qed.
Print Assumptions C18_tagged_literal.

Theorem C18_empty_tag : forall v, literal_lang v [] = literal_plain v /\ cowl_literal (Some v) (DLLang []) = literal_plain v.
Proof. exact empty_tag. Qed.
Print Assumptions C18_empty_tag.

Theorem C18_literal_equality : forall a b, made a -> made b ->
  (cowl_equals a b = true <->
   literal_get_value a = literal_get_value b /\ literal_get_datatype a = literal_get_datatype b /\
   literal_get_lang a = literal_get_lang b).
Proof. exact literal_equality. Qed.
Print Assumptions C18_literal_equality.

Example C18_case : exists a b c, made a /\ made b /\ made c /\
  literal_lang (bs "ciao") (bs "IT") = LObj a /\ literal_lang (bs "ciao") (bs "it") = LObj b /\
  literal_plain (bs "ciao") = LObj c /\ cowl_equals a b = true /\ cowl_equals a c = false.
Proof. exact ex_literals. Qed.

(** ** C19 *)

Theorem C19_plain_literal_crash_refuted : exists v ns rem,
  ns = bs "http://www.w3.org/1999/02/22-rdf-syntax-ns#" /\ rem = bs "PlainLiteral" /\
  cowl_literal (Some v) (DLDatatype ns rem) = LCrash.
Proof. exact crash_counterexample. Qed.
Print Assumptions C19_plain_literal_crash_refuted.

(** Missing from the full claim: values without a non-empty tag after the last [@], for which the
    constructor dereferences NULL. *)
Theorem C19_lang_datatype_outcome_partial : forall ns rem v,
  ns = bs "http://www.w3.org/1999/02/22-rdf-syntax-ns#" -> rem = bs "langString" \/ rem = bs "PlainLiteral" ->
  (exists a b, tagged v a b /\ exists o l, cowl_literal (Some v) (DLDatatype ns rem) = LObj o /\
     literal_get_value o = a /\ literal_get_lang o = Some l /\ Forall2 lower_case b l /\
     literal_get_datatype o = OEnt ET_DATATYPE (bs "http://www.w3.org/1999/02/22-rdf-syntax-ns#") (bs "langString")) \/
  ((~ exists a b, tagged v a b) /\ cowl_literal (Some v) (DLDatatype ns rem) = LCrash).
Proof. exact lang_datatype_outcome. Qed.
Print Assumptions C19_lang_datatype_outcome_partial.

Example C19_case : tagged (bs "a@b@en") (bs "a@b") (bs "en").
Proof. exact ex_tagged. Qed.

(** ** C48 *)

Theorem C48_uint_to_string : forall n,
  exists s, str_from_uint n = Some s /\ Forall is_digit s /\ dec_value s = n /\ (n = 0 -> s = [48]) /\ (n <> 0 -> hd 48 s <> 48).
Proof. exact str_from_uint_spec. Qed.
Print Assumptions C48_uint_to_string.

Theorem C48_uint_roundtrip : forall w n, n < 2 ^ w -> exists s, str_from_uint n = Some s /\ str_to_uint w s = n.
Proof. exact uint_roundtrip. Qed.
Print Assumptions C48_uint_roundtrip.

Example C48_case : str_from_uint 1234567890 = Some (bs "1234567890") /\ str_from_uint 0 = Some (bs "0") /\
                   str_from_uint (2 ^ 32 - 1) = Some (bs "4294967295") /\ str_to_uint 32 (bs "0042") = 42.
Proof. exact ex_numbers. Qed.

(** ** C52 *)

Theorem C52_numeral_value_refuted : exists s, Forall is_digit s /\ dec_value s = 2 ^ 32 /\ str_to_uint 32 s = 0.
Proof. exact wrap_counterexample. Qed.
Print Assumptions C52_numeral_value_refuted.

Theorem C52_error_distinguishable_refuted : exists s t,
  Forall is_digit s /\ ~ Forall is_digit t /\ str_to_uint 32 s = str_to_uint 32 t.
Proof. exact error_ambiguity. Qed.
Print Assumptions C52_error_distinguishable_refuted.

(** Missing from the full claim: numerals of 2^w and above, which wrap. *)
Theorem C52_numeral_value_partial : forall w s, Forall is_digit s -> str_to_uint w s = dec_value s mod 2 ^ w.
Proof. exact str_to_uint_digits. Qed.
Print Assumptions C52_numeral_value_partial.

Theorem C52_invalid_numeral : forall w s, Exists (fun c => ~ is_digit c) s -> str_to_uint w s = 2 ^ w - 1.
Proof. exact str_to_uint_invalid. Qed.
Print Assumptions C52_invalid_numeral.

(** ** C53 *)

Theorem C53_reserved_iris : forall s ns rem, iri_from_string s = Some (ns, rem) ->
  (iri_is_reserved (ns, rem) = true <-> reserved_text s).
Proof. exact reserved_iff. Qed.
Print Assumptions C53_reserved_iris.

Theorem C53_reserved_objects : forall o, is_reserved o = true <->
  exists ns rem, In ns reserved_namespaces /\ (o = OIri ns rem \/ exists e, o = OEnt e ns rem).
Proof. exact reserved_objects. Qed.
Print Assumptions C53_reserved_objects.

Example C53_case : option_map iri_is_reserved (iri_from_string (bs "http://www.w3.org/2001/XMLSchema#integer")) = Some true /\
  option_map iri_is_reserved (iri_from_string (bs "http://www.w3.org/2002/07/owl#1a")) = Some false /\
  is_reserved owl_thing = true.
Proof. exact ex_reserved. Qed.
