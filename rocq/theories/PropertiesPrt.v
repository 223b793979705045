(** C35, C36, C39, C55: ProtocOWL values, axioms, and the reader on arbitrary input. Statements use
    ModelPrtEncoder.v and ModelPrtDecoder.v for the library functions, SpecPrt.v and SpecObject.v for their
    meaning. *)

From Coq Require Import String NArith ZArith List Bool.
From Verif Require Import Bytes ModelTypes ModelObject SpecObject ModelChange ModelPrtValue ModelPrtEncoder ModelPrtDecoder SpecPrt.
From Verif Require Import ModelText ProofPrtCodec ProofPrtSafe ExamplesPrt.
Import ListNotations.
Local Open Scope N_scope.

(** ** C35 *)

(** Exactly which typed literals are read back as they were written; the datatype always is.
    Missing from the full claim: the values that are not [value_kept] (below), and the datatypes
    rdf:langString and rdf:PlainLiteral. *)
Theorem C35_typed_literal_partial : forall w, width w -> forall anon_id ids idx v ns rem,
  fits w v -> ~ lang_datatype ns rem -> (~ xsd ns rem ["string"%string] -> agreed w ids idx (OIri ns rem)) ->
  exists b v', encode_literal w idx (OLit v ns rem) = Some (b, false) /\
    (forall s rest, d_ok s = true -> d_ids s = ids -> d_in s = b ++ rest ->
       decode_literal w anon_id s = DRet (Some (OLit v' ns rem)) (set_in rest s)) /\
    (v' = v <-> value_kept w ns rem v).
Proof. exact typed_exact. Qed.
Print Assumptions C35_typed_literal_partial.

Example C35_typed_literal_partial_case : agreed 32 px_ids px_idx (px_dt "integer") /\ value_kept 32 xsd_ns (bs "integer") (bs "-12") /\
  value_kept 32 xsd_ns (bs "decimal") (bs "3.25") /\ value_kept 32 xsd_ns (bs "decimal") (bs "yes") /\
  ~ value_kept 32 xsd_ns (bs "decimal") (bs "-0.5").
Proof. exact (conj (px_agreed "integer" 0 eq_refl eq_refl eq_refl) (conj px_int_kept px_dec_kept)). Qed.

(** Integers that fit the machine word keep their value, whatever their notation. *)
Theorem C35_integer_value : forall w, width w -> forall anon_id ids idx v ns rem z,
  fits w v -> xsd ns rem integer_names -> int_number v z -> in_range w z -> agreed w ids idx (OIri ns rem) ->
  exists b v', encode_literal w idx (OLit v ns rem) = Some (b, false) /\ int_plain v' z /\
    (forall s rest, d_ok s = true -> d_ids s = ids -> d_in s = b ++ rest ->
       decode_literal w anon_id s = DRet (Some (OLit v' ns rem)) (set_in rest s)).
Proof. exact integer_value. Qed.
Print Assumptions C35_integer_value.

Example C35_integer_value_case : int_number (bs " +0042") 42 /\ px_trip 32 (px_lit " +0042" "integer") (px_lit "42" "integer").
Proof. exact (conj px_int_number px_spaced). Qed.

(** Literals with a language tag (of lower case, as the constructors make them) are read back unchanged. *)
Theorem C35_lang_literal : forall w, width w -> forall anon_id ids idx v l,
  fits w v -> fits w l -> literal_kept w (OLang v l) ->
  exists b, encode_literal w idx (OLang v l) = Some (b, false) /\
    (forall s rest, d_ok s = true -> d_ids s = ids -> d_in s = b ++ rest ->
       decode_literal w anon_id s = DRet (Some (OLang v l)) (set_in rest s)).
Proof. exact lang_trip. Qed.
Print Assumptions C35_lang_literal.

Example C35_lang_literal_case : literal_kept 32 (OLang (bs "hi") (bs "en-gb")) /\ px_trip 32 (OLang (bs "hi") (bs "en-gb")) (OLang (bs "hi") (bs "en-gb")).
Proof. exact px_lang. Qed.

(** The sign of a number between -1 and 0 is lost. *)
Theorem C35_sign_refuted : exists o o', px_trip 32 o o' /\ o = px_lit "-0.5" "decimal" /\ o' = px_lit "0.5" "decimal".
Proof. exact (ex_intro _ _ (ex_intro _ _ (conj px_sign_lost (conj eq_refl eq_refl)))). Qed.
Print Assumptions C35_sign_refuted.
(** Long fractions become other numbers, at both widths. *)
Theorem C35_fraction_refuted :
  px_trip 32 (px_lit "3.14159265358979" "decimal") (px_lit "3.3941737624" "decimal") /\
  px_trip 64 (px_lit "3.14159265358979323846" "decimal") (px_lit "3.3920467224675612949" "decimal").
Proof. exact (conj px_digits_lost px_digits_lost_huge). Qed.
Print Assumptions C35_fraction_refuted.
(** Whole parts beyond the machine word saturate. *)
Theorem C35_whole_part_refuted : px_trip 32 (px_lit "2147483648.5" "decimal") (px_lit "2147483647.5" "decimal").
Proof. exact px_whole_lost. Qed.
Print Assumptions C35_whole_part_refuted.
(** Superfluous zeros disappear: other literals, although equal numbers. *)
Theorem C35_notation_refuted :
  px_trip 32 (px_lit "007" "integer") (px_lit "7" "integer") /\ px_trip 32 (px_lit "1.50" "decimal") (px_lit "1.5" "decimal").
Proof. exact px_text_changed. Qed.
Print Assumptions C35_notation_refuted.
(** A typed rdf:PlainLiteral becomes a tagged one, or makes the reader dereference NULL. *)
Theorem C35_plain_literal_refuted :
  px_trip 32 (OLit (bs "ciao@it") rdf_ns (bs "PlainLiteral")) (OLang (bs "ciao") (bs "it")) /\
  exists b, encode_literal 32 px_idx (OLit (bs "ciao") rdf_ns (bs "PlainLiteral")) = Some (b, false) /\
    decode_literal 32 px_anon (px_state b) = DUB OT_LITERAL.
Proof. exact (conj px_plain_literal px_plain_crash). Qed.
Print Assumptions C35_plain_literal_refuted.

(** ** C36 *)

(** Missing from the full claim: axioms that are not [storable], that is, those with a literal that C35
    does not cover or with a cardinality of 2^31 (2^63) or more. *)
Theorem C36_axiom_roundtrip_partial : forall w, width w -> forall anon_id ids idx o,
  is_axiom_object o -> storable w o -> (forall p, mentions p o -> agreed w ids idx (ident p)) ->
  exists b, encode_object w idx o = Some (b, false) /\
    forall handler fuel s rest, (List.length b <= fuel)%nat -> d_ok s = true -> d_ids s = ids -> d_in s = b ++ rest ->
      exists s', decode_frame w anon_id handler fuel s = DRet true s' /\
        d_in s' = rest /\ d_ids s' = ids /\ d_ns s' = d_ns s /\ d_remove s' = d_remove s /\
        d_log s' = d_log s ++ [(if d_remove s then CHANGE_REMOVE else CHANGE_ADD, DAxiom o)] /\
        d_code s' = handler (d_log s').
Proof. exact axiom_trip. Qed.
Print Assumptions C36_axiom_roundtrip_partial.

Example C36_axiom_roundtrip_partial_case : is_axiom_object px_axiom /\ storable 32 px_axiom /\
  forall p, mentions p px_axiom -> agreed 32 px_ax_ids px_ax_idx (ident p).
Proof. exact (conj px_axiom_ok (conj px_axiom_storable px_axiom_agreed)). Qed.

(** A cardinality of 2^31 is read back as 0. *)
Theorem C36_cardinality_refuted : is_axiom_object px_card /\ px_card <> px_card' /\
  exists b, encode_object 32 px_ax_idx px_card = Some (b, false) /\
    decode_frame 32 px_anon (fun _ => COWL_OK) 100 (px_ax_state b []) = DRet true (px_ax_state [] [(CHANGE_ADD, DAxiom px_card')]).
Proof. exact (conj px_card_ok (conj px_card_differs px_card_lost)). Qed.
Print Assumptions C36_cardinality_refuted.

(** ** C39 *)

(** For every byte string, width, handler and source of identifiers: reading ends ([DFuel] is not an
    outcome), whatever reaches the handler is well formed, and a NULL pointer can only be
    dereferenced in one of six functions.
    Missing from the full claim: those six (below). *)
Theorem C39_reader_partial : forall w anon_id handler input,
  match read_ontology w anon_id handler input with
  | DRet _ s => typed_log (d_log s)
  | DUB t => In t null_sites
  | DFuel => False
  end.
Proof. exact read_typed. Qed.
Print Assumptions C39_reader_partial.

Example C39_reader_partial_case : exists s, px_read px_three = DRet tt s /\ List.length (d_log s) = 3%nat /\ d_code s = COWL_OK.
Proof. exact px_accepted. Qed.

(** Each of the six is reached; a file of two bytes suffices for one of them. *)
Theorem C39_null_refuted : px_read [1; 19] = DUB OT_A_SUB_OBJ_PROP /\
  px_read (px_decl ++ [45; 0; 0; 3; 0]) = DUB OT_A_DATA_PROP_ASSERT /\
  px_read (px_decl ++ [46; 0; 0; 3; 0]) = DUB OT_A_NEG_DATA_PROP_ASSERT /\
  px_read (px_decl ++ [47; 0; 0; 0; 3; 0]) = DUB OT_A_ANNOT_ASSERT /\
  px_read (px_decl ++ [15; 13; 0; 3; 0]) = DUB OT_CE_DATA_HAS_VALUE /\
  px_read ([1; 69; 1; 0; 12] ++ bs "PlainLiteral" ++ [45; 0; 0; 2; 1; 97; 0]) = DUB OT_LITERAL.
Proof. exact px_null_sites. Qed.
Print Assumptions C39_null_refuted.

(** ** C55 *)

(** Missing from the full claim: errors of the input (below). *)
Theorem C55_handler_error_partial : forall w anon_id handler input s,
  read_ontology w anon_id handler input = DRet tt s ->
  heeded handler (d_log s) /\ (d_log s <> [] -> (handler (d_log s) < 0)%Z -> (d_code s < 0)%Z).
Proof. exact read_heeded. Qed.
Print Assumptions C55_handler_error_partial.

Example C55_handler_error_partial_case :
  exists s, read_ontology 32 px_anon px_refuse px_three = DRet tt s /\ List.length (d_log s) = 2%nat /\ d_code s = ERR_MEM.
Proof. exact px_refused. Qed.

(** A SubObjectPropertyOf axiom whose annotations are cut off is given to the handler without them, after
    the error; another axiom is not. *)
Theorem C55_input_error_refuted :
  (exists s, px_read px_cut = DRet tt s /\ (d_code s < 0)%Z /\ d_log s = [(CHANGE_ADD, DAxiom px_sub)]) /\
  (exists s, px_read (px_decl ++ [27 + 64; 1; 1]) = DRet tt s /\ (d_code s < 0)%Z /\ d_log s = []).
Proof. exact (conj px_cut_delivered px_cut_other). Qed.
Print Assumptions C55_input_error_refuted.
