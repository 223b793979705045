(** C42, C43, C44, C45, C46, C56: the functional syntax, written and read back. Statements use the models for the
    writer, the lexer and the parser, SpecFunc.v and SpecFuncDoc.v for what a text can express and which tokens it has.
    The order in which hash tables are visited, the default prefix map, the signedness of char and the width of
    ulib_uint are arbitrary; the change handler accepts what it is given. *)

From Coq Require Import String NArith ZArith List Bool Permutation.
From Verif Require Import Bytes ModelTypes ModelObject SpecObject ModelText ModelPrefixMap SpecPrefixMap ModelOntology SpecOntology ModelChange SpecChange
  ModelPrtDecoder SpecPrtStream SpecPrtStore ModelFuncLex ModelFuncParser ModelFuncWriter SpecFunc SpecFuncDoc.
From Verif Require Import ProofFuncDoc ProofFuncStore ProofFuncTop ExamplesPrefix ExamplesChange ExamplesPrt ExamplesPrtStream ExamplesPrtStore ExamplesFunc.
Import ListNotations.
Local Open Scope N_scope.

(** ** C42 *)

(** The text of a literal starts with a string token whose value is that of the literal.
    Missing from the full claim: values that contain a zero byte (refuted below). *)
Theorem C42_value_partial : forall w abbr o b, wt (SOne SLit) o = true -> ~ In 0 (literal_get_value o) -> w_obj abbr o = Some b ->
  exists ts, lex w b = Some (TQuoted (literal_get_value o) :: ts).
Proof. exact value_back. Qed.
Print Assumptions C42_value_partial.

Example C42_value_partial_case : wt (SOne SLit) fx_literal = true /\ ~ In 0 (literal_get_value fx_literal) /\
  exists b, w_obj (fun _ => Some None) fx_literal = Some b /\ lex 32 b = Some [TQuoted (literal_get_value fx_literal); TLang (bs "en")].
Proof. exact fx_literal_case. Qed.

(** A value is written up to its first zero byte. *)
Theorem C42_nul_refuted : exists v v' b, w_obj (fun _ => Some None) (OLit v (bs "http://www.w3.org/2001/XMLSchema#") (bs "string")) = Some b /\
  lex 32 b = Some [TQuoted v'] /\ v' <> v.
Proof. exact fx_nul_case. Qed.
Print Assumptions C42_nul_refuted.

(** ** C43 *)

(** An IRI written with the prefixes of a document is one token, read as the same IRI after the declarations of the
    document in any order.
    Missing from the full claim: IRIs that are not [iri_ok], prefix maps that are not [map_fit] (refuted below). *)
Theorem C43_iri_partial : forall w visit, (forall t, Permutation (visit t) t) -> forall defaults h ds,
  (forall pm, fh_pm h = Some pm -> map_fit visit pm defaults) -> Permutation ds (declared h) ->
  forall ns rem rest, iri_ok (prefix_in visit h) ns rem ->
  exists b t, w_obj (header_abbr visit h) (OIri ns rem) = Some b /\ lex w b = Some [t] /\
    parse_iri (initial_map defaults ++ ds) (t :: rest) = POk (ns, rem) rest.
Proof. exact iri_back. Qed.
Print Assumptions C43_iri_partial.

Example C43_iri_partial_case : map_fit id_visit po_map fx_defaults /\
  iri_ok (prefix_in id_visit fx_head) px_ns (bs "onto") /\ prefix_in id_visit fx_head px_ns <> None.
Proof. exact fx_iri_case. Qed.

(** A remainder that ends in a full stop is abbreviated; the reader rejects the document. *)
Theorem C43_dot_refuted : exists ns rem, iri_from_string (ns ++ rem) = Some (ns, rem) /\
  fx_trip (fx_with [PAdd s_ex s_n1 false]) [mk_annot OT_A_DECL [OEnt ET_CLASS ns rem] None] =
  Some (FRet ERR_SYNTAX [(CHANGE_ADD, DPrefix (bs "ex") (bs "http://ex.org/1#"))]).
Proof. exact (ex_intro _ (bs "http://ex.org/1#") (ex_intro _ (bs "a.") fx_dot)). Qed.
Print Assumptions C43_dot_refuted.
(** After a prefix was bound to another namespace, IRIs of its first namespace are read back in the second. *)
Theorem C43_stale_refuted : exists ops, Forall keeps ops /\
  fx_trip (fx_with ops) [fx_decl "http://ex.org/1#" "a"] =
  Some (FRet COWL_OK [(CHANGE_ADD, DPrefix (bs "ex") (bs "http://ex.org/2#")); (CHANGE_ADD, DAxiom (fx_decl "http://ex.org/2#" "a"))]).
Proof. exact (ex_intro _ fx_stale_ops fx_stale). Qed.
Print Assumptions C43_stale_refuted.
(** An IRI with a blank, which cowl_iri accepts, makes the document unreadable. *)
Theorem C43_blank_refuted : exists ns rem, iri_from_string (ns ++ rem) = Some (ns, rem) /\
  fx_trip (fx_with []) [mk_annot OT_A_DECL [OEnt ET_CLASS ns rem] None] = Some (FRet ERR_SYNTAX []).
Proof. exact (ex_intro _ (bs "http://ex.org/1#a ") (ex_intro _ (bs "b") fx_blank)). Qed.
Print Assumptions C43_blank_refuted.

(** ** C44 *)

(** An object that a text can express is written, and the parser, asked for an object of that sort, returns it and
    stops after its tokens.
    Missing from the full claim: objects that are not [expressible] (refuted below). *)
Theorem C44_object_partial : forall w visit, (forall t, Permutation (visit t) t) -> forall defaults h ds,
  (forall pm, fh_pm h = Some pm -> map_fit visit pm defaults) -> Permutation ds (declared h) ->
  forall i o rest, wt (SOne i) o = true -> i <> SEntity -> expressible w (prefix_in visit h) o -> calm rest ->
  exists b ts, w_obj (header_abbr visit h) o = Some b /\ lex w b = Some ts /\
    parse_nt (initial_map defaults ++ ds) (nt_of i) (ts ++ rest) = POk o rest.
Proof. exact object_back. Qed.
Print Assumptions C44_object_partial.

Example C44_object_partial_case : map_fit id_visit po_map fx_defaults /\ wt (SOne SAxiom) ps_chain = true /\
  expressible 32 (prefix_in id_visit fx_head) ps_chain /\ calm [TRParen].
Proof. exact fx_object_case. Qed.

(** An n-ary axiom with one operand, which its constructor accepts, is written and then rejected. *)
Theorem C44_one_refuted : exists a, is_axiom_object a /\ fx_trip (fx_with []) [a] = Some (FRet ERR_SYNTAX []).
Proof. exact (ex_intro _ fx_one fx_one_lost). Qed.
Print Assumptions C44_one_refuted.
(** A sub-property axiom whose sub-property is an inverse property cannot be written: undefined behaviour. *)
Theorem C44_inverse_refuted : exists a, is_axiom_object a /\ w_document id_visit (fx_with []) [a] = None.
Proof. exact (ex_intro _ fx_inv fx_inv_ub). Qed.
Print Assumptions C44_inverse_refuted.

(** ** C45 *)

(** The text of a document is split into the tokens of the document.
    Missing from the full claim: contents that are not [expressible] (refuted by C43_dot_refuted, C43_blank_refuted). *)
Theorem C45_tokens_partial : forall w visit defaults h axioms, (forall t, Permutation (visit t) t) ->
  doc_ok w visit defaults h axioms ->
  exists b ds, w_document visit h axioms = Some b /\ Permutation ds (declared h) /\
    lex w b = Some (doc_tokens (prefix_in visit h) ds h axioms).
Proof. exact document_tokens. Qed.
Print Assumptions C45_tokens_partial.

Example C45_tokens_partial_case : doc_ok 32 id_visit fx_defaults fx_head [px_axiom; ps_assert; ps_chain] /\
  List.length (doc_tokens (prefix_in id_visit fx_head) (declared fx_head) fx_head [px_axiom; ps_assert; ps_chain]) = 61%nat.
Proof. exact fx_tokens_case. Qed.

(** ** C46 *)

(** A header and axioms are written; reading the text gives the handler exactly the prefixes, the IRI, the version,
    the imports, the annotations and the axioms, in this order and each once.
    Missing from the full claim: documents that are not [doc_ok]: a version without an IRI (refuted below), contents
    that are not expressible. *)
Theorem C46_document_partial : forall w visit, (forall t, Permutation (visit t) t) -> forall defaults h axioms handler signed,
  (forall l, handler l = COWL_OK) -> doc_ok w visit defaults h axioms ->
  exists b ds, w_document visit h axioms = Some b /\ Permutation ds (declared h) /\
    func_read handler signed w (initial_map defaults) b = FRet COWL_OK (contents ds h axioms).
Proof. exact document_round_trip. Qed.
Print Assumptions C46_document_partial.

Example C46_document_partial_case : doc_ok 32 id_visit fx_defaults fx_head [px_axiom; ps_assert; ps_chain] /\
  fh_iri fx_head <> None /\ fh_version fx_head <> None /\ fh_imports fx_head <> [] /\ fh_annot fx_head <> [].
Proof. exact fx_document_case. Qed.

(** A version without an IRI is read back as the IRI. *)
Theorem C46_version_refuted : exists h, fh_iri h = None /\ fh_version h = Some (px_iri "v1") /\
  fx_trip h [] = Some (FRet COWL_OK [(CHANGE_ADD, DIri (px_iri "v1")); (CHANGE_ADD, DImport (px_iri "imp"))]).
Proof. exact (ex_intro _ fx_version fx_version_lost). Qed.
Print Assumptions C46_version_refuted.

(** ** C56 *)

(** An ontology made by any sequence of edits is written, and the text is read back into a new ontology with the same
    IRI, version, imports, annotations and axioms, and with all the prefixes.
    Missing from the full claim: contents that are not [writable] (refuted under C43, C44 and C46). *)
Theorem C56_round_trip_partial : forall w visit, (forall t, Permutation (visit t) t) ->
  forall defaults handler signed, (forall l, handler l = COWL_OK) ->
  forall heap x l, reached heap w (x_onto x) -> contains (x_onto x) l -> writable w visit defaults x l ->
  exists b log, w_ontology visit x = Some b /\ func_read handler signed w (initial_map defaults) b = FRet COWL_OK log /\
    Forall (fun c => fst c = CHANGE_ADD) log /\
    forall heap' ps dst, Forall2 stands_for ps (map snd log) -> Forall (part_in_heap heap') ps ->
      x_onto dst = o_empty true -> new_map visit defaults (x_pm dst) ->
      exists dst', receives (change_apply visit w CHANGE_ADD) ps dst (Some (dst', COWL_OK)) /\ same_contents dst' x /\
        forall p n, ns_text x p (Some n) -> ns_text dst' p (Some n).
Proof. exact functional_round_trip. Qed.
Print Assumptions C56_round_trip_partial.

Example C56_round_trip_partial_case : reached po_heap 32 (x_onto po_full) /\ contains (x_onto po_full) po_axioms /\
  writable 32 id_visit fx_defaults po_full po_axioms /\ (exists pm, new_map id_visit fx_defaults pm) /\
  List.length po_axioms = 2%nat.
Proof. exact fx_writable_case. Qed.
