(** The functional-style syntax of OWL 2 (https://www.w3.org/TR/owl2-syntax) as a relation between token sequences and
    the objects they stand for. The relation says nothing about how a text is parsed. *)

From Coq Require Import NArith ZArith List Bool String.
From Verif Require Import Bytes ModelTypes ModelObject ModelText SpecObject SpecText ModelChange ModelPrtDecoder ModelFuncLex ModelFuncParser SpecFunc SpecFuncDoc.
Import ListNotations.
Local Open Scope N_scope.

(** The namespace a list of declarations binds to a prefix: that of the first declaration. *)
Definition binds (m : list (bytes * bytes)) (p n : bytes) : Prop := exists a b, m = a ++ (p, n) :: b /\ ~ In p (map fst a).

(** What the lexer guarantees of a token: an abbreviated IRI has a colon, a language tag is not empty. *)
Definition token_ok (t : token) : Prop := match t with TPnameLn s => In 58 s | TLang l => l <> [] | _ => True end.

Section Grammar.
  (** The prefixes that are declared. *)
  Variable m : list (bytes * bytes).

  (** A token names the IRI with namespace [ns] and remainder [rem]. *)
  Inductive names : token -> bytes -> bytes -> Prop :=
  | names_full s ns rem : s <> [] -> canonical_split s ns rem -> names (TIriRef s) ns rem
  | names_short p r n : ~ In 58 p -> binds m p n ->
      names (TPnameLn (p ++ 58 :: r)) (fst (iri_of_parts n r)) (snd (iri_of_parts n r)).
      (** the IRI that cowl_iri makes of [n] and [r] *)

  Definition language_datatype (ns rem : bytes) : Prop :=
    ns = bs "http://www.w3.org/1999/02/22-rdf-syntax-ns#" /\ (rem = bs "langString" \/ rem = bs "PlainLiteral").
  Inductive literal : list token -> obj -> Prop :=
  | literal_plain v : literal [TQuoted v] (OLit v (bs "http://www.w3.org/2001/XMLSchema#") (bs "string"))
  | literal_typed v t ns rem : names t ns rem -> ~ language_datatype ns rem -> literal [TQuoted v; TCaret; t] (OLit v ns rem)
  | literal_in_value v a b l t ns rem : names t ns rem -> language_datatype ns rem -> tagged v a b -> Forall2 lower_case b l ->
      literal [TQuoted v; TCaret; t] (OLang a l)
  | literal_tag v l l' : l <> [] -> Forall2 lower_case l l' -> literal [TQuoted v; TLang l] (OLang v l').

  (** [reads i ts o]: the tokens [ts] stand for the construct [o] of category [i]. *)
  Inductive reads : isort -> list token -> obj -> Prop :=
  | rd_iri t ns rem : names t ns rem -> reads SIri [t] (OIri ns rem)
  | rd_ent e t ns rem : names t ns rem -> reads (SEnt e) [t] (OEnt e ns rem)
  | rd_class t ns rem : names t ns rem -> reads SCls [t] (OEnt ET_CLASS ns rem)
  | rd_datatype t ns rem : names t ns rem -> reads SRange [t] (OEnt ET_DATATYPE ns rem)
  | rd_obj_prop t ns rem : names t ns rem -> reads SObjProp [t] (OEnt ET_OBJ_PROP ns rem)
  | rd_named t ns rem : names t ns rem -> reads SInd [t] (OEnt ET_NAMED_IND ns rem)
  | rd_anon id : reads SInd [TBlank id] (OAnon id)
  | rd_lit ts o : literal ts o -> reads SLit ts o
  | rd_value_iri t ns rem : names t ns rem -> reads SAnnotVal [t] (OIri ns rem)
  | rd_value_anon id : reads SAnnotVal [TBlank id] (OAnon id)
  | rd_value_lit ts o : literal ts o -> reads SAnnotVal ts o
  | rd_subject_iri t ns rem : names t ns rem -> reads SAnnotSubj [t] (OIri ns rem)
  | rd_subject_anon id : reads SAnnotSubj [TBlank id] (OAnon id)
  | rd_entity e t ns rem : names t ns rem -> reads SEntity (TKw (keyword (etype_otype e)) :: in_parens [t]) (OEnt e ns rem)
  | rd_facet t ns rem ts o : names t ns rem -> literal ts o -> reads SFacet (t :: ts) (OComp OT_FACET_RESTR [OIri ns rem; o] None 0)
  (** A construct without optional parts. *)
  | rd_plain i t ss ts fs : isort_has i t = true -> t <> OT_FACET_RESTR -> construct_sig t = Some (ss, NoOpt) -> operands t ss ts fs ->
      reads i (TKw (keyword t) :: in_parens ts) (OComp t fs None 0)
  (** Axioms and annotations: annotations first. *)
  | rd_annotated i t ss ann l ts fs : isort_has i t = true -> construct_sig t = Some (ss, OptAnnots) -> reads_all SAnnot ann l ->
      operands t ss ts fs ->
      reads i (TKw (keyword t) :: in_parens (ann ++ ts)) (OComp t fs (match l with [] => None | _ => Some (OVec false l) end) 0)
  (** Quantified restrictions: a filler, which is not stored if it is the implicit one. *)
  | rd_quant i t ss j d ts fs us f opt : isort_has i t = true -> construct_sig t = Some (ss, OptFiller j (Some d)) -> operands t ss ts fs ->
      reads j us f -> (f = d /\ opt = None) \/ (f <> d /\ opt = Some f) ->
      reads i (TKw (keyword t) :: in_parens (ts ++ us)) (OComp t fs opt 0)
  (** Cardinality restrictions, with and without a filler. *)
  | rd_card i t ss j n ts fs : isort_has i t = true -> construct_sig t = Some (ss, OptFiller j None) -> operands t ss ts fs ->
      reads i (TKw (keyword t) :: in_parens (TInt n :: ts)) (OComp t fs None n)
  | rd_qualified i t ss j n ts fs us f : isort_has i t = true -> construct_sig t = Some (ss, OptFiller j None) -> operands t ss ts fs ->
      reads j us f -> reads i (TKw (keyword t) :: in_parens (TInt n :: ts ++ us)) (OComp t fs (Some f) n)
  (** Constructs one after the other. *)
  with reads_all : isort -> list token -> list obj -> Prop :=
  | all_nil i : reads_all i [] []
  | all_cons i ts o us l : reads i ts o -> reads_all i us l -> reads_all i (ts ++ us) (o :: l)
  (** The operands of a construct of type [t]. The two lists of a key stand in parentheses. *)
  with operands : otype -> list sort -> list token -> list obj -> Prop :=
  | ops_nil t : operands t [] [] []
  | ops_one t i ss ts o us fs : reads i ts o -> operands t ss us fs -> operands t (SOne i :: ss) (ts ++ us) (o :: fs)
  | ops_list t i ss ts l us fs : t <> OT_A_HAS_KEY -> reads_all i ts l -> (least t <= List.length l)%nat -> operands t ss us fs ->
      operands t (SMany false i :: ss) (ts ++ us) (OVec false l :: fs)
  | ops_key i ss ts l us fs : reads_all i ts l -> operands OT_A_HAS_KEY ss us fs ->
      operands OT_A_HAS_KEY (SMany false i :: ss) (in_parens ts ++ us) (OVec false l :: fs)
  | ops_prop t ss ts o us fs : reads SObjProp ts o -> operands t ss us fs -> operands t (SSubProp :: ss) (ts ++ us) (o :: fs)
  | ops_chain t ss ts l us fs : reads_all SObjProp ts l -> (2 <= List.length l)%nat -> operands t ss us fs ->
      operands t (SSubProp :: ss) ((TKw OBJECT_PROPERTY_CHAIN :: in_parens ts) ++ us) (OVec true l :: fs).

  (** The IRI and the version of an ontology. *)
  Inductive ontology_id : list token -> list dpart -> Prop :=
  | id_none : ontology_id [] []
  | id_iri t ns rem : names t ns rem -> ontology_id [t] [DIri (OIri ns rem)]
  | id_version t ns rem t' ns' rem' : names t ns rem -> names t' ns' rem' ->
      ontology_id [t; t'] [DIri (OIri ns rem); DVersion (OIri ns' rem')].
  (** Imports and annotations of an ontology, in any order. *)
  Inductive heads : list token -> list dpart -> Prop :=
  | heads_nil : heads [] []
  | heads_import t ns rem ts ps : names t ns rem -> heads ts ps -> heads ((TKw IMPORT :: in_parens [t]) ++ ts) (DImport (OIri ns rem) :: ps)
  | heads_annot us o ts ps : reads SAnnot us o -> heads ts ps -> heads (us ++ ts) (DAnnot o :: ps).
End Grammar.

(** [document m ts ps]: the tokens [ts] are an ontology document with the parts [ps], for a reader with the predefined
    prefixes [m]. *)
Inductive document (m : list (bytes * bytes)) : list token -> list dpart -> Prop :=
| document_of ds id ps head qs ax l :
    ontology_id (m ++ ds) id ps -> heads (m ++ ds) head qs -> reads_all (m ++ ds) SAxiom ax l ->
    document m (flat_map decl_tokens ds ++ [TKw ONTOLOGY; TLParen] ++ id ++ head ++ ax ++ [TRParen])
      (map (fun d => DPrefix (fst d) (snd d)) ds ++ ps ++ qs ++ map DAxiom l).

(** What may follow a document: nothing, or a byte that the parser takes for the end of the text. *)
Definition ending (signed : bool) (x : list token) : Prop :=
  x = [] \/ exists c x', x = TChar c :: x' /\ (c = 0 \/ signed = true /\ 128 <= c).
