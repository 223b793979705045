(** Specification vocabulary for the functional syntax: which objects its texts can express, and the tokens
    that stand for an object. *)

From Coq Require Import NArith ZArith List Bool String.
From Verif Require Import Bytes ModelTypes ModelObject ModelText SpecObject SpecText ModelFuncLex ModelFuncParser.
Import ListNotations.
Local Open Scope N_scope.

(** * Names (https://www.w3.org/TR/owl2-syntax, section 2.3, byte by byte) *)

Definition letter (c : N) : Prop := 65 <= c <= 90 \/ 97 <= c <= 122.
Definition non_ascii (c : N) : Prop := 128 <= c <= 255.
Definition inner_char (c : N) : Prop := letter c \/ non_ascii c \/ c = 95 \/ c = 45 \/ is_digit c \/ c = 46.
Definition no_final_dot (s : bytes) : Prop := forall u, s <> u ++ [46].
(** What may follow the colon of an abbreviated IRI or of the label of an anonymous individual. *)
Definition local_name (s : bytes) : Prop :=
  exists c r, s = c :: r /\ (letter c \/ non_ascii c \/ c = 95 \/ is_digit c) /\ Forall inner_char r /\ no_final_dot s.
(** What may precede it. *)
Definition prefix_name (s : bytes) : Prop :=
  s = [] \/ exists c r, s = c :: r /\ (letter c \/ non_ascii c) /\ Forall inner_char r /\ no_final_dot s.
(** What may stand between angle brackets: no controls, blanks, or any of the characters <>, quotation mark,
    braces, bar, caret, grave accent and backslash. *)
Definition iri_char (c : N) : Prop := 32 < c /\ ~ In c [60; 62; 34; 123; 125; 124; 94; 96; 92].
(** Language tags, in lower case. *)
Definition small (c : N) : Prop := 97 <= c <= 122.
Definition lang_tag (l : bytes) : Prop :=
  exists a ps, l = a ++ flat_map (fun p => 45 :: p) ps /\ a <> [] /\ Forall small a /\
    Forall (fun p => p <> [] /\ Forall (fun c => small c \/ is_digit c) p) ps.

(** * Objects that a text can express *)

Section Expressible.
  (** Width of ulib_uint. *)
  Variable w : N.
  (** The prefix that is used for a namespace, if any. *)
  Variable short : bytes -> option bytes.

  (** An IRI split as cowl_iri_from_string splits it, written as [prefix:rem] if there is a prefix and a
      remainder, between angle brackets otherwise. *)
  Definition iri_ok (ns rem : bytes) : Prop :=
    ns ++ rem <> [] /\ canonical_split (ns ++ rem) ns rem /\
    (if match rem with [] => true | _ => match short ns with None => true | _ => false end end
     then Forall iri_char (ns ++ rem) else local_name rem).
  (** Literal values: no NUL. *)
  Definition value_ok (v : bytes) : Prop := ~ In 0 v.
  (** The least number of operands of an n-ary construct. *)
  Definition least (t : otype) : nat :=
    match t with
    | OT_CE_OBJ_ONE_OF | OT_DR_DATA_ONE_OF | OT_DR_DATATYPE_RESTR => 1
    | OT_A_HAS_KEY => 0
    | _ => 2
    end.

  Fixpoint expressible (o : obj) : Prop :=
    match o with
    | OStr _ _ => False
    | OIri ns rem | OEnt _ ns rem => iri_ok ns rem
    | OAnon id => local_name id
    | OLit v ns rem => value_ok v /\ OEnt ET_DATATYPE ns rem <> rdf_lang_string /\
        OEnt ET_DATATYPE ns rem <> rdf_plain_literal /\ iri_ok ns rem
    | OLang v l => value_ok v /\ lang_tag l
    | OVec _ l => fold_right (fun x P => expressible x /\ P) True l
    | OComp t fs opt n =>
        fold_right (fun x P => expressible x /\ P) True fs /\
        match opt with Some p => expressible p | None => True end /\
        Forall (fun f => match f with OVec _ l => (least t <= List.length l)%nat | _ => True end) fs /\
        n < 2 ^ w /\
        match t, fs with
        | OT_A_SUB_OBJ_PROP, OComp _ _ _ _ :: _ => False     (** ObjectInverseOf as the sub-property *)
        | _, _ => True
        end
    end.

  (** * Tokens *)

  Definition iri_token (ns rem : bytes) : token :=
    match rem, short ns with
    | _ :: _, Some p => TPnameLn (p ++ 58 :: rem)
    | _, _ => TIriRef (ns ++ rem)
    end.
  Definition literal_tokens (o : obj) : list token :=
    match o with
    | OLit v ns rem =>
        TQuoted v :: (if bytes_eqb ns xsd_ns && bytes_eqb rem xsd_string_rem then [] else [TCaret; iri_token ns rem])
    | OLang v l => [TQuoted v; TLang l]
    | _ => []
    end.
  (** Keywords of the structural specification. *)
  Definition keyword (t : otype) : kw :=
    match t with
    | OT_ANNOTATION => ANNOTATION | OT_ANNOT_PROP => ANNOTATION_PROPERTY
    | OT_A_DECL => DECLARATION | OT_A_DATATYPE_DEF => DATATYPE_DEFINITION
    | OT_A_SUB_CLASS => SUB_CLASS_OF | OT_A_EQUIV_CLASSES => EQUIVALENT_CLASSES | OT_A_DISJ_CLASSES => DISJOINT_CLASSES
    | OT_A_DISJ_UNION => DISJOINT_UNION | OT_A_CLASS_ASSERT => CLASS_ASSERTION | OT_A_SAME_IND => SAME_INDIVIDUAL
    | OT_A_DIFF_IND => DIFFERENT_INDIVIDUALS | OT_A_OBJ_PROP_ASSERT => OBJECT_PROPERTY_ASSERTION
    | OT_A_NEG_OBJ_PROP_ASSERT => NEGATIVE_OBJECT_PROPERTY_ASSERTION | OT_A_DATA_PROP_ASSERT => DATA_PROPERTY_ASSERTION
    | OT_A_NEG_DATA_PROP_ASSERT => NEGATIVE_DATA_PROPERTY_ASSERTION | OT_A_SUB_OBJ_PROP => SUB_OBJECT_PROPERTY_OF
    | OT_A_INV_OBJ_PROP => INVERSE_OBJECT_PROPERTIES | OT_A_EQUIV_OBJ_PROP => EQUIVALENT_OBJECT_PROPERTIES
    | OT_A_DISJ_OBJ_PROP => DISJOINT_OBJECT_PROPERTIES | OT_A_FUNC_OBJ_PROP => FUNCTIONAL_OBJECT_PROPERTY
    | OT_A_INV_FUNC_OBJ_PROP => INVERSE_FUNCTIONAL_OBJECT_PROPERTY | OT_A_SYMM_OBJ_PROP => SYMMETRIC_OBJECT_PROPERTY
    | OT_A_ASYMM_OBJ_PROP => ASYMMETRIC_OBJECT_PROPERTY | OT_A_TRANS_OBJ_PROP => TRANSITIVE_OBJECT_PROPERTY
    | OT_A_REFL_OBJ_PROP => REFLEXIVE_OBJECT_PROPERTY | OT_A_IRREFL_OBJ_PROP => IRREFLEXIVE_OBJECT_PROPERTY
    | OT_A_OBJ_PROP_DOMAIN => OBJECT_PROPERTY_DOMAIN | OT_A_OBJ_PROP_RANGE => OBJECT_PROPERTY_RANGE
    | OT_A_SUB_DATA_PROP => SUB_DATA_PROPERTY_OF | OT_A_EQUIV_DATA_PROP => EQUIVALENT_DATA_PROPERTIES
    | OT_A_DISJ_DATA_PROP => DISJOINT_DATA_PROPERTIES | OT_A_FUNC_DATA_PROP => FUNCTIONAL_DATA_PROPERTY
    | OT_A_DATA_PROP_DOMAIN => DATA_PROPERTY_DOMAIN | OT_A_DATA_PROP_RANGE => DATA_PROPERTY_RANGE
    | OT_A_HAS_KEY => HAS_KEY | OT_A_ANNOT_ASSERT => ANNOTATION_ASSERTION | OT_A_SUB_ANNOT_PROP => SUB_ANNOTATION_PROPERTY_OF
    | OT_A_ANNOT_PROP_DOMAIN => ANNOTATION_PROPERTY_DOMAIN | OT_A_ANNOT_PROP_RANGE => ANNOTATION_PROPERTY_RANGE
    | OT_CE_CLASS => CLASS | OT_CE_OBJ_SOME => OBJECT_SOME_VALUES_FROM | OT_CE_OBJ_ALL => OBJECT_ALL_VALUES_FROM
    | OT_CE_OBJ_MIN_CARD => OBJECT_MIN_CARDINALITY | OT_CE_OBJ_MAX_CARD => OBJECT_MAX_CARDINALITY
    | OT_CE_OBJ_EXACT_CARD => OBJECT_EXACT_CARDINALITY | OT_CE_OBJ_HAS_VALUE => OBJECT_HAS_VALUE
    | OT_CE_OBJ_HAS_SELF => OBJECT_HAS_SELF | OT_CE_DATA_SOME => DATA_SOME_VALUES_FROM
    | OT_CE_DATA_ALL => DATA_ALL_VALUES_FROM | OT_CE_DATA_MIN_CARD => DATA_MIN_CARDINALITY
    | OT_CE_DATA_MAX_CARD => DATA_MAX_CARDINALITY | OT_CE_DATA_EXACT_CARD => DATA_EXACT_CARDINALITY
    | OT_CE_DATA_HAS_VALUE => DATA_HAS_VALUE | OT_CE_OBJ_INTERSECT => OBJECT_INTERSECTION_OF
    | OT_CE_OBJ_UNION => OBJECT_UNION_OF | OT_CE_OBJ_COMPL => OBJECT_COMPLEMENT_OF | OT_CE_OBJ_ONE_OF => OBJECT_ONE_OF
    | OT_DPE_DATA_PROP => DATA_PROPERTY | OT_DR_DATATYPE => DATATYPE | OT_DR_DATATYPE_RESTR => DATATYPE_RESTRICTION
    | OT_DR_DATA_INTERSECT => DATA_INTERSECTION_OF | OT_DR_DATA_UNION => DATA_UNION_OF
    | OT_DR_DATA_COMPL => DATA_COMPLEMENT_OF | OT_DR_DATA_ONE_OF => DATA_ONE_OF
    | OT_I_NAMED => NAMED_INDIVIDUAL | OT_OPE_OBJ_PROP => OBJECT_PROPERTY | OT_OPE_INV_OBJ_PROP => OBJECT_INVERSE_OF
    | _ => ONTOLOGY       (** no keyword *)
    end.
  Definition in_parens (ts : list token) : list token := TLParen :: ts ++ [TRParen].

  (** The tokens of an object: keyword, opening parenthesis, annotations, cardinality, operands, filler, closing
      parenthesis. Declared entities are wrapped in their type, property chains in ObjectPropertyChain, the two
      lists of a key in parentheses; facet restrictions have no keyword. A quantified restriction always has a
      filler. *)
  Fixpoint tokens (o : obj) : list token :=
    match o with
    | OStr _ _ => []
    | OIri ns rem | OEnt _ ns rem => [iri_token ns rem]
    | OAnon id => [TBlank id]
    | OLit _ _ _ | OLang _ _ => literal_tokens o
    | OVec _ l => flat_map tokens l
    | OComp t fs opt n =>
        let operands :=
          match t, fs with
          | OT_A_DECL, [OEnt e ns rem] => TKw (keyword (etype_otype e)) :: in_parens [iri_token ns rem]
          | OT_A_SUB_OBJ_PROP, [OVec _ l; super] => TKw OBJECT_PROPERTY_CHAIN :: in_parens (flat_map tokens l) ++ tokens super
          | OT_A_HAS_KEY, [c; op; dp] => tokens c ++ in_parens (tokens op) ++ in_parens (tokens dp)
          | _, _ => flat_map tokens fs
          end in
        let extra := match opt with Some x => tokens x | None => [] end in
        if otype_eqb t OT_FACET_RESTR then operands
        else TKw (keyword t) ::
          in_parens
            (if type_is_axiom t || otype_eqb t OT_ANNOTATION then extra ++ operands
             else (if is_card_restr t then [TInt n] else []) ++ operands ++
                  match opt, t with
                  | None, (OT_CE_OBJ_SOME | OT_CE_OBJ_ALL) => [iri_token owl_ns (bs "Thing")]
                  | None, (OT_CE_DATA_SOME | OT_CE_DATA_ALL) => [iri_token rdfs_ns (bs "Literal")]
                  | _, _ => extra
                  end)
    end.
End Expressible.

(** * Grammar *)

(** The grammar symbol that derives the objects of a sort. *)
Definition nt_of (i : isort) : nt :=
  match i with
  | SEnt e => N_entity_of e
  | SEntity => N_entity
  | SIri => N_iri
  | SInd => N_individual
  | SLit => N_literal
  | SCls => N_cls_exp
  | SRange => N_data_range
  | SObjProp => N_obj_prop_exp
  | SFacet => N_facet
  | SAnnot => N_annotation
  | SAnnotVal => N_annot_value
  | SAnnotSubj => N_annot_subject
  | SAxiom => N_axiom
  end.
(** Tokens after which a literal is complete. *)
Definition calm (ts : list token) : Prop := match ts with TCaret :: _ | TLang _ :: _ => False | _ => True end.
