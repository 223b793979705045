(** The tokens of the functional-style syntax of OWL 2 (https://www.w3.org/TR/owl2-syntax, section 2), and how a text is
    cut into them: always the longest token. Byte by byte, as names in cowl are. *)

From Coq Require Import NArith ZArith List Bool String.
From Verif Require Import Bytes ModelTypes ModelText SpecText ModelFuncLex SpecFunc.
Import ListNotations.
Local Open Scope N_scope.

(** The reserved words. *)
Definition spelling (k : kw) : string :=
  (match k with
  | IMPORT => "Import" | ONTOLOGY => "Ontology" | PREFIX => "Prefix" | DECLARATION => "Declaration"
  | ANNOTATION => "Annotation" | DATATYPE_DEFINITION => "DatatypeDefinition" | HAS_KEY => "HasKey" | CLASS => "Class"
  | DATATYPE => "Datatype" | OBJECT_PROPERTY => "ObjectProperty" | DATA_PROPERTY => "DataProperty"
  | ANNOTATION_PROPERTY => "AnnotationProperty" | NAMED_INDIVIDUAL => "NamedIndividual"
  | DATA_INTERSECTION_OF => "DataIntersectionOf" | DATA_UNION_OF => "DataUnionOf"
  | DATA_COMPLEMENT_OF => "DataComplementOf" | DATA_ONE_OF => "DataOneOf"
  | DATATYPE_RESTRICTION => "DatatypeRestriction" | DATA_SOME_VALUES_FROM => "DataSomeValuesFrom"
  | DATA_ALL_VALUES_FROM => "DataAllValuesFrom" | DATA_HAS_VALUE => "DataHasValue"
  | DATA_MIN_CARDINALITY => "DataMinCardinality" | DATA_MAX_CARDINALITY => "DataMaxCardinality"
  | DATA_EXACT_CARDINALITY => "DataExactCardinality" | OBJECT_INVERSE_OF => "ObjectInverseOf"
  | OBJECT_INTERSECTION_OF => "ObjectIntersectionOf" | OBJECT_UNION_OF => "ObjectUnionOf"
  | OBJECT_COMPLEMENT_OF => "ObjectComplementOf" | OBJECT_ONE_OF => "ObjectOneOf"
  | OBJECT_SOME_VALUES_FROM => "ObjectSomeValuesFrom" | OBJECT_ALL_VALUES_FROM => "ObjectAllValuesFrom"
  | OBJECT_HAS_VALUE => "ObjectHasValue" | OBJECT_HAS_SELF => "ObjectHasSelf"
  | OBJECT_MIN_CARDINALITY => "ObjectMinCardinality" | OBJECT_MAX_CARDINALITY => "ObjectMaxCardinality"
  | OBJECT_EXACT_CARDINALITY => "ObjectExactCardinality" | SUB_CLASS_OF => "SubClassOf"
  | EQUIVALENT_CLASSES => "EquivalentClasses" | DISJOINT_CLASSES => "DisjointClasses"
  | DISJOINT_UNION => "DisjointUnion" | SUB_OBJECT_PROPERTY_OF => "SubObjectPropertyOf"
  | EQUIVALENT_OBJECT_PROPERTIES => "EquivalentObjectProperties"
  | DISJOINT_OBJECT_PROPERTIES => "DisjointObjectProperties" | INVERSE_OBJECT_PROPERTIES => "InverseObjectProperties"
  | OBJECT_PROPERTY_DOMAIN => "ObjectPropertyDomain" | OBJECT_PROPERTY_RANGE => "ObjectPropertyRange"
  | FUNCTIONAL_OBJECT_PROPERTY => "FunctionalObjectProperty"
  | INVERSE_FUNCTIONAL_OBJECT_PROPERTY => "InverseFunctionalObjectProperty"
  | REFLEXIVE_OBJECT_PROPERTY => "ReflexiveObjectProperty"
  | IRREFLEXIVE_OBJECT_PROPERTY => "IrreflexiveObjectProperty"
  | SYMMETRIC_OBJECT_PROPERTY => "SymmetricObjectProperty" | ASYMMETRIC_OBJECT_PROPERTY => "AsymmetricObjectProperty"
  | TRANSITIVE_OBJECT_PROPERTY => "TransitiveObjectProperty" | OBJECT_PROPERTY_CHAIN => "ObjectPropertyChain"
  | SUB_DATA_PROPERTY_OF => "SubDataPropertyOf" | EQUIVALENT_DATA_PROPERTIES => "EquivalentDataProperties"
  | DISJOINT_DATA_PROPERTIES => "DisjointDataProperties" | DATA_PROPERTY_DOMAIN => "DataPropertyDomain"
  | DATA_PROPERTY_RANGE => "DataPropertyRange" | FUNCTIONAL_DATA_PROPERTY => "FunctionalDataProperty"
  | SAME_INDIVIDUAL => "SameIndividual" | DIFFERENT_INDIVIDUALS => "DifferentIndividuals"
  | CLASS_ASSERTION => "ClassAssertion" | OBJECT_PROPERTY_ASSERTION => "ObjectPropertyAssertion"
  | NEGATIVE_OBJECT_PROPERTY_ASSERTION => "NegativeObjectPropertyAssertion"
  | DATA_PROPERTY_ASSERTION => "DataPropertyAssertion"
  | NEGATIVE_DATA_PROPERTY_ASSERTION => "NegativeDataPropertyAssertion"
  | ANNOTATION_ASSERTION => "AnnotationAssertion" | SUB_ANNOTATION_PROPERTY_OF => "SubAnnotationPropertyOf"
  | ANNOTATION_PROPERTY_DOMAIN => "AnnotationPropertyDomain" | ANNOTATION_PROPERTY_RANGE => "AnnotationPropertyRange"
  end)%string.

Definition blank (c : N) : Prop := c = 32 \/ c = 9 \/ c = 13 \/ c = 10.
(** Language tags, in either case. *)
Definition tag (l : bytes) : Prop :=
  exists a ps, l = a ++ flat_map (fun p => 45 :: p) ps /\ a <> [] /\ Forall letter a /\
    Forall (fun p => p <> [] /\ Forall (fun c => letter c \/ is_digit c) p) ps.

Section Width.
  (** Width of ulib_uint. *)
  Variable w : N.

  (** [lexeme x t]: the text [x] is the token [t], or [x] is white space or a comment. Numbers are taken modulo [2^w]. *)
  Inductive lexeme : bytes -> option token -> Prop :=
  | lx_blank s : s <> [] -> Forall blank s -> lexeme s None
  | lx_comment s : ~ In 10 s -> lexeme (35 :: s) None
  | lx_word k : lexeme (bs (spelling k)) (Some (TKw k))
  | lx_number s : s <> [] -> Forall is_digit s -> lexeme s (Some (TInt (dec_value s mod 2 ^ w)))
  | lx_iri s : Forall iri_char s -> lexeme (60 :: s ++ [62]) (Some (TIriRef s))
  | lx_prefix p : prefix_name p -> lexeme (p ++ [58]) (Some (TPnameNs p))
  | lx_short p l : prefix_name p -> local_name l -> lexeme (p ++ 58 :: l) (Some (TPnameLn (p ++ 58 :: l)))
  | lx_node l : local_name l -> lexeme (95 :: 58 :: l) (Some (TBlank l))
  | lx_tag l : tag l -> lexeme (64 :: l) (Some (TLang l))
  | lx_carets : lexeme [94; 94] (Some TCaret)
  | lx_lparen : lexeme [40] (Some TLParen)
  | lx_rparen : lexeme [41] (Some TRParen)
  | lx_equals : lexeme [61] (Some TEquals).
  (** No longer token starts the text [x ++ rest]. *)
  Definition longest (x rest : bytes) : Prop :=
    forall y t u, lexeme y t -> x ++ rest = y ++ u -> (List.length y <= List.length x)%nat.

  (** [cut q b ts]: the text [b] is cut into the tokens [ts]. [q]: inside a quoted string, what it contains so far. A
      byte that starts no token is one by itself, and so is a backslash in a string if it escapes nothing. A string
      that is not closed is not a token. *)
  Inductive cut : option bytes -> bytes -> list token -> Prop :=
  | cut_end q : cut q [] []
  | cut_skip x rest ts : lexeme x None -> longest x rest -> cut None rest ts -> cut None (x ++ rest) ts
  | cut_token x t rest ts : lexeme x (Some t) -> longest x rest -> cut None rest ts -> cut None (x ++ rest) (t :: ts)
  | cut_byte c rest ts : c <> 34 -> (forall y t u, lexeme y t -> c :: rest <> y ++ u) -> cut None rest ts ->
      cut None (c :: rest) (TChar c :: ts)
  | cut_open rest ts : cut (Some []) rest ts -> cut None (34 :: rest) ts
  | cut_plain s c rest ts : c <> 34 -> c <> 92 -> cut (Some (s ++ [c])) rest ts -> cut (Some s) (c :: rest) ts
  | cut_escape s c rest ts : c = 34 \/ c = 92 -> cut (Some (s ++ [c])) rest ts -> cut (Some s) (92 :: c :: rest) ts
  | cut_stray s rest ts : (forall c r, rest = c :: r -> c <> 34 /\ c <> 92) -> cut (Some s) rest ts ->
      cut (Some s) (92 :: rest) (TChar 92 :: ts)
  | cut_close s rest ts : cut None rest ts -> cut (Some s) (34 :: rest) (TQuoted s :: ts).
End Width.
