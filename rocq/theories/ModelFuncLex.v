(** Functional syntax, lexical analysis. Models src/formats/functional/reader/cowl_functional.l.

    The rules are transcribed as regular expressions; a scanner generated by flex takes the longest prefix
    that matches a rule of the current start condition, and the first such rule. Simplifications: the input is a
    byte string (line 36: a read error counts as its end), memory allocation succeeds, positions in the text are
    not tracked, and texts are shorter than the int that flex uses for lengths. *)

From Coq Require Import NArith List Bool String.
From Verif Require Import Bytes ModelTypes ModelObject ModelText.
Import ListNotations.
Local Open Scope N_scope.

(** * Regular expressions of flex *)

(** Patterns: [RSet] is a character class. *)
Inductive re : Type :=
| RNil
| REps
| RSet (f : N -> bool)
| RCat (a b : re)
| RAlt (a b : re)
| RStar (a : re).

(** flex r+ *)
Definition RPlus (a : re) : re := RCat a (RStar a).
(** flex r? *)
Definition ROpt (a : re) : re := RAlt a REps.
(** A single character. *)
Definition RChr (c : N) : re := RSet (N.eqb c).
(** flex "text" *)
Fixpoint RStr (s : bytes) : re := match s with [] => REps | c :: s' => RCat (RChr c) (RStr s') end.

(** The scanner: whether the empty string matches, and the pattern that is left after one byte. *)
Fixpoint nullable (r : re) : bool :=
  match r with
  | RNil => false
  | REps => true
  | RSet _ => false
  | RCat a b => nullable a && nullable b
  | RAlt a b => nullable a || nullable b
  | RStar _ => true
  end.
(** Simplifying constructors, so that patterns that cannot match any more become [RNil]. *)
Definition cat (a b : re) : re := match a, b with RNil, _ => RNil | _, RNil => RNil | REps, _ => b | _, _ => RCat a b end.
(** Likewise. *)
Definition alt (a b : re) : re := match a, b with RNil, _ => b | _, RNil => a | _, _ => RAlt a b end.
(** The pattern left after the byte [c]. *)
Fixpoint deriv (r : re) (c : N) : re :=
  match r with
  | RNil | REps => RNil
  | RSet f => if f c then REps else RNil
  | RCat a b => if nullable a then alt (cat (deriv a c) b) (deriv b c) else cat (deriv a c) b
  | RAlt a b => alt (deriv a c) (deriv b c)
  | RStar a => cat (deriv a c) (RStar a)
  end.

(** Keeps the rules that can still match. *)
Definition alive_rules {A} (rs : list (re * A)) : list (re * A) :=
  filter (fun r => match fst r with RNil => false | _ => true end) rs.
(** The first rule that matches what was read. *)
Definition accepting {A} (rs : list (re * A)) : option A :=
  match find (fun r => nullable (fst r)) rs with Some (_, a) => Some a | None => None end.
(** Reads on while a rule can match; [best] is the longest match so far, [n] the number of bytes read. *)
Fixpoint scan {A} (rs : list (re * A)) (s : bytes) (n : nat) (best : option (nat * A)) : option (nat * A) :=
  let best := match accepting rs with Some a => Some (n, a) | None => best end in
  match rs, s with
  | [], _ | _, [] => best
  | _, c :: s' => scan (alive_rules (map (fun r => (deriv (fst r) c, snd r)) rs)) s' (S n) best
  end.

(** * Definitions, cowl_functional.l:57-75 *)

(** A range of bytes. *)
Definition range (a b c : N) : bool := (a <=? c) && (c <=? b).
(** cowl_functional.l:57 WHITESPACE *)
Definition is_space (c : N) : bool := (c =? 32) || (c =? 9) || (c =? 13) || (c =? 10).
Definition WHITESPACE : re := RPlus (RSet is_space).
(** cowl_functional.l:58 COMMENT *)
Definition COMMENT : re := RCat (RChr 35) (RStar (RSet (fun c => negb (c =? 10)))).
(** cowl_functional.l:59 DIGIT *)
Definition DIGIT : re := RSet (range 48 57).
(** cowl_functional.l:60 ALPHA *)
Definition ALPHA : re := RSet (fun c => range 65 90 c || range 97 122 c).
(** cowl_functional.l:61 ALNUM *)
Definition ALNUM : re := RAlt ALPHA DIGIT.
(** cowl_functional.l:62 PN_CHARS_BASE *)
Definition PN_CHARS_BASE : re := RAlt ALPHA (RSet (range 128 255)).
(** cowl_functional.l:63 PN_CHARS_U *)
Definition PN_CHARS_U : re := RAlt PN_CHARS_BASE (RChr 95).
(** cowl_functional.l:64 PN_CHARS *)
Definition PN_CHARS : re := RAlt (RAlt PN_CHARS_U (RChr 45)) DIGIT.
(** cowl_functional.l:65 PN_PREFIX *)
Definition PN_PREFIX : re := RCat PN_CHARS_BASE (ROpt (RCat (RStar (RAlt PN_CHARS (RChr 46))) PN_CHARS)).
(** cowl_functional.l:66 PN_LOCAL *)
Definition PN_LOCAL : re := RCat (RAlt PN_CHARS_U DIGIT) (ROpt (RCat (RStar (RAlt PN_CHARS (RChr 46))) PN_CHARS)).
(** cowl_functional.l:67 PNAME_NS *)
Definition R_PNAME_NS : re := RCat (ROpt PN_PREFIX) (RChr 58).
(** cowl_functional.l:68 PNAME_LN *)
Definition R_PNAME_LN : re := RCat R_PNAME_NS PN_LOCAL.
(** cowl_functional.l:69 IRI_REF: what may stand between the angle brackets *)
Definition is_iri_char (c : N) : bool :=
  negb (range 0 32 c || existsb (N.eqb c) [60; 62; 34; 123; 125; 124; 94; 96; 92]).
Definition R_IRI_REF : re := RCat (RChr 60) (RCat (RStar (RSet is_iri_char)) (RChr 62)).
(** cowl_functional.l:70 BLANK_NODE_LABEL *)
Definition R_BLANK_NODE_LABEL : re := RCat (RChr 95) (RCat (RChr 58) PN_LOCAL).
(** cowl_functional.l:71 LANG_TAG *)
Definition R_LANG_TAG : re := RCat (RChr 64) (RCat (RPlus ALPHA) (RStar (RCat (RChr 45) (RPlus ALNUM)))).
(** cowl_functional.l:72 QMARK *)
Definition QMARK : re := RChr 34.
(** cowl_functional.l:73 QSTRING_CHAR *)
Definition QSTRING_CHAR : re := RSet (fun c => negb ((c =? 34) || (c =? 92))).
(** cowl_functional.l:74 QSTRING_ESCAPED_CHAR *)
Definition QSTRING_ESCAPED_CHAR : re := RAlt (RCat (RChr 92) (RChr 34)) (RCat (RChr 92) (RChr 92)).
(** cowl_functional.l:75 NON_NEGATIVE_INTEGER *)
Definition R_NON_NEGATIVE_INTEGER : re := RPlus DIGIT.
(** flex "." *)
Definition RDot : re := RSet (fun c => negb (c =? 10)).

(** * Tokens *)

(** cowl_functional.y:152-179, the tokens without a value that stand for keywords *)
Inductive kw : Set :=
| IMPORT | ONTOLOGY | PREFIX | DECLARATION | ANNOTATION | DATATYPE_DEFINITION | HAS_KEY | CLASS | DATATYPE
| OBJECT_PROPERTY | DATA_PROPERTY | ANNOTATION_PROPERTY | NAMED_INDIVIDUAL | DATA_INTERSECTION_OF | DATA_UNION_OF
| DATA_COMPLEMENT_OF | DATA_ONE_OF | DATATYPE_RESTRICTION | DATA_SOME_VALUES_FROM | DATA_ALL_VALUES_FROM
| DATA_HAS_VALUE | DATA_MIN_CARDINALITY | DATA_MAX_CARDINALITY | DATA_EXACT_CARDINALITY | OBJECT_INVERSE_OF
| OBJECT_INTERSECTION_OF | OBJECT_UNION_OF | OBJECT_COMPLEMENT_OF | OBJECT_ONE_OF | OBJECT_SOME_VALUES_FROM
| OBJECT_ALL_VALUES_FROM | OBJECT_HAS_VALUE | OBJECT_HAS_SELF | OBJECT_MIN_CARDINALITY | OBJECT_MAX_CARDINALITY
| OBJECT_EXACT_CARDINALITY | SUB_CLASS_OF | EQUIVALENT_CLASSES | DISJOINT_CLASSES | DISJOINT_UNION
| SUB_OBJECT_PROPERTY_OF | EQUIVALENT_OBJECT_PROPERTIES | DISJOINT_OBJECT_PROPERTIES | INVERSE_OBJECT_PROPERTIES
| OBJECT_PROPERTY_DOMAIN | OBJECT_PROPERTY_RANGE | FUNCTIONAL_OBJECT_PROPERTY | INVERSE_FUNCTIONAL_OBJECT_PROPERTY
| REFLEXIVE_OBJECT_PROPERTY | IRREFLEXIVE_OBJECT_PROPERTY | SYMMETRIC_OBJECT_PROPERTY | ASYMMETRIC_OBJECT_PROPERTY
| TRANSITIVE_OBJECT_PROPERTY | OBJECT_PROPERTY_CHAIN | SUB_DATA_PROPERTY_OF | EQUIVALENT_DATA_PROPERTIES
| DISJOINT_DATA_PROPERTIES | DATA_PROPERTY_DOMAIN | DATA_PROPERTY_RANGE | FUNCTIONAL_DATA_PROPERTY | SAME_INDIVIDUAL
| DIFFERENT_INDIVIDUALS | CLASS_ASSERTION | OBJECT_PROPERTY_ASSERTION | NEGATIVE_OBJECT_PROPERTY_ASSERTION
| DATA_PROPERTY_ASSERTION | NEGATIVE_DATA_PROPERTY_ASSERTION | ANNOTATION_ASSERTION | SUB_ANNOTATION_PROPERTY_OF
| ANNOTATION_PROPERTY_DOMAIN | ANNOTATION_PROPERTY_RANGE.

(** cowl_functional.y:142-179: the tokens. [TChar] is a byte returned as such (cowl_functional.l:214,223). *)
Inductive token : Type :=
| TInt (n : N)
| TQuoted (s : bytes)
| TBlank (s : bytes)
| TPnameNs (s : bytes)
| TPnameLn (s : bytes)
| TLang (s : bytes)
| TIriRef (s : bytes)
| TLParen
| TRParen
| TEquals
| TCaret
| TKw (k : kw)
| TChar (c : N).

(** cowl_functional.l:83-162, the keywords *)
Definition keywords : list (string * kw) :=
  [
    ("Import"%string, IMPORT); ("Ontology"%string, ONTOLOGY); ("Prefix"%string, PREFIX);
    ("Declaration"%string, DECLARATION); ("Annotation"%string, ANNOTATION);
    ("DatatypeDefinition"%string, DATATYPE_DEFINITION); ("HasKey"%string, HAS_KEY); ("Class"%string, CLASS);
    ("Datatype"%string, DATATYPE); ("ObjectProperty"%string, OBJECT_PROPERTY);
    ("DataProperty"%string, DATA_PROPERTY); ("AnnotationProperty"%string, ANNOTATION_PROPERTY);
    ("NamedIndividual"%string, NAMED_INDIVIDUAL); ("DataIntersectionOf"%string, DATA_INTERSECTION_OF);
    ("DataUnionOf"%string, DATA_UNION_OF); ("DataComplementOf"%string, DATA_COMPLEMENT_OF);
    ("DataOneOf"%string, DATA_ONE_OF); ("DatatypeRestriction"%string, DATATYPE_RESTRICTION);
    ("DataSomeValuesFrom"%string, DATA_SOME_VALUES_FROM); ("DataAllValuesFrom"%string, DATA_ALL_VALUES_FROM);
    ("DataHasValue"%string, DATA_HAS_VALUE); ("DataMinCardinality"%string, DATA_MIN_CARDINALITY);
    ("DataMaxCardinality"%string, DATA_MAX_CARDINALITY); ("DataExactCardinality"%string, DATA_EXACT_CARDINALITY);
    ("ObjectInverseOf"%string, OBJECT_INVERSE_OF); ("ObjectIntersectionOf"%string, OBJECT_INTERSECTION_OF);
    ("ObjectUnionOf"%string, OBJECT_UNION_OF); ("ObjectComplementOf"%string, OBJECT_COMPLEMENT_OF);
    ("ObjectOneOf"%string, OBJECT_ONE_OF); ("ObjectSomeValuesFrom"%string, OBJECT_SOME_VALUES_FROM);
    ("ObjectAllValuesFrom"%string, OBJECT_ALL_VALUES_FROM); ("ObjectHasValue"%string, OBJECT_HAS_VALUE);
    ("ObjectHasSelf"%string, OBJECT_HAS_SELF); ("ObjectMinCardinality"%string, OBJECT_MIN_CARDINALITY);
    ("ObjectMaxCardinality"%string, OBJECT_MAX_CARDINALITY);
    ("ObjectExactCardinality"%string, OBJECT_EXACT_CARDINALITY); ("SubClassOf"%string, SUB_CLASS_OF);
    ("EquivalentClasses"%string, EQUIVALENT_CLASSES); ("DisjointClasses"%string, DISJOINT_CLASSES);
    ("DisjointUnion"%string, DISJOINT_UNION); ("SubObjectPropertyOf"%string, SUB_OBJECT_PROPERTY_OF);
    ("EquivalentObjectProperties"%string, EQUIVALENT_OBJECT_PROPERTIES);
    ("DisjointObjectProperties"%string, DISJOINT_OBJECT_PROPERTIES);
    ("InverseObjectProperties"%string, INVERSE_OBJECT_PROPERTIES);
    ("ObjectPropertyDomain"%string, OBJECT_PROPERTY_DOMAIN); ("ObjectPropertyRange"%string, OBJECT_PROPERTY_RANGE);
    ("FunctionalObjectProperty"%string, FUNCTIONAL_OBJECT_PROPERTY);
    ("InverseFunctionalObjectProperty"%string, INVERSE_FUNCTIONAL_OBJECT_PROPERTY);
    ("ReflexiveObjectProperty"%string, REFLEXIVE_OBJECT_PROPERTY);
    ("IrreflexiveObjectProperty"%string, IRREFLEXIVE_OBJECT_PROPERTY);
    ("SymmetricObjectProperty"%string, SYMMETRIC_OBJECT_PROPERTY);
    ("AsymmetricObjectProperty"%string, ASYMMETRIC_OBJECT_PROPERTY);
    ("TransitiveObjectProperty"%string, TRANSITIVE_OBJECT_PROPERTY);
    ("ObjectPropertyChain"%string, OBJECT_PROPERTY_CHAIN); ("SubDataPropertyOf"%string, SUB_DATA_PROPERTY_OF);
    ("EquivalentDataProperties"%string, EQUIVALENT_DATA_PROPERTIES);
    ("DisjointDataProperties"%string, DISJOINT_DATA_PROPERTIES); ("DataPropertyDomain"%string, DATA_PROPERTY_DOMAIN);
    ("DataPropertyRange"%string, DATA_PROPERTY_RANGE); ("FunctionalDataProperty"%string, FUNCTIONAL_DATA_PROPERTY);
    ("SameIndividual"%string, SAME_INDIVIDUAL); ("DifferentIndividuals"%string, DIFFERENT_INDIVIDUALS);
    ("ClassAssertion"%string, CLASS_ASSERTION); ("ObjectPropertyAssertion"%string, OBJECT_PROPERTY_ASSERTION);
    ("NegativeObjectPropertyAssertion"%string, NEGATIVE_OBJECT_PROPERTY_ASSERTION);
    ("DataPropertyAssertion"%string, DATA_PROPERTY_ASSERTION);
    ("NegativeDataPropertyAssertion"%string, NEGATIVE_DATA_PROPERTY_ASSERTION);
    ("AnnotationAssertion"%string, ANNOTATION_ASSERTION);
    ("SubAnnotationPropertyOf"%string, SUB_ANNOTATION_PROPERTY_OF);
    ("AnnotationPropertyDomain"%string, ANNOTATION_PROPERTY_DOMAIN);
    ("AnnotationPropertyRange"%string, ANNOTATION_PROPERTY_RANGE) ].

(** What a rule does with the text it matched. *)
Inductive action : Type :=
| ASkip
| AToken (mk : bytes -> token)
| AQuote             (** BEGIN QSTRING, cowl_functional.l:193-197 *)
| AAppend (skip : nat)  (** append the text to the string, without its first bytes *)
| AEndQuote.         (** BEGIN 0, cowl_functional.l:207-211 *)

(** A text without its first [a] and last [b] bytes (ustring_wrap(yytext + a, yyleng - a - b)). *)
Definition trim (a b : nat) (s : bytes) : bytes := firstn (List.length s - a - b) (skipn a s).

Section Width.
  (** Width of ulib_uint. *)
  Variable w : N.

  (** cowl_functional.l:81-223, the rules of the start condition INITIAL, in order; line 164 converts numbers. *)
  Definition initial_rules : list (re * action) :=
    (WHITESPACE, ASkip) ::
    map (fun k => (RStr (bs (fst k)), AToken (fun _ => TKw (snd k)))) keywords ++
    [ (R_NON_NEGATIVE_INTEGER, AToken (fun s => TInt (str_to_uint w s)));
      (R_IRI_REF, AToken (fun s => TIriRef (trim 1 1 s)));
      (R_PNAME_NS, AToken (fun s => TPnameNs (trim 0 1 s)));
      (R_PNAME_LN, AToken (fun s => TPnameLn s));
      (R_BLANK_NODE_LABEL, AToken (fun s => TBlank (trim 2 0 s)));
      (R_LANG_TAG, AToken (fun s => TLang (trim 1 0 s)));
      (QMARK, AQuote);
      (RStr (bs "^^"), AToken (fun _ => TCaret));
      (RStr (bs "("), AToken (fun _ => TLParen));
      (RStr (bs ")"), AToken (fun _ => TRParen));
      (RStr (bs "="), AToken (fun _ => TEquals));
      (COMMENT, ASkip);
      (RDot, AToken (fun s => TChar (nth 0 s 0))) ].
  (** cowl_functional.l:199-215, the rules of the exclusive start condition QSTRING *)
  Definition qstring_rules : list (re * action) :=
    [ (RStar QSTRING_CHAR, AAppend 0);
      (QSTRING_ESCAPED_CHAR, AAppend 1);
      (QMARK, AEndQuote);
      (RDot, AToken (fun s => TChar (nth 0 s 0))) ].

  (** The scanner. [q]: the contents of yyextra->qstring in the start condition QSTRING, [None] in INITIAL. Every
      match but that of the empty string advances; in QSTRING the empty string is only matched at the end of the
      input, which flex reports as such. [None]: the recursion bound of the model was exhausted. *)
  Fixpoint lex_loop (fuel : nat) (q : option bytes) (s : bytes) : option (list token) :=
    match s with
    | [] => Some []
    | _ =>
        match fuel with
        | O => None
        | S f =>
            let rules := match q with None => initial_rules | Some _ => qstring_rules end in
            match scan rules s 0 None with
            | None => None
            | Some (n, a) =>
                let text := firstn n s in
                let rest := skipn n s in
                match a, q with
                | ASkip, _ => lex_loop f q rest
                | AToken mk, _ => option_map (cons (mk text)) (lex_loop f q rest)
                | AQuote, _ => lex_loop f (Some []) rest
                | AAppend k, Some buf => lex_loop f (Some (buf ++ skipn k text)) rest
                | AEndQuote, Some buf => option_map (cons (TQuoted buf)) (lex_loop f None rest)
                | _, None => None
                end
            end
        end
    end.
  (** The tokens of a text. *)
  Definition lex (s : bytes) : option (list token) := lex_loop (List.length s) None s.
End Width.
