(** Functional syntax, grammar. Models src/formats/functional/reader/cowl_functional.y and
    src/formats/functional/reader/cowl_func_reader.c.

    The grammar is LALR(1) and every nonterminal can be chosen by the next token, so that recursive descent
    recognises the same token sequences and runs the same actions in the same order. Simplifications: memory
    allocation succeeds, the parser stack is not bounded (YYMAXDEPTH), reference counts, error messages and line
    numbers are not modelled. The private prefix map of the parser is a list searched from its start, to which
    declarations are appended; by C20 this is what cowl_prefix_map_get_ns and cowl_prefix_map_add (without
    overwriting) do. *)

From Coq Require Import NArith ZArith List Bool String.
From Verif Require Import Bytes ModelTypes ModelObject ModelText ModelPrefixMap ModelChange ModelPrtDecoder ModelFuncLex.
Import ListNotations.
Local Open Scope N_scope.

(** Outcome of parsing a nonterminal. [PFail c]: yyparse ends with the code that
    cowl_func_reader.c:19-26 yyparse_to_cowl_ret maps to [c]. [PCrash]: a NULL pointer is dereferenced.
    [PFuel]: the recursion bound of the model was exhausted. *)
Inductive pres (A : Type) : Type :=
| POk (a : A) (rest : list token)
| PFail (c : ret)
| PCrash
| PFuel.
Arguments POk {A}. Arguments PFail {A}. Arguments PCrash {A}. Arguments PFuel {A}.

(** A parsing function. *)
Definition P (A : Type) : Type := list token -> pres A.
(** An empty right hand side. *)
Definition pret {A} (a : A) : P A := fun ts => POk a ts.
(** Symbols one after the other. *)
Definition pbind {A B} (m : P A) (k : A -> P B) : P B :=
  fun ts => match m ts with POk a r => k a r | PFail c => PFail c | PCrash => PCrash | PFuel => PFuel end.
(** Symbols one after the other. *)
Notation "'get' x '<-' m ';;' k" := (pbind m (fun x => k)) (at level 200, x name, m at level 100, k at level 200).
(** A token that no rule accepts: cowl_functional.y:90-100 cowl_func_yyerror *)
Definition syntax_error {A} : P A := fun _ => PFail ERR_SYNTAX.

(** Terminals. *)
Definition tok_lparen : P unit := fun ts => match ts with TLParen :: r => POk tt r | _ => PFail ERR_SYNTAX end.
(** Likewise. *)
Definition tok_rparen : P unit := fun ts => match ts with TRParen :: r => POk tt r | _ => PFail ERR_SYNTAX end.
(** Likewise. *)
Definition tok_equals : P unit := fun ts => match ts with TEquals :: r => POk tt r | _ => PFail ERR_SYNTAX end.

(** Nonterminals that are arguments of constructs. *)
Inductive nt : Set :=
| N_iri                      (** 291 iri *)
| N_entity_of (e : etype)    (** 384-445 class, datatype, object_property, data_property, annotation_property,
                                 named_individual; 539 data_property_expression *)
| N_individual               (** 432 individual *)
| N_literal                  (** 470 literal *)
| N_entity                   (** 501 entity *)
| N_obj_prop_exp             (** 524 object_property_expression *)
| N_data_range               (** 545 data_range *)
| N_facet                    (** 596 facet_restriction *)
| N_cls_exp                  (** 606 class_expression *)
| N_axiom                    (** 811 axiom *)
| N_annotation               (** 1203 annotation *)
| N_annot_value              (** 1213 annotation_value *)
| N_annot_subject.           (** 1248 annotation_subject *)

(** What stands between the parentheses of a construct. *)
Inductive sym : Set :=
| Y_annots                   (** 1286 annotation_star *)
| Y_one (n : nt)
| Y_list (k : nat) (n : nt)  (** 1300-1448: x_list ([k] = 1), x_2_list ([k] = 2) *)
| Y_star (n : nt)            (** L_PAREN x_star R_PAREN *)
| Y_num                      (** 737 cardinality *)
| Y_opt (n : nt)             (** the two alternatives with and without [n] *)
| Y_sub_prop.                (** 869-885: object_property_expression or property_expression_chain *)

(** Value of a symbol. *)
Inductive gval : Type :=
| GObj (o : obj)
| GNum (n : N)
| GNull.

(** The constructor called by an action, with the type of the object it makes. *)
Inductive ctor : Set :=
| K_plain (t : otype)
| K_annot (t : otype)        (** $3 is the vector of annotations *)
| K_quant (t : otype)
| K_card (t : otype)
| K_inner.                   (** 501-522: the value is that of $3 *)

(** A rule "KEYWORD L_PAREN symbols R_PAREN { action }". *)
Record prod := mkProd { p_kw : kw; p_syms : list sym; p_ctor : ctor }.

(** Rules with annotations. *)
Definition arule (k : kw) (l : list sym) (t : otype) : prod := mkProd k (Y_annots :: l) (K_annot t).

(** cowl_functional.y:609-810, the rules of class_expression other than class *)
Definition cls_exp_rules : list prod :=
  [ mkProd OBJECT_INTERSECTION_OF [Y_list 2 N_cls_exp] (K_plain OT_CE_OBJ_INTERSECT);
    mkProd OBJECT_UNION_OF [Y_list 2 N_cls_exp] (K_plain OT_CE_OBJ_UNION);
    mkProd OBJECT_COMPLEMENT_OF [Y_one N_cls_exp] (K_plain OT_CE_OBJ_COMPL);
    mkProd OBJECT_ONE_OF [Y_list 1 N_individual] (K_plain OT_CE_OBJ_ONE_OF);
    mkProd OBJECT_SOME_VALUES_FROM [Y_one N_obj_prop_exp; Y_one N_cls_exp] (K_quant OT_CE_OBJ_SOME);
    mkProd OBJECT_ALL_VALUES_FROM [Y_one N_obj_prop_exp; Y_one N_cls_exp] (K_quant OT_CE_OBJ_ALL);
    mkProd OBJECT_HAS_VALUE [Y_one N_obj_prop_exp; Y_one N_individual] (K_plain OT_CE_OBJ_HAS_VALUE);
    mkProd OBJECT_HAS_SELF [Y_one N_obj_prop_exp] (K_plain OT_CE_OBJ_HAS_SELF);
    mkProd OBJECT_MIN_CARDINALITY [Y_num; Y_one N_obj_prop_exp; Y_opt N_cls_exp] (K_card OT_CE_OBJ_MIN_CARD);
    mkProd OBJECT_MAX_CARDINALITY [Y_num; Y_one N_obj_prop_exp; Y_opt N_cls_exp] (K_card OT_CE_OBJ_MAX_CARD);
    mkProd OBJECT_EXACT_CARDINALITY [Y_num; Y_one N_obj_prop_exp; Y_opt N_cls_exp] (K_card OT_CE_OBJ_EXACT_CARD);
    mkProd DATA_SOME_VALUES_FROM [Y_one (N_entity_of ET_DATA_PROP); Y_one N_data_range] (K_quant OT_CE_DATA_SOME);
    mkProd DATA_ALL_VALUES_FROM [Y_one (N_entity_of ET_DATA_PROP); Y_one N_data_range] (K_quant OT_CE_DATA_ALL);
    mkProd DATA_HAS_VALUE [Y_one (N_entity_of ET_DATA_PROP); Y_one N_literal] (K_plain OT_CE_DATA_HAS_VALUE);
    mkProd DATA_MIN_CARDINALITY [Y_num; Y_one (N_entity_of ET_DATA_PROP); Y_opt N_data_range] (K_card OT_CE_DATA_MIN_CARD);
    mkProd DATA_MAX_CARDINALITY [Y_num; Y_one (N_entity_of ET_DATA_PROP); Y_opt N_data_range] (K_card OT_CE_DATA_MAX_CARD);
    mkProd DATA_EXACT_CARDINALITY [Y_num; Y_one (N_entity_of ET_DATA_PROP); Y_opt N_data_range]
      (K_card OT_CE_DATA_EXACT_CARD) ].
(** cowl_functional.y:548-594, the rules of data_range other than datatype *)
Definition data_range_rules : list prod :=
  [ mkProd DATA_INTERSECTION_OF [Y_list 2 N_data_range] (K_plain OT_DR_DATA_INTERSECT);
    mkProd DATA_UNION_OF [Y_list 2 N_data_range] (K_plain OT_DR_DATA_UNION);
    mkProd DATA_COMPLEMENT_OF [Y_one N_data_range] (K_plain OT_DR_DATA_COMPL);
    mkProd DATA_ONE_OF [Y_list 1 N_literal] (K_plain OT_DR_DATA_ONE_OF);
    mkProd DATATYPE_RESTRICTION [Y_one (N_entity_of ET_DATATYPE); Y_list 1 N_facet] (K_plain OT_DR_DATATYPE_RESTR) ].
(** cowl_functional.y:529-535 inverse_object_property *)
Definition obj_prop_exp_rules : list prod :=
  [ mkProd OBJECT_INVERSE_OF [Y_one (N_entity_of ET_OBJ_PROP)] (K_plain OT_OPE_INV_OBJ_PROP) ].
(** cowl_functional.y:501-520 entity *)
Definition entity_rules : list prod :=
  [ mkProd CLASS [Y_one (N_entity_of ET_CLASS)] K_inner;
    mkProd DATATYPE [Y_one (N_entity_of ET_DATATYPE)] K_inner;
    mkProd OBJECT_PROPERTY [Y_one (N_entity_of ET_OBJ_PROP)] K_inner;
    mkProd DATA_PROPERTY [Y_one (N_entity_of ET_DATA_PROP)] K_inner;
    mkProd ANNOTATION_PROPERTY [Y_one (N_entity_of ET_ANNOT_PROP)] K_inner;
    mkProd NAMED_INDIVIDUAL [Y_one (N_entity_of ET_NAMED_IND)] K_inner ].
(** cowl_functional.y:1203-1211 annotation *)
Definition annotation_rules : list prod :=
  [ arule ANNOTATION [Y_one (N_entity_of ET_ANNOT_PROP); Y_one N_annot_value] OT_ANNOTATION ].
(** cowl_functional.y:492-499,811-1199,1227-1282, the rules of axiom *)
Definition axiom_rules : list prod :=
  [ arule DECLARATION [Y_one N_entity] OT_A_DECL;
    arule SUB_CLASS_OF [Y_one N_cls_exp; Y_one N_cls_exp] OT_A_SUB_CLASS;
    arule EQUIVALENT_CLASSES [Y_list 2 N_cls_exp] OT_A_EQUIV_CLASSES;
    arule DISJOINT_CLASSES [Y_list 2 N_cls_exp] OT_A_DISJ_CLASSES;
    arule DISJOINT_UNION [Y_one (N_entity_of ET_CLASS); Y_list 2 N_cls_exp] OT_A_DISJ_UNION;
    arule SUB_OBJECT_PROPERTY_OF [Y_sub_prop; Y_one N_obj_prop_exp] OT_A_SUB_OBJ_PROP;
    arule EQUIVALENT_OBJECT_PROPERTIES [Y_list 2 N_obj_prop_exp] OT_A_EQUIV_OBJ_PROP;
    arule DISJOINT_OBJECT_PROPERTIES [Y_list 2 N_obj_prop_exp] OT_A_DISJ_OBJ_PROP;
    arule INVERSE_OBJECT_PROPERTIES [Y_one N_obj_prop_exp; Y_one N_obj_prop_exp] OT_A_INV_OBJ_PROP;
    arule OBJECT_PROPERTY_DOMAIN [Y_one N_obj_prop_exp; Y_one N_cls_exp] OT_A_OBJ_PROP_DOMAIN;
    arule OBJECT_PROPERTY_RANGE [Y_one N_obj_prop_exp; Y_one N_cls_exp] OT_A_OBJ_PROP_RANGE;
    arule FUNCTIONAL_OBJECT_PROPERTY [Y_one N_obj_prop_exp] OT_A_FUNC_OBJ_PROP;
    arule INVERSE_FUNCTIONAL_OBJECT_PROPERTY [Y_one N_obj_prop_exp] OT_A_INV_FUNC_OBJ_PROP;
    arule REFLEXIVE_OBJECT_PROPERTY [Y_one N_obj_prop_exp] OT_A_REFL_OBJ_PROP;
    arule IRREFLEXIVE_OBJECT_PROPERTY [Y_one N_obj_prop_exp] OT_A_IRREFL_OBJ_PROP;
    arule SYMMETRIC_OBJECT_PROPERTY [Y_one N_obj_prop_exp] OT_A_SYMM_OBJ_PROP;
    arule ASYMMETRIC_OBJECT_PROPERTY [Y_one N_obj_prop_exp] OT_A_ASYMM_OBJ_PROP;
    arule TRANSITIVE_OBJECT_PROPERTY [Y_one N_obj_prop_exp] OT_A_TRANS_OBJ_PROP;
    arule SUB_DATA_PROPERTY_OF [Y_one (N_entity_of ET_DATA_PROP); Y_one (N_entity_of ET_DATA_PROP)] OT_A_SUB_DATA_PROP;
    arule EQUIVALENT_DATA_PROPERTIES [Y_list 2 (N_entity_of ET_DATA_PROP)] OT_A_EQUIV_DATA_PROP;
    arule DISJOINT_DATA_PROPERTIES [Y_list 2 (N_entity_of ET_DATA_PROP)] OT_A_DISJ_DATA_PROP;
    arule DATA_PROPERTY_DOMAIN [Y_one (N_entity_of ET_DATA_PROP); Y_one N_cls_exp] OT_A_DATA_PROP_DOMAIN;
    arule DATA_PROPERTY_RANGE [Y_one (N_entity_of ET_DATA_PROP); Y_one N_data_range] OT_A_DATA_PROP_RANGE;
    arule FUNCTIONAL_DATA_PROPERTY [Y_one (N_entity_of ET_DATA_PROP)] OT_A_FUNC_DATA_PROP;
    arule DATATYPE_DEFINITION [Y_one (N_entity_of ET_DATATYPE); Y_one N_data_range] OT_A_DATATYPE_DEF;
    arule HAS_KEY [Y_one N_cls_exp; Y_star N_obj_prop_exp; Y_star (N_entity_of ET_DATA_PROP)] OT_A_HAS_KEY;
    arule SAME_INDIVIDUAL [Y_list 2 N_individual] OT_A_SAME_IND;
    arule DIFFERENT_INDIVIDUALS [Y_list 2 N_individual] OT_A_DIFF_IND;
    arule CLASS_ASSERTION [Y_one N_cls_exp; Y_one N_individual] OT_A_CLASS_ASSERT;
    arule OBJECT_PROPERTY_ASSERTION [Y_one N_obj_prop_exp; Y_one N_individual; Y_one N_individual] OT_A_OBJ_PROP_ASSERT;
    arule NEGATIVE_OBJECT_PROPERTY_ASSERTION [Y_one N_obj_prop_exp; Y_one N_individual; Y_one N_individual]
      OT_A_NEG_OBJ_PROP_ASSERT;
    arule DATA_PROPERTY_ASSERTION [Y_one (N_entity_of ET_DATA_PROP); Y_one N_individual; Y_one N_literal]
      OT_A_DATA_PROP_ASSERT;
    arule NEGATIVE_DATA_PROPERTY_ASSERTION [Y_one (N_entity_of ET_DATA_PROP); Y_one N_individual; Y_one N_literal]
      OT_A_NEG_DATA_PROP_ASSERT;
    arule ANNOTATION_ASSERTION [Y_one (N_entity_of ET_ANNOT_PROP); Y_one N_annot_subject; Y_one N_annot_value]
      OT_A_ANNOT_ASSERT;
    arule SUB_ANNOTATION_PROPERTY_OF [Y_one (N_entity_of ET_ANNOT_PROP); Y_one (N_entity_of ET_ANNOT_PROP)]
      OT_A_SUB_ANNOT_PROP;
    arule ANNOTATION_PROPERTY_DOMAIN [Y_one (N_entity_of ET_ANNOT_PROP); Y_one N_iri] OT_A_ANNOT_PROP_DOMAIN;
    arule ANNOTATION_PROPERTY_RANGE [Y_one (N_entity_of ET_ANNOT_PROP); Y_one N_iri] OT_A_ANNOT_PROP_RANGE ].

(** Comparison of keywords. *)
Definition kw_eq_dec (a b : kw) : {a = b} + {a <> b}.
Proof. decide equality. Defined.
(** The rule of a list that starts with a keyword. *)
Definition rule_for (l : list prod) (k : kw) : option prod := find (fun p => if kw_eq_dec (p_kw p) k then true else false) l.

(** The constructor calls of the actions. The vector of annotations is NULL if there are none
    (1287); NULL vectors of keys become empty ones (src/cowl_has_key_axiom.c). *)
Definition run_ctor (c : ctor) (l : list gval) : option obj :=
  let fields := fix fields l := match l with
    | [] => Some []
    | GObj o :: l' => option_map (cons o) (fields l')
    | _ => None
    end in
  match c, l with
  | K_plain t, _ => option_map (mk_plain t) (fields l)
  | K_annot t, GNull :: l' => option_map (fun fs => mk_annot t fs None) (fields l')
  | K_annot t, GObj a :: l' => option_map (fun fs => mk_annot t fs (Some a)) (fields l')
  | K_quant t, [GObj p; GObj f] => Some (mk_quant t p (Some f))
  | K_card t, [GNum n; GObj p; GObj f] => Some (mk_card t p n (Some f))
  | K_card t, [GNum n; GObj p; GNull] => Some (mk_card t p n None)
  | K_inner, [GObj o] => Some o
  | _, _ => None
  end.

(** The private prefix map of the parser. *)
Definition pmap := list (bytes * bytes).
(** src/cowl_prefix_map.c:125-127 cowl_prefix_map_get_ns *)
Definition pmap_ns (m : pmap) (prefix : bytes) : option bytes :=
  match find (fun e => bytes_eqb (fst e) prefix) m with Some (_, ns) => Some ns | None => None end.

Section Map.
  Variable m : pmap.

  (** cowl_functional.y:276-281 full_iri; 283-288 abbreviated_iri with src/cowl_prefix_map.c:245-267
      cowl_prefix_map_parse_short_iri (a PNAME_LN has a colon); 291-294 iri *)
  Definition parse_iri : P (bytes * bytes) := fun ts =>
    match ts with
    | TIriRef s :: r => match iri_from_string s with Some i => POk i r | None => PFail ERR_MEM end
    | TPnameLn s :: r =>
        match pmap_ns m (firstn (index_of s 58) s) with
        | Some ns => POk (iri_of_parts ns (skipn (S (index_of s 58)) s)) r
        | None => PFail ERR_SYNTAX
        end
    | _ => PFail ERR_SYNTAX
    end.
  (** cowl_functional.y:384-445 *)
  Definition parse_entity_of (e : etype) : P obj := get i <- parse_iri;; pret (OEnt e (fst i) (snd i)).
  (** cowl_functional.y:447-452 anonymous_individual; a token that cannot start it is left to [other] *)
  Definition parse_anon (other : P obj) : P obj := fun ts =>
    match ts with TBlank s :: r => POk (OAnon s) r | _ => other ts end.
  (** The pointer returned by cowl_literal. *)
  Definition literal_value (l : lres) : P obj := fun ts =>
    match l with LObj o => POk o ts | LNull => PFail ERR_MEM | LCrash => PCrash end.
  (** cowl_functional.y:456-488 quoted_string, lang_tag, literal *)
  Definition parse_literal : P obj := fun ts =>
    match ts with
    | TQuoted v :: TCaret :: r =>
        (get i <- parse_iri;; literal_value (cowl_literal (Some v) (DLDatatype (fst i) (snd i)))) r
    | TQuoted v :: TLang l :: r => literal_value (cowl_literal (Some v) (DLLang l)) r
    | TQuoted v :: r => literal_value (cowl_literal (Some v) DLNull) r
    | _ => PFail ERR_SYNTAX
    end.
  (** The nonterminals without recursion. *)
  Definition parse_flat (n : nt) : P obj :=
    match n with
    | N_iri => get i <- parse_iri;; pret (OIri (fst i) (snd i))
    | N_entity_of e => parse_entity_of e
    | N_individual => parse_anon (parse_entity_of ET_NAMED_IND)
    | N_literal => parse_literal
    | N_obj_prop_exp => parse_entity_of ET_OBJ_PROP
    | N_data_range => parse_entity_of ET_DATATYPE
    | N_cls_exp => parse_entity_of ET_CLASS
    | N_facet => get i <- parse_iri;; get l <- parse_literal;; pret (mk_plain OT_FACET_RESTR [OIri (fst i) (snd i); l])
    | N_annot_value => fun ts =>
        match ts with
        | TQuoted _ :: _ => parse_literal ts
        | _ => parse_anon (get i <- parse_iri;; pret (OIri (fst i) (snd i))) ts
        end
    | N_annot_subject => parse_anon (get i <- parse_iri;; pret (OIri (fst i) (snd i)))
    | N_entity | N_axiom | N_annotation => syntax_error
    end.
  (** The rules that start with a keyword. *)
  Definition rules_of (n : nt) : list prod :=
    match n with
    | N_entity => entity_rules
    | N_obj_prop_exp => obj_prop_exp_rules
    | N_data_range => data_range_rules
    | N_cls_exp => cls_exp_rules
    | N_axiom => axiom_rules
    | N_annotation => annotation_rules
    | _ => []
    end.

  (** Items up to a closing parenthesis. *)
  Fixpoint items (fuel : nat) (item : P obj) : P (list obj) := fun ts =>
    match ts with
    | TRParen :: _ => POk [] ts
    | _ =>
        match fuel with
        | O => PFuel
        | S f => (get o <- item;; get l <- items f item;; pret (o :: l)) ts
        end
    end.
  (** Items up to a token that cannot start an annotation. *)
  Fixpoint annots (fuel : nat) (item : P obj) : P (list obj) := fun ts =>
    match ts with
    | TKw ANNOTATION :: _ =>
        match fuel with
        | O => PFuel
        | S f => (get o <- item;; get l <- annots f item;; pret (o :: l)) ts
        end
    | _ => POk [] ts
    end.
  (** A list of at least [k] items. *)
  Definition at_least (k : nat) (item : P obj) : P (list obj) := fun ts =>
    (get l <- items (S (List.length ts)) item;; if Nat.ltb (List.length l) k then syntax_error else pret l) ts.

  Section Rec.
    (** Parses a nonterminal. *)
    Variable self : nt -> P obj.

    (** The symbols of a rule. *)
    Definition parse_sym (y : sym) : P gval :=
      match y with
      | Y_annots => fun ts =>
          (get l <- annots (List.length ts) (self N_annotation);;
           pret (match l with [] => GNull | _ => GObj (OVec false l) end)) ts
      | Y_one n => get o <- self n;; pret (GObj o)
      | Y_list k n => get l <- at_least k (self n);; pret (GObj (OVec false l))
      | Y_star n =>
          get _ <- tok_lparen;; get l <- at_least 0 (self n);; get _ <- tok_rparen;; pret (GObj (OVec false l))
      | Y_num => fun ts => match ts with TInt n :: r => POk (GNum n) r | _ => PFail ERR_SYNTAX end
      | Y_opt n => fun ts => match ts with TRParen :: _ => POk GNull ts | _ => (get o <- self n;; pret (GObj o)) ts end
      | Y_sub_prop => fun ts =>
          match ts with
          | TKw OBJECT_PROPERTY_CHAIN :: r =>
              (get _ <- tok_lparen;; get l <- at_least 2 (self N_obj_prop_exp);; get _ <- tok_rparen;;
               pret (GObj (OVec true l))) r
          | _ => (get o <- self N_obj_prop_exp;; pret (GObj o)) ts
          end
      end.
    (** A sequence of symbols. *)
    Fixpoint parse_syms (l : list sym) : P (list gval) :=
      match l with
      | [] => pret []
      | y :: l' => get v <- parse_sym y;; get r <- parse_syms l';; pret (v :: r)
      end.
    (** A rule, after its keyword. *)
    Definition parse_prod (p : prod) : P obj :=
      get _ <- tok_lparen;; get l <- parse_syms (p_syms p);; get _ <- tok_rparen;;
      match run_ctor (p_ctor p) l with Some o => pret o | None => fun _ => PCrash end.
    (** A nonterminal: by a rule with a keyword, or else without. *)
    Definition parse_step (n : nt) : P obj := fun ts =>
      match ts with
      | TKw k :: r => match rule_for (rules_of n) k with Some p => parse_prod p r | None => PFail ERR_SYNTAX end
      | _ => parse_flat n ts
      end.
  End Rec.

  (** The parser. *)
  Fixpoint parse (fuel : nat) (n : nt) : P obj :=
    match fuel with
    | O => fun _ => PFuel
    | S f => parse_step (parse f) n
    end.
  (** With enough fuel for any text: every rule consumes its keyword. *)
  Definition parse_nt (n : nt) : P obj := fun ts => parse (S (List.length ts)) n ts.
End Map.

(** * Documents *)

(** Outcome of reading: the code returned, and the changes given to the handler. *)
Inductive fres : Type :=
| FRet (c : ret) (log : list dchange)
| FCrash (log : list dchange)
| FFuel.

Section Document.
  (** The change handler: what it returns for the last of the changes it was given. *)
  Variable handler : list dchange -> ret.
  (** Whether the C type char is signed (cowl_functional.l:223 returns one as an int). *)
  Variable char_signed : bool.

  (** Tokens that the parser takes for the end of the input: those that are not positive. *)
  Definition is_eof (ts : list token) : bool :=
    match ts with
    | [] => true
    | TChar c :: _ => (c =? 0) || (char_signed && (128 <=? c))
    | _ => false
    end.

  (** The outcome of a nonterminal, before the handler is called. *)
  Definition then_doc {A} (log : list dchange) (r : pres A) (k : A -> list token -> fres) : fres :=
    match r with POk a ts => k a ts | PFail c => FRet c log | PCrash => FCrash log | PFuel => FFuel end.
  (** cowl_change_handler_handle on an addition. *)
  Definition handle_add (log : list dchange) (p : dpart) : list dchange * ret :=
    let log' := log ++ [(CHANGE_ADD, p)] in (log', handler log').
  (** An action "r = handle(change); if (r) YYERROR;". *)
  Definition add_or_fail (log : list dchange) (p : dpart) (k : list dchange -> fres) : fres :=
    let (log', r) := handle_add log p in if (r =? COWL_OK)%Z then k log' else FRet ERR_SYNTAX log'.

  (** cowl_functional.y:373-380 axioms, and the end of 335-337 ontology and 297-302 ontology_document *)
  Fixpoint parse_axioms (fuel : nat) (m : pmap) (log : list dchange) (ts : list token) : fres :=
    match ts with
    | TRParen :: r => if is_eof r then FRet COWL_OK log else FRet ERR_SYNTAX log
    | _ =>
        match fuel with
        | O => FFuel
        | S f => then_doc log (parse_nt m N_axiom ts) (fun o r => add_or_fail log (DAxiom o) (fun log => parse_axioms f m log r))
        end
    end.
  (** cowl_functional.y:355-371 import, imports_and_annotations *)
  Fixpoint parse_head (fuel : nat) (m : pmap) (log : list dchange) (ts : list token) : fres :=
    match ts with
    | TKw IMPORT :: r =>
        match fuel with
        | O => FFuel
        | S f =>
            then_doc log ((get _ <- tok_lparen;; get i <- parse_iri m;; get _ <- tok_rparen;; pret i) r)
              (fun i r => add_or_fail log (DImport (OIri (fst i) (snd i))) (fun log => parse_head f m log r))
        end
    | TKw ANNOTATION :: _ =>
        match fuel with
        | O => FFuel
        | S f => then_doc log (parse_nt m N_annotation ts) (fun o r => add_or_fail log (DAnnot o) (fun log => parse_head f m log r))
        end
    | _ => parse_axioms (S (List.length ts)) m log ts
    end.
  (** A token that starts an IRI. *)
  Definition starts_iri (ts : list token) : bool :=
    match ts with TIriRef _ :: _ | TPnameLn _ :: _ => true | _ => false end.
  (** cowl_functional.y:339-353 ontology_id: with two IRIs both changes are made before the codes are looked at *)
  Definition parse_id (m : pmap) (log : list dchange) (ts : list token) : fres :=
    let go := fun log ts => parse_head (List.length ts) m log ts in
    if negb (starts_iri ts) then go log ts else
    then_doc log (parse_iri m ts) (fun i r =>
      if negb (starts_iri r) then add_or_fail log (DIri (OIri (fst i) (snd i))) (fun log => go log r) else
      then_doc log (parse_iri m r) (fun v r' =>
        let (log1, r1) := handle_add log (DIri (OIri (fst i) (snd i))) in
        let (log2, r2) := handle_add log1 (DVersion (OIri (fst v) (snd v))) in
        if (r1 =? COWL_OK)%Z && (r2 =? COWL_OK)%Z then go log2 r' else FRet ERR_SYNTAX log2)).
  (** cowl_functional.y:297-337 ontology_document, prefix_declarations, prefix, namespace, prefix_declaration,
      ontology; 111-118 COWL_ERROR. The change is made before the private map gets the declaration, without
      overwriting. *)
  Fixpoint parse_document (fuel : nat) (m : pmap) (log : list dchange) (ts : list token) : fres :=
    match ts with
    | TKw PREFIX :: r =>
        match fuel with
        | O => FFuel
        | S f =>
            match r with
            | TLParen :: TPnameNs p :: TEquals :: TIriRef ns :: TRParen :: r' =>
                let (log', c) := handle_add log (DPrefix p ns) in
                if (c <? 0)%Z then FRet (if (c =? ERR_MEM)%Z then ERR_MEM else ERR_SYNTAX) log'
                else parse_document f (m ++ [(p, ns)]) log' r'
            | _ => FRet ERR_SYNTAX log
            end
        end
    | TKw ONTOLOGY :: TLParen :: r => parse_id m log r
    | _ => FRet ERR_SYNTAX log
    end.

  (** cowl_func_reader.c:28-44 func_read and cowl_functional.y:62-74 cowl_func_state_init: [defaults] is what
      cowl_prefix_map (src/cowl_prefix_map.c:90-104) returns, the reserved prefixes and those of the default
      map. *)
  Definition func_read (w : N) (defaults : pmap) (text : bytes) : fres :=
    match lex w text with
    | None => FFuel
    | Some ts => parse_document (List.length ts) defaults [] ts
    end.
End Document.

(** src/cowl_prefix_map.c:82-104 cowl_prefix_map: the reserved prefixes (26-39), then those of the default map *)
Definition initial_map (default_map : pmap) : pmap :=
  map (fun e => (stx (fst e), stx (snd e))) reserved ++ default_map.
