(** Model: the grammar of the functional syntax reader with the actions of its rules.

    The tables list every token, typed nonterminal, destructor and rule of
    src/formats/functional/reader/cowl_functional.y. An action is the list of its statements, in their order.
    Simplifications: code that only concerns error messages is left out; [if (!$$) ...] is [SCheck] whichever
    error it reports; the tests of what the handler or the prefix map returned are [SStop]. *)

From Coq Require Import String.
From Coq Require Import NArith List Bool.
From Verif Require Import ModelTypes.
Import ListNotations.
Local Open Scope string_scope.
Local Open Scope list_scope.

(** The statements used in the actions of cowl_functional.y; [i], [j] are the numbers of symbols on
    the right of a rule, as in $1, $2. Casts are left out. *)
Inductive stmt : Type :=
| SNull                                (* $$ = NULL *)
| SMove (i : nat)                      (* $$ = $i; also a rule without action (the default of bison) *)
| SIri (i : nat)                       (* $$ = cowl_iri_from_string($i) *)
| SShortIri (i : nat)                  (* $$ = cowl_prefix_map_parse_short_iri(state->prefix_map, $i) *)
| SString (i : nat) (intern : bool)    (* $$ = cowl_string_opt($i, COWL_SO_COPY [| COWL_SO_INTERN]) *)
| SOwnString (i : nat)                 (* $$ = cowl_string($i) *)
| SEntity (t : otype) (i : nat)        (* $$ = cowl_class($i) and the others *)
| SAnon (i : nat)                      (* $$ = cowl_anon_ind_from_string($i) *)
| SLiteral (i : nat) (d : option nat)  (* $$ = cowl_literal($i, $d) or cowl_literal($i, NULL) *)
| SMake (t : otype) (fs : list nat) (opt val : option nat)
                                       (* $$ = cowl_sub_cls_axiom($4, $5, $3) and the others: required
                                          arguments, optional argument, cardinality *)
| SChain (sub super annot : nat)       (* $$ = cowl_sub_obj_prop_chain_axiom($sub, $super, $annot) *)
| SVector                              (* $$ = cowl_vector_empty() *)
| SVectorUnless (i : nat)              (* if ($i) $$ = $i, else $$ = cowl_vector_empty() and a check of $$ *)
| SPush (i : nat)                      (* COWL_VEC_PUSH(..., $$, $i): lines 126-128 *)
| SRelease (i : nat)                   (* cowl_release($i) *)
| SFinalize (i : nat)                  (* COWL_VEC_FINALIZE($i): lines 130-135 *)
| SCheck                               (* if (!$$) COWL_ERROR_MEM, or COWL_SYNTAX_ERROR(...) *)
| SHandle (l : list nat)               (* cowl_change_handler_handle(state->handler, ...) *)
| SPrefixAdd (i j : nat)               (* cowl_prefix_map_add(state->prefix_map, $i, $j, false) *)
| SStop.                               (* if (r) YYERROR, or if (cowl_is_err(r)) COWL_ERROR(r) *)

(** A rule: the symbol on the left, the symbols on the right, the action. *)
Definition rule := (string * list string * list stmt)%type.

(** src/formats/functional/reader/cowl_functional.y:142-179: the tokens and the C types of their values, "" if they have none *)
Definition token_types : list (string * string) :=
  [("NON_NEGATIVE_INTEGER", "ulib_uint"); ("QUOTED_STRING", "UString"); ("BLANK_NODE_LABEL", "UString");
   ("PNAME_NS", "UString"); ("PNAME_LN", "UString"); ("LANG_TAG", "UString"); ("IRI_REF", "UString");
   ("L_PAREN", ""); ("R_PAREN", ""); ("EQUALS", ""); ("DOUBLE_CARET", ""); ("IMPORT", ""); ("ONTOLOGY", "");
   ("PREFIX", ""); ("DECLARATION", ""); ("ANNOTATION", ""); ("DATATYPE_DEFINITION", ""); ("HAS_KEY", "");
   ("CLASS", ""); ("DATATYPE", ""); ("OBJECT_PROPERTY", ""); ("DATA_PROPERTY", "");
   ("ANNOTATION_PROPERTY", ""); ("NAMED_INDIVIDUAL", ""); ("DATA_INTERSECTION_OF", "");
   ("DATA_UNION_OF", ""); ("DATA_COMPLEMENT_OF", ""); ("DATA_ONE_OF", ""); ("DATATYPE_RESTRICTION", "");
   ("DATA_SOME_VALUES_FROM", ""); ("DATA_ALL_VALUES_FROM", ""); ("DATA_HAS_VALUE", "");
   ("DATA_MIN_CARDINALITY", ""); ("DATA_MAX_CARDINALITY", ""); ("DATA_EXACT_CARDINALITY", "");
   ("OBJECT_INVERSE_OF", ""); ("OBJECT_INTERSECTION_OF", ""); ("OBJECT_UNION_OF", "");
   ("OBJECT_COMPLEMENT_OF", ""); ("OBJECT_ONE_OF", ""); ("OBJECT_SOME_VALUES_FROM", "");
   ("OBJECT_ALL_VALUES_FROM", ""); ("OBJECT_HAS_VALUE", ""); ("OBJECT_HAS_SELF", "");
   ("OBJECT_MIN_CARDINALITY", ""); ("OBJECT_MAX_CARDINALITY", ""); ("OBJECT_EXACT_CARDINALITY", "");
   ("SUB_CLASS_OF", ""); ("EQUIVALENT_CLASSES", ""); ("DISJOINT_CLASSES", ""); ("DISJOINT_UNION", "");
   ("SUB_OBJECT_PROPERTY_OF", ""); ("EQUIVALENT_OBJECT_PROPERTIES", ""); ("DISJOINT_OBJECT_PROPERTIES", "");
   ("OBJECT_PROPERTY_CHAIN", ""); ("INVERSE_OBJECT_PROPERTIES", ""); ("OBJECT_PROPERTY_DOMAIN", "");
   ("OBJECT_PROPERTY_RANGE", ""); ("FUNCTIONAL_OBJECT_PROPERTY", "");
   ("INVERSE_FUNCTIONAL_OBJECT_PROPERTY", ""); ("REFLEXIVE_OBJECT_PROPERTY", "");
   ("IRREFLEXIVE_OBJECT_PROPERTY", ""); ("SYMMETRIC_OBJECT_PROPERTY", "");
   ("ASYMMETRIC_OBJECT_PROPERTY", ""); ("TRANSITIVE_OBJECT_PROPERTY", ""); ("SUB_DATA_PROPERTY_OF", "");
   ("EQUIVALENT_DATA_PROPERTIES", ""); ("DISJOINT_DATA_PROPERTIES", ""); ("DATA_PROPERTY_DOMAIN", "");
   ("DATA_PROPERTY_RANGE", ""); ("FUNCTIONAL_DATA_PROPERTY", ""); ("SAME_INDIVIDUAL", "");
   ("DIFFERENT_INDIVIDUALS", ""); ("CLASS_ASSERTION", ""); ("OBJECT_PROPERTY_ASSERTION", "");
   ("NEGATIVE_OBJECT_PROPERTY_ASSERTION", ""); ("DATA_PROPERTY_ASSERTION", "");
   ("NEGATIVE_DATA_PROPERTY_ASSERTION", ""); ("ANNOTATION_ASSERTION", "");
   ("SUB_ANNOTATION_PROPERTY_OF", ""); ("ANNOTATION_PROPERTY_DOMAIN", ""); ("ANNOTATION_PROPERTY_RANGE", "")].
(** src/formats/functional/reader/cowl_functional.y:183-241: the nonterminals that have a value and its C type *)
Definition symbol_types : list (string * string) :=
  [("prefix", "CowlString *"); ("namespace", "CowlString *"); ("quoted_string", "CowlString *");
   ("lang_tag", "CowlString *"); ("iri", "CowlIRI *"); ("full_iri", "CowlIRI *");
   ("abbreviated_iri", "CowlIRI *"); ("import", "CowlIRI *"); ("annotation", "CowlAnnotation *");
   ("annotation_subject", "CowlAnnotValue *"); ("annotation_value", "CowlAnnotValue *");
   ("cardinality", "ulib_uint"); ("entity", "CowlEntity *"); ("class", "CowlClass *");
   ("object_property", "CowlObjProp *"); ("data_property", "CowlDataProp *");
   ("named_individual", "CowlNamedInd *"); ("datatype", "CowlDatatype *");
   ("annotation_property", "CowlAnnotProp *"); ("class_expression", "CowlClsExp *");
   ("object_intersection_of", "CowlClsExp *"); ("object_union_of", "CowlClsExp *");
   ("object_complement_of", "CowlClsExp *"); ("object_one_of", "CowlClsExp *");
   ("object_some_values_from", "CowlClsExp *"); ("object_all_values_from", "CowlClsExp *");
   ("object_has_value", "CowlClsExp *"); ("object_has_self", "CowlClsExp *");
   ("object_min_cardinality", "CowlClsExp *"); ("object_max_cardinality", "CowlClsExp *");
   ("object_exact_cardinality", "CowlClsExp *"); ("data_some_values_from", "CowlClsExp *");
   ("data_all_values_from", "CowlClsExp *"); ("data_has_value", "CowlClsExp *");
   ("data_min_cardinality", "CowlClsExp *"); ("data_max_cardinality", "CowlClsExp *");
   ("data_exact_cardinality", "CowlClsExp *"); ("individual", "CowlIndividual *");
   ("anonymous_individual", "CowlIndividual *"); ("object_property_expression", "CowlObjPropExp *");
   ("inverse_object_property", "CowlObjPropExp *"); ("data_property_expression", "CowlDataPropExp *");
   ("data_range", "CowlDataRange *"); ("data_intersection_of", "CowlDataRange *");
   ("data_union_of", "CowlDataRange *"); ("data_complement_of", "CowlDataRange *");
   ("data_one_of", "CowlDataRange *"); ("datatype_restriction", "CowlDataRange *");
   ("facet_restriction", "CowlFacetRestr *"); ("literal", "CowlLiteral *"); ("axiom", "CowlAxiom *");
   ("declaration", "CowlAxiom *"); ("class_axiom", "CowlAxiom *"); ("object_property_axiom", "CowlAxiom *");
   ("data_property_axiom", "CowlAxiom *"); ("annotation_axiom", "CowlAxiom *");
   ("sub_class_of", "CowlAxiom *"); ("equivalent_classes", "CowlAxiom *");
   ("disjoint_classes", "CowlAxiom *"); ("disjoint_union", "CowlAxiom *"); ("assertion", "CowlAxiom *");
   ("same_individual", "CowlAxiom *"); ("different_individuals", "CowlAxiom *");
   ("class_assertion", "CowlAxiom *"); ("annotation_assertion", "CowlAxiom *");
   ("object_property_assertion", "CowlAxiom *"); ("negative_object_property_assertion", "CowlAxiom *");
   ("data_property_assertion", "CowlAxiom *"); ("negative_data_property_assertion", "CowlAxiom *");
   ("sub_object_property_of", "CowlAxiom *"); ("equivalent_object_properties", "CowlAxiom *");
   ("object_property_domain", "CowlAxiom *"); ("object_property_range", "CowlAxiom *");
   ("disjoint_object_properties", "CowlAxiom *"); ("inverse_object_properties", "CowlAxiom *");
   ("functional_object_property", "CowlAxiom *"); ("inverse_functional_object_property", "CowlAxiom *");
   ("reflexive_object_property", "CowlAxiom *"); ("irreflexive_object_property", "CowlAxiom *");
   ("symmetric_object_property", "CowlAxiom *"); ("asymmetric_object_property", "CowlAxiom *");
   ("transitive_object_property", "CowlAxiom *"); ("sub_data_property_of", "CowlAxiom *");
   ("equivalent_data_properties", "CowlAxiom *"); ("disjoint_data_properties", "CowlAxiom *");
   ("data_property_domain", "CowlAxiom *"); ("data_property_range", "CowlAxiom *");
   ("functional_data_property", "CowlAxiom *"); ("datatype_definition", "CowlAxiom *");
   ("has_key", "CowlAxiom *"); ("sub_annotation_property_of", "CowlAxiom *");
   ("annotation_property_domain", "CowlAxiom *"); ("annotation_property_range", "CowlAxiom *");
   ("class_expression_list", "CowlVector *"); ("class_expression_2_list", "CowlVector *");
   ("data_property_expression_list", "CowlVector *"); ("data_property_expression_2_list", "CowlVector *");
   ("data_property_expression_star", "CowlVector *"); ("data_range_list", "CowlVector *");
   ("data_range_2_list", "CowlVector *"); ("facet_restriction_list", "CowlVector *");
   ("individual_list", "CowlVector *"); ("individual_2_list", "CowlVector *");
   ("literal_list", "CowlVector *"); ("object_property_expression_list", "CowlVector *");
   ("object_property_expression_2_list", "CowlVector *");
   ("object_property_expression_star", "CowlVector *"); ("property_expression_chain", "CowlVector *");
   ("annotation_star", "CowlVector *")].
(** src/formats/functional/reader/cowl_functional.y:249-268: the types whose values are released when the parser discards them *)
Definition destructors : list string :=
  ["CowlAnnotation *"; "CowlAnnotProp *"; "CowlAnnotValue *"; "CowlAxiom *"; "CowlClass *"; "CowlClsExp *";
   "CowlDataProp *"; "CowlDataPropExp *"; "CowlDataRange *"; "CowlDatatype *"; "CowlEntity *";
   "CowlFacetRestr *"; "CowlIndividual *"; "CowlIRI *"; "CowlLiteral *"; "CowlNamedInd *"; "CowlObjProp *";
   "CowlObjPropExp *"; "CowlString *"; "CowlVector *"].

(** src/formats/functional/reader/cowl_functional.y:277-1447: the rules, one for each alternative, with the lines of the alternative *)
Definition rules : list rule :=
  [(* 277-280 *) ("full_iri", ["IRI_REF"],
     [SIri 1; SCheck]);
   (* 284-287 *) ("abbreviated_iri", ["PNAME_LN"],
     [SShortIri 1; SCheck]);
   (* 291-292 *) ("iri", ["full_iri"],
     [SMove 1]);
   (* 292-292 *) ("iri", ["abbreviated_iri"],
     [SMove 1]);
   (* 298-301 *) ("ontology_document", ["prefix_declarations"; "ontology"],
     []);
   (* 305-306 *) ("prefix_declarations", [],
     []);
   (* 306-306 *) ("prefix_declarations", ["prefix_declarations"; "prefix_declaration"],
     []);
   (* 310-313 *) ("prefix", ["PNAME_NS"],
     [SString 1 false; SCheck]);
   (* 317-320 *) ("namespace", ["IRI_REF"],
     [SString 1 true; SCheck]);
   (* 324-332 *) ("prefix_declaration", ["PREFIX"; "L_PAREN"; "prefix"; "EQUALS"; "namespace"; "R_PAREN"],
     [SHandle [3; 5]; SPrefixAdd 3 5; SRelease 3; SRelease 5; SStop; SStop]);
   (* 336-336 *) ("ontology", ["ONTOLOGY"; "L_PAREN"; "ontology_id"; "imports_and_annotations"; "axioms"; "R_PAREN"],
     []);
   (* 340-341 *) ("ontology_id", [],
     []);
   (* 341-345 *) ("ontology_id", ["iri"],
     [SHandle [1]; SRelease 1; SStop]);
   (* 346-352 *) ("ontology_id", ["iri"; "iri"],
     [SHandle [1]; SHandle [2]; SRelease 1; SRelease 2; SStop]);
   (* 356-356 *) ("import", ["IMPORT"; "L_PAREN"; "iri"; "R_PAREN"],
     [SMove 3]);
   (* 360-361 *) ("imports_and_annotations", [],
     []);
   (* 361-365 *) ("imports_and_annotations", ["imports_and_annotations"; "import"],
     [SHandle [2]; SRelease 2; SStop]);
   (* 366-370 *) ("imports_and_annotations", ["imports_and_annotations"; "annotation"],
     [SHandle [2]; SRelease 2; SStop]);
   (* 374-375 *) ("axioms", [],
     []);
   (* 375-379 *) ("axioms", ["axioms"; "axiom"],
     [SHandle [2]; SRelease 2; SStop]);
   (* 385-389 *) ("class", ["iri"],
     [SEntity OT_CE_CLASS 1; SRelease 1; SCheck]);
   (* 395-399 *) ("datatype", ["iri"],
     [SEntity OT_DR_DATATYPE 1; SRelease 1; SCheck]);
   (* 405-409 *) ("object_property", ["iri"],
     [SEntity OT_OPE_OBJ_PROP 1; SRelease 1; SCheck]);
   (* 415-419 *) ("data_property", ["iri"],
     [SEntity OT_DPE_DATA_PROP 1; SRelease 1; SCheck]);
   (* 425-429 *) ("annotation_property", ["iri"],
     [SEntity OT_ANNOT_PROP 1; SRelease 1; SCheck]);
   (* 435-435 *) ("individual", ["named_individual"],
     [SMove 1]);
   (* 436-436 *) ("individual", ["anonymous_individual"],
     [SMove 1]);
   (* 440-444 *) ("named_individual", ["iri"],
     [SEntity OT_I_NAMED 1; SRelease 1; SCheck]);
   (* 448-451 *) ("anonymous_individual", ["BLANK_NODE_LABEL"],
     [SAnon 1; SCheck]);
   (* 457-460 *) ("quoted_string", ["QUOTED_STRING"],
     [SOwnString 1; SCheck]);
   (* 464-467 *) ("lang_tag", ["LANG_TAG"],
     [SString 1 true; SCheck]);
   (* 471-476 *) ("literal", ["quoted_string"; "DOUBLE_CARET"; "datatype"],
     [SLiteral 1 (Some 3); SRelease 1; SRelease 3; SCheck]);
   (* 477-482 *) ("literal", ["quoted_string"; "lang_tag"],
     [SLiteral 1 (Some 2); SRelease 1; SRelease 2; SCheck]);
   (* 483-487 *) ("literal", ["quoted_string"],
     [SLiteral 1 None; SRelease 1; SCheck]);
   (* 493-498 *) ("declaration", ["DECLARATION"; "L_PAREN"; "annotation_star"; "entity"; "R_PAREN"],
     [SMake OT_A_DECL [4] (Some 3) None; SFinalize 3; SRelease 4; SCheck]);
   (* 502-504 *) ("entity", ["CLASS"; "L_PAREN"; "class"; "R_PAREN"],
     [SMove 3]);
   (* 505-507 *) ("entity", ["DATATYPE"; "L_PAREN"; "datatype"; "R_PAREN"],
     [SMove 3]);
   (* 508-510 *) ("entity", ["OBJECT_PROPERTY"; "L_PAREN"; "object_property"; "R_PAREN"],
     [SMove 3]);
   (* 511-513 *) ("entity", ["DATA_PROPERTY"; "L_PAREN"; "data_property"; "R_PAREN"],
     [SMove 3]);
   (* 514-516 *) ("entity", ["ANNOTATION_PROPERTY"; "L_PAREN"; "annotation_property"; "R_PAREN"],
     [SMove 3]);
   (* 517-519 *) ("entity", ["NAMED_INDIVIDUAL"; "L_PAREN"; "named_individual"; "R_PAREN"],
     [SMove 3]);
   (* 525-525 *) ("object_property_expression", ["object_property"],
     [SMove 1]);
   (* 526-526 *) ("object_property_expression", ["inverse_object_property"],
     [SMove 1]);
   (* 530-534 *) ("inverse_object_property", ["OBJECT_INVERSE_OF"; "L_PAREN"; "object_property"; "R_PAREN"],
     [SMake OT_OPE_INV_OBJ_PROP [3] None None; SRelease 3; SCheck]);
   (* 540-540 *) ("data_property_expression", ["data_property"],
     [SMove 1]);
   (* 546-546 *) ("data_range", ["datatype"],
     [SMove 1]);
   (* 547-548 *) ("data_range", ["data_intersection_of"],
     [SMove 1]);
   (* 548-549 *) ("data_range", ["data_union_of"],
     [SMove 1]);
   (* 549-550 *) ("data_range", ["data_complement_of"],
     [SMove 1]);
   (* 550-551 *) ("data_range", ["data_one_of"],
     [SMove 1]);
   (* 551-551 *) ("data_range", ["datatype_restriction"],
     [SMove 1]);
   (* 555-559 *) ("data_intersection_of", ["DATA_INTERSECTION_OF"; "L_PAREN"; "data_range_2_list"; "R_PAREN"],
     [SMake OT_DR_DATA_INTERSECT [3] None None; SFinalize 3; SCheck]);
   (* 563-567 *) ("data_union_of", ["DATA_UNION_OF"; "L_PAREN"; "data_range_2_list"; "R_PAREN"],
     [SMake OT_DR_DATA_UNION [3] None None; SFinalize 3; SCheck]);
   (* 571-575 *) ("data_complement_of", ["DATA_COMPLEMENT_OF"; "L_PAREN"; "data_range"; "R_PAREN"],
     [SMake OT_DR_DATA_COMPL [3] None None; SRelease 3; SCheck]);
   (* 579-583 *) ("data_one_of", ["DATA_ONE_OF"; "L_PAREN"; "literal_list"; "R_PAREN"],
     [SMake OT_DR_DATA_ONE_OF [3] None None; SFinalize 3; SCheck]);
   (* 587-592 *) ("datatype_restriction", ["DATATYPE_RESTRICTION"; "L_PAREN"; "datatype"; "facet_restriction_list"; "R_PAREN"],
     [SMake OT_DR_DATATYPE_RESTR [3; 4] None None; SRelease 3; SFinalize 4; SCheck]);
   (* 596-601 *) ("facet_restriction", ["iri"; "literal"],
     [SMake OT_FACET_RESTR [1; 2] None None; SRelease 1; SRelease 2; SCheck]);
   (* 607-607 *) ("class_expression", ["class"],
     [SMove 1]);
   (* 608-609 *) ("class_expression", ["object_intersection_of"],
     [SMove 1]);
   (* 609-610 *) ("class_expression", ["object_union_of"],
     [SMove 1]);
   (* 610-611 *) ("class_expression", ["object_complement_of"],
     [SMove 1]);
   (* 611-612 *) ("class_expression", ["object_one_of"],
     [SMove 1]);
   (* 612-613 *) ("class_expression", ["object_some_values_from"],
     [SMove 1]);
   (* 613-614 *) ("class_expression", ["object_all_values_from"],
     [SMove 1]);
   (* 614-615 *) ("class_expression", ["object_has_value"],
     [SMove 1]);
   (* 615-616 *) ("class_expression", ["object_has_self"],
     [SMove 1]);
   (* 616-617 *) ("class_expression", ["object_min_cardinality"],
     [SMove 1]);
   (* 617-618 *) ("class_expression", ["object_max_cardinality"],
     [SMove 1]);
   (* 618-619 *) ("class_expression", ["object_exact_cardinality"],
     [SMove 1]);
   (* 619-620 *) ("class_expression", ["data_some_values_from"],
     [SMove 1]);
   (* 620-621 *) ("class_expression", ["data_all_values_from"],
     [SMove 1]);
   (* 621-622 *) ("class_expression", ["data_has_value"],
     [SMove 1]);
   (* 622-623 *) ("class_expression", ["data_min_cardinality"],
     [SMove 1]);
   (* 623-624 *) ("class_expression", ["data_max_cardinality"],
     [SMove 1]);
   (* 624-624 *) ("class_expression", ["data_exact_cardinality"],
     [SMove 1]);
   (* 628-632 *) ("object_intersection_of", ["OBJECT_INTERSECTION_OF"; "L_PAREN"; "class_expression_2_list"; "R_PAREN"],
     [SMake OT_CE_OBJ_INTERSECT [3] None None; SFinalize 3; SCheck]);
   (* 636-640 *) ("object_union_of", ["OBJECT_UNION_OF"; "L_PAREN"; "class_expression_2_list"; "R_PAREN"],
     [SMake OT_CE_OBJ_UNION [3] None None; SFinalize 3; SCheck]);
   (* 644-648 *) ("object_complement_of", ["OBJECT_COMPLEMENT_OF"; "L_PAREN"; "class_expression"; "R_PAREN"],
     [SMake OT_CE_OBJ_COMPL [3] None None; SRelease 3; SCheck]);
   (* 652-656 *) ("object_one_of", ["OBJECT_ONE_OF"; "L_PAREN"; "individual_list"; "R_PAREN"],
     [SMake OT_CE_OBJ_ONE_OF [3] None None; SFinalize 3; SCheck]);
   (* 660-665 *) ("object_some_values_from", ["OBJECT_SOME_VALUES_FROM"; "L_PAREN"; "object_property_expression"; "class_expression"; "R_PAREN"],
     [SMake OT_CE_OBJ_SOME [3] (Some 4) None; SRelease 3; SRelease 4; SCheck]);
   (* 669-674 *) ("object_all_values_from", ["OBJECT_ALL_VALUES_FROM"; "L_PAREN"; "object_property_expression"; "class_expression"; "R_PAREN"],
     [SMake OT_CE_OBJ_ALL [3] (Some 4) None; SRelease 3; SRelease 4; SCheck]);
   (* 678-683 *) ("object_has_value", ["OBJECT_HAS_VALUE"; "L_PAREN"; "object_property_expression"; "individual"; "R_PAREN"],
     [SMake OT_CE_OBJ_HAS_VALUE [3; 4] None None; SRelease 3; SRelease 4; SCheck]);
   (* 687-691 *) ("object_has_self", ["OBJECT_HAS_SELF"; "L_PAREN"; "object_property_expression"; "R_PAREN"],
     [SMake OT_CE_OBJ_HAS_SELF [3] None None; SRelease 3; SCheck]);
   (* 695-699 *) ("object_min_cardinality", ["OBJECT_MIN_CARDINALITY"; "L_PAREN"; "cardinality"; "object_property_expression"; "R_PAREN"],
     [SMake OT_CE_OBJ_MIN_CARD [4] None (Some 3); SRelease 4; SCheck]);
   (* 700-705 *) ("object_min_cardinality", ["OBJECT_MIN_CARDINALITY"; "L_PAREN"; "cardinality"; "object_property_expression"; "class_expression"; "R_PAREN"],
     [SMake OT_CE_OBJ_MIN_CARD [4] (Some 5) (Some 3); SRelease 4; SRelease 5; SCheck]);
   (* 709-713 *) ("object_max_cardinality", ["OBJECT_MAX_CARDINALITY"; "L_PAREN"; "cardinality"; "object_property_expression"; "R_PAREN"],
     [SMake OT_CE_OBJ_MAX_CARD [4] None (Some 3); SRelease 4; SCheck]);
   (* 714-719 *) ("object_max_cardinality", ["OBJECT_MAX_CARDINALITY"; "L_PAREN"; "cardinality"; "object_property_expression"; "class_expression"; "R_PAREN"],
     [SMake OT_CE_OBJ_MAX_CARD [4] (Some 5) (Some 3); SRelease 4; SRelease 5; SCheck]);
   (* 723-727 *) ("object_exact_cardinality", ["OBJECT_EXACT_CARDINALITY"; "L_PAREN"; "cardinality"; "object_property_expression"; "R_PAREN"],
     [SMake OT_CE_OBJ_EXACT_CARD [4] None (Some 3); SRelease 4; SCheck]);
   (* 728-733 *) ("object_exact_cardinality", ["OBJECT_EXACT_CARDINALITY"; "L_PAREN"; "cardinality"; "object_property_expression"; "class_expression"; "R_PAREN"],
     [SMake OT_CE_OBJ_EXACT_CARD [4] (Some 5) (Some 3); SRelease 4; SRelease 5; SCheck]);
   (* 737-737 *) ("cardinality", ["NON_NEGATIVE_INTEGER"],
     [SMove 1]);
   (* 741-746 *) ("data_some_values_from", ["DATA_SOME_VALUES_FROM"; "L_PAREN"; "data_property_expression"; "data_range"; "R_PAREN"],
     [SMake OT_CE_DATA_SOME [3] (Some 4) None; SRelease 3; SRelease 4; SCheck]);
   (* 750-755 *) ("data_all_values_from", ["DATA_ALL_VALUES_FROM"; "L_PAREN"; "data_property_expression"; "data_range"; "R_PAREN"],
     [SMake OT_CE_DATA_ALL [3] (Some 4) None; SRelease 3; SRelease 4; SCheck]);
   (* 759-764 *) ("data_has_value", ["DATA_HAS_VALUE"; "L_PAREN"; "data_property_expression"; "literal"; "R_PAREN"],
     [SMake OT_CE_DATA_HAS_VALUE [3; 4] None None; SRelease 3; SRelease 4; SCheck]);
   (* 768-772 *) ("data_min_cardinality", ["DATA_MIN_CARDINALITY"; "L_PAREN"; "cardinality"; "data_property_expression"; "R_PAREN"],
     [SMake OT_CE_DATA_MIN_CARD [4] None (Some 3); SRelease 4; SCheck]);
   (* 773-778 *) ("data_min_cardinality", ["DATA_MIN_CARDINALITY"; "L_PAREN"; "cardinality"; "data_property_expression"; "data_range"; "R_PAREN"],
     [SMake OT_CE_DATA_MIN_CARD [4] (Some 5) (Some 3); SRelease 4; SRelease 5; SCheck]);
   (* 782-786 *) ("data_max_cardinality", ["DATA_MAX_CARDINALITY"; "L_PAREN"; "cardinality"; "data_property_expression"; "R_PAREN"],
     [SMake OT_CE_DATA_MAX_CARD [4] None (Some 3); SRelease 4; SCheck]);
   (* 787-792 *) ("data_max_cardinality", ["DATA_MAX_CARDINALITY"; "L_PAREN"; "cardinality"; "data_property_expression"; "data_range"; "R_PAREN"],
     [SMake OT_CE_DATA_MAX_CARD [4] (Some 5) (Some 3); SRelease 4; SRelease 5; SCheck]);
   (* 796-800 *) ("data_exact_cardinality", ["DATA_EXACT_CARDINALITY"; "L_PAREN"; "cardinality"; "data_property_expression"; "R_PAREN"],
     [SMake OT_CE_DATA_EXACT_CARD [4] None (Some 3); SRelease 4; SCheck]);
   (* 801-806 *) ("data_exact_cardinality", ["DATA_EXACT_CARDINALITY"; "L_PAREN"; "cardinality"; "data_property_expression"; "data_range"; "R_PAREN"],
     [SMake OT_CE_DATA_EXACT_CARD [4] (Some 5) (Some 3); SRelease 4; SRelease 5; SCheck]);
   (* 812-813 *) ("axiom", ["declaration"],
     [SMove 1]);
   (* 813-814 *) ("axiom", ["class_axiom"],
     [SMove 1]);
   (* 814-815 *) ("axiom", ["object_property_axiom"],
     [SMove 1]);
   (* 815-816 *) ("axiom", ["data_property_axiom"],
     [SMove 1]);
   (* 816-817 *) ("axiom", ["datatype_definition"],
     [SMove 1]);
   (* 817-818 *) ("axiom", ["has_key"],
     [SMove 1]);
   (* 818-819 *) ("axiom", ["assertion"],
     [SMove 1]);
   (* 819-819 *) ("axiom", ["annotation_axiom"],
     [SMove 1]);
   (* 825-826 *) ("class_axiom", ["sub_class_of"],
     [SMove 1]);
   (* 826-827 *) ("class_axiom", ["equivalent_classes"],
     [SMove 1]);
   (* 827-828 *) ("class_axiom", ["disjoint_classes"],
     [SMove 1]);
   (* 828-828 *) ("class_axiom", ["disjoint_union"],
     [SMove 1]);
   (* 832-838 *) ("sub_class_of", ["SUB_CLASS_OF"; "L_PAREN"; "annotation_star"; "class_expression"; "class_expression"; "R_PAREN"],
     [SMake OT_A_SUB_CLASS [4; 5] (Some 3) None; SFinalize 3; SRelease 4; SRelease 5; SCheck]);
   (* 842-847 *) ("equivalent_classes", ["EQUIVALENT_CLASSES"; "L_PAREN"; "annotation_star"; "class_expression_2_list"; "R_PAREN"],
     [SMake OT_A_EQUIV_CLASSES [4] (Some 3) None; SFinalize 3; SFinalize 4; SCheck]);
   (* 851-856 *) ("disjoint_classes", ["DISJOINT_CLASSES"; "L_PAREN"; "annotation_star"; "class_expression_2_list"; "R_PAREN"],
     [SMake OT_A_DISJ_CLASSES [4] (Some 3) None; SFinalize 3; SFinalize 4; SCheck]);
   (* 860-866 *) ("disjoint_union", ["DISJOINT_UNION"; "L_PAREN"; "annotation_star"; "class"; "class_expression_2_list"; "R_PAREN"],
     [SMake OT_A_DISJ_UNION [4; 5] (Some 3) None; SFinalize 3; SRelease 4; SFinalize 5; SCheck]);
   (* 872-873 *) ("object_property_axiom", ["sub_object_property_of"],
     [SMove 1]);
   (* 873-874 *) ("object_property_axiom", ["equivalent_object_properties"],
     [SMove 1]);
   (* 874-875 *) ("object_property_axiom", ["disjoint_object_properties"],
     [SMove 1]);
   (* 875-876 *) ("object_property_axiom", ["inverse_object_properties"],
     [SMove 1]);
   (* 876-877 *) ("object_property_axiom", ["object_property_domain"],
     [SMove 1]);
   (* 877-878 *) ("object_property_axiom", ["object_property_range"],
     [SMove 1]);
   (* 878-879 *) ("object_property_axiom", ["functional_object_property"],
     [SMove 1]);
   (* 879-880 *) ("object_property_axiom", ["inverse_functional_object_property"],
     [SMove 1]);
   (* 880-881 *) ("object_property_axiom", ["reflexive_object_property"],
     [SMove 1]);
   (* 881-882 *) ("object_property_axiom", ["irreflexive_object_property"],
     [SMove 1]);
   (* 882-883 *) ("object_property_axiom", ["symmetric_object_property"],
     [SMove 1]);
   (* 883-884 *) ("object_property_axiom", ["asymmetric_object_property"],
     [SMove 1]);
   (* 884-884 *) ("object_property_axiom", ["transitive_object_property"],
     [SMove 1]);
   (* 888-894 *) ("sub_object_property_of", ["SUB_OBJECT_PROPERTY_OF"; "L_PAREN"; "annotation_star"; "object_property_expression"; "object_property_expression"; "R_PAREN"],
     [SMake OT_A_SUB_OBJ_PROP [4; 5] (Some 3) None; SFinalize 3; SRelease 4; SRelease 5; SCheck]);
   (* 895-901 *) ("sub_object_property_of", ["SUB_OBJECT_PROPERTY_OF"; "L_PAREN"; "annotation_star"; "property_expression_chain"; "object_property_expression"; "R_PAREN"],
     [SChain 4 5 3; SFinalize 3; SFinalize 4; SRelease 5; SCheck]);
   (* 905-907 *) ("property_expression_chain", ["OBJECT_PROPERTY_CHAIN"; "L_PAREN"; "object_property_expression_2_list"; "R_PAREN"],
     [SMove 3]);
   (* 911-916 *) ("equivalent_object_properties", ["EQUIVALENT_OBJECT_PROPERTIES"; "L_PAREN"; "annotation_star"; "object_property_expression_2_list"; "R_PAREN"],
     [SMake OT_A_EQUIV_OBJ_PROP [4] (Some 3) None; SFinalize 3; SFinalize 4; SCheck]);
   (* 920-925 *) ("disjoint_object_properties", ["DISJOINT_OBJECT_PROPERTIES"; "L_PAREN"; "annotation_star"; "object_property_expression_2_list"; "R_PAREN"],
     [SMake OT_A_DISJ_OBJ_PROP [4] (Some 3) None; SFinalize 3; SFinalize 4; SCheck]);
   (* 929-935 *) ("inverse_object_properties", ["INVERSE_OBJECT_PROPERTIES"; "L_PAREN"; "annotation_star"; "object_property_expression"; "object_property_expression"; "R_PAREN"],
     [SMake OT_A_INV_OBJ_PROP [4; 5] (Some 3) None; SFinalize 3; SRelease 4; SRelease 5; SCheck]);
   (* 939-945 *) ("object_property_domain", ["OBJECT_PROPERTY_DOMAIN"; "L_PAREN"; "annotation_star"; "object_property_expression"; "class_expression"; "R_PAREN"],
     [SMake OT_A_OBJ_PROP_DOMAIN [4; 5] (Some 3) None; SFinalize 3; SRelease 4; SRelease 5; SCheck]);
   (* 949-955 *) ("object_property_range", ["OBJECT_PROPERTY_RANGE"; "L_PAREN"; "annotation_star"; "object_property_expression"; "class_expression"; "R_PAREN"],
     [SMake OT_A_OBJ_PROP_RANGE [4; 5] (Some 3) None; SFinalize 3; SRelease 4; SRelease 5; SCheck]);
   (* 959-964 *) ("functional_object_property", ["FUNCTIONAL_OBJECT_PROPERTY"; "L_PAREN"; "annotation_star"; "object_property_expression"; "R_PAREN"],
     [SMake OT_A_FUNC_OBJ_PROP [4] (Some 3) None; SFinalize 3; SRelease 4; SCheck]);
   (* 968-973 *) ("inverse_functional_object_property", ["INVERSE_FUNCTIONAL_OBJECT_PROPERTY"; "L_PAREN"; "annotation_star"; "object_property_expression"; "R_PAREN"],
     [SMake OT_A_INV_FUNC_OBJ_PROP [4] (Some 3) None; SFinalize 3; SRelease 4; SCheck]);
   (* 977-982 *) ("reflexive_object_property", ["REFLEXIVE_OBJECT_PROPERTY"; "L_PAREN"; "annotation_star"; "object_property_expression"; "R_PAREN"],
     [SMake OT_A_REFL_OBJ_PROP [4] (Some 3) None; SFinalize 3; SRelease 4; SCheck]);
   (* 986-991 *) ("irreflexive_object_property", ["IRREFLEXIVE_OBJECT_PROPERTY"; "L_PAREN"; "annotation_star"; "object_property_expression"; "R_PAREN"],
     [SMake OT_A_IRREFL_OBJ_PROP [4] (Some 3) None; SFinalize 3; SRelease 4; SCheck]);
   (* 995-1000 *) ("symmetric_object_property", ["SYMMETRIC_OBJECT_PROPERTY"; "L_PAREN"; "annotation_star"; "object_property_expression"; "R_PAREN"],
     [SMake OT_A_SYMM_OBJ_PROP [4] (Some 3) None; SFinalize 3; SRelease 4; SCheck]);
   (* 1004-1009 *) ("asymmetric_object_property", ["ASYMMETRIC_OBJECT_PROPERTY"; "L_PAREN"; "annotation_star"; "object_property_expression"; "R_PAREN"],
     [SMake OT_A_ASYMM_OBJ_PROP [4] (Some 3) None; SFinalize 3; SRelease 4; SCheck]);
   (* 1013-1018 *) ("transitive_object_property", ["TRANSITIVE_OBJECT_PROPERTY"; "L_PAREN"; "annotation_star"; "object_property_expression"; "R_PAREN"],
     [SMake OT_A_TRANS_OBJ_PROP [4] (Some 3) None; SFinalize 3; SRelease 4; SCheck]);
   (* 1024-1025 *) ("data_property_axiom", ["sub_data_property_of"],
     [SMove 1]);
   (* 1025-1026 *) ("data_property_axiom", ["equivalent_data_properties"],
     [SMove 1]);
   (* 1026-1027 *) ("data_property_axiom", ["disjoint_data_properties"],
     [SMove 1]);
   (* 1027-1028 *) ("data_property_axiom", ["data_property_domain"],
     [SMove 1]);
   (* 1028-1029 *) ("data_property_axiom", ["data_property_range"],
     [SMove 1]);
   (* 1029-1029 *) ("data_property_axiom", ["functional_data_property"],
     [SMove 1]);
   (* 1033-1039 *) ("sub_data_property_of", ["SUB_DATA_PROPERTY_OF"; "L_PAREN"; "annotation_star"; "data_property_expression"; "data_property_expression"; "R_PAREN"],
     [SMake OT_A_SUB_DATA_PROP [4; 5] (Some 3) None; SFinalize 3; SRelease 4; SRelease 5; SCheck]);
   (* 1043-1048 *) ("equivalent_data_properties", ["EQUIVALENT_DATA_PROPERTIES"; "L_PAREN"; "annotation_star"; "data_property_expression_2_list"; "R_PAREN"],
     [SMake OT_A_EQUIV_DATA_PROP [4] (Some 3) None; SFinalize 3; SFinalize 4; SCheck]);
   (* 1052-1057 *) ("disjoint_data_properties", ["DISJOINT_DATA_PROPERTIES"; "L_PAREN"; "annotation_star"; "data_property_expression_2_list"; "R_PAREN"],
     [SMake OT_A_DISJ_DATA_PROP [4] (Some 3) None; SFinalize 3; SFinalize 4; SCheck]);
   (* 1061-1067 *) ("data_property_domain", ["DATA_PROPERTY_DOMAIN"; "L_PAREN"; "annotation_star"; "data_property_expression"; "class_expression"; "R_PAREN"],
     [SMake OT_A_DATA_PROP_DOMAIN [4; 5] (Some 3) None; SFinalize 3; SRelease 4; SRelease 5; SCheck]);
   (* 1071-1077 *) ("data_property_range", ["DATA_PROPERTY_RANGE"; "L_PAREN"; "annotation_star"; "data_property_expression"; "data_range"; "R_PAREN"],
     [SMake OT_A_DATA_PROP_RANGE [4; 5] (Some 3) None; SFinalize 3; SRelease 4; SRelease 5; SCheck]);
   (* 1081-1086 *) ("functional_data_property", ["FUNCTIONAL_DATA_PROPERTY"; "L_PAREN"; "annotation_star"; "data_property_expression"; "R_PAREN"],
     [SMake OT_A_FUNC_DATA_PROP [4] (Some 3) None; SFinalize 3; SRelease 4; SCheck]);
   (* 1092-1098 *) ("datatype_definition", ["DATATYPE_DEFINITION"; "L_PAREN"; "annotation_star"; "datatype"; "data_range"; "R_PAREN"],
     [SMake OT_A_DATATYPE_DEF [4; 5] (Some 3) None; SFinalize 3; SRelease 4; SRelease 5; SCheck]);
   (* 1104-1114 *) ("has_key", ["HAS_KEY"; "L_PAREN"; "annotation_star"; "class_expression"; "L_PAREN"; "object_property_expression_star"; "R_PAREN"; "L_PAREN"; "data_property_expression_star"; "R_PAREN"; "R_PAREN"],
     [SMake OT_A_HAS_KEY [4; 6; 9] (Some 3) None; SFinalize 3; SRelease 4; SFinalize 6; SFinalize 9; SCheck]);
   (* 1120-1121 *) ("assertion", ["same_individual"],
     [SMove 1]);
   (* 1121-1122 *) ("assertion", ["different_individuals"],
     [SMove 1]);
   (* 1122-1123 *) ("assertion", ["class_assertion"],
     [SMove 1]);
   (* 1123-1124 *) ("assertion", ["object_property_assertion"],
     [SMove 1]);
   (* 1124-1125 *) ("assertion", ["negative_object_property_assertion"],
     [SMove 1]);
   (* 1125-1126 *) ("assertion", ["data_property_assertion"],
     [SMove 1]);
   (* 1126-1126 *) ("assertion", ["negative_data_property_assertion"],
     [SMove 1]);
   (* 1130-1135 *) ("same_individual", ["SAME_INDIVIDUAL"; "L_PAREN"; "annotation_star"; "individual_2_list"; "R_PAREN"],
     [SMake OT_A_SAME_IND [4] (Some 3) None; SFinalize 3; SFinalize 4; SCheck]);
   (* 1139-1144 *) ("different_individuals", ["DIFFERENT_INDIVIDUALS"; "L_PAREN"; "annotation_star"; "individual_2_list"; "R_PAREN"],
     [SMake OT_A_DIFF_IND [4] (Some 3) None; SFinalize 3; SFinalize 4; SCheck]);
   (* 1148-1154 *) ("class_assertion", ["CLASS_ASSERTION"; "L_PAREN"; "annotation_star"; "class_expression"; "individual"; "R_PAREN"],
     [SMake OT_A_CLASS_ASSERT [4; 5] (Some 3) None; SFinalize 3; SRelease 4; SRelease 5; SCheck]);
   (* 1158-1165 *) ("object_property_assertion", ["OBJECT_PROPERTY_ASSERTION"; "L_PAREN"; "annotation_star"; "object_property_expression"; "individual"; "individual"; "R_PAREN"],
     [SMake OT_A_OBJ_PROP_ASSERT [4; 5; 6] (Some 3) None; SFinalize 3; SRelease 4; SRelease 5; SRelease 6; SCheck]);
   (* 1169-1176 *) ("negative_object_property_assertion", ["NEGATIVE_OBJECT_PROPERTY_ASSERTION"; "L_PAREN"; "annotation_star"; "object_property_expression"; "individual"; "individual"; "R_PAREN"],
     [SMake OT_A_NEG_OBJ_PROP_ASSERT [4; 5; 6] (Some 3) None; SFinalize 3; SRelease 4; SRelease 5; SRelease 6; SCheck]);
   (* 1180-1187 *) ("data_property_assertion", ["DATA_PROPERTY_ASSERTION"; "L_PAREN"; "annotation_star"; "data_property_expression"; "individual"; "literal"; "R_PAREN"],
     [SMake OT_A_DATA_PROP_ASSERT [4; 5; 6] (Some 3) None; SFinalize 3; SRelease 4; SRelease 5; SRelease 6; SCheck]);
   (* 1191-1198 *) ("negative_data_property_assertion", ["NEGATIVE_DATA_PROPERTY_ASSERTION"; "L_PAREN"; "annotation_star"; "data_property_expression"; "individual"; "literal"; "R_PAREN"],
     [SMake OT_A_NEG_DATA_PROP_ASSERT [4; 5; 6] (Some 3) None; SFinalize 3; SRelease 4; SRelease 5; SRelease 6; SCheck]);
   (* 1204-1210 *) ("annotation", ["ANNOTATION"; "L_PAREN"; "annotation_star"; "annotation_property"; "annotation_value"; "R_PAREN"],
     [SMake OT_ANNOTATION [4; 5] (Some 3) None; SFinalize 3; SRelease 4; SRelease 5; SCheck]);
   (* 1214-1216 *) ("annotation_value", ["anonymous_individual"],
     [SMove 1]);
   (* 1217-1219 *) ("annotation_value", ["iri"],
     [SMove 1]);
   (* 1220-1222 *) ("annotation_value", ["literal"],
     [SMove 1]);
   (* 1228-1229 *) ("annotation_axiom", ["annotation_assertion"],
     [SMove 1]);
   (* 1229-1230 *) ("annotation_axiom", ["sub_annotation_property_of"],
     [SMove 1]);
   (* 1230-1231 *) ("annotation_axiom", ["annotation_property_domain"],
     [SMove 1]);
   (* 1231-1231 *) ("annotation_axiom", ["annotation_property_range"],
     [SMove 1]);
   (* 1235-1242 *) ("annotation_assertion", ["ANNOTATION_ASSERTION"; "L_PAREN"; "annotation_star"; "annotation_property"; "annotation_subject"; "annotation_value"; "R_PAREN"],
     [SMake OT_A_ANNOT_ASSERT [4; 5; 6] (Some 3) None; SFinalize 3; SRelease 4; SRelease 5; SRelease 6; SCheck]);
   (* 1246-1248 *) ("annotation_subject", ["iri"],
     [SMove 1]);
   (* 1249-1251 *) ("annotation_subject", ["anonymous_individual"],
     [SMove 1]);
   (* 1255-1261 *) ("sub_annotation_property_of", ["SUB_ANNOTATION_PROPERTY_OF"; "L_PAREN"; "annotation_star"; "annotation_property"; "annotation_property"; "R_PAREN"],
     [SMake OT_A_SUB_ANNOT_PROP [4; 5] (Some 3) None; SFinalize 3; SRelease 4; SRelease 5; SCheck]);
   (* 1265-1271 *) ("annotation_property_domain", ["ANNOTATION_PROPERTY_DOMAIN"; "L_PAREN"; "annotation_star"; "annotation_property"; "iri"; "R_PAREN"],
     [SMake OT_A_ANNOT_PROP_DOMAIN [4; 5] (Some 3) None; SFinalize 3; SRelease 4; SRelease 5; SCheck]);
   (* 1275-1281 *) ("annotation_property_range", ["ANNOTATION_PROPERTY_RANGE"; "L_PAREN"; "annotation_star"; "annotation_property"; "iri"; "R_PAREN"],
     [SMake OT_A_ANNOT_PROP_RANGE [4; 5] (Some 3) None; SFinalize 3; SRelease 4; SRelease 5; SCheck]);
   (* 1287-1289 *) ("annotation_star", [],
     [SNull]);
   (* 1290-1298 *) ("annotation_star", ["annotation_star"; "annotation"],
     [SVectorUnless 1; SPush 2]);
   (* 1302-1306 *) ("class_expression_list", ["class_expression"],
     [SVector; SCheck; SPush 1]);
   (* 1307-1310 *) ("class_expression_list", ["class_expression_list"; "class_expression"],
     [SMove 1; SPush 2]);
   (* 1314-1317 *) ("class_expression_2_list", ["class_expression_list"; "class_expression"],
     [SMove 1; SPush 2]);
   (* 1321-1325 *) ("data_property_expression_list", ["data_property_expression"],
     [SVector; SCheck; SPush 1]);
   (* 1326-1329 *) ("data_property_expression_list", ["data_property_expression_list"; "data_property_expression"],
     [SMove 1; SPush 2]);
   (* 1333-1336 *) ("data_property_expression_2_list", ["data_property_expression_list"; "data_property_expression"],
     [SMove 1; SPush 2]);
   (* 1340-1342 *) ("data_property_expression_star", [],
     [SNull]);
   (* 1343-1351 *) ("data_property_expression_star", ["data_property_expression_star"; "data_property_expression"],
     [SVectorUnless 1; SPush 2]);
   (* 1355-1359 *) ("data_range_list", ["data_range"],
     [SVector; SCheck; SPush 1]);
   (* 1360-1363 *) ("data_range_list", ["data_range_list"; "data_range"],
     [SMove 1; SPush 2]);
   (* 1367-1370 *) ("data_range_2_list", ["data_range_list"; "data_range"],
     [SMove 1; SPush 2]);
   (* 1374-1378 *) ("facet_restriction_list", ["facet_restriction"],
     [SVector; SCheck; SPush 1]);
   (* 1379-1382 *) ("facet_restriction_list", ["facet_restriction_list"; "facet_restriction"],
     [SMove 1; SPush 2]);
   (* 1386-1390 *) ("individual_list", ["individual"],
     [SVector; SCheck; SPush 1]);
   (* 1391-1394 *) ("individual_list", ["individual_list"; "individual"],
     [SMove 1; SPush 2]);
   (* 1398-1401 *) ("individual_2_list", ["individual_list"; "individual"],
     [SMove 1; SPush 2]);
   (* 1405-1409 *) ("literal_list", ["literal"],
     [SVector; SCheck; SPush 1]);
   (* 1410-1413 *) ("literal_list", ["literal_list"; "literal"],
     [SMove 1; SPush 2]);
   (* 1417-1421 *) ("object_property_expression_list", ["object_property_expression"],
     [SVector; SCheck; SPush 1]);
   (* 1422-1425 *) ("object_property_expression_list", ["object_property_expression_list"; "object_property_expression"],
     [SMove 1; SPush 2]);
   (* 1429-1432 *) ("object_property_expression_2_list", ["object_property_expression_list"; "object_property_expression"],
     [SMove 1; SPush 2]);
   (* 1436-1438 *) ("object_property_expression_star", [],
     [SNull]);
   (* 1439-1447 *) ("object_property_expression_star", ["object_property_expression_star"; "object_property_expression"],
     [SVectorUnless 1; SPush 2])].
