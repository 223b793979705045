(** Object types and their static descriptors.

    Models include/cowl_object_type.h (the enum), the [type_flags] table of
    src/cowl_object.c:66-145 and the kind predicates of src/cowl_object.c:200-235. *)

From Coq Require Import NArith List Bool.
Import ListNotations.
Local Open Scope N_scope.

(** include/cowl_object_type.h:25-313: the constructors are listed in enum order,
    [OT_X] stands for [COWL_OT_X]. *)
Inductive otype : Set :=
| OT_STRING
| OT_VECTOR
| OT_TABLE
| OT_IRI
| OT_LITERAL
| OT_FACET_RESTR
| OT_ONTOLOGY
| OT_PREFIX_MAP
| OT_READER
| OT_WRITER
| OT_ANNOTATION
| OT_ANNOT_PROP
| OT_A_DECL
| OT_A_SUB_CLASS
| OT_A_EQUIV_CLASSES
| OT_A_DISJ_CLASSES
| OT_A_DISJ_UNION
| OT_A_SUB_OBJ_PROP
| OT_A_EQUIV_OBJ_PROP
| OT_A_DISJ_OBJ_PROP
| OT_A_INV_OBJ_PROP
| OT_A_OBJ_PROP_DOMAIN
| OT_A_OBJ_PROP_RANGE
| OT_A_FUNC_OBJ_PROP
| OT_A_INV_FUNC_OBJ_PROP
| OT_A_REFL_OBJ_PROP
| OT_A_IRREFL_OBJ_PROP
| OT_A_SYMM_OBJ_PROP
| OT_A_ASYMM_OBJ_PROP
| OT_A_TRANS_OBJ_PROP
| OT_A_SUB_DATA_PROP
| OT_A_EQUIV_DATA_PROP
| OT_A_DISJ_DATA_PROP
| OT_A_DATA_PROP_DOMAIN
| OT_A_DATA_PROP_RANGE
| OT_A_FUNC_DATA_PROP
| OT_A_DATATYPE_DEF
| OT_A_HAS_KEY
| OT_A_SAME_IND
| OT_A_DIFF_IND
| OT_A_CLASS_ASSERT
| OT_A_OBJ_PROP_ASSERT
| OT_A_NEG_OBJ_PROP_ASSERT
| OT_A_DATA_PROP_ASSERT
| OT_A_NEG_DATA_PROP_ASSERT
| OT_A_ANNOT_ASSERT
| OT_A_SUB_ANNOT_PROP
| OT_A_ANNOT_PROP_DOMAIN
| OT_A_ANNOT_PROP_RANGE
| OT_CE_CLASS
| OT_CE_OBJ_INTERSECT
| OT_CE_OBJ_UNION
| OT_CE_OBJ_COMPL
| OT_CE_OBJ_ONE_OF
| OT_CE_OBJ_SOME
| OT_CE_OBJ_ALL
| OT_CE_OBJ_HAS_VALUE
| OT_CE_OBJ_HAS_SELF
| OT_CE_OBJ_MIN_CARD
| OT_CE_OBJ_MAX_CARD
| OT_CE_OBJ_EXACT_CARD
| OT_CE_DATA_SOME
| OT_CE_DATA_ALL
| OT_CE_DATA_HAS_VALUE
| OT_CE_DATA_MIN_CARD
| OT_CE_DATA_MAX_CARD
| OT_CE_DATA_EXACT_CARD
| OT_DR_DATATYPE
| OT_DR_DATA_INTERSECT
| OT_DR_DATA_UNION
| OT_DR_DATA_COMPL
| OT_DR_DATA_ONE_OF
| OT_DR_DATATYPE_RESTR
| OT_OPE_OBJ_PROP
| OT_OPE_INV_OBJ_PROP
| OT_DPE_DATA_PROP
| OT_I_NAMED
| OT_I_ANONYMOUS.

(** include/cowl_object_type.h:25-313: numeric value of the enum constants. *)
Definition otype_num (t : otype) : N :=
  match t with
  | OT_STRING => 0
  | OT_VECTOR => 1
  | OT_TABLE => 2
  | OT_IRI => 3
  | OT_LITERAL => 4
  | OT_FACET_RESTR => 5
  | OT_ONTOLOGY => 6
  | OT_PREFIX_MAP => 7
  | OT_READER => 8
  | OT_WRITER => 9
  | OT_ANNOTATION => 10
  | OT_ANNOT_PROP => 11
  | OT_A_DECL => 12
  | OT_A_SUB_CLASS => 13
  | OT_A_EQUIV_CLASSES => 14
  | OT_A_DISJ_CLASSES => 15
  | OT_A_DISJ_UNION => 16
  | OT_A_SUB_OBJ_PROP => 17
  | OT_A_EQUIV_OBJ_PROP => 18
  | OT_A_DISJ_OBJ_PROP => 19
  | OT_A_INV_OBJ_PROP => 20
  | OT_A_OBJ_PROP_DOMAIN => 21
  | OT_A_OBJ_PROP_RANGE => 22
  | OT_A_FUNC_OBJ_PROP => 23
  | OT_A_INV_FUNC_OBJ_PROP => 24
  | OT_A_REFL_OBJ_PROP => 25
  | OT_A_IRREFL_OBJ_PROP => 26
  | OT_A_SYMM_OBJ_PROP => 27
  | OT_A_ASYMM_OBJ_PROP => 28
  | OT_A_TRANS_OBJ_PROP => 29
  | OT_A_SUB_DATA_PROP => 30
  | OT_A_EQUIV_DATA_PROP => 31
  | OT_A_DISJ_DATA_PROP => 32
  | OT_A_DATA_PROP_DOMAIN => 33
  | OT_A_DATA_PROP_RANGE => 34
  | OT_A_FUNC_DATA_PROP => 35
  | OT_A_DATATYPE_DEF => 36
  | OT_A_HAS_KEY => 37
  | OT_A_SAME_IND => 38
  | OT_A_DIFF_IND => 39
  | OT_A_CLASS_ASSERT => 40
  | OT_A_OBJ_PROP_ASSERT => 41
  | OT_A_NEG_OBJ_PROP_ASSERT => 42
  | OT_A_DATA_PROP_ASSERT => 43
  | OT_A_NEG_DATA_PROP_ASSERT => 44
  | OT_A_ANNOT_ASSERT => 45
  | OT_A_SUB_ANNOT_PROP => 46
  | OT_A_ANNOT_PROP_DOMAIN => 47
  | OT_A_ANNOT_PROP_RANGE => 48
  | OT_CE_CLASS => 49
  | OT_CE_OBJ_INTERSECT => 50
  | OT_CE_OBJ_UNION => 51
  | OT_CE_OBJ_COMPL => 52
  | OT_CE_OBJ_ONE_OF => 53
  | OT_CE_OBJ_SOME => 54
  | OT_CE_OBJ_ALL => 55
  | OT_CE_OBJ_HAS_VALUE => 56
  | OT_CE_OBJ_HAS_SELF => 57
  | OT_CE_OBJ_MIN_CARD => 58
  | OT_CE_OBJ_MAX_CARD => 59
  | OT_CE_OBJ_EXACT_CARD => 60
  | OT_CE_DATA_SOME => 61
  | OT_CE_DATA_ALL => 62
  | OT_CE_DATA_HAS_VALUE => 63
  | OT_CE_DATA_MIN_CARD => 64
  | OT_CE_DATA_MAX_CARD => 65
  | OT_CE_DATA_EXACT_CARD => 66
  | OT_DR_DATATYPE => 67
  | OT_DR_DATA_INTERSECT => 68
  | OT_DR_DATA_UNION => 69
  | OT_DR_DATA_COMPL => 70
  | OT_DR_DATA_ONE_OF => 71
  | OT_DR_DATATYPE_RESTR => 72
  | OT_OPE_OBJ_PROP => 73
  | OT_OPE_INV_OBJ_PROP => 74
  | OT_DPE_DATA_PROP => 75
  | OT_I_NAMED => 76
  | OT_I_ANONYMOUS => 77
  end.

(** include/cowl_object_type.h:25-313: the enum constants in order ([COWL_OT_COUNT] of them). *)
Definition all_otypes : list otype :=
  [ OT_STRING; OT_VECTOR; OT_TABLE; OT_IRI; OT_LITERAL; OT_FACET_RESTR; OT_ONTOLOGY; OT_PREFIX_MAP; OT_READER; OT_WRITER; OT_ANNOTATION; OT_ANNOT_PROP; OT_A_DECL; OT_A_SUB_CLASS; OT_A_EQUIV_CLASSES; OT_A_DISJ_CLASSES; OT_A_DISJ_UNION; OT_A_SUB_OBJ_PROP; OT_A_EQUIV_OBJ_PROP; OT_A_DISJ_OBJ_PROP; OT_A_INV_OBJ_PROP; OT_A_OBJ_PROP_DOMAIN; OT_A_OBJ_PROP_RANGE; OT_A_FUNC_OBJ_PROP; OT_A_INV_FUNC_OBJ_PROP; OT_A_REFL_OBJ_PROP; OT_A_IRREFL_OBJ_PROP; OT_A_SYMM_OBJ_PROP; OT_A_ASYMM_OBJ_PROP; OT_A_TRANS_OBJ_PROP; OT_A_SUB_DATA_PROP; OT_A_EQUIV_DATA_PROP; OT_A_DISJ_DATA_PROP; OT_A_DATA_PROP_DOMAIN; OT_A_DATA_PROP_RANGE; OT_A_FUNC_DATA_PROP; OT_A_DATATYPE_DEF; OT_A_HAS_KEY; OT_A_SAME_IND; OT_A_DIFF_IND; OT_A_CLASS_ASSERT; OT_A_OBJ_PROP_ASSERT; OT_A_NEG_OBJ_PROP_ASSERT; OT_A_DATA_PROP_ASSERT; OT_A_NEG_DATA_PROP_ASSERT; OT_A_ANNOT_ASSERT; OT_A_SUB_ANNOT_PROP; OT_A_ANNOT_PROP_DOMAIN; OT_A_ANNOT_PROP_RANGE; OT_CE_CLASS; OT_CE_OBJ_INTERSECT; OT_CE_OBJ_UNION; OT_CE_OBJ_COMPL; OT_CE_OBJ_ONE_OF; OT_CE_OBJ_SOME; OT_CE_OBJ_ALL; OT_CE_OBJ_HAS_VALUE; OT_CE_OBJ_HAS_SELF; OT_CE_OBJ_MIN_CARD; OT_CE_OBJ_MAX_CARD; OT_CE_OBJ_EXACT_CARD; OT_CE_DATA_SOME; OT_CE_DATA_ALL; OT_CE_DATA_HAS_VALUE; OT_CE_DATA_MIN_CARD; OT_CE_DATA_MAX_CARD; OT_CE_DATA_EXACT_CARD; OT_DR_DATATYPE; OT_DR_DATA_INTERSECT; OT_DR_DATA_UNION; OT_DR_DATA_COMPL; OT_DR_DATA_ONE_OF; OT_DR_DATATYPE_RESTR; OT_OPE_OBJ_PROP; OT_OPE_INV_OBJ_PROP; OT_DPE_DATA_PROP; OT_I_NAMED; OT_I_ANONYMOUS ].

(** Conversion from an integer to the enum, as done implicitly by C casts such as
    src/cowl_entity.c and the decoder; out-of-range integers have no counterpart. *)
Definition otype_of_num (n : N) : option otype := nth_error all_otypes (N.to_nat n).

(** C comparison [==] of two enum values. *)
Definition otype_eqb (a b : otype) : bool := otype_num a =? otype_num b.

(** src/cowl_object.c:58-64: one byte of type flags, as a record of its bit fields
    (FC = field count, P, E, C). *)
Record tflags := mkTF { tf_count : nat; tf_primitive : bool; tf_entity : bool; tf_card : bool }.

(** src/cowl_object.c:59 TF_NONE *)
Definition TF_NONE : tflags := mkTF 0 false false false.
(** src/cowl_object.c:56 TF_FC *)
Definition TF_FC (n : nat) : tflags := mkTF n false false false.
(** src/cowl_object.c:61,70 TF_PRIMITIVE *)
Definition TF_PRIM : tflags := mkTF 0 true false false.
(** src/cowl_object.c:61-62,78 TF_PRIMITIVE | TF_ENTITY *)
Definition TF_ENT : tflags := mkTF 0 true true false.
(** src/cowl_object.c:125 TF_FC(1) | TF_CARD_RESTR *)
Definition TF_CARD (n : nat) : tflags := mkTF n false false true.

(** src/cowl_object.c:66-145 *)
Definition type_flags (t : otype) : tflags :=
  match t with
  | OT_STRING => TF_NONE
  | OT_VECTOR => TF_NONE
  | OT_TABLE => TF_NONE
  | OT_IRI => TF_PRIM
  | OT_LITERAL => TF_NONE
  | OT_FACET_RESTR => TF_FC 2
  | OT_ONTOLOGY => TF_NONE
  | OT_PREFIX_MAP => TF_NONE
  | OT_READER => TF_NONE
  | OT_WRITER => TF_NONE
  | OT_ANNOTATION => TF_FC 2
  | OT_ANNOT_PROP => TF_ENT
  | OT_A_DECL => TF_FC 1
  | OT_A_SUB_CLASS => TF_FC 2
  | OT_A_EQUIV_CLASSES => TF_FC 1
  | OT_A_DISJ_CLASSES => TF_FC 1
  | OT_A_DISJ_UNION => TF_FC 2
  | OT_A_SUB_OBJ_PROP => TF_FC 2
  | OT_A_EQUIV_OBJ_PROP => TF_FC 1
  | OT_A_DISJ_OBJ_PROP => TF_FC 1
  | OT_A_INV_OBJ_PROP => TF_FC 2
  | OT_A_OBJ_PROP_DOMAIN => TF_FC 2
  | OT_A_OBJ_PROP_RANGE => TF_FC 2
  | OT_A_FUNC_OBJ_PROP => TF_FC 1
  | OT_A_INV_FUNC_OBJ_PROP => TF_FC 1
  | OT_A_REFL_OBJ_PROP => TF_FC 1
  | OT_A_IRREFL_OBJ_PROP => TF_FC 1
  | OT_A_SYMM_OBJ_PROP => TF_FC 1
  | OT_A_ASYMM_OBJ_PROP => TF_FC 1
  | OT_A_TRANS_OBJ_PROP => TF_FC 1
  | OT_A_SUB_DATA_PROP => TF_FC 2
  | OT_A_EQUIV_DATA_PROP => TF_FC 1
  | OT_A_DISJ_DATA_PROP => TF_FC 1
  | OT_A_DATA_PROP_DOMAIN => TF_FC 2
  | OT_A_DATA_PROP_RANGE => TF_FC 2
  | OT_A_FUNC_DATA_PROP => TF_FC 1
  | OT_A_DATATYPE_DEF => TF_FC 2
  | OT_A_HAS_KEY => TF_FC 3
  | OT_A_SAME_IND => TF_FC 1
  | OT_A_DIFF_IND => TF_FC 1
  | OT_A_CLASS_ASSERT => TF_FC 2
  | OT_A_OBJ_PROP_ASSERT => TF_FC 3
  | OT_A_NEG_OBJ_PROP_ASSERT => TF_FC 3
  | OT_A_DATA_PROP_ASSERT => TF_FC 3
  | OT_A_NEG_DATA_PROP_ASSERT => TF_FC 3
  | OT_A_ANNOT_ASSERT => TF_FC 3
  | OT_A_SUB_ANNOT_PROP => TF_FC 2
  | OT_A_ANNOT_PROP_DOMAIN => TF_FC 2
  | OT_A_ANNOT_PROP_RANGE => TF_FC 2
  | OT_CE_CLASS => TF_ENT
  | OT_CE_OBJ_INTERSECT => TF_FC 1
  | OT_CE_OBJ_UNION => TF_FC 1
  | OT_CE_OBJ_COMPL => TF_FC 1
  | OT_CE_OBJ_ONE_OF => TF_FC 1
  | OT_CE_OBJ_SOME => TF_FC 1
  | OT_CE_OBJ_ALL => TF_FC 1
  | OT_CE_OBJ_HAS_VALUE => TF_FC 2
  | OT_CE_OBJ_HAS_SELF => TF_FC 1
  | OT_CE_OBJ_MIN_CARD => TF_CARD 1
  | OT_CE_OBJ_MAX_CARD => TF_CARD 1
  | OT_CE_OBJ_EXACT_CARD => TF_CARD 1
  | OT_CE_DATA_SOME => TF_FC 1
  | OT_CE_DATA_ALL => TF_FC 1
  | OT_CE_DATA_HAS_VALUE => TF_FC 2
  | OT_CE_DATA_MIN_CARD => TF_CARD 1
  | OT_CE_DATA_MAX_CARD => TF_CARD 1
  | OT_CE_DATA_EXACT_CARD => TF_CARD 1
  | OT_DR_DATATYPE => TF_ENT
  | OT_DR_DATA_INTERSECT => TF_FC 1
  | OT_DR_DATA_UNION => TF_FC 1
  | OT_DR_DATA_COMPL => TF_FC 1
  | OT_DR_DATA_ONE_OF => TF_FC 1
  | OT_DR_DATATYPE_RESTR => TF_FC 2
  | OT_OPE_OBJ_PROP => TF_ENT
  | OT_OPE_INV_OBJ_PROP => TF_FC 1
  | OT_DPE_DATA_PROP => TF_ENT
  | OT_I_NAMED => TF_ENT
  | OT_I_ANONYMOUS => TF_PRIM
  end.

(** src/cowl_object.c:147 type_flag_is_special *)
Definition type_is_special (t : otype) : bool :=
  let f := type_flags t in
  Nat.eqb (tf_count f) 0 && negb (tf_primitive f) && negb (tf_entity f) && negb (tf_card f).
(** src/cowl_object.c:153,200-202 *)
Definition type_is_primitive (t : otype) : bool := tf_primitive (type_flags t).
(** src/cowl_object.c:154,204-206 *)
Definition type_is_entity (t : otype) : bool := tf_entity (type_flags t).
(** src/cowl_object.c:150 *)
Definition type_is_card (t : otype) : bool := tf_card (type_flags t).
(** src/cowl_object.c:155 *)
Definition type_field_count (t : otype) : nat := tf_count (type_flags t).

(** C range test [lo <= t && t <= hi] on enum values, used by src/cowl_object.c:208-235. *)
Definition type_between (lo hi t : otype) : bool :=
  (otype_num lo <=? otype_num t) && (otype_num t <=? otype_num hi).

(** src/cowl_object.c:208-211; COWL_OT_FIRST_A, COWL_OT_LAST_A of include/cowl_object_type.h *)
Definition type_is_axiom (t : otype) : bool := type_between OT_A_DECL OT_A_ANNOT_PROP_RANGE t.
(** src/cowl_object.c:213-216 *)
Definition type_is_cls_exp (t : otype) : bool := type_between OT_CE_CLASS OT_CE_DATA_EXACT_CARD t.
(** src/cowl_object.c:218-221 *)
Definition type_is_obj_prop_exp (t : otype) : bool := type_between OT_OPE_OBJ_PROP OT_OPE_INV_OBJ_PROP t.
(** src/cowl_object.c:223-225 *)
Definition type_is_data_prop_exp (t : otype) : bool := otype_eqb t OT_DPE_DATA_PROP.
(** src/cowl_object.c:227-230 *)
Definition type_is_individual (t : otype) : bool := type_between OT_I_NAMED OT_I_ANONYMOUS t.
(** src/cowl_object.c:232-235 *)
Definition type_is_data_range (t : otype) : bool := type_between OT_DR_DATATYPE OT_DR_DATATYPE_RESTR t.

(** include/cowl_axiom_type.h and include/cowl_axiom.h (cowl_axiom_get_type): an axiom type is the
    offset of the object type from COWL_OT_FIRST_A. *)
Definition axiom_type_num (t : otype) : N := otype_num t - otype_num OT_A_DECL.

(** include/cowl_axiom_type.h: COWL_AT_COUNT *)
Definition AT_COUNT : N := 37.

(** include/cowl_entity_type.h:20-41 *)
Inductive etype : Set := ET_CLASS | ET_DATATYPE | ET_OBJ_PROP | ET_DATA_PROP | ET_ANNOT_PROP | ET_NAMED_IND.

(** include/cowl_entity_type.h:20-41: numeric values. *)
Definition etype_num (e : etype) : N :=
  match e with
  | ET_CLASS => 0 | ET_DATATYPE => 1 | ET_OBJ_PROP => 2 | ET_DATA_PROP => 3 | ET_ANNOT_PROP => 4 | ET_NAMED_IND => 5
  end.

(** include/cowl_entity_type.h:20-41: the constants in order. *)
Definition all_etypes : list etype :=
  [ ET_CLASS; ET_DATATYPE; ET_OBJ_PROP; ET_DATA_PROP; ET_ANNOT_PROP; ET_NAMED_IND ].

(** Object type of an entity of the given entity type: src/cowl_entity.c (the six wrappers that call
    cowl_entity_get_impl with COWL_OT_CE_CLASS, COWL_OT_DR_DATATYPE, ...). *)
Definition etype_otype (e : etype) : otype :=
  match e with
  | ET_CLASS => OT_CE_CLASS | ET_DATATYPE => OT_DR_DATATYPE | ET_OBJ_PROP => OT_OPE_OBJ_PROP
  | ET_DATA_PROP => OT_DPE_DATA_PROP | ET_ANNOT_PROP => OT_ANNOT_PROP | ET_NAMED_IND => OT_I_NAMED
  end.

(** src/cowl_entity.c:120-129 cowl_entity_get_type, on the object type. *)
Definition entity_get_type (t : otype) : etype :=
  match t with
  | OT_CE_CLASS => ET_CLASS | OT_OPE_OBJ_PROP => ET_OBJ_PROP | OT_DPE_DATA_PROP => ET_DATA_PROP
  | OT_I_NAMED => ET_NAMED_IND | OT_DR_DATATYPE => ET_DATATYPE | _ => ET_ANNOT_PROP
  end.

(** include/cowl_primitive_type.h:20-47 *)
Inductive ptype : Set := PT_ENT (e : etype) | PT_ANON_IND | PT_IRI.

(** include/cowl_primitive_type.h:20-47: numeric values (the entity types come first, in the same order). *)
Definition ptype_num (p : ptype) : N :=
  match p with PT_ENT e => etype_num e | PT_ANON_IND => 6 | PT_IRI => 7 end.

(** include/cowl_primitive_type.h:20-47: the constants in order. *)
Definition all_ptypes : list ptype := map PT_ENT all_etypes ++ [ PT_ANON_IND; PT_IRI ].

(** src/cowl_primitive.c:15-26 cowl_primitive_get_type, on the object type. *)
Definition primitive_get_type (t : otype) : ptype :=
  match t with
  | OT_IRI => PT_IRI | OT_CE_CLASS => PT_ENT ET_CLASS | OT_OPE_OBJ_PROP => PT_ENT ET_OBJ_PROP
  | OT_I_NAMED => PT_ENT ET_NAMED_IND | OT_I_ANONYMOUS => PT_ANON_IND
  | OT_DPE_DATA_PROP => PT_ENT ET_DATA_PROP | OT_DR_DATATYPE => PT_ENT ET_DATATYPE
  | _ => PT_ENT ET_ANNOT_PROP
  end.
