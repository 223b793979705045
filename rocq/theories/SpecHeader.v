(** Specification of the header word and of the type classification. *)

From Coq Require Import NArith List Bool Sorted.
From Verif Require Import ModelTypes ModelHeader.
Import ListNotations.
Local Open Scope N_scope.

(** What a header word stands for: object type, flag, number of references. *)
Record header := mkHdr { h_type : N; h_bit : bool; h_refs : N }.

(** Largest number of references, documented in src/cowl_object_flags.h:26-30. *)
Definition max_refs (huge : bool) : N := if huge then 2 ^ 56 - 1 else 2 ^ 24 - 1.

(** The header after one more operation; no meaning outside the documented limits. *)
Inductive h_step (huge : bool) : header -> hop -> header -> Prop :=
| hs_retain t b n : n < max_refs huge -> h_step huge (mkHdr t b n) HRetain (mkHdr t b (n + 1))
| hs_release t b n : h_step huge (mkHdr t b (n + 1)) HRelease (mkHdr t b n)
| hs_set t b n : h_step huge (mkHdr t b n) HSetBit (mkHdr t true n)
| hs_unset t b n : h_step huge (mkHdr t b n) HUnsetBit (mkHdr t false n).

(** A history of operations within the limits. *)
Inductive h_run (huge : bool) : header -> list hop -> header -> Prop :=
| hr_nil h : h_run huge h [] h
| hr_cons h op h' ops h'' : h_step huge h op h' -> h_run huge h' ops h'' -> h_run huge h (op :: ops) h''.

(** The word shows this header to every getter. *)
Definition shows (huge : bool) (f : N) (h : header) : Prop :=
  hd_get_type huge f = h_type h /\ hd_get_bit huge f = h_bit h /\ hd_get_ref huge f = h_refs h.

(** A type number belongs to a set of axiom types. *)
Definition in_set (flags t : N) : Prop := N.testbit flags t = true.

(** The axioms of OWL 2, in the order of include/cowl_axiom_type.h. *)
Definition axiom_types : list otype :=
  [OT_A_DECL; OT_A_SUB_CLASS; OT_A_EQUIV_CLASSES; OT_A_DISJ_CLASSES; OT_A_DISJ_UNION;
   OT_A_SUB_OBJ_PROP; OT_A_EQUIV_OBJ_PROP; OT_A_DISJ_OBJ_PROP; OT_A_INV_OBJ_PROP;
   OT_A_OBJ_PROP_DOMAIN; OT_A_OBJ_PROP_RANGE; OT_A_FUNC_OBJ_PROP; OT_A_INV_FUNC_OBJ_PROP;
   OT_A_REFL_OBJ_PROP; OT_A_IRREFL_OBJ_PROP; OT_A_SYMM_OBJ_PROP; OT_A_ASYMM_OBJ_PROP;
   OT_A_TRANS_OBJ_PROP; OT_A_SUB_DATA_PROP; OT_A_EQUIV_DATA_PROP; OT_A_DISJ_DATA_PROP;
   OT_A_DATA_PROP_DOMAIN; OT_A_DATA_PROP_RANGE; OT_A_FUNC_DATA_PROP; OT_A_DATATYPE_DEF;
   OT_A_HAS_KEY; OT_A_SAME_IND; OT_A_DIFF_IND; OT_A_CLASS_ASSERT; OT_A_OBJ_PROP_ASSERT;
   OT_A_NEG_OBJ_PROP_ASSERT; OT_A_DATA_PROP_ASSERT; OT_A_NEG_DATA_PROP_ASSERT;
   OT_A_ANNOT_ASSERT; OT_A_SUB_ANNOT_PROP; OT_A_ANNOT_PROP_DOMAIN; OT_A_ANNOT_PROP_RANGE].
(** Class expressions, in the order of include/cowl_cls_exp_type.h. *)
Definition cls_exp_types : list otype :=
  [OT_CE_CLASS; OT_CE_OBJ_INTERSECT; OT_CE_OBJ_UNION; OT_CE_OBJ_COMPL; OT_CE_OBJ_ONE_OF;
   OT_CE_OBJ_SOME; OT_CE_OBJ_ALL; OT_CE_OBJ_HAS_VALUE; OT_CE_OBJ_HAS_SELF; OT_CE_OBJ_MIN_CARD;
   OT_CE_OBJ_MAX_CARD; OT_CE_OBJ_EXACT_CARD; OT_CE_DATA_SOME; OT_CE_DATA_ALL; OT_CE_DATA_HAS_VALUE;
   OT_CE_DATA_MIN_CARD; OT_CE_DATA_MAX_CARD; OT_CE_DATA_EXACT_CARD].
(** Data ranges, in the order of include/cowl_data_range_type.h. *)
Definition data_range_types : list otype :=
  [OT_DR_DATATYPE; OT_DR_DATA_INTERSECT; OT_DR_DATA_UNION; OT_DR_DATA_COMPL; OT_DR_DATA_ONE_OF;
   OT_DR_DATATYPE_RESTR].
(** Object property expressions. *)
Definition obj_prop_exp_types : list otype := [OT_OPE_OBJ_PROP; OT_OPE_INV_OBJ_PROP].
(** Individuals. *)
Definition individual_types : list otype := [OT_I_NAMED; OT_I_ANONYMOUS].
(** Entities: things named by an IRI. *)
Definition entity_types : list otype :=
  [OT_CE_CLASS; OT_DR_DATATYPE; OT_OPE_OBJ_PROP; OT_DPE_DATA_PROP; OT_ANNOT_PROP; OT_I_NAMED].
(** Primitives: entities, anonymous individuals and IRIs. *)
Definition primitive_types : list otype := entity_types ++ [OT_I_ANONYMOUS; OT_IRI].

(** The predicate [f] on object types is membership in [l]. *)
Definition exactly (f : otype -> bool) (l : list otype) : Prop := forall t, f t = true <-> In t l.

(** The constructor argument [k] of a family starting at [first], with [n] members listed in [l]: the
    constructed type is the [k]-th one and the getter [get] gives [k] back. *)
Definition inverts (get : otype -> N) (first : otype) (l : list otype) : Prop :=
  forall k, k < N.of_nat (length l) ->
  exists t, nth_error l (N.to_nat k) = Some t /\ family_type first k = Some t /\ get t = k.

(** Annotation values, in the order of include/cowl_annot_value_type.h. *)
Definition annot_value_types : list otype := [OT_IRI; OT_LITERAL; OT_I_ANONYMOUS].
