(** Properties C12, C49, C50: header word, sets of axiom types, classification of object types.
    Statements use ModelTypes.v / ModelHeader.v for the library functions and SpecHeader.v for their
    meaning. *)

From Coq Require Import NArith List Bool Sorted.
From Verif Require Import ModelTypes ModelHeader SpecHeader ProofHeader.
Import ListNotations.
Local Open Scope N_scope.

(** ** C12 *)

Theorem C12_header_fields_are_independent : forall huge t b ops h,
  t < 128 -> h_run huge (mkHdr t b 1) ops h -> shows huge (hd_run huge (hd_init huge t b) ops) h.
Proof. exact header_refines. Qed.
Print Assumptions C12_header_fields_are_independent.

(** The limit is sharp: one reference too many reads as no reference, and the flag is flipped. *)
Theorem C12_one_reference_too_many : forall huge t b ops t' b',
  t < 128 -> h_run huge (mkHdr t b 1) ops (mkHdr t' b' (max_refs huge)) ->
  shows huge (hd_run huge (hd_init huge t b) (ops ++ [HRetain]))
    (mkHdr (if b' then (t' + 1) mod 128 else t') (negb b') 0).
Proof. exact header_limit. Qed.
Print Assumptions C12_one_reference_too_many.

Theorem C12_every_type_fits : forall t, otype_num t < 128.
Proof. exact otype_num_small. Qed.
Print Assumptions C12_every_type_fits.

Example C12_case : h_run false (mkHdr (otype_num OT_I_ANONYMOUS) false 1)
  [HRetain; HSetBit; HRetain; HRelease; HUnsetBit; HSetBit; HRelease; HRelease]
  (mkHdr (otype_num OT_I_ANONYMOUS) true 0).
Proof. exact ex_h_run. Qed.
Example C12_case_limit : forall huge t b,
  h_run huge (mkHdr t b 1) (repeat HRetain (N.to_nat (max_refs huge - 1))) (mkHdr t b (max_refs huge)).
Proof. exact ex_h_limit. Qed.

(** ** C49 *)

Theorem C49_iteration_visits_the_set : forall flags, exists l, foreach_types flags = Some l /\
  (forall t, In t l <-> in_set flags t /\ t < 37) /\ StronglySorted N.lt l.
Proof. exact foreach_types_spec. Qed.
Print Assumptions C49_iteration_visits_the_set.

Theorem C49_universal_set : forall t, in_set AF_ALL t <-> t < 37.
Proof. exact af_all_spec. Qed.
Print Assumptions C49_universal_set.

Theorem C49_set_operations : forall flags t u,
  (af_has flags t = true <-> in_set flags t) /\
  (in_set (af_add flags t) u <-> in_set flags u \/ u = t) /\
  (in_set (af_remove flags t) u <-> in_set flags u /\ u <> t).
Proof. exact (fun flags t u => conj (af_has_spec flags t) (conj (af_add_spec flags t u) (af_remove_spec flags t u))). Qed.
Print Assumptions C49_set_operations.

Theorem C49_all_and_none : forall flags,
  (af_has_all flags = true <-> forall t, t < 37 -> in_set flags t) /\
  (af_has_none flags = true <-> forall t, t < 37 -> ~ in_set flags t).
Proof. exact (fun flags => conj (af_has_all_spec flags) (af_has_none_spec flags)). Qed.
Print Assumptions C49_all_and_none.

Example C49_case : foreach_types (af_add (af_add AF_NONE 36) 1) = Some [1; 36] /\ foreach_types 0 = Some [] /\
  foreach_types (2 ^ 40 + 1) = Some [0].
Proof. exact ex_foreach. Qed.

(** ** C50 *)

Theorem C50_kind_predicates :
  exactly type_is_axiom axiom_types /\ exactly type_is_cls_exp cls_exp_types /\
  exactly type_is_data_range data_range_types /\ exactly type_is_obj_prop_exp obj_prop_exp_types /\
  exactly type_is_data_prop_exp [OT_DPE_DATA_PROP] /\ exactly type_is_individual individual_types /\
  exactly type_is_entity entity_types /\ exactly type_is_primitive primitive_types.
Proof. exact kinds_exact. Qed.
Print Assumptions C50_kind_predicates.

Theorem C50_type_getters :
  inverts axiom_type_num OT_A_DECL axiom_types /\
  inverts cls_exp_get_type OT_CE_CLASS cls_exp_types /\
  inverts data_range_get_type OT_DR_DATATYPE data_range_types /\
  inverts obj_card_get_type OT_CE_OBJ_MIN_CARD [OT_CE_OBJ_MIN_CARD; OT_CE_OBJ_MAX_CARD; OT_CE_OBJ_EXACT_CARD] /\
  inverts data_card_get_type OT_CE_DATA_MIN_CARD [OT_CE_DATA_MIN_CARD; OT_CE_DATA_MAX_CARD; OT_CE_DATA_EXACT_CARD] /\
  inverts obj_quant_get_type OT_CE_OBJ_SOME [OT_CE_OBJ_SOME; OT_CE_OBJ_ALL] /\
  inverts data_quant_get_type OT_CE_DATA_SOME [OT_CE_DATA_SOME; OT_CE_DATA_ALL] /\
  inverts nary_cls_get_type OT_CE_OBJ_INTERSECT [OT_CE_OBJ_INTERSECT; OT_CE_OBJ_UNION] /\
  inverts nary_data_get_type OT_DR_DATA_INTERSECT [OT_DR_DATA_INTERSECT; OT_DR_DATA_UNION] /\
  inverts nary_cls_axiom_get_type OT_A_EQUIV_CLASSES [OT_A_EQUIV_CLASSES; OT_A_DISJ_CLASSES] /\
  inverts nary_obj_prop_axiom_get_type OT_A_EQUIV_OBJ_PROP [OT_A_EQUIV_OBJ_PROP; OT_A_DISJ_OBJ_PROP] /\
  inverts nary_data_prop_axiom_get_type OT_A_EQUIV_DATA_PROP [OT_A_EQUIV_DATA_PROP; OT_A_DISJ_DATA_PROP] /\
  inverts nary_ind_axiom_get_type OT_A_SAME_IND [OT_A_SAME_IND; OT_A_DIFF_IND] /\
  inverts char_axiom_get_type OT_A_FUNC_OBJ_PROP
    [OT_A_FUNC_OBJ_PROP; OT_A_INV_FUNC_OBJ_PROP; OT_A_REFL_OBJ_PROP; OT_A_IRREFL_OBJ_PROP;
     OT_A_SYMM_OBJ_PROP; OT_A_ASYMM_OBJ_PROP; OT_A_TRANS_OBJ_PROP].
Proof. exact getters_invert. Qed.
Print Assumptions C50_type_getters.

Theorem C50_entity_types : forall e,
  entity_get_type (etype_otype e) = e /\ primitive_get_type (etype_otype e) = PT_ENT e /\
  In (etype_otype e) entity_types.
Proof. exact entity_getters. Qed.
Print Assumptions C50_entity_types.

Theorem C50_primitive_types : forall t, In t primitive_types ->
  (t = OT_IRI /\ primitive_get_type t = PT_IRI) \/ (t = OT_I_ANONYMOUS /\ primitive_get_type t = PT_ANON_IND) \/
  (exists e, t = etype_otype e /\ primitive_get_type t = PT_ENT e).
Proof. exact primitive_getter. Qed.
Print Assumptions C50_primitive_types.

Theorem C50_annot_value_types : forall k t,
  nth_error annot_value_types k = Some t -> annot_value_get_type t = N.of_nat k.
Proof. exact annot_value_getter. Qed.
Print Assumptions C50_annot_value_types.

Example C50_case : In OT_A_HAS_KEY axiom_types /\ ~ In OT_ANNOTATION axiom_types /\ In OT_ANNOT_PROP entity_types.
Proof. exact ex_kinds. Qed.
