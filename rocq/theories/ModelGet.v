(** The getters of composite objects, in memory.

    Models the getters of include/*.h on top of src/cowl_object.c:479-503, and the order in which the
    constructors pass their parameters to cowl_get_impl. *)

From Coq Require Import NArith List Bool Arith String.
From Verif Require Import Bytes ModelTypes ModelObject ModelHeader ModelText ModelHeap.
Import ListNotations.
Local Open Scope N_scope.
Local Open Scope act_scope.

Section Get.
Variable huge : bool.

(** src/cowl_object.c:487-489 cowl_get_field *)
Definition get_field (a : N) (i : nat) : act N :=
  f <- fields_at a ;;
  match nth_error f i with
  | Some (Obj x) => ret x
  | Some (UInt _) => fail EKind
  | None => fail EBounds
  end.
(** src/cowl_object.c:479-481 get_field_count *)
Definition get_field_count (a : N) : act nat :=
  t <- get_type_at huge a ;; match t with Some t => ret (type_field_count t) | None => fail EKind end.
(** src/cowl_object.c:491-493 cowl_has_opt_field *)
Definition has_opt_field (a : N) : act bool := get_bit huge a.
(** src/cowl_object.c:495-498 cowl_get_opt_field *)
Definition get_opt_field (a : N) : act (option N) :=
  b <- has_opt_field a ;;
  if b then n <- get_field_count a ;; x <- get_field a n ;; ret (Some x) else ret None.
(** src/cowl_object.c:500-503 cowl_get_uint_field *)
Definition get_uint_field (a : N) : act N :=
  n <- get_field_count a ;;
  b <- has_opt_field a ;;
  f <- fields_at a ;;
  match nth_error f (n + if b then 1 else 0) with
  | Some (UInt x) => ret x
  | Some (Obj _) => fail EKind
  | None => fail EBounds
  end.
(** src/cowl_object.c:271-277 cowl_get_annot; include/cowl_axiom.h:66-68 cowl_axiom_get_annot,
    include/cowl_annotation.h:89-91 cowl_annotation_get_annot. Ontologies are left out. *)
Definition get_annot (a : N) : act (option N) :=
  t <- get_type_at huge a ;;
  match t with
  | Some t => if type_is_axiom t || otype_eqb t OT_ANNOTATION then get_opt_field a else ret None
  | None => fail EKind
  end.
(** src/cowl_obj_quant.c:28-31 cowl_obj_quant_get_filler *)
Definition obj_quant_filler (e : env) (a : N) : act N :=
  o <- get_opt_field a ;; match o with Some f => ret f | None => ret (e_thing e) end.
(** src/cowl_data_quant.c:29-32 cowl_data_quant_get_range *)
Definition data_quant_range (e : env) (a : N) : act N :=
  o <- get_opt_field a ;; match o with Some f => ret f | None => ret (e_literal e) end.

End Get.

Local Open Scope string_scope.

(** The getters of required fields, by the last part of their name, with the index they pass to
    cowl_get_field: include/cowl_annot_assert_axiom.h:68-96, cowl_annot_prop_domain_axiom.h:66-80,
    cowl_annot_prop_range_axiom.h:65-79, cowl_annotation.h:65-79, cowl_cls_assert_axiom.h:66-80,
    cowl_data_card.h:144-146, cowl_data_compl.h:61-63, cowl_data_has_value.h:63-77, cowl_data_one_of.h:60-62,
    cowl_data_prop_assert_axiom.h:106-132, cowl_data_prop_domain_axiom.h:67-81,
    cowl_data_prop_range_axiom.h:67-81, cowl_data_quant.h:104-106, cowl_datatype_def_axiom.h:66-79,
    cowl_datatype_restr.h:62-76, cowl_decl_axiom.h:63-65, cowl_disj_union_axiom.h:64-77,
    cowl_facet_restr.h:62-76, cowl_func_data_prop_axiom.h:63-65, cowl_has_key_axiom.h:63-89,
    cowl_inv_obj_prop.h:60-62, cowl_inv_obj_prop_axiom.h:66-80, cowl_nary_cls.h:146-148,
    cowl_nary_cls_axiom.h:130-132, cowl_nary_data.h:124-126, cowl_nary_data_prop_axiom.h:132-134,
    cowl_nary_ind_axiom.h:130-132, cowl_nary_obj_prop_axiom.h:132-134, cowl_obj_card.h:141-143,
    cowl_obj_compl.h:61-63, cowl_obj_has_self.h:61-63, cowl_obj_has_value.h:63-90, cowl_obj_one_of.h:60-62,
    cowl_obj_prop_assert_axiom.h:105-131, cowl_obj_prop_char_axiom.h:194-196,
    cowl_obj_prop_domain_axiom.h:67-81, cowl_obj_prop_range_axiom.h:67-81, cowl_obj_quant.h:104-106,
    cowl_sub_annot_prop_axiom.h:65-79, cowl_sub_cls_axiom.h:64-78, cowl_sub_data_prop_axiom.h:66-80,
    cowl_sub_obj_prop_axiom.h:80-94. *)
Definition getters (t : otype) : list (string * nat) :=
  match t with
  | OT_FACET_RESTR => [("get_facet", 0%nat); ("get_value", 1%nat)]
  | OT_ANNOTATION => [("get_prop", 0%nat); ("get_value", 1%nat)]
  | OT_A_DECL => [("get_entity", 0%nat)]
  | OT_A_SUB_CLASS | OT_A_SUB_OBJ_PROP | OT_A_SUB_DATA_PROP | OT_A_SUB_ANNOT_PROP =>
      [("get_sub", 0%nat); ("get_super", 1%nat)]
  | OT_A_EQUIV_CLASSES | OT_A_DISJ_CLASSES => [("get_classes", 0%nat)]
  | OT_A_DISJ_UNION => [("get_class", 0%nat); ("get_disjoints", 1%nat)]
  | OT_A_EQUIV_OBJ_PROP | OT_A_DISJ_OBJ_PROP => [("get_props", 0%nat)]
  | OT_A_INV_OBJ_PROP => [("get_first_prop", 0%nat); ("get_second_prop", 1%nat)]
  | OT_A_OBJ_PROP_DOMAIN => [("get_prop", 0%nat); ("get_domain", 1%nat)]
  | OT_A_OBJ_PROP_RANGE => [("get_prop", 0%nat); ("get_range", 1%nat)]
  | OT_A_FUNC_OBJ_PROP | OT_A_INV_FUNC_OBJ_PROP | OT_A_REFL_OBJ_PROP | OT_A_IRREFL_OBJ_PROP
  | OT_A_SYMM_OBJ_PROP | OT_A_ASYMM_OBJ_PROP | OT_A_TRANS_OBJ_PROP => [("get_prop", 0%nat)]
  | OT_A_EQUIV_DATA_PROP | OT_A_DISJ_DATA_PROP => [("get_props", 0%nat)]
  | OT_A_DATA_PROP_DOMAIN => [("get_prop", 0%nat); ("get_domain", 1%nat)]
  | OT_A_DATA_PROP_RANGE => [("get_prop", 0%nat); ("get_range", 1%nat)]
  | OT_A_FUNC_DATA_PROP => [("get_prop", 0%nat)]
  | OT_A_DATATYPE_DEF => [("get_datatype", 0%nat); ("get_range", 1%nat)]
  | OT_A_HAS_KEY => [("get_cls_exp", 0%nat); ("get_obj_props", 1%nat); ("get_data_props", 2%nat)]
  | OT_A_SAME_IND | OT_A_DIFF_IND => [("get_individuals", 0%nat)]
  | OT_A_CLASS_ASSERT => [("get_cls_exp", 0%nat); ("get_ind", 1%nat)]
  | OT_A_OBJ_PROP_ASSERT | OT_A_NEG_OBJ_PROP_ASSERT =>
      [("get_prop", 0%nat); ("get_subject", 1%nat); ("get_object", 2%nat)]
  | OT_A_DATA_PROP_ASSERT | OT_A_NEG_DATA_PROP_ASSERT =>
      [("get_prop", 0%nat); ("get_subject", 1%nat); ("get_value", 2%nat); ("get_object", 2%nat)]
  | OT_A_ANNOT_ASSERT => [("get_prop", 0%nat); ("get_subject", 1%nat); ("get_value", 2%nat)]
  | OT_A_ANNOT_PROP_DOMAIN => [("get_prop", 0%nat); ("get_domain", 1%nat)]
  | OT_A_ANNOT_PROP_RANGE => [("get_prop", 0%nat); ("get_range", 1%nat)]
  | OT_CE_OBJ_INTERSECT | OT_CE_OBJ_UNION => [("get_operands", 0%nat)]
  | OT_CE_OBJ_COMPL => [("get_operand", 0%nat)]
  | OT_CE_OBJ_ONE_OF => [("get_inds", 0%nat)]
  | OT_CE_OBJ_SOME | OT_CE_OBJ_ALL => [("get_prop", 0%nat)]
  | OT_CE_OBJ_HAS_VALUE => [("get_prop", 0%nat); ("get_value", 1%nat); ("get_ind", 1%nat)]
  | OT_CE_OBJ_HAS_SELF => [("get_prop", 0%nat)]
  | OT_CE_OBJ_MIN_CARD | OT_CE_OBJ_MAX_CARD | OT_CE_OBJ_EXACT_CARD => [("get_prop", 0%nat)]
  | OT_CE_DATA_SOME | OT_CE_DATA_ALL => [("get_prop", 0%nat)]
  | OT_CE_DATA_HAS_VALUE => [("get_prop", 0%nat); ("get_value", 1%nat)]
  | OT_CE_DATA_MIN_CARD | OT_CE_DATA_MAX_CARD | OT_CE_DATA_EXACT_CARD => [("get_prop", 0%nat)]
  | OT_DR_DATA_INTERSECT | OT_DR_DATA_UNION => [("get_operands", 0%nat)]
  | OT_DR_DATA_COMPL => [("get_operand", 0%nat)]
  | OT_DR_DATA_ONE_OF => [("get_values", 0%nat)]
  | OT_DR_DATATYPE_RESTR => [("get_datatype", 0%nat); ("get_restrictions", 1%nat)]
  | OT_OPE_INV_OBJ_PROP => [("get_prop", 0%nat)]
  | _ => []
  end.

(** The index of a getter. *)
Fixpoint getter_index (l : list (string * nat)) (g : string) : option nat :=
  match l with
  | [] => None
  | (h, i) :: l' => if String.eqb h g then Some i else getter_index l' g
  end.
(** Calls a getter of a type on an object of that type. *)
Definition run_getter (t : otype) (g : string) (a : N) : act N :=
  match getter_index (getters t) g with
  | Some i => get_field a i
  | None => fail EBounds
  end.

(** The order in which a constructor passes its required parameters to cowl_get_impl; the lines are those
    cited at [ctor_of]. *)
Definition passed (t : otype) : list string :=
  match t with
  | OT_FACET_RESTR => ["facet"; "value"]
  | OT_ANNOTATION => ["prop"; "value"]
  | OT_A_DECL => ["entity"]
  | OT_A_SUB_CLASS | OT_A_SUB_OBJ_PROP | OT_A_SUB_DATA_PROP | OT_A_SUB_ANNOT_PROP => ["sub"; "super"]
  | OT_A_EQUIV_CLASSES | OT_A_DISJ_CLASSES => ["classes"]
  | OT_A_DISJ_UNION => ["cls"; "disjoints"]
  | OT_A_EQUIV_OBJ_PROP | OT_A_DISJ_OBJ_PROP | OT_A_EQUIV_DATA_PROP | OT_A_DISJ_DATA_PROP => ["props"]
  | OT_A_INV_OBJ_PROP => ["first"; "second"]
  | OT_A_OBJ_PROP_DOMAIN | OT_A_DATA_PROP_DOMAIN | OT_A_ANNOT_PROP_DOMAIN => ["prop"; "domain"]
  | OT_A_OBJ_PROP_RANGE | OT_A_DATA_PROP_RANGE | OT_A_ANNOT_PROP_RANGE => ["prop"; "range"]
  | OT_A_FUNC_OBJ_PROP | OT_A_INV_FUNC_OBJ_PROP | OT_A_REFL_OBJ_PROP | OT_A_IRREFL_OBJ_PROP
  | OT_A_SYMM_OBJ_PROP | OT_A_ASYMM_OBJ_PROP | OT_A_TRANS_OBJ_PROP | OT_A_FUNC_DATA_PROP => ["prop"]
  | OT_A_DATATYPE_DEF => ["dt"; "range"]
  | OT_A_HAS_KEY => ["cls_exp"; "obj_props"; "data_props"]
  | OT_A_SAME_IND | OT_A_DIFF_IND => ["individuals"]
  | OT_A_CLASS_ASSERT => ["exp"; "ind"]
  | OT_A_OBJ_PROP_ASSERT | OT_A_NEG_OBJ_PROP_ASSERT => ["prop"; "subject"; "object"]
  | OT_A_DATA_PROP_ASSERT | OT_A_NEG_DATA_PROP_ASSERT => ["prop"; "subj"; "obj"]
  | OT_A_ANNOT_ASSERT => ["prop"; "subject"; "value"]
  | OT_CE_OBJ_INTERSECT | OT_CE_OBJ_UNION | OT_DR_DATA_INTERSECT | OT_DR_DATA_UNION => ["operands"]
  | OT_CE_OBJ_COMPL | OT_DR_DATA_COMPL => ["operand"]
  | OT_CE_OBJ_ONE_OF => ["inds"]
  | OT_CE_OBJ_SOME | OT_CE_OBJ_ALL | OT_CE_DATA_SOME | OT_CE_DATA_ALL => ["prop"]
  | OT_CE_OBJ_HAS_VALUE => ["prop"; "individual"]
  | OT_CE_OBJ_HAS_SELF => ["prop"]
  | OT_CE_OBJ_MIN_CARD | OT_CE_OBJ_MAX_CARD | OT_CE_OBJ_EXACT_CARD
  | OT_CE_DATA_MIN_CARD | OT_CE_DATA_MAX_CARD | OT_CE_DATA_EXACT_CARD => ["prop"]
  | OT_CE_DATA_HAS_VALUE => ["prop"; "value"]
  | OT_DR_DATA_ONE_OF => ["values"]
  | OT_DR_DATATYPE_RESTR => ["datatype"; "restrictions"]
  | OT_OPE_INV_OBJ_PROP => ["prop"]
  | _ => []
  end.
