(** The header word of every object, and sets of axiom types.

    Models src/cowl_object_flags.h, src/cowl_object_private.h:37-67, include/cowl_axiom_flags.h and
    the type getters of include/cowl_*.h. *)

From Coq Require Import NArith ZArith List Bool.
From Verif Require Import ModelTypes.
Import ListNotations.
Local Open Scope N_scope.

(** * Header word *)

(** src/cowl_object_flags.h:32-40: number of reference count bits, COWL_OBJECT_FLAGS_REF_SIZE:
    32 - 7 - 1 by default, 64 - 7 - 1 with COWL_HUGE. *)
Definition ref_bits (huge : bool) : N := if huge then 56 else 24.
(** src/cowl_object_flags.h:32-36 COWL_OBJECT_FLAGS_SIZE *)
Definition word_bits (huge : bool) : N := ref_bits huge + 8.
(** src/cowl_object_flags.h:48 COWL_OBJECT_FLAGS_BIT_MASK *)
Definition bit_mask (huge : bool) : N := N.shiftl 1 (ref_bits huge).
(** src/cowl_object_flags.h:49 COWL_OBJECT_FLAGS_REF_MASK *)
Definition ref_mask (huge : bool) : N := bit_mask huge - 1.
(** src/cowl_object_flags.h:50 COWL_OBJECT_FLAGS_BIT_TYPE_MASK *)
Definition bit_type_mask (huge : bool) : N := N.ldiff (N.ones (word_bits huge)) (ref_mask huge).
(** src/cowl_object_flags.h:51 COWL_OBJECT_FLAGS_TYPE_MASK *)
Definition type_mask (huge : bool) : N := N.ldiff (bit_type_mask huge) (bit_mask huge).

(** C unsigned arithmetic on the word wraps around. *)
Definition wrap (huge : bool) (x : N) : N := x mod 2 ^ word_bits huge.

(** src/cowl_object_flags.h:53-55 cowl_object_flags(TYPE, HAS_BIT) *)
Definition hd_init (huge : bool) (type : N) (bit : bool) : N :=
  N.lor (N.lor (wrap huge (N.shiftl type (ref_bits huge + 1))) (if bit then bit_mask huge else 0)) 1.
(** src/cowl_object_flags.h:57 cowl_object_flags_has_bit, src/cowl_object_private.h:53-56 cowl_get_bit;
    ulib ubit_is_set(flags, mask): all bits of the mask are set *)
Definition hd_get_bit (huge : bool) (f : N) : bool := N.land f (bit_mask huge) =? bit_mask huge.
(** src/cowl_object_flags.h:58-59, src/cowl_object_private.h:58-61 cowl_set_bit *)
Definition hd_set_bit (huge : bool) (f : N) : N := N.lor f (bit_mask huge).
(** src/cowl_object_flags.h:60-61, src/cowl_object_private.h:63-66 cowl_unset_bit *)
Definition hd_unset_bit (huge : bool) (f : N) : N := N.ldiff f (bit_mask huge).
(** src/cowl_object_flags.h:63-64 cowl_object_flags_get_type *)
Definition hd_get_type (huge : bool) (f : N) : N := N.shiftr (N.land f (type_mask huge)) (ref_bits huge + 1).
(** src/cowl_object_flags.h:66, src/cowl_object_private.h:37-40 cowl_get_ref *)
Definition hd_get_ref (huge : bool) (f : N) : N := N.land f (ref_mask huge).
(** src/cowl_object_flags.h:68, src/cowl_object_private.h:42-45 cowl_incr_ref *)
Definition hd_incr (huge : bool) (f : N) : N := wrap huge (f + 1).
(** src/cowl_object_flags.h:69, src/cowl_object_private.h:47-51 cowl_decr_ref (the word part) *)
Definition hd_decr (huge : bool) (f : N) : N := wrap huge (f + 2 ^ word_bits huge - 1).

(** The operations the library applies to a header word. *)
Inductive hop : Set := HRetain | HRelease | HSetBit | HUnsetBit.

(** src/cowl_object_private.h:37-67 *)
Definition hd_step (huge : bool) (f : N) (op : hop) : N :=
  match op with
  | HRetain => hd_incr huge f
  | HRelease => hd_decr huge f
  | HSetBit => hd_set_bit huge f
  | HUnsetBit => hd_unset_bit huge f
  end.

(** A sequence of such operations. *)
Definition hd_run (huge : bool) (f : N) (ops : list hop) : N := fold_left (hd_step huge) ops f.

(** * Sets of axiom types *)

(** Index of the lowest set bit. *)
Fixpoint lowest (p : positive) : N :=
  match p with xO q => N.succ (lowest q) | _ => 0 end.

(** ulib ubit_first_set(64, flags): index of the lowest set bit; for the empty set the model returns the
    width (assumption: any value that is not below COWL_AT_COUNT ends the loop). *)
Definition first_set (flags : N) : N := match flags with N0 => 64 | Npos p => lowest p end.

(** include/cowl_axiom_flags.h:36 COWL_AF_NONE *)
Definition AF_NONE : N := 0.
(** include/cowl_axiom_flags.h:39 COWL_AF_ALL *)
Definition AF_ALL : N := N.shiftl 1 AT_COUNT - 1.
(** include/cowl_axiom_flags.h:183-185 cowl_axiom_flags_from_type *)
Definition af_of (t : N) : N := N.shiftl 1 t.
(** include/cowl_axiom_flags.h:196-198 cowl_axiom_flags_add_type *)
Definition af_add (flags t : N) : N := N.lor flags (af_of t).
(** include/cowl_axiom_flags.h:209-211 cowl_axiom_flags_remove_type *)
Definition af_remove (flags t : N) : N := N.ldiff flags (af_of t).
(** include/cowl_axiom_flags.h:222-224 cowl_axiom_flags_has_type *)
Definition af_has (flags t : N) : bool := N.land flags (af_of t) =? af_of t.
(** include/cowl_axiom_flags.h:234-236 cowl_axiom_flags_has_all_types *)
Definition af_has_all (flags : N) : bool := N.land flags AF_ALL =? AF_ALL.
(** include/cowl_axiom_flags.h:246-248 cowl_axiom_flags_has_no_types; ubit_is_any_set: some bit of the
    mask is set *)
Definition af_has_none (flags : N) : bool := N.land flags AF_ALL =? 0.

(** include/cowl_axiom_flags.h:256-260 cowl_axiom_flags_foreach_type: the sequence of values of the loop
    variable. The fuel is an upper bound on the number of rounds; [None] when it does not suffice. *)
Fixpoint foreach_type (fuel : nat) (flags type : N) : option (list N) :=
  if type <? AT_COUNT then
    match fuel with
    | O => None
    | S fuel' =>
        match foreach_type fuel' flags (first_set (N.ldiff flags (N.shiftl 1 (type + 1) - 1))) with
        | None => None
        | Some l => Some (type :: l)
        end
    end
  else Some [].
(** include/cowl_axiom_flags.h:256-260 *)
Definition foreach_types (flags : N) : option (list N) := foreach_type 40 flags (first_set flags).

(** * Type getters *)

(** include/cowl_cls_exp.h:46-48 cowl_cls_exp_get_type *)
Definition cls_exp_get_type (t : otype) : N := otype_num t - otype_num OT_CE_CLASS.
(** include/cowl_data_range.h:50-52 cowl_data_range_get_type *)
Definition data_range_get_type (t : otype) : N := otype_num t - otype_num OT_DR_DATATYPE.
(** include/cowl_obj_card.h:117-119 cowl_obj_card_get_type *)
Definition obj_card_get_type (t : otype) : N := otype_num t - otype_num OT_CE_OBJ_MIN_CARD.
(** include/cowl_data_card.h:120-122 cowl_data_card_get_type *)
Definition data_card_get_type (t : otype) : N := otype_num t - otype_num OT_CE_DATA_MIN_CARD.
(** include/cowl_obj_quant.h:92-94 cowl_obj_quant_get_type *)
Definition obj_quant_get_type (t : otype) : N := otype_num t - otype_num OT_CE_OBJ_SOME.
(** include/cowl_data_quant.h:92-94 cowl_data_quant_get_type *)
Definition data_quant_get_type (t : otype) : N := otype_num t - otype_num OT_CE_DATA_SOME.
(** include/cowl_nary_cls.h:127-129 cowl_nary_cls_get_type *)
Definition nary_cls_get_type (t : otype) : N := otype_num t - otype_num OT_CE_OBJ_INTERSECT.
(** include/cowl_nary_data.h:112-114 cowl_nary_data_get_type *)
Definition nary_data_get_type (t : otype) : N := otype_num t - otype_num OT_DR_DATA_INTERSECT.
(** include/cowl_nary_cls_axiom.h:118-120 *)
Definition nary_cls_axiom_get_type (t : otype) : N := otype_num t - otype_num OT_A_EQUIV_CLASSES.
(** include/cowl_nary_obj_prop_axiom.h:120-122 *)
Definition nary_obj_prop_axiom_get_type (t : otype) : N := otype_num t - otype_num OT_A_EQUIV_OBJ_PROP.
(** include/cowl_nary_data_prop_axiom.h:120-122 *)
Definition nary_data_prop_axiom_get_type (t : otype) : N := otype_num t - otype_num OT_A_EQUIV_DATA_PROP.
(** include/cowl_nary_ind_axiom.h:118-120 *)
Definition nary_ind_axiom_get_type (t : otype) : N := otype_num t - otype_num OT_A_SAME_IND.
(** include/cowl_obj_prop_char_axiom.h:182-184 *)
Definition char_axiom_get_type (t : otype) : N := otype_num t - otype_num OT_A_FUNC_OBJ_PROP.
(** src/cowl_annot_value.c:15-21 cowl_annot_value_get_type: IRI 0, literal 1, anonymous individual 2 *)
Definition annot_value_get_type (t : otype) : N :=
  match t with OT_IRI => 0 | OT_I_ANONYMOUS => 2 | _ => 1 end.

(** Constructors taking an enum argument add it to the first object type of the family:
    include/cowl_obj_card.h:63, include/cowl_data_card.h:63, src/cowl_obj_quant.c:25,
    src/cowl_data_quant.c, include/cowl_nary_cls.h:62, include/cowl_nary_data.h,
    include/cowl_nary_*_axiom.h, include/cowl_obj_prop_char_axiom.h:79. [None]: not an object type. *)
Definition family_type (first : otype) (k : N) : option otype := otype_of_num (otype_num first + k).
