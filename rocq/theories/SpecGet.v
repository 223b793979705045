(** Specification of what getters return. *)

From Coq Require Import NArith List Bool String.
From Verif Require Import Bytes ModelTypes ModelHeader SpecHeader ModelText ModelHeap SpecHeap.
Import ListNotations.
Local Open Scope string_scope.

(** A getter and the parameter of the constructor that, by their names, speak of the same thing. *)
Definition same_thing : list (string * string) :=
  [ ("get_facet", "facet"); ("get_value", "value"); ("get_value", "obj"); ("get_value", "individual");
    ("get_ind", "individual"); ("get_ind", "ind"); ("get_prop", "prop"); ("get_entity", "entity");
    ("get_sub", "sub"); ("get_super", "super"); ("get_classes", "classes"); ("get_class", "cls");
    ("get_disjoints", "disjoints"); ("get_props", "props"); ("get_first_prop", "first");
    ("get_second_prop", "second"); ("get_domain", "domain"); ("get_range", "range");
    ("get_datatype", "dt"); ("get_datatype", "datatype"); ("get_cls_exp", "cls_exp");
    ("get_cls_exp", "exp"); ("get_obj_props", "obj_props"); ("get_data_props", "data_props");
    ("get_individuals", "individuals"); ("get_subject", "subject"); ("get_subject", "subj");
    ("get_object", "object"); ("get_object", "obj"); ("get_operands", "operands");
    ("get_operand", "operand"); ("get_inds", "inds"); ("get_values", "values");
    ("get_restrictions", "restrictions") ].

(** The types whose constructor takes annotations: axioms and annotations. *)
Definition takes_annotations (t : otype) : bool := type_is_axiom t || otype_eqb t OT_ANNOTATION.
(** The types whose constructor takes a number and an optional filler. *)
Definition is_cardinality (t : otype) : bool :=
  match t with
  | OT_CE_OBJ_MIN_CARD | OT_CE_OBJ_MAX_CARD | OT_CE_OBJ_EXACT_CARD
  | OT_CE_DATA_MIN_CARD | OT_CE_DATA_MAX_CARD | OT_CE_DATA_EXACT_CARD => true
  | _ => false
  end.
(** The items of a vector. *)
Definition has_items (s : state) (v : N) (l : list N) : Prop :=
  exists c, lookup (s_heap s) v = Some c /\ c_body c = BVec l.

(** [later a s own s' own']: calls that obey the rules lead from s to s', and the client keeps a reference
    to a all the time. *)
Inductive later (huge : bool) (fresh : N -> heap -> N) (e : env) (lib : list N) (a : N) (s : state) (own : list N) :
  state -> list N -> Prop :=
| later_now : In a own -> later huge fresh e lib a s own s own
| later_call s1 own1 k r s2 : later huge fresh e lib a s own s1 own1 ->
    allowed huge e lib own1 s1 k -> no_cycle s1 k -> room huge (lib ++ own1) s1 k ->
    exec huge fresh e k s1 = Ok r s2 -> In a (after k r own1) ->
    later huge fresh e lib a s own s2 (after k r own1).

(** The object is the entity of this type whose IRI has this namespace and remainder. *)
Definition entity_named (huge : bool) (s : state) (a : N) (t : otype) (ns rem : bytes) : Prop :=
  exists i, entity_key huge s a t i /\ iri_key s i ns rem.
