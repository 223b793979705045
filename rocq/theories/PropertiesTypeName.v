(** C82: the names of the object types can be told apart and turned back. *)

From Coq Require Import String NArith List Bool.
From Verif Require Import Bytes ModelTypes ModelFuncWriter ModelTypeName ProofTypeName.
Import ListNotations.
Local Open Scope N_scope.

(** For every text, cowl_object_type_from_string gives a type if and only if the text is the name of this type. *)
Theorem C82_name : forall s t, type_from_string s = otype_num t <-> s = type_to_string (otype_num t).
Proof. exact from_string_name. Qed.
Print Assumptions C82_name.

(** It gives an invalid type if and only if the text is the name of no type. *)
Theorem C82_other : forall s, OT_COUNT <= type_from_string s <-> forall t, s <> type_to_string (otype_num t).
Proof. exact from_string_other. Qed.
Print Assumptions C82_other.

(** Different types have different names. *)
Theorem C82_apart : forall a b, type_to_string (otype_num a) = type_to_string (otype_num b) -> a = b.
Proof. exact to_string_apart. Qed.
Print Assumptions C82_apart.

(** The name of a number that is no type is the name of no type. *)
Theorem C82_unknown : forall n, (forall t, n <> otype_num t) -> OT_COUNT <= type_from_string (type_to_string n).
Proof. exact unknown_name. Qed.
Print Assumptions C82_unknown.

(** Names, and a text that is nearly one. *)
Example C82_case :
  type_from_string (bs "SubClassOf") = otype_num OT_A_SUB_CLASS /\ type_from_string (bs "SubClassO") = OT_COUNT /\
  type_to_string 100 = bs "UnknownConstruct" /\ (forall t, 100 <> otype_num t).
Proof. exact name_case. Qed.
