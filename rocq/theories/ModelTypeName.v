(** Model: the names of object types, src/cowl_object_type.c. *)

From Coq Require Import String NArith List Bool.
From Verif Require Import Bytes ModelTypes ModelFuncWriter.
Import ListNotations.
Local Open Scope N_scope.

(** include/cowl_object_type.h:278 COWL_OT_COUNT *)
Definition OT_COUNT : N := 78.
(** src/cowl_object_type.c:12-97 cowl_object_type_to_string, with the default case; the other cases are [type_name] of
    ModelFuncWriter.v *)
Definition type_to_string (n : N) : bytes :=
  match otype_of_num n with Some t => type_name t | None => bs "UnknownConstruct" end.
(** src/cowl_object_type.c:100-102, the loop; [left] iterations are left *)
Fixpoint type_loop (s : bytes) (left : nat) (t : N) : N :=
  match left with
  | O => OT_COUNT
  | S left' => if bytes_eqb s (type_to_string t) then t else type_loop s left' (t + 1)
  end.
(** src/cowl_object_type.c:99-104 cowl_object_type_from_string *)
Definition type_from_string (s : bytes) : N := type_loop s (N.to_nat OT_COUNT) 0.
