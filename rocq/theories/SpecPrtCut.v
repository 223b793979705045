(** Specification vocabulary for streams that are cut short. *)

From Coq Require Import List.
Import ListNotations.

(** [l] is how [l'] begins. *)
Definition begins {A} (l l' : list A) : Prop := exists m, l' = l ++ m.
