(** Byte strings and small generic helpers shared by the models.

    A C [UString] / [char] buffer with explicit length is a list of bytes; a byte is an [N]
    (below 256 when it comes from C; the models never rely on values above 255). *)

From Coq Require Import NArith List Bool String Ascii.
Import ListNotations.
Local Open Scope N_scope.

(** ulib UString contents (data + length); the absent ulib submodule is /repo/lib/ulib. *)
Definition bytes := list N.

(** Notation helper for C string literals: the bytes of an ASCII literal. *)
Fixpoint bs (s : string) : bytes :=
  match s with
  | EmptyString => []
  | String a s' => N_of_ascii a :: bs s'
  end.

(** ulib [ustring_equals]: bytewise comparison. *)
Fixpoint bytes_eqb (a b : bytes) : bool :=
  match a, b with
  | [], [] => true
  | x :: a', y :: b' => (x =? y) && bytes_eqb a' b'
  | _, _ => false
  end.

(** ulib [ustring_starts_with]. *)
Fixpoint starts_with (s p : bytes) : bool :=
  match p, s with
  | [], _ => true
  | y :: p', x :: s' => (x =? y) && starts_with s' p'
  | _ :: _, [] => false
  end.

(** ulib [ustring_ends_with]. *)
Definition ends_with (s p : bytes) : bool :=
  (Nat.leb (List.length p) (List.length s)) && bytes_eqb (skipn (List.length s - List.length p) s) p.

(** Pointwise comparison of two arrays: loop with early exit of the kind used by
    cowl_equals (src/cowl_object.c:328-330) and ulib [uvec_equals]. *)
Definition forall2b {A B} (f : A -> B -> bool) : list A -> list B -> bool :=
  fix go (l : list A) (m : list B) : bool :=
    match l, m with
    | [], [] => true
    | x :: l', y :: m' => f x y && go l' m'
    | _, _ => false
    end.
