(** Tables (hash maps and sets of objects) and storing iterators.

    Models src/cowl_table.c and src/cowl_iterator.c. The ulib hash table itself is not part of the
    repository: it is represented by the list of its entries in the (arbitrary) iteration order,
    look-ups compare keys with cowl_equals as declared at src/cowl_table.c:23. *)

From Coq Require Import NArith ZArith List Bool String.
From Verif Require Import Bytes ModelTypes ModelObject.
Import ListNotations.
Local Open Scope N_scope.

(** A value slot holds a possibly NULL pointer; the address matters because
    src/cowl_table.c:95 compares pointers. *)
Record pval : Type := { pv_addr : N; pv_obj : obj }.

(** src/cowl_table_private.h:20-25 struct CowlTable; [tbl_is_map] is uhash_is_map. *)
Record table : Type := { tbl_is_map : bool; tbl_entries : list (obj * option pval) }.

(** ulib uhset_contains / uhash_get, with key equality cowl_equals. *)
Definition table_find (key : obj) (es : list (obj * option pval)) : option (obj * option pval) :=
  find (fun e => cowl_equals key (fst e)) es.

(** include/cowl_table.h cowl_table_get_value (uhmap_get with a NULL default). *)
Definition table_get_value (t : table) (key : obj) : option pval :=
  match table_find key (tbl_entries t) with Some e => snd e | None => None end.

(** ulib uhset_equals: as many entries, and every key of the left table is in the right one. *)
Definition uhset_equals (a b : list (obj * option pval)) : bool :=
  Nat.eqb (List.length a) (List.length b) &&
  forallb (fun e => match table_find (fst e) b with Some _ => true | None => false end) a.

(** Pointer comparison "r_val == *e.val" (src/cowl_table.c:95). *)
Definition ptr_eqb (a b : option pval) : bool :=
  match a, b with
  | None, None => true
  | Some x, Some y => pv_addr x =? pv_addr y
  | _, _ => false
  end.

(** src/cowl_table.c:93-97, the loop of cowl_table_equals. [None]: cowl_equals is called on NULL. *)
Fixpoint table_equals_loop (es : list (obj * option pval)) (rhs : table) : option bool :=
  match es with
  | [] => Some true
  | (k, v) :: es' =>
      let r_val := table_get_value rhs k in
      if ptr_eqb r_val v then Some true else
      match r_val, v with
      | None, _ => Some false
      | Some _, None => None
      | Some r, Some l => if cowl_equals (pv_obj l) (pv_obj r) then table_equals_loop es' rhs else Some false
      end
  end.

(** src/cowl_table.c:85-100 cowl_table_equals *)
Definition table_equals (lhs rhs : table) : option bool :=
  if negb (uhset_equals (tbl_entries lhs) (tbl_entries rhs)) then Some false else
  if negb (tbl_is_map lhs) then Some (negb (tbl_is_map rhs)) else
  if negb (tbl_is_map rhs) then Some false else
  table_equals_loop (tbl_entries lhs) rhs.

Section TableIter.
  Context {S : Type}.
  Variable call : S -> obj -> S * ret.

  (** src/cowl_table.c:106-116 cowl_table_iterate_primitives. Line 112 returns [ret], the result of
      the key iteration, when the value iteration asks to stop. *)
  Fixpoint table_iterate_primitives (flags : N) (es : list (obj * option pval)) (s : S) : ires S :=
    match es with
    | [] => IRet s COWL_OK
    | (k, v) :: es' =>
        match iterate_primitives call flags k s with
        | IUB => IUB
        | IRet s1 r =>
            if should_stop r then IRet s1 r else
            match v with
            | None => table_iterate_primitives flags es' s1
            | Some p =>
                match iterate_primitives call flags (pv_obj p) s1 with
                | IUB => IUB
                | IRet s2 r2 => if should_stop r2 then IRet s2 r else table_iterate_primitives flags es' s2
                end
            end
        end
    end.
End TableIter.

(** src/cowl_object.c:377-381 cowl_has_primitive on a table. *)
Definition table_has_primitive (t : table) (p : obj) : option bool :=
  stopped (table_iterate_primitives (iterator_contains p) (pf_of (primitive_get_type (get_type p))) (tbl_entries t) tt).

(** * Storing iterators. Memory allocation is assumed to succeed, so uvec_push returns ULIB_OK and
    uhset_insert returns ULIB_OK for a new element, ULIB_NO for one already present. The retained
    objects are logged in the second component. *)

(** src/cowl_iterator.c:18-27,60-65 cowl_iterator_vec *)
Definition iterator_vec (retain : bool) (s : list obj * list obj) (o : obj) : (list obj * list obj) * ret :=
  ((fst s ++ [o], if retain then snd s ++ [o] else snd s), COWL_CONTINUE).

(** src/cowl_iterator.c:29-37,67-72 cowl_iterator_set *)
Definition iterator_set (retain : bool) (s : list obj * list obj) (o : obj) : (list obj * list obj) * ret :=
  if existsb (cowl_equals o) (fst s) then (s, COWL_NO)
  else ((fst s ++ [o], if retain then snd s ++ [o] else snd s), COWL_OK).

(** src/cowl_iterator.c:39-42,74-76 cowl_iterator_count; the counter is a machine word of [2^w]
    values. *)
Definition iterator_count (w : N) (n : N) (_ : obj) : N * ret := (N.modulo (n + 1) (2 ^ w), COWL_CONTINUE).
