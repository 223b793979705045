(** What a client may do with readers and writers. *)

From Coq Require Import NArith List Bool.
From Verif Require Import ModelPlugin.
Import ListNotations.
Local Open Scope N_scope.

(** The references the client has, by what it did: one for each object it made, one more for each retain, one less for
    each release. *)
Definition ledger (c : call) (s : plugins) (own : N -> nat) : N -> nat :=
  match c with
  | CMake _ => fun j => if j =? p_next s then 1%nat else own j
  | CRetain i => fun j => if j =? i then S (own j) else own j
  | CRelease i => fun j => if j =? i then pred (own j) else own j
  | _ => own
  end.

(** The client may use an object if it has a reference to it or if it is a default at the moment. *)
Definition may_use (s : plugins) (own : N -> nat) (i : N) : Prop :=
  (0 < own i)%nat \/ exists k, get_default k s = Some i.

(** The rules: objects are used only by those who may, references are given up only by who has them, a default is set
    while the library is initialized (include/cowl_config.h:34) and has the right type. [null]: whether NULL may be
    set. *)
Definition obeys (null : bool) (c : call) (s : plugins) (own : N -> nat) : Prop :=
  match c with
  | CMake _ | CInit | CDeinit => True
  | CRetain i | CUse i => may_use s own i
  | CRelease i => (0 < own i)%nat
  | CSet k (Some i) => p_init s = true /\ may_use s own i /\ p_kind s i = k
  | CSet k None => p_init s = true /\ null = true
  end.

(** Histories of calls that obey the rules and meet no undefined behaviour, with the state they lead to and the
    references of the client. *)
Inductive history (null : bool) : list call -> plugins -> (N -> nat) -> Prop :=
| at_start : history null [] start (fun _ => 0%nat)
| one_more h s own c s' :
    history null h s own -> obeys null c s own -> exec c s = Some s' -> history null (h ++ [c]) s' (ledger c s own).

(** Calls that do not concern the default of a kind. *)
Definition leaves (k : slot) (c : call) : Prop :=
  match c with CSet j _ => j <> k | CDeinit => False | _ => True end.
