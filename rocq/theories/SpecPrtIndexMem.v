(** What the properties about the references of a ProtocOWL writer's index talk about. *)

From Coq Require Import NArith List Bool.
From Verif Require Import ModelPrtIndexMem.
Import ListNotations.

(** How often an object is retained, and released, in a list of calls. *)
Definition retains (x : N) (l : list ev) : nat := length (filter (fun e => match e with Retain y => N.eqb y x | _ => false end) l).
Definition releases (x : N) (l : list ev) : nat := length (filter (fun e => match e with Release y => N.eqb y x | _ => false end) l).
(** How often an object occurs in a list. *)
Definition times (x : N) (l : list N) : nat := length (filter (fun y => N.eqb y x) l).
(** The objects of an operation are what the operation says, [iri] telling which objects are IRIs. *)
Definition typed (iri : N -> bool) (o : op) : Prop :=
  match o with
  | OIri x _ => iri x = true
  | OAnon x => iri x = false
  | _ => True
  end.
