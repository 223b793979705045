(** A call touches only what its arguments lead to. *)

From Coq Require Import NArith List Bool.
From Verif Require Import Bytes ModelTypes ModelHeader ModelText ModelHeap SpecHeap SpecIsolate.
From Verif Require Import ProofIsolateTop ExamplesIsolate.
Import ListNotations.
Local Open Scope N_scope.

(** An object that no pointer leads to from the arguments, the library or a unique object is in memory after
    the call exactly as before, header and contents, and no pointer leads to it from the arguments, from what
    the call returned, from the library or from a unique object. *)
Theorem C76_call : forall huge fresh e vs lib own s k r s' v,
  allocator fresh -> history huge fresh e vs lib s own ->
  allowed huge e lib own s k -> no_cycle s k -> room huge (lib ++ own) s k -> exec huge fresh e k s = Ok r s' ->
  apart huge lib (arguments k) s v ->
  lookup (s_heap s') v = lookup (s_heap s) v /\ apart huge lib (opt_list r ++ arguments k) s' v.
Proof. intros huge fresh e vs lib own s k r s' v F. exact (call_isolated huge fresh F e vs lib own s k r s' v). Qed.
Print Assumptions C76_call.

(** A part of a program, whatever calls it makes and however many, leaves alone the objects its references
    do not lead to, and does not get hold of them. *)
Theorem C76_program : forall huge fresh e vs lib rest s mine s' mine',
  allocator fresh -> history huge fresh e vs lib s (mine ++ rest) ->
  works huge fresh e lib rest s mine s' mine' ->
  history huge fresh e vs lib s' (mine' ++ rest) /\
  forall v, apart huge lib mine s v -> lookup (s_heap s') v = lookup (s_heap s) v /\ apart huge lib mine' s' v.
Proof.
  intros huge fresh e vs lib rest s mine s' mine' F H W.
  exact (works_apart huge fresh F e vs lib rest s mine s' mine' W H).
Qed.
Print Assumptions C76_program.

(** Two parts of a program: one makes an ontology with an axiom about a class, gives up everything but
    the ontology, and then the axiom too; the other has a vector with that class in it. *)
Example C76_program_case : exists e vs lib rest s mine s' mine' v,
  history false next e vs lib s (mine ++ rest) /\ works false next e lib rest s mine s' mine' /\
  rest = [v] /\ has_type false s v OT_VECTOR /\ apart false lib mine s v /\ List.length mine' = 1%nat /\ s_heap s' <> s_heap s.
Proof. exact program_example. Qed.

(** A call that meets the hypotheses of C76_call. *)
Example C76_call_case : exists e vs lib own s k r s' v,
  history false next e vs lib s own /\ allowed false e lib own s k /\ no_cycle s k /\ room false (lib ++ own) s k /\
  exec false next e k s = Ok r s' /\ apart false lib (arguments k) s v /\ arguments k <> [] /\ s' <> s.
Proof. exact call_example. Qed.

(** The condition on unique objects is needed: a call may touch one that it is not given. Making an
    IRI from its text changes the count of the IRI that exists. *)
Theorem C76_unique_refuted : exists e vs lib own s k r s' v,
  history false next e vs lib s own /\ allowed false e lib own s k /\ no_cycle s k /\ room false (lib ++ own) s k /\
  exec false next e k s = Ok r s' /\ arguments k = [] /\ alive s v /\ (forall a, In a lib -> ~ reach s a v) /\
  lookup (s_heap s') v <> lookup (s_heap s) v.
Proof. exact unique_example. Qed.
Print Assumptions C76_unique_refuted.
