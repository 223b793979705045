(** C73. *)

From Coq Require Import String.
From Coq Require Import NArith List Bool.
From Verif Require Import Bytes ModelTypes ModelHeader SpecHeader ModelText ModelHeap SpecHeap ModelOom SpecOom.
From Verif Require Import ProofOomTop ProofOomEnough ExamplesHeap ExamplesOom.
Import ListNotations.
Local Open Scope N_scope.

(** ** C73 *)

(** Whichever requests for memory fail, the call ends. It returns what was asked for, or NULL; if it returns
    NULL memory has the same objects as before, with the same contents and numbers of references. No buffer
    is left behind, except by the calls that wrap a list of operands.
    Missing from the full claim: the calls of the refutations below; cowl_ontology_add_axiom,
    cowl_ontology_add_annot and cowl_ontology_get_annot, whose requests are not modelled as failing; tables,
    prefix maps, readers, writers. *)
Theorem C73_harmless_partial : forall huge fresh e vs lib s own full k,
  allocator fresh -> fhistory huge fresh e vs lib s own ->
  allowed huge e lib own s k -> no_cycle s k -> room huge (lib ++ own) s k -> checked huge e s k ->
  exists r n s', exec_f huge fresh e full k 0 s = Ok (r, n) s' /\
  (n = 0 \/ n = 1 /\ r = None /\ exists t l, k = KNary t l) /\
  match r with
  | Some a => asked huge e s s' k a
  | None => creates k = true -> unchanged huge s s'
  end.
Proof. intros huge fresh e vs lib s own full k F. exact (oom_harmless huge fresh F e vs lib s own full k). Qed.
Print Assumptions C73_harmless_partial.

(** A call that creates an object returns NULL only if a request failed. *)
Theorem C73_enough : forall huge fresh e full k s r n s',
  (forall i, full i = false) -> creates k = true -> hopeless k = false ->
  exec_f huge fresh e full k 0 s = Ok (r, n) s' -> r <> None.
Proof. intros huge fresh e full k s r n s' F. exact (enough_creates huge fresh e full F k s r n s'). Qed.
Print Assumptions C73_enough.

(** After any number of calls during which memory ran out, the count in the header of an object is the
    number of references to it. Missing from the full claim: as above. *)
Theorem C73_counts_partial : forall huge fresh e vs lib s own a c,
  allocator fresh -> fhistory huge fresh e vs lib s own -> lookup (s_heap s) a = Some c ->
  ref_of huge c = N.of_nat (references (lib ++ own) s a) /\ (0 < references (lib ++ own) s a)%nat.
Proof. intros huge fresh e vs lib s own a c F H. exact (f_counts huge fresh F e vs lib own s H a c). Qed.
Print Assumptions C73_counts_partial.

(** No object is freed while a reference to it exists. Missing from the full claim: as above. *)
Theorem C73_referenced_alive_partial : forall huge fresh e vs lib s own a,
  allocator fresh -> fhistory huge fresh e vs lib s own -> (0 < references (lib ++ own) s a)%nat -> alive s a.
Proof. intros huge fresh e vs lib s own a F H. exact (f_alive huge fresh F e vs lib own s H a). Qed.
Print Assumptions C73_referenced_alive_partial.

(** No object leaks. Missing from the full claim: as above. *)
Theorem C73_no_leak_partial : forall huge fresh e vs lib s own a,
  allocator fresh -> fhistory huge fresh e vs lib s own -> alive s a -> usable (lib ++ own) s a.
Proof. intros huge fresh e vs lib s own a F H. exact (f_no_leak huge fresh F e vs lib own s H a). Qed.
Print Assumptions C73_no_leak_partial.

(** Equal IRIs, entities, anonymous individuals and interned strings are still the same object. Missing from
    the full claim: as above. *)
Theorem C73_iri_partial : forall huge fresh e vs lib s own a b n m,
  allocator fresh -> fhistory huge fresh e vs lib s own -> iri_key s a n m -> iri_key s b n m -> a = b.
Proof. intros huge fresh e vs lib s own a b n m F H. exact (f_iri_unique huge fresh F e vs lib own s H a b n m). Qed.
Print Assumptions C73_iri_partial.

Theorem C73_entity_partial : forall huge fresh e vs lib s own a b t i,
  allocator fresh -> fhistory huge fresh e vs lib s own -> entity_key huge s a t i -> entity_key huge s b t i -> a = b.
Proof. intros huge fresh e vs lib s own a b t i F H. exact (f_entity_unique huge fresh F e vs lib own s H a b t i). Qed.
Print Assumptions C73_entity_partial.

Theorem C73_anon_partial : forall huge fresh e vs lib s own a b t,
  allocator fresh -> fhistory huge fresh e vs lib s own -> anon_key s a t -> anon_key s b t -> a = b.
Proof. intros huge fresh e vs lib s own a b t F H. exact (f_anon_unique huge fresh F e vs lib own s H a b t). Qed.
Print Assumptions C73_anon_partial.

Theorem C73_string_partial : forall huge fresh e vs lib s own a b t,
  allocator fresh -> fhistory huge fresh e vs lib s own -> interned huge e s a t -> interned huge e s b t -> a = b.
Proof. intros huge fresh e vs lib s own a b t F H. exact (f_string_unique huge fresh F e vs lib own s H a b t). Qed.
Print Assumptions C73_string_partial.

(** Once every reference is released only the library's objects are left, and stopping the library
    frees them. Missing from the full claim: as above. *)
Theorem C73_end_partial : forall huge fresh e vs lib s,
  allocator fresh -> fhistory huge fresh e vs lib s [] ->
  (forall a, alive s a -> In a lib) /\
  exists s', lib_deinit huge e vs s = Ok tt s' /\ s_heap s' = [] /\ forall t, table t s' = [].
Proof. intros huge fresh e vs lib s F. exact (f_shutdown huge fresh F e vs lib s). Qed.
Print Assumptions C73_end_partial.

(** A class; then two IRIs, a literal, an axiom and a class for which memory runs out, and an axiom that is
    created. The client holds the class and the axiom. A further class cannot be created. *)
Example C73_case : exists e vs lib s a c,
  allocator next /\ fhistory false next e vs lib s [a; c] /\ has_type false s a OT_A_SUB_CLASS /\ has_type false s c OT_CE_CLASS /\
  allowed false e lib [a; c] s (KEntityText OT_CE_CLASS (bs "http://w.org/a")) /\
  room false (lib ++ [a; c]) s (KEntityText OT_CE_CLASS (bs "http://w.org/a")) /\
  checked false e s (KEntityText OT_CE_CLASS (bs "http://w.org/a")) /\
  exists s', exec_f false next e (nth_fails s 10) (KEntityText OT_CE_CLASS (bs "http://w.org/a")) 0 s = Ok (None, 0) s'.
Proof.
  destruct short_story_runs as (e & vs & lib & s & a & c & H & A & B & C & D & E).
  exists e, vs, lib, s, a, c. split; [exact next_ok|]. split; [exact H|]. split; [exact A|]. split; [exact B|]. split; [exact C|]. split; [exact D|].
  split; [exact I|exact E].
Qed.
Example C73_enough_case : exists e s a n s',
  creates (KEntityText OT_CE_CLASS (bs "http://w.org/a")) = true /\ hopeless (KEntityText OT_CE_CLASS (bs "http://w.org/a")) = false /\
  exec_f false next e (fun _ => false) (KEntityText OT_CE_CLASS (bs "http://w.org/a")) 0 s = Ok (Some a, n) s'.
Proof.
  destruct short_story_runs as (e & vs & lib & s & a & c & H & A & B & C & D & E).
  destruct (C73_harmless_partial false next e vs lib s _ (fun _ => false) _ next_ok H C I D I) as (r & n & s' & X & _).
  destruct r as [r|].
  - exists e, s, r, n, s'. split; [reflexivity|]. split; [reflexivity|exact X].
  - exfalso. refine (C73_enough false next e (fun _ => false) (KEntityText OT_CE_CLASS (bs "http://w.org/a")) s None n s' _ _ _ X eq_refl); reflexivity.
Qed.
Example C73_closed_case : exists e vs lib s, allocator next /\ fhistory false next e vs lib s [].
Proof. destruct closed_short_story_runs as (e & vs & lib & s & H). exists e, vs, lib, s. split; [exact next_ok|exact H]. Qed.

(** cowl_anon_ind_from_string dereferences NULL if the copy of the identifier cannot be created. *)
Theorem C73_anon_refuted : exists e vs lib s own t j,
  allocator next /\ history false next e vs lib s own /\ allowed false e lib own s (KAnonText t) /\
  exec_f false next e (nth_fails s j) (KAnonText t) 0 s = Err ENull.
Proof.
  destruct anon_breaks as (e & vs & lib & s & own & H & A & _ & _ & E). exists e, vs, lib, s, own. eexists. eexists.
  split; [exact next_ok|]. split; [exact H|]. split; [exact A|exact E].
Qed.
Print Assumptions C73_anon_refuted.

(** cowl_anon_ind_from_string returns an individual with an empty identifier if the text of the copy cannot
    be created. *)
Theorem C73_anon_id_refuted : exists e vs lib s t j a s',
  allocator next /\ history false next e vs lib s [] /\
  exec_f false next e (nth_fails s j) (KAnonText t) 0 s = Ok (Some a, 0) s' /\ anon_key s' a [] /\ ~ anon_key s' a t.
Proof.
  destruct anon_lost as (e & vs & lib & s & H & a & s' & X & Y & Z). exists e, vs, lib, s. eexists. eexists. exists a, s'.
  split; [exact next_ok|]. split; [exact H|]. split; [exact X|]. split; [exact Y|exact Z].
Qed.
Print Assumptions C73_anon_id_refuted.

(** cowl_literal_lang dereferences NULL if the literal cannot be created. *)
Theorem C73_lang_refuted : exists e vs lib s own t l j,
  allocator next /\ history false next e vs lib s own /\ allowed false e lib own s (KLitLang t l) /\
  exec_f false next e (nth_fails s j) (KLitLang t l) 0 s = Err ENull.
Proof.
  destruct lang_breaks as (j & e & vs & lib & s & own & H & A & _ & _ & E). exists e, vs, lib, s, own. eexists. eexists. exists j.
  split; [exact next_ok|]. split; [exact H|]. split; [exact A|exact E].
Qed.
Print Assumptions C73_lang_refuted.

(** cowl_vector_ordered_empty dereferences NULL if the vector cannot be created. *)
Theorem C73_ordered_refuted : exists e vs lib s own j,
  allocator next /\ history false next e vs lib s own /\ allowed false e lib own s KVectorOrdered /\
  exec_f false next e (nth_fails s j) KVectorOrdered 0 s = Err ENull.
Proof.
  destruct ordered_breaks as (e & vs & lib & s & own & H & A & _ & _ & E). exists e, vs, lib, s, own. eexists.
  split; [exact next_ok|]. split; [exact H|]. split; [exact A|exact E].
Qed.
Print Assumptions C73_ordered_refuted.

(** cowl_has_key_axiom dereferences NULL if one of the vectors is left out and cannot be created. *)
Theorem C73_key_refuted : exists e vs lib s own c d j,
  allocator next /\ history false next e vs lib s own /\ allowed false e lib own s (KConstruct OT_A_HAS_KEY [Some c; None; Some d] None 0) /\
  exec_f false next e (nth_fails s j) (KConstruct OT_A_HAS_KEY [Some c; None; Some d] None 0) 0 s = Err ENull.
Proof.
  destruct key_breaks as (e & vs & lib & s & own & H & A & _ & _ & E). exists e, vs, lib, s, own. eexists. eexists. eexists.
  split; [exact next_ok|]. split; [exact H|]. split; [exact A|exact E].
Qed.
Print Assumptions C73_key_refuted.

(** The constructors that take a list of operands leave the array behind if the vector cannot be created. *)
Theorem C73_array_refuted : exists e vs lib s own k j s',
  allocator next /\ history false next e vs lib s own /\ allowed false e lib own s k /\
  exec_f false next e (nth_fails s j) k 0 s = Ok (None, 1) s'.
Proof.
  destruct nary_leaks as (e & vs & lib & s & own & k & H & A & _ & s' & E). exists e, vs, lib, s, own, k. eexists. exists s'.
  split; [exact next_ok|]. split; [exact H|]. split; [exact A|exact E].
Qed.
Print Assumptions C73_array_refuted.
