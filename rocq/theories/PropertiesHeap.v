(** C10 and C11. *)

From Coq Require Import NArith List Bool.
From Verif Require Import Bytes ModelTypes ModelHeader SpecHeader ModelText ModelHeap SpecHeap.
From Verif Require Import ProofHeapEnd ProofHeapSame ProofHeapBad ExamplesHeap ProofHeapWrong.
From Coq Require Import String.
From Coq Require Import List.
Import ListNotations.
Local Open Scope N_scope.

(** ** C10 *)

(** The library starts. *)
Theorem C10_start : forall huge fresh, allocator fresh ->
  exists e vs s, lib_init huge fresh s_zero = Ok (e, vs) s.
Proof. exact init_ok. Qed.
Print Assumptions C10_start.

(** No call touches a freed object or frees one twice. Nothing the client can still get to changes, except
    that vectors and ontologies grow, and that the calls that remove something change the object they remove
    it from.
    Missing from the full claim: tables, prefix maps, readers and writers, removal from vectors other than
    an ontology's; the calls must not put an object inside itself, must stay below the limit on references,
    and must not pass the objects described in the refutations. *)
Theorem C10_safe_partial : forall huge fresh e vs lib s own k,
  allocator fresh -> history huge fresh e vs lib s own ->
  allowed huge e lib own s k -> no_cycle s k -> room huge (lib ++ own) s k ->
  exists r s', exec huge fresh e k s = Ok r s' /\
  forall a c, usable (lib ++ after k None own) s a ->
    (removes k = true -> exists r, In r (lib ++ own) /\ still s s' r a) -> lookup (s_heap s) a = Some c ->
    exists c', lookup (s_heap s') a = Some c' /\ type_of huge c' = type_of huge c /\
      (grown (c_body c) (c_body c') \/ target s k a /\ edited (c_body c) (c_body c')).
Proof. intros huge fresh e vs lib s own k F H. exact (call_ok huge fresh F e vs lib own s H k). Qed.
Print Assumptions C10_safe_partial.

(** No object is freed while a reference to it exists. Missing from the full claim: as above. *)
Theorem C10_referenced_alive_partial : forall huge fresh e vs lib s own a,
  allocator fresh -> history huge fresh e vs lib s own -> (0 < references (lib ++ own) s a)%nat -> alive s a.
Proof. intros huge fresh e vs lib s own a F H. exact (referenced_alive huge fresh F e vs lib own s H a). Qed.
Print Assumptions C10_referenced_alive_partial.

(** The count in the header is the number of references. Missing from the full claim: as above. *)
Theorem C10_counts_partial : forall huge fresh e vs lib s own a c,
  allocator fresh -> history huge fresh e vs lib s own -> lookup (s_heap s) a = Some c ->
  ref_of huge c = N.of_nat (references (lib ++ own) s a) /\ (0 < references (lib ++ own) s a)%nat.
Proof. intros huge fresh e vs lib s own a c F H. exact (counts_ok huge fresh F e vs lib own s H a c). Qed.
Print Assumptions C10_counts_partial.

(** Nothing leaks: what is in memory can be reached from the references held. Missing: as above. *)
Theorem C10_no_leak_partial : forall huge fresh e vs lib s own a,
  allocator fresh -> history huge fresh e vs lib s own -> alive s a -> usable (lib ++ own) s a.
Proof. intros huge fresh e vs lib s own a F H. exact (no_leak huge fresh F e vs lib own s H a). Qed.
Print Assumptions C10_no_leak_partial.

(** Once every reference is released only the library's objects are left, and stopping the library
    frees them. Missing: as above. *)
Theorem C10_end_partial : forall huge fresh e vs lib s,
  allocator fresh -> history huge fresh e vs lib s [] ->
  (forall a, alive s a -> In a lib) /\
  exists s', lib_deinit huge e vs s = Ok tt s' /\ s_heap s' = [] /\ forall t, table t s' = [].
Proof. intros huge fresh e vs lib s F. exact (shutdown huge fresh F e vs lib s). Qed.
Print Assumptions C10_end_partial.

(** Without the limit on references: an object is freed while the client holds references to it. *)
Theorem C10_limit_refuted : forall huge fresh, allocator fresh ->
  exists e vs lib s own a, owned huge fresh e vs lib s own /\ In a own /\ ~ alive s a.
Proof. exact over_retain. Qed.
Print Assumptions C10_limit_refuted.

(** A vector put inside itself is left in memory when every reference is released. *)
Theorem C10_cycle_refuted : forall huge fresh, allocator fresh ->
  exists e vs lib s a, owned huge fresh e vs lib s [] /\ alive s a /\ ~ In a lib.
Proof. exact cycle. Qed.
Print Assumptions C10_cycle_refuted.

(** An annotation of an ontology that contains the ontology's vector of annotations is left in memory. *)
Theorem C10_annotation_cycle_refuted : exists e vs lib s a,
  owned false next e vs lib s [] /\ alive s a /\ ~ In a lib /\ has_type false s a OT_ANNOTATION.
Proof. exact annot_loop. Qed.
Print Assumptions C10_annotation_cycle_refuted.

(** Setting the IRI an ontology already has reads a freed object, if the ontology has the only reference. *)
Theorem C10_same_iri_refuted : exists e vs lib s o i p,
  history false next e vs lib s [o] /\ onto_is s o p /\ n_iri p = Some i /\ has_type false s i OT_IRI /\
  exec false next e (KSetIri o (Some i)) s = Err EFreed.
Proof. exact set_iri_freed. Qed.
Print Assumptions C10_same_iri_refuted.

(** Removing an axiom that is equal to one in the ontology frees the argument, to which the client has a
    reference, and leaves the ontology as it is. *)
Theorem C10_equal_axiom_refuted : exists e vs lib s y x c o s' p,
  history false next e vs lib s [y; x; c; o] /\ has_type false s x OT_A_SUB_CLASS /\ has_type false s o OT_ONTOLOGY /\
  exec false next e (KRemoveAxiom o x) s = Ok None s' /\ ~ alive s' x /\
  onto_is s' o p /\ In y (tindex (n_axioms p) OT_A_SUB_CLASS).
Proof. exact remove_twin_frees. Qed.
Print Assumptions C10_equal_axiom_refuted.

(** Removing an annotation that is equal to one of the ontology frees the argument. *)
Theorem C10_equal_annotation_refuted : exists e vs lib s y x p i o s',
  history false next e vs lib s [y; x; p; i; o] /\ has_type false s x OT_ANNOTATION /\ has_type false s o OT_ONTOLOGY /\
  exec false next e (KRemoveAnnot o x) s = Ok None s' /\ ~ alive s' x.
Proof. exact remove_annot_frees. Qed.
Print Assumptions C10_equal_annotation_refuted.

(** Iterating over the primitives of an ontology reads a freed object after the axiom that used it was
    removed and the last reference to it was released. *)
Theorem C10_stale_primitive_refuted : exists e vs lib s o,
  history false next e vs lib s [o] /\ has_type false s o OT_ONTOLOGY /\ exec false next e (KPrimitives o) s = Err EFreed.
Proof. exact primitives_freed. Qed.
Print Assumptions C10_stale_primitive_refuted.

(** An allocator. *)
Example C10_allocator_case : allocator next.
Proof. exact next_ok. Qed.
(** A history with an IRI, classes, an axiom, a vector and releases. *)
Example C10_case : exists e vs lib s v c d,
  history false next e vs lib s [v; c; d] /\ has_type false s v OT_VECTOR /\ has_type false s d OT_IRI.
Proof. exact story_runs. Qed.
(** A history with an ontology, from which an axiom was removed. *)
Example C10_ontology_case : exists e vs lib s n y b a i o p,
  history false next e vs lib s [n; y; b; a; i; o] /\ onto_is s o p /\
  n_iri p = Some i /\ n_imports p = [i] /\ tindex (n_axioms p) OT_A_SUB_CLASS = [y] /\ n_annot p <> None.
Proof. exact onto_story_runs. Qed.
(** The same history with everything released. *)
Example C10_end_case : exists e vs lib s, history false next e vs lib s [].
Proof. exact closed_story_runs. Qed.

(** ** C11 *)

(** At most one live object per key. Missing from the full claim: objects in tables, ontologies and prefix
    maps are not part of the histories. *)
Theorem C11_iri_unique_partial : forall huge fresh e vs lib s own a b ns rem,
  allocator fresh -> history huge fresh e vs lib s own -> iri_key s a ns rem -> iri_key s b ns rem -> a = b.
Proof. intros huge fresh e vs lib s own a b ns rem F H. exact (iri_unique huge fresh F e vs lib own s H a b ns rem). Qed.
Print Assumptions C11_iri_unique_partial.
Theorem C11_entity_unique_partial : forall huge fresh e vs lib s own a b t i,
  allocator fresh -> history huge fresh e vs lib s own -> entity_key huge s a t i -> entity_key huge s b t i -> a = b.
Proof. intros huge fresh e vs lib s own a b t i F H. exact (entity_unique huge fresh F e vs lib own s H a b t i). Qed.
Print Assumptions C11_entity_unique_partial.
Theorem C11_anon_unique_partial : forall huge fresh e vs lib s own a b t,
  allocator fresh -> history huge fresh e vs lib s own -> anon_key s a t -> anon_key s b t -> a = b.
Proof. intros huge fresh e vs lib s own a b t F H. exact (anon_unique huge fresh F e vs lib own s H a b t). Qed.
Print Assumptions C11_anon_unique_partial.
Theorem C11_string_unique_partial : forall huge fresh e vs lib s own a b t,
  allocator fresh -> history huge fresh e vs lib s own -> interned huge e s a t -> interned huge e s b t -> a = b.
Proof. intros huge fresh e vs lib s own a b t F H. exact (string_unique huge fresh F e vs lib own s H a b t). Qed.
Print Assumptions C11_string_unique_partial.

(** Asking again for a key that is alive returns the object with that key. Missing: as above. *)
Theorem C11_iri_same_partial : forall huge fresh e vs lib s own p q n m,
  allocator fresh -> history huge fresh e vs lib s own ->
  allowed huge e lib own s (KIri p q) -> room huge (lib ++ own) s (KIri p q) -> has_text s p n -> has_text s q m ->
  exists b s', exec huge fresh e (KIri p q) s = Ok (Some b) s' /\
    iri_key s' b (fst (iri_of_parts n m)) (snd (iri_of_parts n m)) /\
    forall a, iri_key s a (fst (iri_of_parts n m)) (snd (iri_of_parts n m)) -> a = b.
Proof. intros huge fresh e vs lib s own p q n m F H. exact (same_iri huge fresh F e vs lib own s H p q n m). Qed.
Print Assumptions C11_iri_same_partial.
Theorem C11_iri_text_same_partial : forall huge fresh e vs lib s own t,
  allocator fresh -> history huge fresh e vs lib s own -> room huge (lib ++ own) s (KIriText t) ->
  match iri_from_string t with
  | None => exists s', exec huge fresh e (KIriText t) s = Ok None s'
  | Some (n, m) => exists b s', exec huge fresh e (KIriText t) s = Ok (Some b) s' /\ iri_key s' b n m /\
      forall a, iri_key s a n m -> a = b
  end.
Proof. intros huge fresh e vs lib s own t F H. exact (same_iri_text huge fresh F e vs lib own s H t). Qed.
Print Assumptions C11_iri_text_same_partial.
Theorem C11_entity_same_partial : forall huge fresh e vs lib s own t i,
  allocator fresh -> history huge fresh e vs lib s own ->
  allowed huge e lib own s (KEntity t i) -> room huge (lib ++ own) s (KEntity t i) ->
  exists b s', exec huge fresh e (KEntity t i) s = Ok (Some b) s' /\ entity_key huge s' b t i /\
    forall a, entity_key huge s a t i -> a = b.
Proof. intros huge fresh e vs lib s own t i F H. exact (same_entity huge fresh F e vs lib own s H t i). Qed.
Print Assumptions C11_entity_same_partial.
Theorem C11_entity_text_same_partial : forall huge fresh e vs lib s own t u,
  allocator fresh -> history huge fresh e vs lib s own ->
  type_is_entity t = true -> room huge (lib ++ own) s (KEntityText t u) ->
  match iri_from_string u with
  | None => exists s', exec huge fresh e (KEntityText t u) s = Ok None s'
  | Some (n, m) => exists b i s', exec huge fresh e (KEntityText t u) s = Ok (Some b) s' /\
      entity_key huge s' b t i /\ iri_key s' i n m /\
      forall a j, entity_key huge s a t j -> iri_key s j n m -> a = b
  end.
Proof. intros huge fresh e vs lib s own t u F H. exact (same_entity_text huge fresh F e vs lib own s H t u). Qed.
Print Assumptions C11_entity_text_same_partial.
Theorem C11_anon_same_partial : forall huge fresh e vs lib s own t,
  allocator fresh -> history huge fresh e vs lib s own -> room huge (lib ++ own) s (KAnonText t) ->
  exists b s', exec huge fresh e (KAnonText t) s = Ok (Some b) s' /\ anon_key s' b t /\
    forall a, anon_key s a t -> a = b.
Proof. intros huge fresh e vs lib s own t F H. exact (same_anon_text huge fresh F e vs lib own s H t). Qed.
Print Assumptions C11_anon_same_partial.
Theorem C11_anon_id_same_partial : forall huge fresh e vs lib s own i t ids,
  allocator fresh -> history huge fresh e vs lib s own ->
  allowed huge e lib own s (KAnon (Some i) ids) -> room huge (lib ++ own) s (KAnon (Some i) ids) -> has_text s i t ->
  exists b s', exec huge fresh e (KAnon (Some i) ids) s = Ok (Some b) s' /\ anon_key s' b t /\
    forall a, anon_key s a t -> a = b.
Proof. intros huge fresh e vs lib s own i t ids F H. exact (same_anon huge fresh F e vs lib own s H i t ids). Qed.
Print Assumptions C11_anon_id_same_partial.
Theorem C11_string_same_partial : forall huge fresh e vs lib s own t,
  allocator fresh -> history huge fresh e vs lib s own -> room huge (lib ++ own) s (KString t true) ->
  exists b s', exec huge fresh e (KString t true) s = Ok (Some b) s' /\ interned huge e s' b t /\
    forall a, interned huge e s a t -> a = b.
Proof. intros huge fresh e vs lib s own t F H. exact (same_string huge fresh F e vs lib own s H t). Qed.
Print Assumptions C11_string_same_partial.
Theorem C11_intern_same_partial : forall huge fresh e vs lib s own p t,
  allocator fresh -> history huge fresh e vs lib s own ->
  allowed huge e lib own s (KIntern p) -> room huge (lib ++ own) s (KIntern p) -> has_text s p t ->
  exists b s', string_intern huge e (Some p) s = Ok (Some b) s' /\ interned huge e s' b t /\
    (forall a, interned huge e s a t -> a = b) /\ history huge fresh e vs lib s' own.
Proof. intros huge fresh e vs lib s own p t F H. exact (same_intern huge fresh F e vs lib own s H p t). Qed.
Print Assumptions C11_intern_same_partial.

(** A history with an interned string, an IRI, a class and an anonymous individual. *)
Example C11_case : exists e vs lib s n c i r p,
  history false next e vs lib s [n; c; i; r; p] /\ anon_key s n (bs "genid1") /\ entity_key false s c OT_CE_CLASS i /\
  iri_key s i (bs "x:") (bs "a") /\ interned false e s p (bs "x:") /\
  (allowed false e lib [n; c; i; r; p] s (KEntity OT_CE_CLASS i) /\ room false (lib ++ [n; c; i; r; p]) s (KEntity OT_CE_CLASS i)) /\
  (allowed false e lib [n; c; i; r; p] s (KIri p r) /\ room false (lib ++ [n; c; i; r; p]) s (KIri p r)).
Proof. exact names_run. Qed.
