(** C13, C24-C32: ontologies. *)

From Coq Require Import NArith ZArith List Bool Permutation.
From Verif Require Import Bytes ModelTypes ModelObject ModelHeader SpecObject ModelOntology SpecOntology.
From Verif Require Import ExamplesObject ProofOntology ProofOntologyHistory ProofOntologyTop ExamplesOntology.
Import ListNotations.
Local Open Scope nat_scope.

(** ** C24 *)

(** Missing from the full claim: removals through an equal copy of a stored axiom, and bulk removals
    whose filter lists no primitive or whose selected axioms mention one of its primitives twice. *)
Theorem C24_contents_partial : forall heap w es l os, history heap es -> supported_effects [] es l os ->
  exists o rs log m, o_run w (o_empty true) es = Some (o, rs, log) /\ as_documented rs os /\
    contains o m /\ Permutation m l /\ axiom_count w o = (N.of_nat (length l) mod 2 ^ w)%N.
Proof. exact history_contents. Qed.
Print Assumptions C24_contents_partial.

Example C24_contents_partial_case : history ex_heap ex_es /\
  supported_effects [] ex_es [at_ 4] [Some 0; Some 0; Some 0; None; None; Some 1; Some 1; None; None].
Proof. exact (conj ex_history_ok ex_supported). Qed.

(** Removing an equal copy is reported as done, yet the axiom stays. *)
Theorem C24_contents_refuted : exists heap es l os o rs log,
  history heap es /\ effects [] es l os /\ o_run 32 (o_empty true) es = Some (o, rs, log) /\
  as_documented rs os /\ ~ (exists m, contains o m /\ Permutation m l).
Proof. exact copy_counterexample. Qed.
Print Assumptions C24_contents_refuted.

(** Totals, counts by type and by set of types, and iteration by type agree with the contents. *)
Theorem C24_counts_and_types : forall heap w o, reached heap w o -> exists l, contains o l /\
  axiom_count w o = (N.of_nat (length l) mod 2 ^ w)%N /\
  (forall t, (t < 37)%N -> exists m, delivers (fun S call s => iterate_axioms_of_type call o t s) m /\
     Permutation m (filter (fun a => N.eqb (ax_type (r_obj a)) t) l) /\ count_for_type o t = length m) /\
  (forall types, exists m, delivers (fun S call s => iterate_axioms_of_types call o types s) m /\
     Permutation m (filter (fun a => N.testbit types (ax_type (r_obj a))) l) /\
     count_for_types w o types = Some (N.of_nat (length m) mod 2 ^ w)%N).
Proof. exact reached_contents. Qed.
Print Assumptions C24_counts_and_types.

Example C24_counts_and_types_case : reached ex_heap 32 rich.
Proof. exact rich_reached. Qed.

(** ** C25 *)

(** The delivered axioms are those that mention the primitive or, for an entity, its IRI; the count is
    the number of deliveries. *)
Theorem C25_axioms_for_primitive : forall heap w o l p k,
  reached heap w o -> contains o l -> kind p = Some k -> exists m,
  delivers (fun S call s => iterate_axioms_for_primitive call o p s) m /\
  (forall a, In a m <-> In a l /\ exists q, about p q /\ mentions q (r_obj a)) /\
  count_for_primitive w o p = (N.of_nat (length m) mod 2 ^ w)%N.
Proof. exact for_primitive_spec. Qed.
Print Assumptions C25_axioms_for_primitive.

(** Each axiom once. Missing from the full claim: ontologies with an axiom that mentions the primitive
    more than once. *)
Theorem C25_each_once_partial : forall heap w o l p k,
  reached heap w o -> contains o l -> kind p = Some k ->
  NoDup l -> (forall a, In a l -> about_once p (r_obj a)) ->
  exists m, delivers (fun S call s => iterate_axioms_for_primitive call o p s) m /\ NoDup m /\
    (forall a, In a m <-> In a l /\ exists q, about p q /\ mentions q (r_obj a)) /\
    count_for_primitive w o p = (N.of_nat (length m) mod 2 ^ w)%N.
Proof. exact for_primitive_once. Qed.
Print Assumptions C25_each_once_partial.

Example C25_case : reached ex_heap 32 rich /\ contains rich [at_ 1; at_ 3; at_ 4] /\
  kind ex_A = Some (PT_ENT ET_CLASS) /\ NoDup [at_ 1; at_ 3; at_ 4] /\
  (forall a, In a [at_ 1; at_ 3; at_ 4] -> about_once ex_A (r_obj a)).
Proof. exact (conj rich_reached (conj rich_contains (conj eq_refl (conj rich_nodup rich_about_once)))). Qed.

(** One axiom, delivered and counted twice. *)
Theorem C25_each_once_refuted : exists heap o l p m, reached heap 32 o /\ contains o l /\ NoDup l /\
  kind p = Some (PT_ENT ET_CLASS) /\ delivers (fun S call s => iterate_axioms_for_primitive call o p s) m /\
  ~ NoDup m /\ length l = 1 /\ count_for_primitive 32 o p = 2%N.
Proof. exact twice_counterexample. Qed.
Print Assumptions C25_each_once_refuted.

(** ** C26 *)

Theorem C26_has_axiom : forall heap w o l a, reached heap w o -> contains o l -> is_axiom_object (r_obj a) ->
  decides (has_axiom o a) (exists b, In b l /\ cowl_equals (r_obj a) (r_obj b) = true).
Proof. exact has_axiom_reached. Qed.
Print Assumptions C26_has_axiom.

Example C26_case : reached ex_heap 32 rich /\ contains rich [at_ 1; at_ 3; at_ 4] /\
  is_axiom_object (r_obj (at_ 2)) /\ has_axiom rich (at_ 2) = Some true /\ has_axiom rich (at_ 5) = Some false.
Proof. repeat split; first [exact rich_reached | exact rich_contains | vm_compute; reflexivity]. Qed.

(** ** C27 *)

(** The answer is right for every axiom; an object that is in the ontology is removed. *)
Theorem C27_result : forall heap w o l a,
  reached heap w o -> contains o l -> is_axiom_object (r_obj a) -> r_obj a = heap (r_id a) ->
  exists o' b log, remove_axiom o a = Some (o', b, log) /\
    (b = true <-> exists c, In c l /\ cowl_equals (r_obj a) (r_obj c) = true) /\
    (In a l -> exists l', contains o' l' /\ Permutation l (a :: l') /\ log = [Release (r_id a)]) /\
    (~ In a l -> contains o' l) /\
    (b = false -> o' = o /\ log = []).
Proof. exact remove_result. Qed.
Print Assumptions C27_result.

(** Missing from the full claim: axioms that are not in the ontology but equal one that is. *)
Theorem C27_remove_axiom_partial : forall heap w o l a,
  reached heap w o -> contains o l -> is_axiom_object (r_obj a) -> r_obj a = heap (r_id a) ->
  In a l \/ (forall b, In b l -> cowl_equals (r_obj a) (r_obj b) = false) ->
  exists o' l' b log, remove_axiom o a = Some (o', b, log) /\ reached heap w o' /\ contains o' l' /\
    effect l (ERemoveAxiom a) l' (Some (if b then 1 else 0)) /\ log = (if b then [Release (r_id a)] else []).
Proof. exact remove_supported. Qed.
Print Assumptions C27_remove_axiom_partial.

Example C27_case : reached ex_heap 32 rich /\ contains rich [at_ 1; at_ 3; at_ 4] /\
  is_axiom_object (r_obj (at_ 3)) /\ r_obj (at_ 3) = ex_heap (r_id (at_ 3)) /\ In (at_ 3) [at_ 1; at_ 3; at_ 4].
Proof. exact (conj rich_reached (conj rich_contains (conj eq_refl (conj eq_refl (or_intror (or_introl eq_refl)))))). Qed.

(** An equal copy: the answer is "removed", the contents do not change, the copy loses a reference. *)
Theorem C27_remove_axiom_refuted : exists heap o l a,
  reached heap 32 o /\ contains o l /\ is_axiom_object (r_obj a) /\
  r_obj a = heap (r_id a) /\ (exists b, In b l /\ cowl_equals (r_obj a) (r_obj b) = true) /\
  exists o', remove_axiom o a = Some (o', true, [Release (r_id a)]) /\ contains o' l /\ ~ In a l.
Proof. exact remove_copy_counterexample. Qed.
Print Assumptions C27_remove_axiom_refuted.

(** ** C28 *)

(** With at least one primitive nothing is missed, and everything delivered fulfils the filter if
    mentioning the IRI of an entity counts as mentioning the entity. *)
Theorem C28_filter_up_to_iri : forall heap w o l f,
  reached heap w o -> contains o l -> prims (f_prims f) -> f_prims f <> [] ->
  exists m, delivers (fun S call s => iterate_axioms_matching call w o f s) m /\
  (forall a, In a l -> satisfies f a -> In a m) /\
  (forall a, In a m -> In a l /\ N.testbit (f_types f) (ax_type (r_obj a)) = true /\
     (forall c, f_closure f = Some c -> c a = true) /\
     (forall p, In p (f_prims f) -> exists q, about p q /\ mentions q (r_obj a))).
Proof. exact matching_up_to_iri. Qed.
Print Assumptions C28_filter_up_to_iri.

(** Missing from the full claim: filters without primitives, ontologies where a selected axiom mentions
    a primitive of the filter more than once, or where the IRI of an entity of the filter is mentioned
    on its own. *)
Theorem C28_filter_partial : forall heap w o l f,
  reached heap w o -> contains o l -> prims (f_prims f) -> f_prims f <> [] ->
  (forall a, In a l -> satisfies f a -> forall p, In p (f_prims f) -> occurs p (r_obj a) 1) ->
  (forall a, In a l -> forall p q, In p (f_prims f) -> about p q -> q <> p -> ~ mentions q (r_obj a)) ->
  exists m rest, delivers (fun S call s => iterate_axioms_matching call w o f s) m /\
    Permutation l (m ++ rest) /\ (forall a, In a m -> satisfies f a) /\ (forall a, In a rest -> ~ satisfies f a).
Proof. exact matching_exact. Qed.
Print Assumptions C28_filter_partial.

Example C28_case : reached ex_heap 32 rich /\ contains rich [at_ 1; at_ 3; at_ 4] /\
  prims (f_prims b_filter) /\ f_prims b_filter <> [] /\
  (forall a, In a [at_ 1; at_ 3; at_ 4] -> satisfies b_filter a -> forall p, In p (f_prims b_filter) -> occurs p (r_obj a) 1) /\
  (forall a, In a [at_ 1; at_ 3; at_ 4] -> forall p q, In p (f_prims b_filter) -> about p q -> q <> p -> ~ mentions q (r_obj a)) /\
  satisfies b_filter (at_ 1).
Proof.
  refine (conj rich_reached (conj rich_contains (conj b_prims (conj _ (conj b_once (conj b_iri b_satisfied)))))). discriminate.
Qed.

(** A filter on types only delivers (and removes) nothing. *)
Theorem C28_types_only_refuted : exists heap o l f a, reached heap 32 o /\ contains o l /\ f_prims f = [] /\
  In a l /\ satisfies f a /\
  delivers (fun S call s => iterate_axioms_matching call 32 o f s) [] /\
  remove_axioms_matching 32 o f = Some (o, 0, []).
Proof. exact types_only_counterexample. Qed.
Print Assumptions C28_types_only_refuted.

(** An axiom that does not fulfil the filter is delivered. *)
Theorem C28_unrelated_refuted : exists heap o l f m a, reached heap 32 o /\ contains o l /\ f_prims f <> [] /\
  prims (f_prims f) /\ delivers (fun S call s => iterate_axioms_matching call 32 o f s) m /\ In a m /\ ~ satisfies f a.
Proof. exact iri_counterexample. Qed.
Print Assumptions C28_unrelated_refuted.

(** An axiom is delivered twice. *)
Theorem C28_twice_refuted : exists heap o l f m, reached heap 32 o /\ contains o l /\ NoDup l /\
  f_prims f <> [] /\ prims (f_prims f) /\
  delivers (fun S call s => iterate_axioms_matching call 32 o f s) m /\ ~ NoDup m.
Proof. exact matching_twice_counterexample. Qed.
Print Assumptions C28_twice_refuted.

(** ** C29 *)

(** Whatever bulk removal removes fulfils the filter; the count and the references given back are right. *)
Theorem C29_sound : forall heap w o l f o' c log,
  reached heap w o -> contains o l -> prims (f_prims f) ->
  remove_axioms_matching w o f = Some (o', c, log) ->
  exists gone l', contains o' l' /\ Permutation l (gone ++ l') /\ (forall a, In a gone -> satisfies f a) /\
    c = length gone /\ log = map (fun a => Release (r_id a)) gone.
Proof. exact bulk_sound. Qed.
Print Assumptions C29_sound.

(** Missing from the full claim: filters without primitives, and ontologies where a selected axiom
    mentions a primitive of the filter more than once. *)
Theorem C29_remove_matching_partial : forall heap w o l f,
  reached heap w o -> contains o l -> prims (f_prims f) -> f_prims f <> [] ->
  (forall a, In a l -> satisfies f a -> forall p, In p (f_prims f) -> occurs p (r_obj a) 1) ->
  exists o' l' c log, remove_axioms_matching w o f = Some (o', c, log) /\ reached heap w o' /\ contains o' l' /\
    effect l (ERemoveMatching f) l' (Some c).
Proof. exact bulk_exact. Qed.
Print Assumptions C29_remove_matching_partial.

Example C29_case : reached ex_heap 32 rich /\ contains rich [at_ 1; at_ 3; at_ 4] /\
  prims (f_prims b_filter) /\ f_prims b_filter <> [] /\
  (forall a, In a [at_ 1; at_ 3; at_ 4] -> satisfies b_filter a -> forall p, In p (f_prims b_filter) -> occurs p (r_obj a) 1) /\
  satisfies b_filter (at_ 1).
Proof.
  refine (conj rich_reached (conj rich_contains (conj b_prims (conj _ (conj b_once b_satisfied))))). discriminate.
Qed.

(** Removing all axioms about a class that one axiom mentions twice reads past the end of the index.
    (For types-only filters see [C28_types_only_refuted].) *)
Theorem C29_remove_matching_refuted : exists heap o f,
  reached heap 32 o /\ prims (f_prims f) /\ f_prims f <> [] /\ remove_axioms_matching 32 o f = None.
Proof. exact bulk_counterexample. Qed.
Print Assumptions C29_remove_matching_refuted.

(** ** C30 *)

(** The signature is that of everything ever added. *)
Theorem C30_has_primitive_history : forall heap w es o rs log p k,
  history heap es -> o_run w (o_empty true) es = Some (o, rs, log) -> kind p = Some k ->
  (o_has_primitive o p = true <-> exists x q, ever_added es x /\ about p q /\ mentions q x).
Proof. exact has_primitive_history. Qed.
Print Assumptions C30_has_primitive_history.

Theorem C30_iterate_history : forall heap w es o rs log visit alive flags,
  history heap es -> o_run w (o_empty true) es = Some (o, rs, log) ->
  (forall l, Permutation (visit l) l) ->
  (forall p x, ever_added es x -> mentions p x -> alive p = true) ->
  exists l, NoDup l /\ delivers (fun S call s => o_iterate_primitives call visit alive o flags s) l /\
    primitive_count o flags = length l /\
    (forall p, In p l <-> enabled flags p = true /\ exists x, ever_added es x /\ mentions p x).
Proof. exact signature_history. Qed.
Print Assumptions C30_iterate_history.

(** Missing from the full claim: histories that remove axioms or annotations. *)
Theorem C30_has_primitive_partial : forall heap w es o rs log l p k, history heap es -> only_adds es ->
  o_run w (o_empty true) es = Some (o, rs, log) -> contains o l -> kind p = Some k ->
  (o_has_primitive o p = true <->
   exists a q, In a (l ++ vec_data (o_annot o)) /\ about p q /\ mentions q (r_obj a)).
Proof. exact signature_only_adds. Qed.
Print Assumptions C30_has_primitive_partial.

Theorem C30_iterate_partial : forall heap w es o rs log l visit alive flags, history heap es -> only_adds es ->
  o_run w (o_empty true) es = Some (o, rs, log) -> contains o l ->
  (forall l, Permutation (visit l) l) ->
  (forall p a, In a (l ++ vec_data (o_annot o)) -> mentions p (r_obj a) -> alive p = true) ->
  exists m, NoDup m /\ delivers (fun S call s => o_iterate_primitives call visit alive o flags s) m /\
    primitive_count o flags = length m /\
    (forall p, In p m <-> enabled flags p = true /\ exists a, In a (l ++ vec_data (o_annot o)) /\ mentions p (r_obj a)).
Proof. exact signature_adds. Qed.
Print Assumptions C30_iterate_partial.

Example C30_case : history ex_heap rich_es /\ only_adds rich_es /\
  (exists rs log, o_run 32 (o_empty true) rich_es = Some (rich, rs, log)) /\ contains rich [at_ 1; at_ 3; at_ 4] /\
  primitive_count rich PF_ALL = 8.
Proof. refine (conj rich_history (conj rich_only_adds (conj rich_run (conj rich_contains _)))). vm_compute. reflexivity. Qed.

(** After the only axiom is removed its primitives are still reported, and reading one that has been
    freed meanwhile is undefined behaviour. *)
Theorem C30_signature_refuted : exists heap es o rs log p,
  history heap es /\ o_run 32 (o_empty true) es = Some (o, rs, log) /\ contains o [] /\ o_annot o = None /\
  kind p = Some (PT_ENT ET_CLASS) /\ o_has_primitive o p = true /\ primitive_count o PF_ALL = 2 /\
  exists alive, o_iterate_primitives (fun (s : nat) (_ : obj) => (S s, COWL_CONTINUE)) (fun l => l) alive o PF_ALL 0 = IUB.
Proof. exact stale_counterexample. Qed.
Print Assumptions C30_signature_refuted.

(** ** C31 *)

(** The delivered operands, axiom by axiom; once per axiom if no axiom mentions the primitive twice.
    Missing from the full claim: once per axiom when the axiom mentions the primitive more than once. *)
Theorem C31_related_partial : forall heap w o l p k types position,
  reached heap w o -> contains o l -> kind p = Some k ->
  exists axs ds, delivers (fun S call s => iterate_related call o p types position s) (List.concat ds) /\
    Forall2 (fun a d => exists ops, operand_sequence (r_obj a) position ops /\ dropping p ops d) axs ds /\
    (forall a, In a axs <-> In a l /\ N.testbit types (ax_type (r_obj a)) = true /\ operand_at (r_obj a) p 7) /\
    (NoDup l -> (forall a, In a l -> at_most_once p (r_obj a)) -> NoDup axs).
Proof. exact related_spec. Qed.
Print Assumptions C31_related_partial.

Example C31_case : reached ex_heap 32 rich /\ contains rich [at_ 1; at_ 3; at_ 4] /\
  kind ex_A = Some (PT_ENT ET_CLASS) /\ NoDup [at_ 1; at_ 3; at_ 4] /\
  (forall a, In a [at_ 1; at_ 3; at_ 4] -> at_most_once ex_A (r_obj a)).
Proof. exact (conj rich_reached (conj rich_contains (conj eq_refl (conj rich_nodup rich_once)))). Qed.

Theorem C31_related_refuted : exists heap o l p, reached heap 32 o /\ contains o l /\ length l = 1 /\
  kind p = Some (PT_ENT ET_CLASS) /\ exists x,
  delivers (fun S call s => iterate_related call o p AF_ALL 7 s) [x; x] /\
  (forall a, In a l -> operand_sequence (r_obj a) 7 [p; x]) /\ x <> p.
Proof. exact related_counterexample. Qed.
Print Assumptions C31_related_refuted.

(** ** C32 *)

Theorem C32_lists : forall heap w es o rs log,
  history heap es -> o_run w (o_empty true) es = Some (o, rs, log) ->
  exists annots imports, list_edits on_annots [] es annots /\ list_edits on_imports [] es imports /\
    delivers (fun S call s => iterate_annot call o s) annots /\
    delivers (fun S call s => iterate_imports call o s) imports /\
    import_count o = length imports /\
    (forall i, has_import o i = true <-> exists y, In y imports /\ cowl_equals (r_obj i) (r_obj y) = true).
Proof. exact lists_history. Qed.
Print Assumptions C32_lists.

Example C32_case : history ex_heap ex_es /\ history ex_heap rich_es /\
  (exists rs log, o_run 32 (o_empty true) rich_es = Some (rich, rs, log)).
Proof. exact (conj ex_history_ok (conj rich_history rich_run)). Qed.

(** Removal reports whether an equal element was there. *)
Theorem C32_results : forall heap w o e x o' r log, reached heap w o -> typed e -> in_heap heap e ->
  o_step w o e = Some (o', r, log) -> e = ERemoveAnnot x \/ e = ERemoveImport x ->
  forall l, delivers (fun S call s => if match e with ERemoveAnnot _ => true | _ => false end
                                      then iterate_annot call o s else iterate_imports call o s) l ->
  (r = 1 /\ exists y, In y l /\ cowl_equals (r_obj x) (r_obj y) = true) \/
  (r = 0 /\ forall y, In y l -> cowl_equals (r_obj x) (r_obj y) = false).
Proof. exact list_results. Qed.
Print Assumptions C32_results.

(** ** C13 *)

(** If removals name the very objects that are stored, the ontology holds exactly one reference per stored
    element, and none once it is freed. Missing from the full claim: removals through equal copies. *)
Theorem C13_ontology_partial : forall heap w es o rs log, history heap es -> same_pointers es ->
  o_run w (o_empty true) es = Some (o, rs, log) ->
  exists l, contains o l /\
    (forall id, net id log = copies id (stored o l)) /\
    (forall id, net id (log ++ o_free o) = 0%Z).
Proof. exact references_balance. Qed.
Print Assumptions C13_ontology_partial.

Example C13_case : history ex_heap same_es /\ same_pointers same_es /\
  exists o rs log, o_run 32 (o_empty true) same_es = Some (o, rs, log).
Proof. exact (conj same_history (conj same_ok same_run)). Qed.

(** Vectors: which element goes, and what is released. *)
Theorem C13_vector_remove : forall ordered l x, exists l' b log, vector_remove ordered l x = (l', b, log) /\
  (b = true <-> exists y, In y l /\ cowl_equals (r_obj x) (r_obj y) = true) /\
  (b = true -> exists y, In y l /\ cowl_equals (r_obj x) (r_obj y) = true /\ Permutation l (y :: l') /\ log = [Release (r_id x)]) /\
  (b = false -> l' = l /\ log = []) /\
  (ordered = true -> list_edit l (Some (false, x)) l').
Proof. exact vector_remove_spec. Qed.
Print Assumptions C13_vector_remove.

(** Missing from the full claim: arguments that are merely equal to a stored element. *)
Theorem C13_vector_partial : forall ordered l x l' b log, vector_remove ordered l x = (l', b, log) ->
  (forall y, In y l -> cowl_equals (r_obj x) (r_obj y) = true -> y = x) ->
  forall id, net id log = (copies id l' - copies id l)%Z.
Proof. exact vector_remove_balanced. Qed.
Print Assumptions C13_vector_partial.

Example C13_vector_case : vector_remove false [at_ 1; at_ 3; at_ 4] (at_ 1) = ([at_ 4; at_ 3], true, [Release 1%N]) /\
  vector_remove true [at_ 1; at_ 3; at_ 4] (at_ 1) = ([at_ 3; at_ 4], true, [Release 1%N]).
Proof. split; vm_compute; reflexivity. Qed.

(** Removing through an equal copy releases the copy and leaks the stored element. *)
Theorem C13_ontology_refuted : exists heap es o rs log stored_id copy_id l,
  history heap es /\ o_run 32 (o_empty true) es = Some (o, rs, log) /\ contains o l /\ stored o l = [] /\
  net stored_id log = 1%Z /\ net copy_id log = (-1)%Z /\ net stored_id (log ++ o_free o) = 1%Z.
Proof. exact release_counterexample. Qed.
Print Assumptions C13_ontology_refuted.

Theorem C13_vector_refuted : forall ordered, exists l x l', vector_remove ordered l x = (l', true, [Release (r_id x)]) /\
  l' = [] /\ exists y, l = [y] /\ r_id y <> r_id x /\
  net (r_id y) [Release (r_id x)] <> (copies (r_id y) l' - copies (r_id y) l)%Z.
Proof. exact vector_release_counterexample. Qed.
Print Assumptions C13_vector_refuted.

(** Setting the IRI of an ontology to the IRI it already has uses the object after its last release. *)
Theorem C13_self_assignment_refuted : exists heap es o rs log i o' r log',
  history heap es /\ o_run 32 (o_empty true) es = Some (o, rs, log) /\ o_iri o = Some i /\
  usable 1 (r_id i) log /\ net (r_id i) log = 1%Z /\
  o_step 32 o (ESetIri (o_iri o)) = Some (o', r, log') /\ ~ usable (net (r_id i) log) (r_id i) log'.
Proof. exact self_assign_counterexample. Qed.
Print Assumptions C13_self_assignment_refuted.
