(** C33: change handlers. Statements use ModelChange.v for the library functions and SpecChange.v,
    SpecOntology.v and SpecPrefixMap.v for their meaning. *)

From Coq Require Import String NArith ZArith List Bool Permutation.
From Verif Require Import Bytes ModelTypes ModelObject SpecObject ModelPrefixMap SpecPrefixMap ModelOntology SpecOntology.
From Verif Require Import ModelChange SpecChange ProofChange ExamplesPrefix ExamplesOntology ExamplesChange.
Import ListNotations.

(** ** C33 *)

(** Any handler receives exactly the contents of the ontology, one by one, until it asks to stop. *)
Theorem C33_handler_receives_contents : forall visit S (h : change_type -> part -> S -> option (S * ret)) src t (s : S),
  (forall l, Permutation (visit l) l) ->
  exists prefixes axioms, Permutation prefixes (fwd (x_pm src)) /\ contains (x_onto src) axioms /\
    receives (h t) (parts_of src prefixes axioms) s (handle_ontology visit h src t s).
Proof. exact (fun visit S h src t s => handler_receives visit h src t s). Qed.
Print Assumptions C33_handler_receives_contents.

(** Missing from the full claim: the REMOVE change, which does not do what is claimed (below). *)
Theorem C33_add_partial : forall heap visit w src dst, (forall t, Permutation (visit t) t) ->
  full_reached heap visit w src -> full_reached heap visit w dst ->
  exists dst', feed visit w src CHANGE_ADD dst = Some (dst', COWL_OK) /\ added src dst dst' /\ full_reached heap visit w dst'.
Proof. exact feed_add. Qed.
Print Assumptions C33_add_partial.

Example C33_add_partial_case : full_reached ex_heap id_visit 32 (ex_full src_es src_ops) /\
  full_reached ex_heap id_visit 32 (ex_full dst_es dst_ops).
Proof. exact (conj ex_src ex_dst). Qed.
Example C33_add_partial_outcome : observe (feed id_visit 32 (ex_full src_es src_ops) CHANGE_ADD (ex_full dst_es dst_ops)) =
  Some ([at_ 1; at_ 3; at_ 4], [9; 8], [6], [9; 10], [Some (bs "http://ex.org/1#"); Some (bs "http://ex.org/1#")], 0%Z)%N.
Proof. exact ex_add. Qed.

(** A single REMOVE change takes out the given part and nothing else, but the code it returns for axioms, annotations
    and imports is that of their removal: COWL_NO, which is also COWL_STOP, exactly if something was removed. *)
Theorem C33_single_remove : forall heap visit w dst p, (forall t, Permutation (visit t) t) ->
  full_reached heap visit w dst -> part_ok heap p ->
  exists dst' r, change_apply visit w CHANGE_REMOVE p dst = Some (dst', r) /\ one_removed p dst dst' /\
    removal_answer p dst r /\ full_reached heap visit w dst'.
Proof. exact single_remove. Qed.
Print Assumptions C33_single_remove.

Example C33_single_remove_case : full_reached ex_heap id_visit 32 (ex_full src_es src_ops) /\
  Forall (part_ok ex_heap) [PAxiom (at_ 1); PAnnot (at_ 6); PImport (at_ 8); PIri (at_ 9); PVersion (at_ 10); PPrefix s_ex s_n1].
Proof. exact (conj ex_src ex_parts). Qed.
Example C33_single_remove_outcome : map (fun p => observe (change_apply id_visit 32 CHANGE_REMOVE p (ex_full src_es src_ops)))
    [PAxiom (at_ 1); PAnnot (at_ 6); PImport (at_ 8); PIri (at_ 9); PVersion (at_ 10); PPrefix s_ex s_n1] =
  [ Some ([at_ 3], [8], [6], [9; 10], [Some (bs "http://ex.org/1#"); None], 1%Z);
    Some ([at_ 1; at_ 3], [8], [], [9; 10], [Some (bs "http://ex.org/1#"); None], 1%Z);
    Some ([at_ 1; at_ 3], [], [6], [9; 10], [Some (bs "http://ex.org/1#"); None], 1%Z);
    Some ([at_ 1; at_ 3], [8], [6], [10], [Some (bs "http://ex.org/1#"); None], 0%Z);
    Some ([at_ 1; at_ 3], [8], [6], [9], [Some (bs "http://ex.org/1#"); None], 0%Z);
    Some ([at_ 1; at_ 3], [8], [6], [9; 10], [None; None], 1%Z) ]%N.
Proof. exact ex_one_removed. Qed.

Theorem C33_remove_refuted : exists heap w src dst dst' r,
  full_reached heap id_visit w src /\ full_reached heap id_visit w dst /\
  feed id_visit w src CHANGE_REMOVE dst = Some (dst', r) /\ ~ removed src dst dst'.
Proof. exact remove_counterexample. Qed.
Print Assumptions C33_remove_refuted.

(** The failure does not depend on prefixes: the first successful removal of an axiom ends the
    operation, because its result true is read as a request to stop. *)
Theorem C33_remove_axioms_refuted : exists heap w src dst dst' r, full_reached heap id_visit w src /\
  full_reached heap id_visit w dst /\ (forall p n, ~ ns_text src p (Some n)) /\
  feed id_visit w src CHANGE_REMOVE dst = Some (dst', r) /\ r = COWL_STOP /\ ~ removed src dst dst'.
Proof. exact remove_counterexample'. Qed.
Print Assumptions C33_remove_axioms_refuted.

(** How general the failure is: whenever [src] has a prefix and [dst] binds no namespace of [src] to
    another prefix, REMOVE leaves axioms, annotations, imports, IRI and version of [dst] as they were. *)
Theorem C33_remove_does_nothing : forall visit w src dst, (forall t, Permutation (visit t) t) ->
  map_reached visit (x_pm src) -> map_reached visit (x_pm dst) ->
  (exists p n, ns_text src p (Some n)) ->
  (forall p q n, ns_text src p (Some n) -> ns_text dst q (Some n) -> q = p) ->
  exists dst', feed visit w src CHANGE_REMOVE dst = Some (dst', COWL_NO) /\ x_onto dst' = x_onto dst.
Proof. exact feed_remove_stops. Qed.
Print Assumptions C33_remove_does_nothing.

Example C33_remove_does_nothing_case :
  (exists p n, ns_text (ex_full src_es []) p (Some n)) /\
  (forall p q n, ns_text (ex_full src_es []) p (Some n) -> ns_text (ex_full src_es []) q (Some n) -> q = p).
Proof. exact remove_meets_hypotheses. Qed.
