(** C37: whole ontologies in ProtocOWL. Statements use the models for the library functions, SpecPrtStore.v for
    their meaning. The orders in which hash tables are visited, the names the reader gives to anonymous individuals
    and the change handler are arbitrary; the handler does not fail. *)

From Coq Require Import String NArith ZArith List Bool Permutation.
From Verif Require Import Bytes ModelTypes ModelObject SpecObject ModelText ModelPrefixMap ModelOntology SpecOntology ModelChange SpecChange
  ModelPrtValue ModelPrtEncoder ModelPrtDecoder ModelPrtWriter SpecPrt SpecPrtStream SpecPrtStore.
From Verif Require Import ProofOntology ProofPrtStore ExamplesPrefix ExamplesChange ExamplesPrt ExamplesPrtStream ExamplesPrtStore.
Import ListNotations.
Local Open Scope N_scope.

(** ** C37 *)

(** An ontology made by any sequence of edits is written, and the bytes are read back into a new ontology with the
    same IRI, version, imports, annotations and axioms.
    Missing from the full claim: contents that are not [storable] or not [portable], a version without an IRI, and
    ontologies that have lost the last reference to something they mentioned (the last two refuted below). *)
Theorem C37_round_trip_partial : forall w, width w -> forall visit, (forall t, Permutation (visit t) t) ->
  forall visit_refs, (forall l, Permutation (visit_refs l) l) ->
  forall alive anon_id handler, (forall l, (0 <= handler l)%Z) ->
  forall heap es x rs log l e, history heap es -> o_run w (o_empty true) es = Some (x_onto x, rs, log) ->
  contains (x_onto x) l -> storing w es x l -> (forall o p, ever_added es o -> mentions p o -> alive p = true) -> e_anon e = true ->
  exists e' b s,
    w_run visit visit_refs alive w [WOntology x] e = Some ([COWL_OK], e') /\ e_out e' = e_out e ++ b /\
    read_ontology w anon_id handler b = DRet tt s /\ (0 <= d_code s)%Z /\
    Forall (fun c => fst c = CHANGE_ADD) (d_log s) /\ same_prefixes (d_log s) (asked_ontology x l) /\
    forall heap' ps dst, Forall2 stands_for ps (map snd (d_log s)) -> Forall (part_in_heap heap') ps ->
      x_onto dst = o_empty true -> map_reached visit (x_pm dst) ->
      exists dst', receives (change_apply visit w CHANGE_ADD) ps dst (Some (dst', COWL_OK)) /\ same_contents dst' x.
Proof. exact ontology_round_trip. Qed.
Print Assumptions C37_round_trip_partial.

Example C37_round_trip_partial_case : history po_heap po_es /\
  (exists rs log, o_run 32 (o_empty true) po_es = Some (x_onto po_full, rs, log)) /\
  contains (x_onto po_full) po_axioms /\ storing 32 po_es po_full po_axioms /\ e_anon (e_init 32) = true /\ e_store (e_init 32) = true /\
  map_reached id_visit po_map /\ List.length (asked_ontology po_full po_axioms) = 11%nat.
Proof. exact po_case. Qed.

(** A version without an ontology IRI is written and read without error, and lost. *)
Theorem C37_version_refuted : exists es rs e s, po_run_with (fun _ => true) es = Some (rs, e) /\ rs = [COWL_OK] /\
  px_read (e_out e) = DRet tt s /\ d_code s = COWL_OK /\ o_version (po_onto es) = Some (po_at 2) /\ d_log s = [(CHANGE_ADD, DImport (px_iri "imp"))].
Proof. exact (ex_intro _ po_version po_version_lost). Qed.
Print Assumptions C37_version_refuted.
(** An axiom was removed and nothing else refers to what it mentions: writing the empty ontology reads freed memory. *)
Theorem C37_stale_refuted : exists es, po_run_with (fun _ => false) es = None /\ all_ax (po_onto es) = [].
Proof. exact (ex_intro _ po_gone po_gone_ub). Qed.
Print Assumptions C37_stale_refuted.
