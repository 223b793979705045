(** C69: what the index size of a ProtocOWL writer is for. Statements use ModelPrtWriter.v and ModelPrtDecoder.v
    for the library functions, SpecPrtStream.v and SpecPrtBound.v for their meaning. The order in which hash
    tables are visited, the names the reader gives to anonymous individuals and the change handler are
    arbitrary; the handler does not fail. *)

From Coq Require Import String NArith ZArith List Bool Permutation.
From Verif Require Import Bytes ModelTypes ModelObject SpecObject ModelText ModelPrefixMap ModelOntology ModelChange
  ModelPrtValue ModelPrtEncoder ModelPrtDecoder ModelPrtWriter SpecPrt SpecPrtStream SpecPrtBound.
From Verif Require Import ProofPrtBound ProofPrtKeep ExamplesPrt ExamplesPrtStream ExamplesPrtBound.
Import ListNotations.
Local Open Scope N_scope.

(** ** C69 *)

(** After the header and after every later call (any prefix of a body is a body), the writer and a reader of
    what was written so far know at most [n] identifiers and namespaces, besides the five standard ones, and
    at most [n] elements wait to be written. *)
Theorem C69_bounded : forall w, width w -> forall visit, (forall t, Permutation (visit t) t) ->
  forall visit_refs alive anon_id handler, (forall l, (0 <= handler l)%Z) ->
  forall h body e n, session w h body -> e_anon e = true -> 0 < n -> Forall steady body ->
  modest w n (passed_header h ++ passed_body body) ->
  exists rs e' b s,
    w_run visit visit_refs alive w (WIndexSize n :: WHeader h :: body) e = Some (rs, e') /\ Forall (eq COWL_OK) rs /\
    N.of_nat (List.length (ns_list e') + List.length (id_list e')) <= n + 5 /\
    (exists o, e_flush e' = Some o /\ waiting o <= n) /\
    e_out e' = e_out e ++ b /\ read_ontology w anon_id handler b = DRet tt s /\ (0 <= d_code s)%Z /\
    N.of_nat (List.length (d_ns s) + List.length (d_ids s)) <= n + 5.
Proof. exact bounded_size. Qed.
Print Assumptions C69_bounded.

Example C69_bounded_case : session 32 ps_header pb_body /\ Forall steady pb_body /\
  modest 32 3 (passed_header ps_header ++ passed_body pb_body) /\
  exists rs e, ps_run (WIndexSize 3 :: WHeader ps_header :: pb_body) = Some (rs, e) /\ Forall (eq COWL_OK) rs /\
    (List.length (id_list e) < List.length pb_ids)%nat.
Proof. exact (conj pb_session (conj (proj1 pb_steady) (conj pb_modest pb_resets))). Qed.

(** If [n] is enough for all identifiers and namespaces a client uses, nothing is forgotten: in the end the
    reader knows every identifier, and none was declared twice. (The last frame only makes the writer flush.) *)
Theorem C69_nothing_forgotten : forall w, width w -> forall visit, (forall t, Permutation (visit t) t) ->
  forall visit_refs alive anon_id handler, (forall l, (0 <= handler l)%Z) ->
  forall h body t e n, session w h body -> e_anon e = true -> 0 < n -> Forall steady body -> Forall no_reset body ->
  enough n (header_prefixes h) (passed_header h ++ passed_body body) ->
  exists rs e' b s,
    w_run visit visit_refs alive w (WIndexSize n :: (WHeader h :: body) ++ [WChange t]) e = Some (rs, e') /\ Forall (eq COWL_OK) rs /\
    e_out e' = e_out e ++ b /\ read_ontology w anon_id handler b = DRet tt s /\ (0 <= d_code s)%Z /\
    NoDup (d_ids s) /\ forall o p, In o (passed_header h ++ passed_body body) -> mentions p o -> In (ident p) (d_ids s).
Proof. exact nothing_forgotten_size. Qed.
Print Assumptions C69_nothing_forgotten.

Example C69_nothing_forgotten_case : session 32 ps_header pb_body /\ Forall steady pb_body /\ Forall no_reset pb_body /\
  enough (N.of_nat (List.length pb_ids) + 1) (header_prefixes ps_header) (passed_header ps_header ++ passed_body pb_body).
Proof. exact (conj pb_session (conj (proj1 pb_steady) (conj (proj2 pb_steady) pb_enough))). Qed.
