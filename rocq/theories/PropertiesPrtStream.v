(** C38, C40, C41: ProtocOWL streams. Statements use ModelPrtWriter.v and ModelPrtDecoder.v for the library
    functions, SpecPrtStream.v for their meaning. In all of them the order in which hash tables are visited
    ([visit], [visit_refs]), the names the reader gives to anonymous individuals ([anon_id]) and the change
    handler are arbitrary; the handler does not fail. *)

From Coq Require Import String NArith ZArith List Bool Permutation.
From Verif Require Import Bytes ModelTypes ModelObject SpecObject ModelText ModelPrefixMap ModelOntology ModelChange
  ModelPrtValue ModelPrtEncoder ModelPrtDecoder ModelPrtWriter SpecPrt SpecPrtStream.
From Verif Require Import ProofPrtTop ExamplesPrt ExamplesPrtStream.
Import ListNotations.
Local Open Scope N_scope.

(** ** C38 *)

(** Any stream of a header, axioms, changes of mode, resets and changes of the index size, however it is
    flushed, is read back as the same changes, in the same order for each component of the ontology.
    Missing from the full claim: contents that are not [storable] or not [portable], versions without an
    IRI, the order between components, and prefixes beyond one for each namespace (all refuted below). *)
Theorem C38_stream_partial : forall w, width w -> forall visit, (forall t, Permutation (visit t) t) ->
  forall visit_refs alive anon_id handler, (forall l, (0 <= handler l)%Z) ->
  forall h body e, session w h body -> e_anon e = true ->
  exists rs e' b s,
    w_run visit visit_refs alive w (WHeader h :: body ++ [WFooter]) e = Some (rs, e') /\ Forall (eq COWL_OK) rs /\
    e_out e' = e_out e ++ b /\
    read_ontology w anon_id handler b = DRet tt s /\ (0 <= d_code s)%Z /\
    same_changes (d_log s) (asked h body) /\ same_prefixes (d_log s) (asked h body).
Proof. exact stream_round_trip. Qed.
Print Assumptions C38_stream_partial.

Example C38_stream_partial_case : session 32 ps_header ps_body /\ List.length (asked ps_header ps_body) = 10%nat /\
  e_anon (e_init 32) = true /\ width 32 /\ mode_after CHANGE_ADD ps_body = CHANGE_ADD.
Proof. exact (conj ps_session ps_session_size). Qed.

(** The order of axioms of different types is not kept. *)
Theorem C38_order_refuted : exists a b, ps_reads [WHeader ps_plain; WAxiom (ps_ref 1 a); WAxiom (ps_ref 2 b); WFooter]
  [(CHANGE_ADD, DAxiom b); (CHANGE_ADD, DAxiom a)] /\ a = ps_sub /\ b = ps_decl.
Proof. exact (ex_intro _ _ (ex_intro _ _ (conj ps_order (conj eq_refl eq_refl)))). Qed.
Print Assumptions C38_order_refuted.
(** A version without an ontology IRI is dropped, silently. *)
Theorem C38_version_refuted : exists h, ps_reads [WHeader h; WFooter] [] /\ asked h [] = [(CHANGE_ADD, DVersion (px_iri "v1"))].
Proof. exact (ex_intro _ _ ps_version_lost). Qed.
Print Assumptions C38_version_refuted.
(** Of two prefixes of a namespace one is dropped; so are prefixes of standard namespaces. *)
Theorem C38_prefixes_refuted : exists h, header_prefixes h = [(bs "x", px_ns); (bs "y", px_ns); (bs "w3", xsd_ns)] /\
  ps_reads [WHeader h; WFooter] [(CHANGE_ADD, DPrefix (bs "x") px_ns)].
Proof. exact (ex_intro _ ps_prefixes (conj eq_refl ps_prefixes_lost)). Qed.
Print Assumptions C38_prefixes_refuted.
(** Writing before the header dereferences a null pointer. *)
Theorem C38_headless_refuted : ps_run [WAxiom (ps_ref 1 ps_decl)] = None /\ ps_run [WChange CHANGE_REMOVE] = None /\
  ps_run [WReset true] = None /\ ps_run [WFooter] = None.
Proof. exact ps_headless. Qed.
Print Assumptions C38_headless_refuted.

(** ** C40 *)

(** At every point of every stream, the number the writer has for an identifier or a namespace is its position
    in the table of the reader of what was written so far.
    Missing from the full claim: identifiers that are not [portable], and writers told not to send the
    identifiers of anonymous individuals (both refuted below). *)
Theorem C40_tables_partial : forall w, width w -> forall visit, (forall t, Permutation (visit t) t) ->
  forall visit_refs alive anon_id handler, (forall l, (0 <= handler l)%Z) ->
  forall h body e, session w h body -> e_anon e = true ->
  exists rs e' b s,
    w_run visit visit_refs alive w (WHeader h :: body) e = Some (rs, e') /\ e_out e' = e_out e ++ b /\
    read_ontology w anon_id handler b = DRet tt s /\ (0 <= d_code s)%Z /\
    (forall p i, id_of e' p = IAt i <-> nth_error (d_ids s) (N.to_nat i) = Some p) /\
    (forall n i, ns_of e' n = IAt i <-> nth_error (d_ns s) (N.to_nat i) = Some n).
Proof. exact tables_agree. Qed.
Print Assumptions C40_tables_partial.

Example C40_tables_partial_case : session 32 ps_header ps_body /\
  exists e s, ps_run (WHeader ps_header :: ps_body) = Some (repeat COWL_OK 11, e) /\ px_read (e_out e) = DRet tt s /\
  (2 <= List.length (d_ids s))%nat /\ d_ids s = firstn (List.length (d_ids s)) (id_list e).
Proof. exact (conj ps_session ps_tables). Qed.

(** An IRI made of parts that cowl_iri splits elsewhere becomes another one. *)
Theorem C40_split_refuted :
  (exists rs e s, ps_run [WHeader (mkHeader None (Some (ps_ref 1 ps_split)) None [] []); WReset false; WAxiom (ps_ref 2
     (mk_annot OT_A_DECL [OEnt ET_CLASS (bs "http://x/a") (bs "1b")] None)); WChange CHANGE_ADD] = Some (rs, e) /\
   px_read (e_out e) = DRet tt s /\ id_of e ps_split = IAt 0 /\ nth_error (d_ids s) 0 = Some (OIri (bs "http://x/a1") (bs "b"))) /\
  ps_reads [WHeader (mkHeader None (Some (ps_ref 1 ps_split)) None [] []); WFooter] [(CHANGE_ADD, DIri (OIri (bs "http://x/a1") (bs "b")))].
Proof. exact (conj ps_split_tables ps_split_lost). Qed.
Print Assumptions C40_split_refuted.
(** With cowl_writer_protocowl_set_encode_anon(false) a stream may be written without an error and rejected by
    the reader. *)
Theorem C40_anon_refuted : exists l, l = [WEncodeAnon false; WHeader ps_plain; WAxiom (ps_ref 1 ps_assert); WAxiom (ps_ref 2 ps_same); WFooter] /\
  exists rs e s, ps_run l = Some (rs, e) /\ Forall (eq COWL_OK) rs /\ px_read (e_out e) = DRet tt s /\ (d_code s < 0)%Z.
Proof. exact (ex_intro _ ps_noanon (conj eq_refl ps_noanon_fails)). Qed.
Print Assumptions C40_anon_refuted.

(** ** C41 *)

(** A reset frame clears the identifiers of both sides, the namespaces too if asked to, and nothing else: the
    namespaces are then the standard ones, the change type in force stays. *)
Theorem C41_reset : forall w, width w -> forall visit, (forall t, Permutation (visit t) t) ->
  forall visit_refs alive anon_id handler, (forall l, (0 <= handler l)%Z) ->
  forall h body p e, session w h body -> e_anon e = true ->
  exists rs e1 rs' e2 b s,
    w_run visit visit_refs alive w (WHeader h :: body) e = Some (rs, e1) /\
    w_run visit visit_refs alive w [WReset p] e1 = Some (rs', e2) /\
    e_out e2 = e_out e ++ b /\ read_ontology w anon_id handler b = DRet tt s /\ (0 <= d_code s)%Z /\
    id_list e2 = [] /\ d_ids s = [] /\
    ns_list e2 = (if p then standard_list else ns_list e1) /\ d_ns s = ns_list e2 /\
    d_remove s = (match mode_after CHANGE_ADD body with CHANGE_REMOVE => true | CHANGE_ADD => false end).
Proof. exact reset_clears. Qed.
Print Assumptions C41_reset.

Example C41_reset_case : session 32 ps_header ps_body /\
  exists e1 e2, ps_run (WHeader ps_header :: ps_body) = Some (repeat COWL_OK 11, e1) /\
  ps_run (WHeader ps_header :: ps_body ++ [WReset false]) = Some (repeat COWL_OK 12, e2) /\
  id_list e1 <> [] /\ ns_list e1 = standard_list ++ [px_ns] /\ id_list e2 = [] /\ ns_list e2 = standard_list ++ [px_ns].
Proof. exact (conj ps_session ps_reset). Qed.

(** An add or remove frame sets the change type, and clears nothing. That the type applies to what follows,
    up to the next such frame, is C38. *)
Theorem C41_change : forall w, width w -> forall visit, (forall t, Permutation (visit t) t) ->
  forall visit_refs alive anon_id handler, (forall l, (0 <= handler l)%Z) ->
  forall h body t e, session w h body -> e_anon e = true ->
  exists rs e1 rs' e2 b s,
    w_run visit visit_refs alive w (WHeader h :: body) e = Some (rs, e1) /\
    w_run visit visit_refs alive w [WChange t] e1 = Some (rs', e2) /\
    e_out e2 = e_out e ++ b /\ read_ontology w anon_id handler b = DRet tt s /\ (0 <= d_code s)%Z /\
    id_list e2 = id_list e1 /\ d_ids s = id_list e2 /\ ns_list e2 = ns_list e1 /\ d_ns s = ns_list e2 /\
    d_remove s = (match t with CHANGE_REMOVE => true | CHANGE_ADD => false end).
Proof. exact change_switches. Qed.
Print Assumptions C41_change.

Example C41_change_case : session 32 ps_header ps_body /\ List.length (asked ps_header ps_body) = 10%nat /\
  e_anon (e_init 32) = true /\ width 32 /\ mode_after CHANGE_ADD ps_body = CHANGE_ADD.
Proof. exact (conj ps_session ps_session_size). Qed.
