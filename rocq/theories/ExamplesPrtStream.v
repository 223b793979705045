(** Concrete cases for PropertiesPrtStream. *)

From Coq Require Import String NArith ZArith List Bool.
From Verif Require Import Bytes ModelTypes ModelObject ModelText SpecObject SpecText ProofIter ModelPrefixMap ModelOntology ModelChange
  ModelPrtValue ModelPrtEncoder ModelPrtDecoder ModelPrtWriter SpecPrt SpecPrtStream ExamplesPrt.
Import ListNotations.
Local Open Scope N_scope.

(** Runs of a new writer that visits tables in order, at width 32. *)
Definition ps_run (l : list wcall) : option (list ret * enc) := w_run (fun t => t) (fun t => t) (fun _ => true) 32 l (e_init 32).
Definition ps_bytes (l : list wcall) : bytes := match ps_run l with Some (_, e) => e_out e | None => [] end.
Definition ps_log (l : list wcall) : list dchange := match px_read (ps_bytes l) with DRet _ s => d_log s | _ => [] end.
Definition ps_ref (i : N) (o : obj) : ref := mkRef i o.

(** * A session *)

(** Ontology(<http://x/onto> <http://x/v1> Import(<http://x/imp>) Annotation(...)). *)
Definition ps_note : obj := mk_annot OT_ANNOTATION [px_ent ET_ANNOT_PROP "c"; OLang (bs "hi") (bs "en")] None.
Definition ps_header : header :=
  mkHeader (Some [(vstr 10 (bs "x"), vstr 11 px_ns)]) (Some (ps_ref 1 (px_iri "onto"))) (Some (ps_ref 2 (px_iri "v1")))
    [ps_ref 3 (px_iri "imp")] [ps_ref 4 ps_note].
(** ClassAssertion(:A _:b0) *)
Definition ps_assert : obj := mk_annot OT_A_CLASS_ASSERT [px_ent ET_CLASS "A"; OAnon (bs "b0")] None.
(** SubObjectPropertyOf(ObjectPropertyChain(:p ObjectInverseOf(:q)) :r) *)
Definition ps_chain : obj :=
  mk_annot OT_A_SUB_OBJ_PROP
    [OVec true [px_ent ET_OBJ_PROP "p"; mk_plain OT_OPE_INV_OBJ_PROP [px_ent ET_OBJ_PROP "q"]]; px_ent ET_OBJ_PROP "r"] None.
(** A small index, removals, a reset in the middle. *)
Definition ps_body : list wcall :=
  [ WIndexSize 3; WAxiom (ps_ref 5 ps_assert); WAxiom (ps_ref 6 px_axiom); WChange CHANGE_REMOVE; WAxiom (ps_ref 7 ps_chain);
    WReset true; WAxiom (ps_ref 8 ps_assert); WChange CHANGE_ADD; WIndexSize 0; WAxiom (ps_ref 9 px_axiom) ].

Ltac ps_storable :=
  repeat first [ apply Forall_nil | apply Forall_cons | apply st_comp_opt | apply st_comp | apply st_vec | apply st_ent | apply st_iri | apply st_anon
    | px_fits | match goal with |- _ < _ => vm_compute; reflexivity end ].
Lemma ps_note_storable : storable 32 ps_note.
Proof.
  assert (L2 : literal_kept 32 (OLang (bs "hi") (bs "en"))).
  { split; [discriminate|]. repeat constructor; intros [A B]; vm_compute in A, B; (now apply A) || (now apply B). }
  unfold ps_note, mk_annot, px_ent. ps_storable. apply st_lang; [exact L2|px_fits|px_fits].
Qed.
Lemma ps_assert_storable : storable 32 ps_assert.
Proof. unfold ps_assert, mk_annot, px_ent. ps_storable. Qed.
Lemma ps_chain_storable : storable 32 ps_chain.
Proof. unfold ps_chain, mk_annot, mk_plain, px_ent. ps_storable. Qed.

(** A property of all primitives of some objects, by computation. *)
Lemma ps_all (P : obj -> Prop) objs l : flat_map occ objs = l -> Forall P l -> forall o p, In o objs -> mentions p o -> P p.
Proof.
  intros <- F o p Io M. rewrite Forall_forall in F. apply F. apply in_flat_map. exists o. split; auto. now apply mentions_occ.
Qed.
Definition ps_objs : list obj := passed_header ps_header ++ passed_body ps_body.
Definition ps_ids : list obj := map ident (flat_map occ ps_objs).
Definition ps_nss : list bytes := standard_namespaces ++ [px_ns].

Lemma ps_session : session 32 ps_header ps_body.
Proof.
  pose proof px_axiom_ok as X1. pose proof px_axiom_storable as X2.
  assert (Y1 : is_axiom_object ps_assert) by (vm_compute; reflexivity). assert (Z1 : is_axiom_object ps_chain) by (vm_compute; reflexivity).
  pose proof ps_assert_storable as Y2. pose proof ps_chain_storable as Z2.
  constructor.
  - constructor.
    + intros p ns [E|[]]. inversion E; subst. split; px_fits.
    + intros i H. cbn in H. destruct H as [<-|[<-|[<-|[]]]]; eexists; eexists; reflexivity.
    + discriminate.
    + intros a [<-|[]]. split; [vm_compute; reflexivity|apply ps_note_storable].
  - unfold ps_body. repeat (apply Forall_cons; [cbn [call_ok r_obj ps_ref]; auto|]). constructor.
  - eapply ps_all; [reflexivity|]. let v := eval vm_compute in (flat_map occ ps_objs) in change (Forall (portable 32) v).
    repeat (apply Forall_cons; [first [split; [vm_compute; reflexivity|split; px_fits]|px_fits]|]). constructor.
  - constructor.
    + exists ps_ids. split; [|vm_compute; reflexivity]. intros o p Io M. unfold ps_ids. apply in_map. apply in_flat_map.
      exists o. split; auto. now apply mentions_occ.
    + exists ps_nss. split; [|split; [|split; [|vm_compute; reflexivity]]].
      * intros n H. apply in_or_app. auto.
      * intros p ns [E|[]]. inversion E; subst. apply in_or_app. right. left. reflexivity.
      * intros o p ns rem Io M E. revert o p Io M ns rem E.
        eapply (ps_all (fun p => forall ns rem, ident p = OIri ns rem -> In ns ps_nss)); [reflexivity|].
        let v := eval vm_compute in (flat_map occ ps_objs) in change (flat_map occ (passed_header ps_header ++ passed_body ps_body)) with v.
        repeat (apply Forall_cons; [intros ns rem E; first [discriminate E|inversion E; subst; vm_compute; tauto]|]). constructor.
    + vm_compute. reflexivity.
Qed.
(** It asks for something, and the writer is a new one. *)
Lemma ps_session_size : List.length (asked ps_header ps_body) = 10%nat /\ e_anon (e_init 32) = true /\ width 32 /\
  mode_after CHANGE_ADD ps_body = CHANGE_ADD.
Proof. repeat split. now left. Qed.
(** After it, the tables are not empty. *)
Lemma ps_tables : exists e s, ps_run (WHeader ps_header :: ps_body) = Some (repeat COWL_OK 11, e) /\ px_read (e_out e) = DRet tt s /\
  (2 <= List.length (d_ids s))%nat /\ d_ids s = firstn (List.length (d_ids s)) (id_list e).
Proof.
  let v := eval vm_compute in (ps_run (WHeader ps_header :: ps_body)) in
  match v with Some (_, ?e) =>
    let r := eval vm_compute in (px_read (e_out e)) in match r with DRet _ ?s => exists e, s end end.
  split; [vm_compute; reflexivity|]. split; [vm_compute; reflexivity|]. split; [vm_compute; repeat constructor|vm_compute; reflexivity].
Qed.
(** What a reset frame changes in it. *)
Lemma ps_reset : exists e1 e2, ps_run (WHeader ps_header :: ps_body) = Some (repeat COWL_OK 11, e1) /\
  ps_run (WHeader ps_header :: ps_body ++ [WReset false]) = Some (repeat COWL_OK 12, e2) /\
  id_list e1 <> [] /\ ns_list e1 = standard_list ++ [px_ns] /\ id_list e2 = [] /\ ns_list e2 = standard_list ++ [px_ns].
Proof.
  let v := eval vm_compute in (ps_run (WHeader ps_header :: ps_body)) in
  let v' := eval vm_compute in (ps_run (WHeader ps_header :: ps_body ++ [WReset false])) in
  match v with Some (_, ?e) => match v' with Some (_, ?e') => exists e, e' end end.
  split; [vm_compute; reflexivity|]. split; [vm_compute; reflexivity|]. split; [discriminate|]. repeat split.
Qed.

(** * Counterexamples *)

(** An empty header, and one with an IRI only. *)
Definition ps_plain : header := mkHeader None None None [] [].
(** Reading a whole stream with a handler that accepts everything. *)
Definition ps_reads (l : list wcall) (log : list dchange) : Prop :=
  exists rs e s, ps_run l = Some (rs, e) /\ Forall (eq COWL_OK) rs /\ px_read (e_out e) = DRet tt s /\ (0 <= d_code s)%Z /\ d_log s = log.
Ltac ps_read l :=
  let v := eval vm_compute in (ps_run l) in
  match v with Some (?rs, ?e) =>
    let r := eval vm_compute in (px_read (e_out e)) in
    match r with DRet _ ?s => exists rs, e, s end end;
  split; [vm_compute; reflexivity|]; split; [repeat constructor|]; split; [vm_compute; reflexivity|];
  split; [vm_compute; discriminate|vm_compute; reflexivity].

(** SubClassOf, then a declaration: the declaration arrives first. *)
Definition ps_sub : obj := mk_annot OT_A_SUB_CLASS [px_ent ET_CLASS "A"; px_ent ET_CLASS "B"] None.
Definition ps_decl : obj := mk_annot OT_A_DECL [px_ent ET_CLASS "A"] None.
Lemma ps_order : ps_reads [WHeader ps_plain; WAxiom (ps_ref 1 ps_sub); WAxiom (ps_ref 2 ps_decl); WFooter]
  [(CHANGE_ADD, DAxiom ps_decl); (CHANGE_ADD, DAxiom ps_sub)].
Proof. unfold ps_reads. ps_read [WHeader ps_plain; WAxiom (ps_ref 1 ps_sub); WAxiom (ps_ref 2 ps_decl); WFooter]. Qed.

(** A version without an IRI is dropped. *)
Definition ps_version : header := mkHeader None None (Some (ps_ref 1 (px_iri "v1"))) [] [].
Lemma ps_version_lost : ps_reads [WHeader ps_version; WFooter] [] /\ asked ps_version [] = [(CHANGE_ADD, DVersion (px_iri "v1"))].
Proof. split; [|reflexivity]. unfold ps_reads. ps_read [WHeader ps_version; WFooter]. Qed.

(** The second prefix of a namespace and the prefix of a standard namespace are dropped. *)
Definition ps_prefixes : header :=
  mkHeader (Some [(vstr 10 (bs "x"), vstr 11 px_ns); (vstr 12 (bs "y"), vstr 11 px_ns); (vstr 13 (bs "w3"), vstr 14 xsd_ns)]) None None [] [].
Lemma ps_prefixes_lost : ps_reads [WHeader ps_prefixes; WFooter] [(CHANGE_ADD, DPrefix (bs "x") px_ns)].
Proof. unfold ps_reads. ps_read [WHeader ps_prefixes; WFooter]. Qed.

(** The IRI made of "http://x/a" and "1b" is sent as these two parts, and split elsewhere by the reader. *)
Definition ps_split : obj := OIri (bs "http://x/a") (bs "1b").
Lemma ps_split_lost : ps_reads [WHeader (mkHeader None (Some (ps_ref 1 ps_split)) None [] []); WFooter]
  [(CHANGE_ADD, DIri (OIri (bs "http://x/a1") (bs "b")))].
Proof. unfold ps_reads. ps_read [WHeader (mkHeader None (Some (ps_ref 1 ps_split)) None [] []); WFooter]. Qed.
Lemma ps_split_tables : exists rs e s, ps_run [WHeader (mkHeader None (Some (ps_ref 1 ps_split)) None [] []); WReset false; WAxiom (ps_ref 2
    (mk_annot OT_A_DECL [OEnt ET_CLASS (bs "http://x/a") (bs "1b")] None)); WChange CHANGE_ADD] = Some (rs, e) /\
  px_read (e_out e) = DRet tt s /\ id_of e ps_split = IAt 0 /\ nth_error (d_ids s) 0 = Some (OIri (bs "http://x/a1") (bs "b")).
Proof.
  let v := eval vm_compute in (ps_run [WHeader (mkHeader None (Some (ps_ref 1 ps_split)) None [] []); WReset false; WAxiom (ps_ref 2
    (mk_annot OT_A_DECL [OEnt ET_CLASS (bs "http://x/a") (bs "1b")] None)); WChange CHANGE_ADD]) in
  match v with Some (?rs, ?e) =>
    let r := eval vm_compute in (px_read (e_out e)) in
    match r with DRet _ ?s => exists rs, e, s end end.
  repeat split; vm_compute; reflexivity.
Qed.

(** Without the identifiers of anonymous individuals, the second one used first cannot be read. *)
Definition ps_same : obj :=
  mk_annot OT_A_SAME_IND [OVec false [OAnon (bs "a"); OAnon (bs "b")]] None.
Definition ps_noanon : list wcall :=
  [WEncodeAnon false; WHeader ps_plain; WAxiom (ps_ref 1 ps_assert); WAxiom (ps_ref 2 ps_same); WFooter].
Lemma ps_noanon_fails : exists rs e s, ps_run ps_noanon = Some (rs, e) /\ Forall (eq COWL_OK) rs /\
  px_read (e_out e) = DRet tt s /\ (d_code s < 0)%Z.
Proof.
  let v := eval vm_compute in (ps_run ps_noanon) in
  match v with Some (?rs, ?e) =>
    let r := eval vm_compute in (px_read (e_out e)) in
    match r with DRet _ ?s => exists rs, e, s end end.
  split; [vm_compute; reflexivity|]. split; [repeat constructor|]. split; vm_compute; reflexivity.
Qed.

(** Axioms and frames before the header: to_flush is NULL. *)
Lemma ps_headless : ps_run [WAxiom (ps_ref 1 ps_decl)] = None /\ ps_run [WChange CHANGE_REMOVE] = None /\ ps_run [WReset true] = None /\
  ps_run [WFooter] = None.
Proof. repeat split; vm_compute; reflexivity. Qed.
