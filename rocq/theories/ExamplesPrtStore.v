(** Concrete cases for PropertiesPrtStore. *)

From Coq Require Import String NArith ZArith List Bool Permutation.
From Verif Require Import Bytes ModelTypes ModelObject ModelText SpecObject SpecText ProofIter ModelPrefixMap SpecPrefixMap ModelOntology SpecOntology
  ProofOntology ProofOntologyQuery ModelChange SpecChange ModelPrtValue ModelPrtEncoder ModelPrtDecoder ModelPrtWriter SpecPrt SpecPrtStream SpecPrtStore
  ExamplesPrefix ExamplesOntology ExamplesChange ExamplesPrt ExamplesPrtStream.
Import ListNotations.
Local Open Scope N_scope.

(** * An ontology *)

Definition po_heap (i : N) : obj :=
  match i with 1 => px_iri "onto" | 2 => px_iri "v1" | 3 => px_iri "imp" | 4 => ps_note | 5 => ps_assert | 6 => px_axiom | _ => ps_chain end.
Definition po_at (i : N) : ref := mkRef i (po_heap i).
(** Everything is added; the property chain is removed again. *)
Definition po_es : list edit :=
  [ EAddAxiom (po_at 6); EAddAxiom (po_at 7); ESetIri (Some (po_at 1)); ESetVersion (Some (po_at 2)); EAddImport (po_at 3); EAddAnnot (po_at 4);
    EAddAxiom (po_at 5); ERemoveAxiom (po_at 7) ].
Definition po_onto (es : list edit) : onto :=
  match o_run 32 (o_empty true) es with Some (o, _, _) => o | None => o_empty true end.
Definition po_ids (es : list edit) : option (list nat * list ev) :=
  match o_run 32 (o_empty true) es with Some (_, rs, log) => Some (rs, log) | None => None end.
Definition po_map : pst := ex_map [PAdd (vstr 20 (bs "x")) (vstr 21 px_ns) false].
Definition po_full : full := mkFull (po_onto po_es) po_map [].
Definition po_axioms : list ref := [po_at 6; po_at 5].

Lemma po_run es rs log : po_ids es = Some (rs, log) -> o_run 32 (o_empty true) es = Some (po_onto es, rs, log).
Proof. unfold po_ids, po_onto. destruct (o_run 32 (o_empty true) es) as [[[o r] l]|]; [|discriminate]. now intros [= <- <-]. Qed.
Lemma po_history : history po_heap po_es.
Proof.
  pose proof px_axiom_ok as X1. assert (Y1 : is_axiom_object ps_assert) by (vm_compute; reflexivity). assert (Z1 : is_axiom_object ps_chain) by (vm_compute; reflexivity).
  intros e H. cbn [In po_es] in H.
  repeat destruct H as [<-|H]; [..|destruct H]; (split; [first [exact X1|exact Y1|exact Z1|vm_compute; reflexivity]|intros a [<-|[]]; reflexivity]).
Qed.
Lemma po_contains : contains (x_onto po_full) po_axioms.
Proof.
  assert (E : all_ax (x_onto po_full) = po_axioms) by (vm_compute; reflexivity). rewrite <- E. apply contains_all.
Qed.

Definition po_objs : list obj := all_objs po_es po_full po_axioms.
Definition po_pfx : list (bytes * bytes) := Eval vm_compute in header_prefixes (onto_header po_full).
Lemma po_prefixes : header_prefixes (onto_header po_full) = po_pfx.
Proof. vm_cast_no_check (eq_refl po_pfx). Qed.
Lemma po_ids_ok w objs : N.of_nat (List.length (map ident (flat_map occ objs))) + 17 < 2 ^ w ->
  exists ids, (forall o p, In o objs -> mentions p o -> In (ident p) ids) /\ N.of_nat (List.length ids) + 17 < 2 ^ w.
Proof.
  intros H. exists (map ident (flat_map occ objs)). split; [|exact H]. intros o p Io M. apply in_map, in_flat_map.
  exists o. split; auto. now apply mentions_occ.
Qed.
Lemma po_storing : storing 32 po_es po_full po_axioms.
Proof.
  pose proof px_axiom_storable as X2. pose proof ps_assert_storable as Y2.
  constructor.
  - constructor.
    + intros p ns H. rewrite po_prefixes in H.
      cbn [In po_pfx] in H. repeat destruct H as [H|H]; try (inversion H; subst; split; px_fits).
    + intros i H. assert (Hi : In (r_obj i) [px_iri "onto"; px_iri "v1"; px_iri "imp"]).
      { apply (in_map r_obj) in H. revert H. set (l := map r_obj _). let v := eval vm_compute in l in replace l with v by (vm_compute; reflexivity). exact (fun h => h). }
      destruct Hi as [<-|[<-|[<-|[]]]]; eexists; eexists; reflexivity.
    + intros _. vm_compute. discriminate.
    + intros a H. assert (Ha : In (r_obj a) [ps_note]).
      { apply (in_map r_obj) in H. revert H. set (l := map r_obj _). let v := eval vm_compute in l in replace l with v by (vm_compute; reflexivity). exact (fun h => h). }
      destruct Ha as [<-|[]]. split; [vm_compute; reflexivity|apply ps_note_storable].
  - intros a [<-|[<-|[]]]; [exact X2|exact Y2].
  - eapply ps_all; [reflexivity|]. set (l := flat_map occ _). let v := eval vm_compute in l in replace l with v by (vm_compute; reflexivity).
    repeat (apply Forall_cons; [first [split; [vm_compute; reflexivity|split; px_fits]|px_fits]|]). constructor.
  - constructor.
    + apply po_ids_ok. vm_compute. reflexivity.
    + exists ps_nss. split; [|split; [|split; [|vm_compute; reflexivity]]].
      * intros n H. apply in_or_app. auto.
      * intros p ns H. rewrite po_prefixes in H.
        cbn [In po_pfx] in H. repeat destruct H as [H|H]; try (inversion H; subst; vm_compute; tauto).
      * intros o p ns rem Io M E. revert o p Io M ns rem E.
        eapply (ps_all (fun p => forall ns rem, ident p = OIri ns rem -> In ns ps_nss)); [reflexivity|].
        set (l := flat_map occ _). let v := eval vm_compute in l in replace l with v by (vm_compute; reflexivity).
        repeat (apply Forall_cons; [intros ns rem E; first [discriminate E|inversion E; subst; vm_compute; tauto]|]). constructor.
    + vm_compute. reflexivity.
Qed.
Lemma po_case : history po_heap po_es /\ (exists rs log, o_run 32 (o_empty true) po_es = Some (x_onto po_full, rs, log)) /\
  contains (x_onto po_full) po_axioms /\ storing 32 po_es po_full po_axioms /\ e_anon (e_init 32) = true /\ e_store (e_init 32) = true /\
  map_reached id_visit po_map /\ List.length (asked_ontology po_full po_axioms) = 11%nat.
Proof.
  split; [exact po_history|]. split.
  { destruct (po_ids po_es) as [[rs log]|] eqn:E; [|vm_compute in E; discriminate]. exists rs, log. now apply po_run. }
  split; [exact po_contains|]. split; [exact po_storing|]. split; [reflexivity|]. split; [reflexivity|]. split.
  - apply ex_map_reached. repeat constructor.
  - vm_compute. reflexivity.
Qed.

(** * Counterexamples *)

(** Writing a whole ontology that some edits produced. *)
Definition po_run_with (alive : obj -> bool) (es : list edit) : option (list ret * enc) :=
  w_run (fun t => t) (fun t => t) alive 32 [WOntology (mkFull (po_onto es) (ex_map []) [])] (e_init 32).
(** An ontology with a version but no IRI, and an import: the version is lost. *)
Definition po_version : list edit := [ESetVersion (Some (po_at 2)); EAddImport (po_at 3)].
Lemma po_version_lost : exists rs e s, po_run_with (fun _ => true) po_version = Some (rs, e) /\ rs = [COWL_OK] /\
  px_read (e_out e) = DRet tt s /\ d_code s = COWL_OK /\ o_version (po_onto po_version) = Some (po_at 2) /\ d_log s = [(CHANGE_ADD, DImport (px_iri "imp"))].
Proof.
  let v := eval vm_compute in (po_run_with (fun _ => true) po_version) in
  match v with Some (?rs, ?e) => let r := eval vm_compute in (px_read (e_out e)) in match r with DRet _ ?s => exists rs, e, s end end.
  repeat split; vm_compute; reflexivity.
Qed.
(** After the last reference to an axiom is gone with its removal, its primitives may be freed: writing reads them. *)
Definition po_gone : list edit := [EAddAxiom (po_at 5); ERemoveAxiom (po_at 5)].
Lemma po_gone_ub : po_run_with (fun _ => false) po_gone = None /\ all_ax (po_onto po_gone) = [].
Proof. split; vm_compute; reflexivity. Qed.
