(** Concrete cases for PropertiesPrtBound. *)

From Coq Require Import String NArith ZArith List Bool Lia.
From Verif Require Import Bytes ModelTypes ModelObject ModelText SpecObject SpecText ProofIter ModelPrefixMap ModelOntology ModelChange
  ModelPrtValue ModelPrtEncoder ModelPrtDecoder ModelPrtWriter SpecPrt SpecPrtStream SpecPrtBound ExamplesPrt ExamplesPrtStream.
Import ListNotations.
Local Open Scope N_scope.

(** The session of ExamplesPrtStream without its changes of the index size and its reset. *)
Definition pb_body : list wcall :=
  [ WAxiom (ps_ref 5 ps_assert); WAxiom (ps_ref 6 px_axiom); WChange CHANGE_REMOVE; WAxiom (ps_ref 7 ps_chain);
    WAxiom (ps_ref 8 ps_assert); WChange CHANGE_ADD; WAxiom (ps_ref 9 px_axiom) ].
Lemma pb_objs : passed_header ps_header ++ passed_body pb_body = ps_objs.
Proof. reflexivity. Qed.
Lemma pb_session : session 32 ps_header pb_body.
Proof.
  pose proof ps_session as S. constructor.
  - apply S.
  - pose proof (se_body _ _ _ S) as B. rewrite Forall_forall in *. intros c H. apply B. cbn in *. intuition.
  - intros o p. rewrite pb_objs. apply (se_portable _ _ _ S).
  - rewrite pb_objs. destruct (se_room _ _ _ S) as [A B C]. constructor; auto.
Qed.
Lemma pb_steady : Forall steady pb_body /\ Forall no_reset pb_body.
Proof. split; repeat constructor. Qed.
Lemma pb_modest : modest 32 3 ps_objs.
Proof.
  split; [reflexivity|]. intros o l Ho Hl. apply occurrences_det in Hl. subst l. revert o Ho. apply Forall_forall.
  let v := eval vm_compute in ps_objs in change ps_objs with v. repeat (apply Forall_cons; [vm_compute; reflexivity|]). constructor.
Qed.
(** It uses 14 identifiers in one namespace that is not standard, and the bound forces resets: the tables are
    smaller than that at the end. *)
Definition pb_ids : list obj := fold_right (fun p l => if existsb (prim_eqb p) l then l else p :: l) [] ps_ids.
Lemma pb_resets : exists rs e, ps_run (WIndexSize 3 :: WHeader ps_header :: pb_body) = Some (rs, e) /\ Forall (eq COWL_OK) rs /\
  (List.length (id_list e) < List.length pb_ids)%nat.
Proof.
  let v := eval vm_compute in (ps_run (WIndexSize 3 :: WHeader ps_header :: pb_body)) in
  match v with Some (?rs, ?e) => exists rs, e end.
  split; [vm_compute; reflexivity|]. split; [repeat constructor|]. vm_compute. lia.
Qed.
Lemma pb_enough : enough (N.of_nat (List.length pb_ids) + 1) (header_prefixes ps_header) ps_objs.
Proof.
  exists pb_ids, ps_nss. split; [intros n H; apply in_or_app; auto|]. split.
  { intros p ns [E|[]]. inversion E; subst. apply in_or_app. right. left. reflexivity. }
  split; [|vm_compute; discriminate].
  eapply (ps_all (fun p => In (ident p) pb_ids /\ forall ns rem, ident p = OIri ns rem -> In ns ps_nss)); [reflexivity|].
  let v := eval vm_compute in (flat_map occ ps_objs) in change (flat_map occ ps_objs) with v.
  repeat (apply Forall_cons; [split; [vm_compute; tauto|intros ns rem E; first [discriminate E|inversion E; subst; vm_compute; tauto]]|]). constructor.
Qed.
