(** Concrete cases about change handlers. *)

From Coq Require Import String NArith ZArith List Bool Arith Lia Permutation.
From Verif Require Import Bytes ModelTypes ModelObject SpecObject ModelPrefixMap SpecPrefixMap ModelOntology SpecOntology.
From Verif Require Import ProofObject ProofOntology ProofOntologyQuery ProofPrefixMap ProofPrefixSafe ExamplesPrefix ExamplesOntology.
From Verif Require Import ModelChange SpecChange ProofChange.
Import ListNotations.

(** A prefix map after some calls. *)
Definition ex_map (ops : list pop) : pst :=
  match run0 ops with Some (s, _) => s | None => {| fwd := []; rev_tbl := []; dirty := false; rc := ex_rc |} end.

Lemma ex_map_reached ops : Forall keeps ops -> map_reached id_visit (ex_map ops).
Proof.
  intros K. destruct (init_good ex_rc ex_rc_nz) as (s0 & c & E0 & G0 & _).
  destruct (run_good id_visit id_visit_perm ops s0 K G0) as (s & rs & E & _).
  exists ex_rc, ops, s0, c, rs. split; [exact ex_rc_nz|]. split; auto. split; auto.
  unfold ex_map, run0. rewrite E0, E. reflexivity.
Qed.

Definition src_es : list edit :=
  [EAddAxiom (at_ 1); EAddAxiom (at_ 3); EAddAnnot (at_ 6); EAddImport (at_ 8); ESetIri (Some (at_ 9)); ESetVersion (Some (at_ 10))].
Definition dst_es : list edit := [EAddAxiom (at_ 4); EAddImport (at_ 9)].

Lemma src_history : history ex_heap src_es.
Proof. ex_history. Qed.
Lemma dst_history : history ex_heap dst_es.
Proof. ex_history. Qed.

Definition ex_full (es : list edit) (ops : list pop) : full := mkFull (ex_after es) (ex_map ops) [].

Lemma ex_full_reached es ops rs log : history ex_heap es -> ex_ids es = Some (rs, log) -> Forall keeps ops ->
  full_reached ex_heap id_visit 32 (ex_full es ops).
Proof. intros H E K. split; [now apply (ex_after_reached es rs log)|now apply ex_map_reached]. Qed.

Definition src_ops : list pop := [PAdd s_ex s_n1 false].
Definition dst_ops : list pop := [PAdd s_ex s_n2 false; PAdd s_e s_n1 false].

Lemma ex_src : full_reached ex_heap id_visit 32 (ex_full src_es src_ops).
Proof. eapply ex_full_reached; [exact src_history|vm_compute; reflexivity|repeat constructor]. Qed.
Lemma ex_dst : full_reached ex_heap id_visit 32 (ex_full dst_es dst_ops).
Proof. eapply ex_full_reached; [exact dst_history|vm_compute; reflexivity|repeat constructor]. Qed.

(** What is observed after feeding: identities of axioms, imports, annotations, IRI and version, the
    namespaces of two prefixes, and the returned code. *)
Definition observe (r : option (full * ret)) : option (list ref * list N * list N * list N * list (option bytes) * ret) :=
  match r with
  | None => None
  | Some (x, c) =>
      Some (all_ax (x_onto x), ids (vec_data (o_imports (x_onto x))), ids (vec_data (o_annot (x_onto x))),
            ids (match o_iri (x_onto x) with Some i => [i] | None => [] end ++
                 match o_version (x_onto x) with Some i => [i] | None => [] end),
            map (fun p => match find_entry (fwd (x_pm x)) p with Some (_, v) => Some (stx v) | None => None end)
              [bs "ex"; bs "e"], c)
  end.

Lemma ex_add : observe (feed id_visit 32 (ex_full src_es src_ops) CHANGE_ADD (ex_full dst_es dst_ops)) =
  Some ([at_ 1; at_ 3; at_ 4], [9; 8], [6], [9; 10], [Some (bs "http://ex.org/1#"); Some (bs "http://ex.org/1#")], 0%Z)%N.
Proof. vm_compute. reflexivity. Qed.

(** * Removal *)

Lemma standard_ns_injective p q n : a_init p = Some n -> a_init q = Some n -> q = p.
Proof.
  unfold a_init. intros Hp Hq.
  destruct (find (fun e => bytes_eqb (fst e) p) standard) as [[p' np]|] eqn:Fp; [|discriminate].
  destruct (find (fun e => bytes_eqb (fst e) q) standard) as [[q' nq]|] eqn:Fq; [|discriminate].
  apply find_some in Fp as [Ip Ep]. apply find_some in Fq as [Iq Eq]. simpl in *.
  apply bytes_eqb_eq in Ep. apply bytes_eqb_eq in Eq. subst p' q'. injection Hp as ->. injection Hq as ->.
  repeat destruct Ip as [Ip|Ip]; try easy; repeat destruct Iq as [Iq|Iq]; try easy; congruence.
Qed.

Lemma empty_ops_fm p : fm (fwd (ex_map [])) p = a_init p.
Proof.
  destruct (init_good ex_rc ex_rc_nz) as (s0 & c & E0 & G0 & M). unfold ex_map, run0. rewrite E0. simpl. apply M.
Qed.

(** Removing an ontology from one with exactly the same contents: nothing but one prefix goes away. *)
Lemma remove_counterexample : exists heap w src dst dst' r,
  full_reached heap id_visit w src /\ full_reached heap id_visit w dst /\
  feed id_visit w src CHANGE_REMOVE dst = Some (dst', r) /\ ~ removed src dst dst'.
Proof.
  pose (x := ex_full src_es []).
  assert (R : full_reached ex_heap id_visit 32 x) by (eapply ex_full_reached; [exact src_history|vm_compute; reflexivity|constructor]).
  assert (G : good (x_pm x)) by (apply (map_reached_good id_visit id_visit_perm); apply R).
  destruct (feed_remove_stops id_visit 32 x x id_visit_perm (proj2 R) (proj2 R)) as (x' & E & O).
  - exists (bs "owl"), owl_ns. apply ns_text_fm; [exact G|]. change (x_pm x) with (ex_map []). now rewrite empty_ops_fm.
  - intros p q n Hp Hq. apply ns_text_fm in Hp; auto. apply ns_text_fm in Hq; auto.
    change (x_pm x) with (ex_map []) in *. rewrite empty_ops_fm in Hp, Hq. now apply (standard_ns_injective p q n).
  - exists ex_heap, 32%N, x, x, x', COWL_NO. split; auto. split; auto. split; auto.
    intros [Ax _ _ _ _ _]. apply (Ax _ _ (contains_all (x_onto x)) (contains_all (x_onto x')) (at_ 1)).
    + vm_compute. auto.
    + rewrite O. vm_compute. auto.
Qed.

Example remove_meets_hypotheses :
  (exists p n, ns_text (ex_full src_es []) p (Some n)) /\
  (forall p q n, ns_text (ex_full src_es []) p (Some n) -> ns_text (ex_full src_es []) q (Some n) -> q = p).
Proof.
  assert (G : good (x_pm (ex_full src_es []))) by (apply (map_reached_good id_visit id_visit_perm); apply ex_map_reached; constructor).
  split.
  - exists (bs "owl"), owl_ns. apply ns_text_fm; [exact G|]. cbn [x_pm ex_full]. now rewrite empty_ops_fm.
  - intros p q n Hp Hq. apply ns_text_fm in Hp; auto. apply ns_text_fm in Hq; auto. cbn [x_pm ex_full] in *.
    rewrite empty_ops_fm in Hp, Hq. now apply (standard_ns_injective p q n).
Qed.

(** Without prefixes: the first successful removal of an axiom ends the whole operation. *)
Definition no_prefixes : list pop :=
  [PRemovePrefix (bs "owl"); PRemovePrefix (bs "rdf"); PRemovePrefix (bs "rdfs"); PRemovePrefix (bs "xsd")].
Definition two_es : list edit := [EAddAxiom (at_ 1); EAddAxiom (at_ 3)].

Lemma remove_counterexample' : exists heap w src dst dst' r, full_reached heap id_visit w src /\
  full_reached heap id_visit w dst /\ (forall p n, ~ ns_text src p (Some n)) /\
  feed id_visit w src CHANGE_REMOVE dst = Some (dst', r) /\ r = COWL_STOP /\ ~ removed src dst dst'.
Proof.
  pose (x := ex_full two_es no_prefixes).
  assert (H : history ex_heap two_es) by ex_history.
  assert (R : full_reached ex_heap id_visit 32 x).
  { eapply ex_full_reached; [exact H|vm_compute; reflexivity|]. repeat constructor. }
  assert (G : good (x_pm x)) by (apply (map_reached_good id_visit id_visit_perm); apply R).
  assert (E : observe (feed id_visit 32 x CHANGE_REMOVE x) = Some ([at_ 3], [], [], [], [None; None], 1%Z)%N) by (vm_compute; reflexivity).
  destruct (feed id_visit 32 x CHANGE_REMOVE x) as [[x' r]|] eqn:F; [|discriminate].
  exists ex_heap, 32%N, x, x, x', r. split; auto. split; auto. split; [|split; [exact F|]].
  - intros p n T. apply ns_text_fm in T; auto. assert (Q : fwd (x_pm x) = []) by (vm_compute; reflexivity).
    rewrite Q in T. discriminate T.
  - split.
    + assert (Q : Some r = Some 1%Z) by (transitivity (option_map snd (observe (Some (x', r)))); [reflexivity|rewrite E; reflexivity]).
      now injection Q.
    + intros [Ax _ _ _ _ _]. apply (Ax _ _ (contains_all (x_onto x)) (contains_all (x_onto x')) (at_ 3)).
      * vm_compute. auto.
      * assert (Q : Some (all_ax (x_onto x')) = Some [at_ 3%N]).
        { transitivity (option_map (fun y => fst (fst (fst (fst (fst y))))) (observe (Some (x', r)))); [reflexivity|rewrite E; reflexivity]. }
        injection Q as ->. simpl. auto.
Qed.

(** Removing the parts of [src_es] one by one from an ontology that contains them. *)
Lemma ex_parts : Forall (part_ok ex_heap) [PAxiom (at_ 1); PAnnot (at_ 6); PImport (at_ 8); PIri (at_ 9); PVersion (at_ 10); PPrefix s_ex s_n1].
Proof. repeat constructor. Qed.
Lemma ex_one_removed : map (fun p => observe (change_apply id_visit 32 CHANGE_REMOVE p (ex_full src_es src_ops)))
    [PAxiom (at_ 1); PAnnot (at_ 6); PImport (at_ 8); PIri (at_ 9); PVersion (at_ 10); PPrefix s_ex s_n1] =
  [ Some ([at_ 3], [8], [6], [9; 10], [Some (bs "http://ex.org/1#"); None], 1%Z);
    Some ([at_ 1; at_ 3], [8], [], [9; 10], [Some (bs "http://ex.org/1#"); None], 1%Z);
    Some ([at_ 1; at_ 3], [], [6], [9; 10], [Some (bs "http://ex.org/1#"); None], 1%Z);
    Some ([at_ 1; at_ 3], [8], [6], [10], [Some (bs "http://ex.org/1#"); None], 0%Z);
    Some ([at_ 1; at_ 3], [8], [6], [9], [Some (bs "http://ex.org/1#"); None], 0%Z);
    Some ([at_ 1; at_ 3], [8], [6], [9; 10], [None; None], 1%Z) ]%N.
Proof. vm_compute. reflexivity. Qed.
