(** Concrete histories, and the counterexamples about ontologies. *)

From Coq Require Import String NArith ZArith List Bool Arith Lia Permutation.
From Verif Require Import Bytes ModelTypes ModelObject ModelHeader SpecObject.
From Verif Require Import ProofObject ProofIter ProofAxiom ModelOntology SpecOntology ExamplesObject.
From Verif Require Import ProofOntology ProofOntologyQuery ProofOntologyEdit ProofOntologyHistory ProofOntologyTop.
Import ListNotations.
Local Open Scope nat_scope.

(** SubClassOf(:A :B) *)
Definition o_sub : obj := mk_annot OT_A_SUB_CLASS [ex_A; ex_B] None.
(** SubClassOf(:A ObjectSomeValuesFrom(:p :A)) *)
Definition o_self : obj := mk_annot OT_A_SUB_CLASS [ex_A; mk_quant OT_CE_OBJ_SOME ex_p (Some ex_A)] None.
(** AnnotationAssertion(:note <...#A> "ciao"@it) *)
Definition o_note : obj :=
  mk_annot OT_A_ANNOT_ASSERT [ex_ap "note"; OIri ex_ns (bs "A"); OLang (bs "ciao") (bs "it")] None.

(** Objects by address: 1 and 2 are equal copies. *)
Definition ex_heap (id : N) : obj :=
  match id with
  | 1 | 2 => o_sub
  | 3 => ex_equiv
  | 4 => o_note
  | 5 => o_self
  | 6 | 7 => ex_annot
  | 8 => OIri ex_ns (bs "import")
  | _ => OIri ex_ns (bs "v2")
  end%N.
Definition at_ (id : N) : ref := mkRef id (ex_heap id).

Ltac ex_history := let e := fresh in let H := fresh in
  intros e H; simpl in H; repeat (destruct H as [<-|H]; [split; [vm_compute; reflexivity|
    let a := fresh in let G := fresh in intros a G; simpl in G; repeat (destruct G as [<-|G]; [reflexivity|]); destruct G]|]);
  destruct H.

(** Removing the first, then everything that mentions :A. *)
Definition ex_filter : afilter := mkFilter AF_ALL [ex_A] None.
Definition ex_es : list edit :=
  [EAddAxiom (at_ 1); EAddAxiom (at_ 3); EAddAxiom (at_ 4); EAddAnnot (at_ 6); EAddImport (at_ 8);
   ERemoveAxiom (at_ 1); ERemoveMatching ex_filter; ESetIri (Some (at_ 9)); ERemoveAnnot (at_ 6)].

Lemma ex_history_ok : history ex_heap ex_es.
Proof.
  intros e H. simpl in H.
  repeat (destruct H as [<-|H]; [split;
    [first [vm_compute; reflexivity | intros p [<-|[]]; now exists (PT_ENT ET_CLASS)]|
     intros a G; simpl in G; try (destruct G as [<-|[]]; reflexivity); destruct G]|]); destruct H.
Qed.

Lemma sat_dec f a : prims (f_prims f) -> is_axiom_object (r_obj a) -> filter_matches f a = Some true -> satisfies f a.
Proof. intros H W E. destruct (filter_matches_spec f a H W) as [X Y]. apply Y. rewrite E in X. now injection X. Qed.
Lemma unsat_dec f a : prims (f_prims f) -> is_axiom_object (r_obj a) -> filter_matches f a = Some false -> ~ satisfies f a.
Proof. intros H W E S. destruct (filter_matches_spec f a H W) as [X Y]. apply Y in S. rewrite E in X. rewrite S in X. discriminate. Qed.

Lemma ex_prims : prims (f_prims ex_filter).
Proof. intros p [<-|[]]. now exists (PT_ENT ET_CLASS). Qed.

Lemma ex_supported : supported_effects [] ex_es [at_ 4]
  [Some 0; Some 0; Some 0; None; None; Some 1; Some 1; None; None].
Proof.
  repeat (eapply seffs_cons; [exact I|constructor|]).
  eapply seffs_cons; [left; simpl; auto| |].
  { apply (eff_remove _ (at_ 1) [at_ 4; at_ 3]). symmetry.
    apply (perm_trans (l' := [at_ 4; at_ 1; at_ 3])); [apply perm_swap|apply perm_skip, perm_swap]. }
  eapply seffs_cons.
  - split; [discriminate|]. intros a [<-|[<-|[]]] S p [<-|[]].
    + exfalso. revert S. apply unsat_dec; [apply ex_prims|reflexivity|vm_compute; reflexivity].
    + apply (occurs_cnt _ (PT_ENT ET_CLASS)); reflexivity.
  - apply (eff_bulk _ _ [at_ 3] [at_ 4]).
    + apply perm_swap.
    + intros a [<-|[]]. apply sat_dec; [apply ex_prims|reflexivity|vm_compute; reflexivity].
    + intros a [<-|[]]. apply unsat_dec; [apply ex_prims|reflexivity|vm_compute; reflexivity].
  - repeat (eapply seffs_cons; [exact I|constructor|]). constructor.
Qed.

(** The state after a history of the examples. *)
Definition ex_after (es : list edit) : onto :=
  match o_run 32 (o_empty true) es with Some (o, _, _) => o | None => o_empty true end.
Definition ex_ids (es : list edit) : option (list nat * list ev) :=
  match o_run 32 (o_empty true) es with Some (_, rs, log) => Some (rs, log) | None => None end.
Definition ids (l : list ref) : list N := map r_id l.

Lemma ex_after_run es rs log : ex_ids es = Some (rs, log) ->
  o_run 32 (o_empty true) es = Some (ex_after es, rs, log).
Proof. unfold ex_ids, ex_after. destruct (o_run 32 (o_empty true) es) as [[[o r] l]|]; [|discriminate]. now intros [= <- <-]. Qed.

Lemma ex_after_reached es rs log : history ex_heap es -> ex_ids es = Some (rs, log) -> reached ex_heap 32 (ex_after es).
Proof. intros H E. exists es, rs, log. split; auto. now apply ex_after_run. Qed.

Lemma add1 i : In i [1; 3; 4; 5]%N -> history ex_heap [EAddAxiom (at_ i)].
Proof.
  intros Hi e [<-|[]]. split.
  - repeat (destruct Hi as [<-|Hi]; [vm_compute; reflexivity|]). destruct Hi.
  - intros a [<-|[]]. reflexivity.
Qed.

(** * Counterexamples *)

(** Removing an equal copy: success is reported, the axiom stays, and the copy loses a reference. *)
Definition copy_es : list edit := [EAddAxiom (at_ 1); ERemoveAxiom (at_ 2)].

Lemma copy_history : history ex_heap copy_es.
Proof. ex_history. Qed.

Lemma copy_counterexample : exists heap es l os o rs log,
  history heap es /\ effects [] es l os /\ o_run 32 (o_empty true) es = Some (o, rs, log) /\
  as_documented rs os /\ ~ (exists m, contains o m /\ Permutation m l).
Proof.
  assert (E : ex_ids copy_es = Some ([0; 1], [Retain 1%N; Release 2%N])) by (vm_compute; reflexivity).
  exists ex_heap, copy_es, [], [Some 0; Some 1], (ex_after copy_es). eexists _, _. split; [exact copy_history|].
  split; [|split; [apply (ex_after_run _ _ _ E)|split; [repeat constructor|]]].
  - econstructor; [constructor|]. econstructor; [|constructor].
    apply (eff_remove_equal _ (at_ 2) (at_ 1) []); [intros [H|[]]; discriminate|reflexivity|vm_compute; reflexivity].
  - intros (m & C & P). apply contains_eq in C as ->.
    assert (X : length (all_ax (ex_after copy_es)) = 1) by (vm_compute; reflexivity). apply Permutation_length in P. rewrite X in P. discriminate.
Qed.

Lemma remove_copy_counterexample : exists heap o l a, reached heap 32 o /\ contains o l /\ is_axiom_object (r_obj a) /\
  r_obj a = heap (r_id a) /\ (exists b, In b l /\ cowl_equals (r_obj a) (r_obj b) = true) /\
  exists o', remove_axiom o a = Some (o', true, [Release (r_id a)]) /\ contains o' l /\ ~ In a l.
Proof.
  assert (E : ex_ids [EAddAxiom (at_ 1)] = Some ([0], [Retain 1%N])) by (vm_compute; reflexivity).
  set (o := ex_after [EAddAxiom (at_ 1)]).
  assert (R : reached ex_heap 32 o) by (eapply ex_after_reached; [apply add1; simpl; auto|exact E]).
  assert (L : all_ax o = [at_ 1]) by (vm_compute; reflexivity).
  exists ex_heap, o, [at_ 1], (at_ 2). split; auto. split; [rewrite <- L; apply contains_all|].
  split; [vm_compute; reflexivity|]. split; [reflexivity|]. split; [exists (at_ 1); split; [simpl; auto|vm_compute; reflexivity]|].
  destruct (remove_result ex_heap 32 o [at_ 1] (at_ 2) R) as (o' & b & log & E1 & B & _ & Out & F).
  { rewrite <- L; apply contains_all. } { vm_compute; reflexivity. } { reflexivity. }
  assert (Bt : b = true) by (apply B; exists (at_ 1); split; [simpl; auto|vm_compute; reflexivity]). subst b.
  assert (Na : ~ In (at_ 2) [at_ 1]) by (intros [H|[]]; discriminate).
  exists o'. split; [|split; auto].
  assert (X : match remove_axiom o (at_ 2) with Some (_, _, g) => Some g | None => None end = Some [Release 2%N]) by (vm_compute; reflexivity).
  rewrite E1 in X. injection X as ->. exact E1.
Qed.

(** An axiom that mentions :A twice is delivered and counted twice. *)
Lemma twice_counterexample : exists heap o l p m, reached heap 32 o /\ contains o l /\ NoDup l /\
  kind p = Some (PT_ENT ET_CLASS) /\ delivers (fun S call s => iterate_axioms_for_primitive call o p s) m /\
  ~ NoDup m /\ length l = 1 /\ count_for_primitive 32 o p = 2%N.
Proof.
  assert (E : ex_ids [EAddAxiom (at_ 5)] = Some ([0], [Retain 5%N])) by (vm_compute; reflexivity).
  set (o := ex_after [EAddAxiom (at_ 5)]).
  assert (R : reached ex_heap 32 o) by (eapply ex_after_reached; [apply add1; simpl; auto|exact E]).
  exists ex_heap, o, [at_ 5], ex_A, [at_ 5; at_ 5]. split; auto.
  split; [assert (L : all_ax o = [at_ 5]) by (vm_compute; reflexivity); rewrite <- L; apply contains_all|].
  split; [constructor; [easy|constructor]|]. split; [reflexivity|]. split; [|split; [|split]].
  - assert (L : about_list o ex_A = [at_ 5; at_ 5]) by (vm_compute; reflexivity). rewrite <- L.
    apply delivers_intro. intros. apply for_primitive_deliver.
  - intros H. inversion H as [|? ? N]. apply N. simpl. auto.
  - reflexivity.
  - vm_compute. reflexivity.
Qed.

(** A filter without primitives matches nothing. *)
Lemma types_only_counterexample : exists heap o l f a, reached heap 32 o /\ contains o l /\ f_prims f = [] /\
  In a l /\ satisfies f a /\
  delivers (fun S call s => iterate_axioms_matching call 32 o f s) [] /\
  remove_axioms_matching 32 o f = Some (o, 0, []).
Proof.
  assert (E : ex_ids [EAddAxiom (at_ 1)] = Some ([0], [Retain 1%N])) by (vm_compute; reflexivity).
  set (o := ex_after [EAddAxiom (at_ 1)]).
  assert (R : reached ex_heap 32 o) by (eapply ex_after_reached; [apply add1; simpl; auto|exact E]).
  assert (L : all_ax o = [at_ 1]) by (vm_compute; reflexivity).
  set (f := mkFilter (af_of (ax_type o_sub)) [] None).
  assert (P : prims (f_prims f)) by (intros p []).
  exists ex_heap, o, [at_ 1], f, (at_ 1). split; auto. split; [rewrite <- L; apply contains_all|]. split; [reflexivity|].
  split; [simpl; auto|]. split; [apply sat_dec; [exact P|vm_compute; reflexivity|vm_compute; reflexivity]|]. split.
  - pose proof (reached_inv _ _ _ R) as [I Ind]. destruct (matching_spec ex_heap 32 o f I Ind P) as (M & D & Z & _).
    rewrite <- (Z eq_refl). apply delivers_intro. exact D.
  - vm_compute. reflexivity.
Qed.

(** With a filter on :A, an axiom that only mentions the IRI of :A is delivered. *)
Lemma iri_counterexample : exists heap o l f m a, reached heap 32 o /\ contains o l /\ f_prims f <> [] /\
  prims (f_prims f) /\ delivers (fun S call s => iterate_axioms_matching call 32 o f s) m /\ In a m /\ ~ satisfies f a.
Proof.
  set (es := [EAddAxiom (at_ 1); EAddAxiom (at_ 4)]).
  assert (E : ex_ids es = Some ([0; 0], [Retain 1%N; Retain 4%N])) by (vm_compute; reflexivity).
  set (o := ex_after es).
  assert (H : history ex_heap es) by (unfold es; ex_history).
  assert (R : reached ex_heap 32 o) by (eapply ex_after_reached; [exact H|exact E]).
  exists ex_heap, o, (all_ax o), ex_filter, [at_ 1; at_ 4], (at_ 4). split; auto. split; [apply contains_all|].
  split; [discriminate|]. split; [apply ex_prims|]. split; [|split; [simpl; auto|]].
  - apply delivers_intro. intros S call s.
    assert (G : iterate_axioms_matching call 32 o ex_filter s = iterate_axioms_for_primitive call o ex_A s) by (vm_compute; reflexivity).
    rewrite G, for_primitive_deliver.
    assert (L : about_list o ex_A = [at_ 1; at_ 4]) by (vm_compute; reflexivity). now rewrite L.
  - apply unsat_dec; [apply ex_prims|vm_compute; reflexivity|vm_compute; reflexivity].
Qed.

(** With a filter on :A, an axiom that mentions it twice is delivered twice. *)
Lemma matching_twice_counterexample : exists heap o l f m, reached heap 32 o /\ contains o l /\ NoDup l /\
  f_prims f <> [] /\ prims (f_prims f) /\
  delivers (fun S call s => iterate_axioms_matching call 32 o f s) m /\ ~ NoDup m.
Proof.
  assert (E : ex_ids [EAddAxiom (at_ 5)] = Some ([0], [Retain 5%N])) by (vm_compute; reflexivity).
  set (o := ex_after [EAddAxiom (at_ 5)]).
  assert (R : reached ex_heap 32 o) by (eapply ex_after_reached; [apply add1; simpl; auto|exact E]).
  exists ex_heap, o, [at_ 5], ex_filter, [at_ 5; at_ 5]. split; auto.
  split; [assert (L : all_ax o = [at_ 5]) by (vm_compute; reflexivity); rewrite <- L; apply contains_all|].
  split; [constructor; [easy|constructor]|]. split; [discriminate|]. split; [apply ex_prims|]. split.
  - apply delivers_intro. intros S call s.
    assert (G : iterate_axioms_matching call 32 o ex_filter s = iterate_axioms_for_primitive call o ex_A s) by (vm_compute; reflexivity).
    rewrite G, for_primitive_deliver.
    assert (L : about_list o ex_A = [at_ 5; at_ 5]) by (vm_compute; reflexivity). now rewrite L.
  - intros H. inversion H as [|? ? N]. apply N. simpl. auto.
Qed.

(** Bulk removal of an axiom that mentions the primitive twice reads past the end of the index. *)
Lemma bulk_counterexample : exists heap o f, reached heap 32 o /\ prims (f_prims f) /\ f_prims f <> [] /\
  remove_axioms_matching 32 o f = None.
Proof.
  assert (E : ex_ids [EAddAxiom (at_ 5)] = Some ([0], [Retain 5%N])) by (vm_compute; reflexivity).
  exists ex_heap, (ex_after [EAddAxiom (at_ 5)]), ex_filter.
  split; [eapply ex_after_reached; [apply add1; simpl; auto|exact E]|]. split; [apply ex_prims|]. split; [discriminate|].
  vm_compute. reflexivity.
Qed.

(** The signature keeps primitives of removed axioms, and reads them when they are gone. *)
Definition stale_es : list edit := [EAddAxiom (at_ 1); ERemoveAxiom (at_ 1)].
Lemma stale_counterexample : exists heap es o rs log p,
  history heap es /\ o_run 32 (o_empty true) es = Some (o, rs, log) /\ contains o [] /\ o_annot o = None /\
  kind p = Some (PT_ENT ET_CLASS) /\ o_has_primitive o p = true /\ primitive_count o PF_ALL = 2 /\
  exists alive, o_iterate_primitives (fun (s : nat) (_ : obj) => (S s, COWL_CONTINUE)) (fun l => l) alive o PF_ALL 0 = IUB.
Proof.
  assert (E : ex_ids stale_es = Some ([0; 1], [Retain 1%N; Release 1%N])) by (vm_compute; reflexivity).
  exists ex_heap, stale_es, (ex_after stale_es). eexists _, _, ex_A. split; [unfold stale_es; ex_history|].
  split; [apply (ex_after_run _ _ _ E)|].
  split; [assert (L : all_ax (ex_after stale_es) = []) by (vm_compute; reflexivity); rewrite <- L; apply contains_all|].
  split; [vm_compute; reflexivity|]. split; [reflexivity|]. split; [vm_compute; reflexivity|]. split; [vm_compute; reflexivity|].
  exists (fun _ => false). vm_compute. reflexivity.
Qed.

(** An operand is reported twice. *)
Lemma related_counterexample : exists heap o l p, reached heap 32 o /\ contains o l /\ length l = 1 /\
  kind p = Some (PT_ENT ET_CLASS) /\ exists x,
  delivers (fun S call s => iterate_related call o p AF_ALL 7 s) [x; x] /\
  (forall a, In a l -> operand_sequence (r_obj a) 7 [p; x]) /\ x <> p.
Proof.
  assert (E : ex_ids [EAddAxiom (at_ 5)] = Some ([0], [Retain 5%N])) by (vm_compute; reflexivity).
  set (o := ex_after [EAddAxiom (at_ 5)]).
  assert (R : reached ex_heap 32 o) by (eapply ex_after_reached; [apply add1; simpl; auto|exact E]).
  exists ex_heap, o, [at_ 5], ex_A. split; auto.
  split; [assert (L : all_ax o = [at_ 5]) by (vm_compute; reflexivity); rewrite <- L; apply contains_all|].
  split; [reflexivity|]. split; [reflexivity|]. exists (mk_quant OT_CE_OBJ_SOME ex_p (Some ex_A)). split; [|split; [|discriminate]].
  - apply delivers_intro. intros S call s. vm_compute.
    destruct (call s _) as [s1 r1]. destruct r1; try reflexivity. destruct (call s1 _) as [s2 r2]. destruct r2; reflexivity.
  - intros a [<-|[]]. exists [[ex_A]; [mk_quant OT_CE_OBJ_SOME ex_p (Some ex_A)]]. split; [reflexivity|]. split; [reflexivity|].
    intros [|[|[|i]]] f H; try discriminate; injection H as <-.
    + exists 1%N. split; [constructor|reflexivity].
    + exists 2%N. split; [constructor|reflexivity].
Qed.

(** Removing an annotation through an equal copy: the stored one is never released, the copy is. *)
Lemma release_counterexample : exists heap es o rs log stored_id copy_id l,
  history heap es /\ o_run 32 (o_empty true) es = Some (o, rs, log) /\ contains o l /\ stored o l = [] /\
  net stored_id log = 1%Z /\ net copy_id log = (-1)%Z /\ net stored_id (log ++ o_free o) = 1%Z.
Proof.
  set (es := [EAddAnnot (at_ 6); ERemoveAnnot (at_ 7)]).
  assert (E : ex_ids es = Some ([0; 1], [Retain 6%N; Release 7%N])) by (vm_compute; reflexivity).
  exists ex_heap, es, (ex_after es). eexists _, _, 6%N, 7%N, []. split; [unfold es; ex_history|].
  split; [apply (ex_after_run _ _ _ E)|].
  split; [assert (L : all_ax (ex_after es) = []) by (vm_compute; reflexivity); rewrite <- L; apply contains_all|].
  repeat split; vm_compute; reflexivity.
Qed.

Lemma vector_release_counterexample : forall ordered, exists l x l', vector_remove ordered l x = (l', true, [Release (r_id x)]) /\
  l' = [] /\ exists y, l = [y] /\ r_id y <> r_id x /\
  net (r_id y) [Release (r_id x)] <> (copies (r_id y) l' - copies (r_id y) l)%Z.
Proof.
  intros ordered. exists [at_ 6], (at_ 7), []. split; [destruct ordered; vm_compute; reflexivity|]. split; auto.
  exists (at_ 6). split; auto. split; [discriminate|]. vm_compute. discriminate.
Qed.

(** Setting the ontology IRI to the IRI it already has uses the object after its last release. *)
Lemma self_assign_counterexample : exists heap es o rs log i o' r log',
  history heap es /\ o_run 32 (o_empty true) es = Some (o, rs, log) /\ o_iri o = Some i /\
  usable 1 (r_id i) log /\ net (r_id i) log = 1%Z /\
  o_step 32 o (ESetIri (o_iri o)) = Some (o', r, log') /\ ~ usable (net (r_id i) log) (r_id i) log'.
Proof.
  set (es := [ESetIri (Some (at_ 9))]).
  assert (E : ex_ids es = Some ([0], [Retain 9%N])) by (vm_compute; reflexivity).
  exists ex_heap, es, (ex_after es). eexists _, _, (at_ 9). eexists _, _, [Release 9%N; Retain 9%N].
  split; [unfold es; ex_history|]. split; [apply (ex_after_run _ _ _ E)|].
  split; [vm_compute; reflexivity|]. split; [split; [lia|exact I]|]. split; [reflexivity|]. split; [vm_compute; reflexivity|].
  vm_compute. intros [_ [H _]]. discriminate.
Qed.

(** * The hypotheses are met *)

Definition rich_es : list edit :=
  [EAddAxiom (at_ 1); EAddAxiom (at_ 3); EAddAxiom (at_ 4); EAddAnnot (at_ 6); EAddImport (at_ 8); EAddImport (at_ 10)].
Lemma rich_history : history ex_heap rich_es.
Proof. unfold rich_es; ex_history. Qed.
Definition rich : onto := ex_after rich_es.
Lemma rich_run : exists rs log, o_run 32 (o_empty true) rich_es = Some (rich, rs, log).
Proof. eexists _, _. apply ex_after_run. vm_compute. reflexivity. Qed.
Lemma rich_reached : reached ex_heap 32 rich.
Proof. destruct rich_run as (rs & log & E). exists rich_es, rs, log. split; [exact rich_history|exact E]. Qed.
Lemma rich_contains : contains rich [at_ 1; at_ 3; at_ 4].
Proof. assert (L : all_ax rich = [at_ 1; at_ 3; at_ 4]) by (vm_compute; reflexivity). rewrite <- L. apply contains_all. Qed.

Definition aboutb (p q : obj) : bool :=
  prim_eqb p q || match p, q with OEnt _ n r, OIri n' r' => bytes_eqb n n' && bytes_eqb r r' | _, _ => false end.

Lemma aboutb_spec p k q : kind p = Some k -> about p q -> aboutb p q = true.
Proof.
  intros K [->|(e & n & r & -> & ->)]; unfold aboutb.
  - now rewrite (prim_eqb_refl p k K).
  - simpl. now rewrite !(proj2 (bytes_eqb_eq _ _) eq_refl).
Qed.

Lemma filter_two {A} (f : A -> bool) l : forall i j q r, i < j -> nth_error l i = Some q -> nth_error l j = Some r ->
  f q = true -> f r = true -> 2 <= length (filter f l).
Proof.
  assert (One : forall l j r, nth_error l j = Some r -> f r = true -> 1 <= length (filter f l)).
  { intros m j r H F. apply nth_error_In in H. assert (X : In r (filter f m)) by (apply filter_In; auto).
    destruct (filter f m); [destruct X|simpl; lia]. }
  induction l as [|x l IH]; intros [|i] [|j] q r L H1 H2 F1 F2; try lia; try discriminate; simpl in *.
  - injection H1 as ->. rewrite F1. simpl. specialize (One l j r H2 F2). lia.
  - assert (2 <= length (filter f l)) by (apply (IH i j q r); auto; lia). destruct (f x); simpl; lia.
Qed.

Lemma about_once_dec p k o : kind p = Some k -> (length (filter (aboutb p) (occ o)) <=? 1) = true -> about_once p o.
Proof.
  intros K H l L i j q r Hi Hj A B. apply occurrences_det in L as ->. apply Nat.leb_le in H.
  apply (aboutb_spec p k q K) in A. apply (aboutb_spec p k r K) in B.
  destruct (Nat.lt_trichotomy i j) as [X|[X|X]]; auto.
  - pose proof (filter_two (aboutb p) _ i j q r X Hi Hj A B). lia.
  - pose proof (filter_two (aboutb p) _ j i r q X Hj Hi B A). lia.
Qed.

Lemma rich_nodup : NoDup [at_ 1; at_ 3; at_ 4].
Proof. repeat constructor; simpl; intuition discriminate. Qed.

Lemma rich_about_once : forall a, In a [at_ 1; at_ 3; at_ 4] -> about_once ex_A (r_obj a).
Proof.
  intros a Ha. apply (about_once_dec ex_A (PT_ENT ET_CLASS) _ eq_refl).
  repeat (destruct Ha as [<-|Ha]; [vm_compute; reflexivity|]). destruct Ha.
Qed.

Lemma rich_once : forall a, In a [at_ 1; at_ 3; at_ 4] -> at_most_once ex_A (r_obj a).
Proof.
  intros a Ha n O. apply (occurs_cnt _ (PT_ENT ET_CLASS)) in O; [|reflexivity]. subst n.
  repeat (destruct Ha as [<-|Ha]; [vm_compute; lia|]). destruct Ha.
Qed.

(** A filter on :B selects one axiom; the IRI of :B is mentioned nowhere. *)
Definition b_filter : afilter := mkFilter (af_of (ax_type o_sub)) [ex_B] (Some (fun a => negb (N.eqb (r_id a) 2))).
Lemma b_prims : prims (f_prims b_filter).
Proof. intros p [<-|[]]. now exists (PT_ENT ET_CLASS). Qed.
Lemma b_once : forall a, In a [at_ 1; at_ 3; at_ 4] -> satisfies b_filter a ->
  forall p, In p (f_prims b_filter) -> occurs p (r_obj a) 1.
Proof.
  intros a Ha S p [<-|[]]. apply (occurs_cnt _ (PT_ENT ET_CLASS)); [reflexivity|].
  destruct Ha as [<-|[<-|[<-|[]]]]; try (vm_compute; reflexivity).
  exfalso. revert S. apply unsat_dec; [apply b_prims|vm_compute; reflexivity|vm_compute; reflexivity].
Qed.
Lemma b_iri : forall a, In a [at_ 1; at_ 3; at_ 4] ->
  forall p q, In p (f_prims b_filter) -> about p q -> q <> p -> ~ mentions q (r_obj a).
Proof.
  intros a Ha p q [<-|[]] [->|(e & n & r & [= <- <- <-] & ->)] Nq M; [now apply Nq|].
  apply (cnt_mentions _ PT_IRI) in M; [|reflexivity]. apply M.
  repeat (destruct Ha as [<-|Ha]; [vm_compute; reflexivity|]). destruct Ha.
Qed.
Lemma b_satisfied : satisfies b_filter (at_ 1).
Proof. apply sat_dec; [apply b_prims|vm_compute; reflexivity|vm_compute; reflexivity]. Qed.

Lemma rich_only_adds : only_adds rich_es.
Proof. intros e H. simpl in H. repeat (destruct H as [<-|H]; [exact I|]). destruct H. Qed.

(** Removals by the very pointer. *)
Definition same_es : list edit :=
  [EAddAxiom (at_ 1); EAddAxiom (at_ 3); EAddAnnot (at_ 6); EAddImport (at_ 8); ERemoveAxiom (at_ 1); ERemoveAnnot (at_ 6)].
Lemma same_history : history ex_heap same_es.
Proof. unfold same_es; ex_history. Qed.
Lemma same_ok : same_pointers same_es.
Proof.
  assert (X : forall e e' x y, In e same_es -> In e' same_es -> removes e x -> In y (passed e') ->
    (cowl_equals (r_obj x) (r_obj y) = false) \/ x = y).
  { intros e e' x y He He' R P. unfold same_es in *. simpl in He, He'.
    repeat (destruct He as [<-|He]; [|]); try destruct He; try destruct R;
    repeat (destruct He' as [<-|He']; [|]); try destruct He'; destruct P as [<-|[]];
    first [right; reflexivity | left; vm_compute; reflexivity]. }
  intros e e' x y He He' R P Q. destruct (X e e' x y He He' R P) as [Y|Y]; auto. rewrite Y in Q. discriminate.
Qed.
Lemma same_run : exists o rs log, o_run 32 (o_empty true) same_es = Some (o, rs, log).
Proof. eexists _, _, _. apply (ex_after_run same_es [0;0;0;0;1;1]). vm_compute. reflexivity. Qed.
