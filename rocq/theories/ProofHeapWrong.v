(** Concrete histories after which a call on an ontology goes wrong. *)

From Coq Require Import String.
From Coq Require Import NArith List Bool Arith.
From Verif Require Import Bytes ModelTypes ModelObject ModelHeader SpecHeader ModelText ModelHeap SpecHeap ExamplesHeap ProofHeapBad.
Import ListNotations.
Local Open Scope N_scope.

Definition deadb (s : state) (a : N) : bool := match lookup (s_heap s) a with Some _ => false | None => true end.
Lemma deadb_ok s a : deadb s a = true -> ~ alive s a.
Proof. unfold deadb, alive. destruct (lookup (s_heap s) a); [discriminate|]. intros _ (c & H). discriminate. Qed.
Definition freedb {X} (r : res X) : bool := match r with Err EFreed => true | _ => false end.
Lemma freedb_ok {X} (r : res X) : freedb r = true -> r = Err EFreed.
Proof. destruct r as [|[]]; cbn; congruence. Qed.
Lemma ontob_is s a p : ontob s a = Some p -> onto_is s a p.
Proof.
  unfold ontob. destruct (lookup (s_heap s) a) as [[h []]|] eqn:E; try discriminate. intros X. inversion X; subst. eexists. split; [exact E|reflexivity].
Qed.

(** The story of an ontology runs; the removed axiom is gone, its class is alive. *)
Lemma onto_story_runs : exists e vs lib s n y b a i o p,
  history false next e vs lib s [n; y; b; a; i; o] /\ onto_is s o p /\
  n_iri p = Some i /\ n_imports p = [i] /\ tindex (n_axioms p) OT_A_SUB_CLASS = [y] /\ n_annot p <> None.
Proof.
  destruct (go_from_ok onto_story (fun _ s own => match own with
    | [n; y; b; a; i; o] =>
        match ontob s o with
        | Some (mkOnto (Some j) _ [k] (Some _) l _) => (j =? i) && (k =? i) && match tindex l OT_A_SUB_CLASS with [z] => z =? y | _ => false end
        | _ => false
        end
    | _ => false end)) as (e & vs & lib & s & own & H & P); [vm_compute; reflexivity|].
  destruct own as [|n [|y [|b [|a [|i [|o [|? ?]]]]]]]; try discriminate.
  destruct (ontob s o) as [[[j|] ver [|k [|? ?]] [v|] l r]|] eqn:E; try discriminate.
  rewrite !andb_true_iff, !N.eqb_eq in P. destruct P as [[-> ->] P].
  destruct (tindex l OT_A_SUB_CLASS) as [|z [|? ?]] eqn:T; try discriminate. apply N.eqb_eq in P. subst z.
  exists e, vs, lib, s, n, y, b, a, i, o, (mkOnto (Some i) ver [i] (Some v) l r). split; [exact H|]. split; [now apply ontob_is|].
  cbn. repeat split; auto. discriminate.
Qed.

(** The IRI of an ontology, whose only reference is the ontology's, is set again. *)
Definition iri_story : list (list N -> call) :=
  [ fun _ => KOntology; fun _ => KIriText (bs "http://x.org/o"); fun w => KSetIri (o w 1) (Some (o w 0)); fun w => KRelease (o w 0) ].
Lemma set_iri_freed : exists e vs lib s o i p,
  history false next e vs lib s [o] /\ onto_is s o p /\ n_iri p = Some i /\ has_type false s i OT_IRI /\
  exec false next e (KSetIri o (Some i)) s = Err EFreed.
Proof.
  destruct (go_from_env iri_story (fun e _ s own => match own with
    | [o] => match ontob s o with
             | Some (mkOnto (Some i) _ _ _ _ _) => typeb s i OT_IRI && freedb (exec false next e (KSetIri o (Some i)) s)
             | _ => false end
    | _ => false end)) as (e & vs & lib & s & own & H & P); [vm_compute; reflexivity|].
  destruct own as [|o [|? ?]]; try discriminate. destruct (ontob s o) as [[[i|] ver im an l r]|] eqn:E; try discriminate.
  apply andb_true_iff in P as [P1 P2]. exists e, vs, lib, s, o, i, (mkOnto (Some i) ver im an l r).
  split; [exact H|]. split; [now apply ontob_is|]. split; [reflexivity|]. split; [now apply typeb_ok|now apply freedb_ok].
Qed.

(** Two axioms with the same contents; one is added and the other removed. *)
Definition twin_story : list (list N -> call) :=
  [ fun _ => KOntology;
    fun _ => KEntityText OT_CE_CLASS (bs "http://x.org/a");
    fun w => KConstruct OT_A_SUB_CLASS [Some (o w 0); Some (o w 0)] None 0;
    fun w => KConstruct OT_A_SUB_CLASS [Some (o w 1); Some (o w 1)] None 0;
    fun w => KAddAxiom (o w 3) (o w 0) ].
Lemma remove_twin_frees : exists e vs lib s y x c o s' p,
  history false next e vs lib s [y; x; c; o] /\ has_type false s x OT_A_SUB_CLASS /\ has_type false s o OT_ONTOLOGY /\
  exec false next e (KRemoveAxiom o x) s = Ok None s' /\ ~ alive s' x /\ onto_is s' o p /\ In y (tindex (n_axioms p) OT_A_SUB_CLASS).
Proof.
  destruct (go_from_env twin_story (fun e _ s own => match own with
    | [y; x; c; o] => typeb s x OT_A_SUB_CLASS && typeb s o OT_ONTOLOGY &&
        match exec false next e (KRemoveAxiom o x) s with
        | Ok None s' => deadb s' x && match ontob s' o with Some p => mem y (tindex (n_axioms p) OT_A_SUB_CLASS) | None => false end
        | _ => false end
    | _ => false end)) as (e & vs & lib & s & own & H & P); [vm_compute; reflexivity|].
  destruct own as [|y [|x [|c [|o [|? ?]]]]]; try discriminate. rewrite !andb_true_iff in P. destruct P as [[P1 P2] P3].
  destruct (exec false next e (KRemoveAxiom o x) s) as [[?|] s'|] eqn:X; try discriminate.
  apply andb_true_iff in P3 as [P3 P4]. destruct (ontob s' o) as [p|] eqn:E; [|discriminate].
  exists e, vs, lib, s, y, x, c, o, s', p. split; [exact H|]. split; [now apply typeb_ok|]. split; [now apply typeb_ok|].
  split; [exact X|]. split; [now apply deadb_ok|]. split; [now apply ontob_is|now apply mem_in].
Qed.

(** The same with annotations. *)
Definition twin_annot_story : list (list N -> call) :=
  [ fun _ => KOntology;
    fun _ => KIriText (bs "http://x.org/a");
    fun w => KEntity OT_ANNOT_PROP (o w 0);
    fun w => KConstruct OT_ANNOTATION [Some (o w 0); Some (o w 1)] None 0;
    fun w => KConstruct OT_ANNOTATION [Some (o w 1); Some (o w 2)] None 0;
    fun w => KAddAnnot (o w 4) (o w 0) ].
Lemma remove_annot_frees : exists e vs lib s y x p i o s',
  history false next e vs lib s [y; x; p; i; o] /\ has_type false s x OT_ANNOTATION /\ has_type false s o OT_ONTOLOGY /\
  exec false next e (KRemoveAnnot o x) s = Ok None s' /\ ~ alive s' x.
Proof.
  destruct (go_from_env twin_annot_story (fun e _ s own => match own with
    | [y; x; p; i; o] => typeb s x OT_ANNOTATION && typeb s o OT_ONTOLOGY &&
        match exec false next e (KRemoveAnnot o x) s with Ok None s' => deadb s' x | _ => false end
    | _ => false end)) as (e & vs & lib & s & own & H & P); [vm_compute; reflexivity|].
  destruct own as [|y [|x [|p [|i [|o [|? ?]]]]]]; try discriminate. rewrite !andb_true_iff in P. destruct P as [[P1 P2] P3].
  destruct (exec false next e (KRemoveAnnot o x) s) as [[?|] s'|] eqn:X; try discriminate.
  exists e, vs, lib, s, y, x, p, i, o, s'. split; [exact H|]. split; [now apply typeb_ok|]. split; [now apply typeb_ok|].
  split; [exact X|now apply deadb_ok].
Qed.

(** The class of a removed axiom is released; the ontology still lists it among its primitives. *)
Definition stale_story : list (list N -> call) :=
  [ fun _ => KOntology;
    fun _ => KEntityText OT_CE_CLASS (bs "http://x.org/a");
    fun w => KConstruct OT_A_SUB_CLASS [Some (o w 0); Some (o w 0)] None 0;
    fun w => KAddAxiom (o w 2) (o w 0);
    fun w => KRemoveAxiom (o w 2) (o w 0);
    fun w => KRelease (o w 0);
    fun w => KRelease (o w 0) ].
Lemma primitives_freed : exists e vs lib s o,
  history false next e vs lib s [o] /\ has_type false s o OT_ONTOLOGY /\ exec false next e (KPrimitives o) s = Err EFreed.
Proof.
  destruct (go_from_env stale_story (fun e _ s own => match own with
    | [o] => typeb s o OT_ONTOLOGY && freedb (exec false next e (KPrimitives o) s)
    | _ => false end)) as (e & vs & lib & s & own & H & P); [vm_compute; reflexivity|].
  destruct own as [|o [|? ?]]; try discriminate. apply andb_true_iff in P as [P1 P2].
  exists e, vs, lib, s, o. split; [exact H|]. split; [now apply typeb_ok|now apply freedb_ok].
Qed.

(** The vector of annotations of an ontology is used in an annotation of the ontology. *)
Definition annots_of (s : state) (a : N) : N := match ontob s a with Some (mkOnto _ _ _ (Some v) _ _) => v | _ => 0 end.
Definition loop_story : list (list N -> call) :=
  [ fun _ => KOntology;
    fun _ => KIriText (bs "http://x.org/a");
    fun w => KEntity OT_ANNOT_PROP (o w 0);
    fun w => KConstruct OT_ANNOTATION [Some (o w 0); Some (o w 1)] None 0;
    fun w => KAddAnnot (o w 3) (o w 0);
    fun w => KRelease (o w 0) ].
(** Calls that obey the ownership rule; an annotation may contain the ontology's vector. *)
Definition check0 (lib own : list N) (s : state) (k : call) : bool :=
  match k with
  | KAddAnnot o x => held (lib ++ own) s o && typeb s o OT_ONTOLOGY && (held (lib ++ own) s x && typeb s x OT_ANNOTATION) && cleanb s x
  | _ => check lib own s k
  end.
Lemma check0_ok e lib own s k : check0 lib own s k = true -> allowed false e lib own s k.
Proof.
  assert (D : check lib own s k = true -> allowed false e lib own s k) by (intros H; now apply (check_ok e) in H).
  destruct k; try exact D. cbn [check0 allowed]. rewrite !andb_true_iff. intros [[[H1 H2] [H3 H4]] H5].
  split; [auto using held_ok, typeb_ok|]. split; [now apply held_ok|]. split; [now apply typeb_ok|now apply cleanb_ok].
Qed.
Fixpoint goes (e : env) (lib : list N) (ks : list (state -> list N -> call)) (s : state) (own : list N) : option (state * list N) :=
  match ks with
  | [] => Some (s, own)
  | k :: ks' =>
      if check0 lib own s (k s own) then
        match exec false next e (k s own) s with
        | Ok r s' => goes e lib ks' s' (after (k s own) r own)
        | Err _ => None
        end
      else None
  end.
Lemma goes_ok e vs lib ks : forall s own s' own', owned false next e vs lib s own -> goes e lib ks s own = Some (s', own') ->
  owned false next e vs lib s' own'.
Proof.
  induction ks as [|k ks IH]; intros s own s' own' H; cbn [goes].
  - intros X. inversion X; subst. auto.
  - destruct (check0 lib own s (k s own)) eqn:B; [|discriminate]. apply (check0_ok e) in B.
    destruct (exec false next e (k s own) s) as [r s1|] eqn:E; [|discriminate]. apply IH. eapply owned_call; eauto.
Qed.
Definition loop_end : list (state -> list N -> call) :=
  [ fun s w => KConstruct OT_ANNOTATION [Some (o w 0); Some (o w 1)] (Some (annots_of s (o w 2))) 0;
    fun _ w => KAddAnnot (o w 3) (o w 0);
    fun _ w => KRelease (o w 3);
    fun _ w => KRelease (o w 0);
    fun _ w => KRelease (o w 0);
    fun _ w => KRelease (o w 0) ].
Lemma annot_loop : exists e vs lib s a, owned false next e vs lib s [] /\ alive s a /\ ~ In a lib /\ has_type false s a OT_ANNOTATION.
Proof.
  destruct (go_from_env loop_story (fun e lib s own =>
    match goes e lib loop_end s own with
    | Some (s', []) => existsb (fun p => typeb s' (fst p) OT_ANNOTATION && negb (mem (fst p) lib)) (s_heap s')
    | _ => false
    end)) as (e & vs & lib & s & own & H & P); [vm_compute; reflexivity|].
  destruct (goes e lib loop_end s own) as [[s' [|? ?]]|] eqn:G; try discriminate.
  apply existsb_exists in P as ([a c] & J & P). cbn [fst] in P. apply andb_true_iff in P as [P1 P2]. apply typeb_ok in P1.
  exists e, vs, lib, s', a. split; [eapply goes_ok; [apply history_owned; exact H|exact G]|].
  assert (HT := P1). destruct P1 as (c' & E & _). split; [exists c'; exact E|]. split; [|exact HT].
  intros K. apply negb_true_iff in P2. assert (mem a lib = true); [|congruence].
  unfold mem. apply existsb_exists. exists a. split; [exact K|apply N.eqb_refl].
Qed.
