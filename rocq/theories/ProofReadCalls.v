(** Calls made with references that are counted up to their order. *)

From Coq Require Import NArith List Bool Arith Lia Permutation.
From Coq Require Import ZifyBool ZifyNat ZifyN.
From Verif Require Import Bytes ModelTypes ModelObject ModelHeader SpecHeader ModelText ModelHeap SpecHeap SpecGet SpecIsolate.
From Verif Require Import ModelReadRules ModelReadOwn SpecRead.
From Verif Require Import ProofObject ProofHeader ProofHeap ProofHeapRun ProofHeapFun ProofHeapName ProofHeapComp ProofHeapTop ProofHeapLib ProofHeapEnd
  ProofHeapSame ProofHeapGet ProofIsolate ProofIsolateTop.
Import ListNotations.
Local Open Scope N_scope.

Section Calls.
Variable huge : bool.
Variable fresh : N -> heap -> N.
Hypothesis fresh_ok : allocator fresh.
Variables (e : env) (vs : list vocab) (lib : list N).

Local Notation cs := (ProofHeap.cs huge).
Local Notation cell_of := (ProofHeap.cell_of huge).
Local Notation Inv := (ProofHeap.Inv huge).

Definition Hist (s : state) (own : list N) : Prop := exists o, history huge fresh e vs lib s o /\ Permutation o own.

Lemma hist_perm s own own' : Permutation own own' -> Hist s own -> Hist s own'.
Proof. intros P (o & H & Q). exists o. split; [exact H|eapply Permutation_trans; eauto]. Qed.

Lemma allowed_incl lib1 own1 lib2 own2 s k : incl (lib1 ++ own1) (lib2 ++ own2) -> incl own1 own2 ->
  (forall a, (references (lib1 ++ own1) s a <= references (lib2 ++ own2) s a)%nat) ->
  allowed huge e lib1 own1 s k -> allowed huge e lib2 own2 s k.
Proof.
  intros I1 I2 R.
  assert (U : forall a, usable (lib1 ++ own1) s a -> usable (lib2 ++ own2) s a) by (intros a; now apply usable_more).
  assert (O : forall (P R : N -> Prop) p, (forall a, P a -> R a) -> optional P p -> optional R p).
  { intros P Q [a|] PR; cbn; auto. }
  assert (Q : forall (P R : N -> Prop) p, (forall a, P a -> R a) -> required P p -> required R p).
  { intros P Q [a|] PR; cbn; auto. }
  assert (RF : forall i, (2 <= references (lib1 ++ own1) s i)%nat -> (2 <= references (lib2 ++ own2) s i)%nat).
  { intros i. specialize (R i). lia. }
  unfold allowed. cbv zeta. destruct k; cbn;
    repeat match goal with
    | |- context [match ctor_of ?t with _ => _ end] => destruct (ctor_of t) as [[]|]
    end; intros HH; repeat match goal with X : _ /\ _ |- _ => destruct X end; repeat split; auto; try (apply I2; assumption);
    try (eapply O; [|eassumption]; cbn; intros; repeat match goal with X : _ /\ _ |- _ => destruct X end; repeat split; eauto);
    try (eapply Forall_impl; [|eassumption]; auto; intros p; apply Q; auto).
  all: try (destruct HH as (c & o & d & EF & A1 & A2 & A3 & A4); exists c, o, d; split; [exact EF|]; split; [auto|];
    split; [eapply O; [|exact A2]; auto|]; split; [eapply O; [|exact A3]; auto|];
    eapply O; [|exact A4]; cbn; intros a [? ?]; auto).
  all: try match goal with C : clean _ _ ?a, J : inside _ _ ?a ?b |- _ => apply (C b J) end.
  all: match goal with G : forall p v l, _ |- _ => eapply G; eauto end.
Qed.
Lemma references_perm l m s a : Permutation l m -> references l s a = references m s a.
Proof. intros P. unfold references. now rewrite (count_perm l m P a). Qed.
Lemma allowed_perm own own' s k : Permutation own own' -> allowed huge e lib own s k -> allowed huge e lib own' s k.
Proof.
  intros P. apply allowed_incl.
  - intros x J. apply (Permutation_in x (Permutation_app_head lib P)). exact J.
  - intros x J. now apply (Permutation_in x P).
  - intros a. rewrite (references_perm _ _ s a (Permutation_app_head lib P)). lia.
Qed.
Lemma give_perm a l m : Permutation l m -> Permutation (give_up a l) (give_up a m).
Proof.
  intros P. induction P as [|x l m P IH|x y l|l m n P1 IH1 P2 IH2].
  - constructor.
  - cbn. destruct (x =? a); [exact P|now constructor].
  - cbn. destruct (N.eqb_spec y a), (N.eqb_spec x a); subst; try apply Permutation_refl. constructor.
  - eapply Permutation_trans; eauto.
Qed.
Lemma after_perm k r l m : Permutation l m -> Permutation (after k r l) (after k r m).
Proof. intros P. destruct k; cbn [after]; try (now apply give_perm); destruct r; auto. Qed.

Section State.
Variables (s : state) (own : list N).
Hypothesis H : Hist s own.

Lemma ref_count a c : lookup (s_heap s) a = Some c ->
  ref_of huge c = N.of_nat (references (lib ++ own) s a) /\ (0 < references (lib ++ own) s a)%nat.
Proof.
  destruct H as (o & HH & P). intros E. rewrite <- (references_perm _ _ s a (Permutation_app_head lib P)).
  exact (counts_ok huge fresh fresh_ok e vs lib o s HH a c E).
Qed.
Lemma referenced a : (0 < references (lib ++ own) s a)%nat -> alive s a.
Proof.
  destruct H as (o & HH & P). rewrite <- (references_perm _ _ s a (Permutation_app_head lib P)).
  exact (referenced_alive huge fresh fresh_ok e vs lib o s HH a).
Qed.
Lemma held_alive a : In a (lib ++ own) -> alive s a.
Proof. intros J. apply referenced. unfold references. apply (count_occ_In N.eq_dec) in J. unfold count. lia. Qed.
Lemma held_usable a : In a (lib ++ own) -> usable (lib ++ own) s a.
Proof. intros J. exists a. split; [exact J|]. constructor. now apply held_alive. Qed.
Lemma any_usable a : alive s a -> usable (lib ++ own) s a.
Proof.
  destruct H as (o & HH & P). intros A. apply (usable_more (lib ++ o)); [|exact (no_leak huge fresh fresh_ok e vs lib o s HH a A)].
  intros x J. apply (Permutation_in x (Permutation_app_head lib P)). exact J.
Qed.
Lemma empty_held : In (e_empty e) lib.
Proof. destruct H as (o & HH & P). exact (empty_lib huge fresh fresh_ok e vs lib o s HH). Qed.
Lemma fits_room k : expected huge e s k -> room huge (lib ++ own) s k.
Proof.
  intros (F & _) a. destruct (lookup (s_heap s) a) as [c|] eqn:E.
  - destruct (ref_count a c E) as [R _]. specialize (F a c E). lia.
  - destruct (references (lib ++ own) s a) eqn:R.
    + destruct (held_alive (e_empty e)) as (c & E'); [apply in_or_app; left; apply empty_held|]. specialize (F _ c E'). lia.
    + destruct (referenced a) as (c & E'); [lia|]. congruence.
Qed.

(** The types of strings, IRIs and vectors. *)
Lemma body_type a c : lookup (s_heap s) a = Some c ->
  match c_body c with
  | BStr _ => type_of huge c = Some OT_STRING
  | BVec _ => type_of huge c = Some OT_VECTOR
  | BIri _ _ => type_of huge c = Some OT_IRI
  | _ => type_of huge c <> Some OT_STRING /\ type_of huge c <> Some OT_VECTOR /\ type_of huge c <> Some OT_IRI
  end.
Proof.
  destruct H as (o & HH & P). destruct (history_inv huge fresh fresh_ok _ _ _ _ _ HH) as (A & X & L & -> & EL & I & LB).
  intros E. apply lk in E as (v & E & ->). destruct (i_fit _ _ _ _ _ I a v E) as [F S]. rewrite type_cell by auto.
  clear -S. destruct v as [t b n d]. cbn in *. destruct S; auto; repeat split; try discriminate.
  - intros Q. injection Q as ->. discriminate H.
  - intros Q. injection Q as ->. discriminate H.
  - intros Q. injection Q as ->. discriminate H.
  - intros Q. injection Q as ->. apply H. reflexivity.
  - intros Q. injection Q as ->. apply H. reflexivity.
  - intros Q. injection Q as ->. apply H. reflexivity.
Qed.
Lemma string_text a : has_type huge s a OT_STRING -> exists t, has_text s a t.
Proof.
  intros (c & E & T). pose proof (body_type a c E) as B. destruct (c_body c) eqn:D; try (rewrite T in B; discriminate B); try (exfalso; tauto).
  eexists; exists c; split; [exact E|exact D].
Qed.
Lemma text_string a t : has_text s a t -> has_type huge s a OT_STRING.
Proof. intros (c & E & D). pose proof (body_type a c E) as B. rewrite D in B. exists c. auto. Qed.
Lemma vector_items a c : lookup (s_heap s) a = Some c -> type_of huge c = Some OT_VECTOR -> exists l, c_body c = BVec l.
Proof.
  intros E T. pose proof (body_type a c E) as B. destruct (c_body c) eqn:D; try (rewrite T in B; discriminate B); try (exfalso; tauto). eauto.
Qed.
Lemma iri_type a n m : iri_key s a n m -> has_type huge s a OT_IRI.
Proof. intros (c & i & r & E & D & _). pose proof (body_type a c E) as B. rewrite D in B. exists c. auto. Qed.

Section Call.
Variable k : call.
Hypothesis AL : allowed huge e lib own s k.
Hypothesis NC : SpecHeap.no_cycle s k.
Hypothesis RM : room huge (lib ++ own) s k.

(** The call succeeds; what is still held keeps its type. *)
Lemma hist_exec : exists r s', exec huge fresh e k s = Ok r s' /\ Hist s' (after k r own).
Proof.
  destruct H as (o & HH & P). assert (P' := Permutation_sym P).
  assert (RM' : room huge (lib ++ o) s k).
  { intros a. specialize (RM a). rewrite (references_perm _ _ s a (Permutation_app_head lib P)). exact RM. }
  pose proof (allowed_perm _ _ s k P' AL) as AL'.
  destruct (call_ok huge fresh fresh_ok e vs lib o s HH k AL' NC RM') as (r & s' & E & _).
  exists r, s'. split; [exact E|]. exists (after k r o). split; [eapply hist_call; eauto|now apply after_perm].
Qed.

Variables (r : option N) (s' : state).
Hypothesis E : exec huge fresh e k s = Ok r s'.

Lemma hist_next : Hist s' (after k r own).
Proof. destruct hist_exec as (r1 & s1 & E1 & H1). rewrite E1 in E. injection E as <- <-. exact H1. Qed.
Lemma hist_keeps a c : usable (lib ++ after k None own) s a ->
  (removes k = true -> exists r, In r (lib ++ own) /\ still s s' r a) -> lookup (s_heap s) a = Some c ->
  exists c', lookup (s_heap s') a = Some c' /\ type_of huge c' = type_of huge c /\
    (grown (c_body c) (c_body c') \/ target s k a /\ edited (c_body c) (c_body c')).
Proof.
  intros U ST LK. destruct H as (o & HH & P). assert (P' := Permutation_sym P).
  assert (RM' : room huge (lib ++ o) s k).
  { intros x. specialize (RM x). rewrite (references_perm _ _ s x (Permutation_app_head lib P)). exact RM. }
  pose proof (allowed_perm _ _ s k P' AL) as AL'.
  destruct (call_ok huge fresh fresh_ok e vs lib o s HH k AL' NC RM') as (r1 & s1 & E1 & K). rewrite E1 in E. injection E as -> ->.
  apply (K a c); [| |exact LK].
  - revert U. apply usable_more. intros x J. apply (Permutation_in x (Permutation_app_head lib (after_perm k None _ _ P'))). exact J.
  - intros R. destruct (ST R) as (x & J & Z). exists x. split; [|exact Z]. apply (Permutation_in x (Permutation_app_head lib P')). exact J.
Qed.
Lemma keeps_type a t : In a (lib ++ after k None own) -> has_type huge s a t -> has_type huge s' a t.
Proof.
  intros J (c & LK & T). destruct (hist_keeps a c) as (c' & LK' & T' & _); [|intros _|exact LK|exists c'; split; [exact LK'|congruence]].
  - exists a. split; [exact J|]. constructor. exists c. exact LK.
  - exists a. split; [|constructor]. rewrite in_app_iff in *. destruct J as [J|J]; [auto|]. right.
    assert (G : forall x y l, In x (give_up y l) -> In x l).
    { intros x y l. induction l as [|b l IL]; cbn; auto. destruct (b =? y); cbn; intros Z; tauto. }
    destruct k; cbn [after] in J; try exact J; now apply G in J.
Qed.
(** What an object that is still held points to, it points to afterwards. *)
Lemma keeps_pointer d a : removes k = false -> In d (lib ++ after k None own) -> (exists c, lookup (s_heap s) d = Some c /\ In a (pointers_of (c_body c))) ->
  exists c, lookup (s_heap s') d = Some c /\ In a (pointers_of (c_body c)).
Proof.
  intros R J (c & LK & P). destruct (hist_keeps d c) as (c' & LK' & _ & [G|(Z & _)]).
  - exists d. split; [exact J|]. constructor. exists c. exact LK.
  - rewrite R. discriminate.
  - exact LK.
  - exists c'. split; [exact LK'|]. destruct G as [b|l m|o p I]; auto. cbn. apply in_or_app. auto.
  - exfalso. destruct k; cbn in R, Z; try discriminate R; exact Z.
Qed.
Lemma keeps_vector a l : removes k = false -> usable (lib ++ after k None own) s a -> has_items s a l -> exists m, has_items s' a m.
Proof.
  intros R U (c & LK & D). destruct (hist_keeps a c U) as (c' & LK' & _ & [G|(Z & _)]).
  - rewrite R. discriminate.
  - exact LK.
  - rewrite D in G. inversion G; subst; eexists; exists c'; eauto.
  - exfalso. destruct k; cbn in R, Z; try discriminate R; exact Z.
Qed.
End Call.
End State.

(** A vector only its holder knows. *)
Definition private (s : state) (v : N) : Prop :=
  exists c, lookup (s_heap s) v = Some c /\ type_of huge c = Some OT_VECTOR /\ ref_of huge c = 1.

Lemma pointers_none a h b c : pointers_to a h = O -> lookup h b = Some c -> ~ In a (pointers_of (c_body c)).
Proof.
  induction h as [|[x d] h IH]; cbn; [discriminate|]. intros P. destruct (x =? b).
  - intros E. injection E as <-. intros J. apply (count_occ_In N.eq_dec) in J. unfold count in P. lia.
  - apply IH. lia.
Qed.
Lemma reach_none s a v : pointers_to v (s_heap s) = O -> reach s a v -> a = v.
Proof.
  intros P R. induction R as [a _|a c b d E J R IH]; [reflexivity|].
  specialize (IH P). subst b. exfalso. exact (pointers_none d _ a c P E J).
Qed.
Lemma private_alone s own v : Hist s (v :: own) -> private s v -> pointers_to v (s_heap s) = O /\ ~ In v lib /\ ~ In v own.
Proof.
  intros H (c & E & T & R). destruct (ref_count s (v :: own) H v c E) as [Q _]. rewrite R in Q. unfold references, count in Q.
  rewrite count_occ_app in Q. cbn in Q. destruct (N.eq_dec v v) as [_|]; [|contradiction].
  split; [lia|]. split; intros J; apply (count_occ_In N.eq_dec) in J; lia.
Qed.
Lemma private_apart s own v from : Hist s (v :: own) -> private s v -> ~ In v from -> apart huge lib from s v.
Proof.
  intros H PV NF. destruct (private_alone s own v H PV) as (P & NL & NO). destruct PV as (c & E & T & _). split; [exists c; exact E|].
  intros a A R. apply (reach_none s a v P) in R. subst a. destruct A as [A|[A|(d & F & A)]]; [tauto|tauto|].
  rewrite E in F. injection F as <-. rewrite T in A. discriminate A.
Qed.
Lemma private_kept s own v k r s' : Hist s own -> In v own -> private s v ->
  allowed huge e lib own s k -> SpecHeap.no_cycle s k -> room huge (lib ++ own) s k -> exec huge fresh e k s = Ok r s' ->
  ~ In v (arguments k) -> lookup (s_heap s') v = lookup (s_heap s) v.
Proof.
  intros H J PV AL NC RM E NA. apply in_split in J. destruct J as (l1 & l2 & ->).
  assert (H' : Hist s (v :: l1 ++ l2)) by (revert H; apply hist_perm, Permutation_sym, Permutation_middle).
  pose proof (private_apart s (l1 ++ l2) v (arguments k) H' PV NA) as AP.
  destruct H as (o & HH & P). assert (P' := Permutation_sym P).
  assert (RM' : room huge (lib ++ o) s k).
  { intros x. specialize (RM x). rewrite (references_perm _ _ s x (Permutation_app_head lib P)). exact RM. }
  exact (proj1 (call_isolated huge fresh fresh_ok e vs lib o s k r s' v HH (allowed_perm _ _ s k P' AL) NC RM' E AP)).
Qed.

(** The handler. *)
Lemma client_ok passed rest s out s' out' : works huge fresh e (lib ++ passed) rest s out s' out' ->
  Hist s (out ++ passed ++ rest) ->
  Hist s' (out' ++ passed ++ rest) /\
  (forall a t, In a (lib ++ passed ++ rest) -> has_type huge s a t -> has_type huge s' a t) /\
  (forall v, apart huge lib (out ++ passed) s v -> lookup (s_heap s') v = lookup (s_heap s) v /\ apart huge lib (out' ++ passed) s' v).
Proof.
  intros W. induction W as [s mine|s mine k r s1 s2 mine2 AL NC RM E W IH]; intros H; [auto|].
  assert (AL' : allowed huge e lib (mine ++ passed ++ rest) s k).
  { revert AL. apply allowed_incl.
    - intros x. rewrite !in_app_iff. tauto.
    - intros x. rewrite !in_app_iff. tauto.
    - intros a. unfold references, count. rewrite !count_occ_app. lia. }
  assert (RM' : room huge (lib ++ mine ++ passed ++ rest) s k).
  { intros a. specialize (RM a). revert RM. unfold references, count. rewrite !count_occ_app. lia. }
  assert (H1 : Hist s1 (after k r mine ++ passed ++ rest)).
  { rewrite <- (after_app huge e (lib ++ passed) mine (passed ++ rest) s k r AL). exact (hist_next s _ H k AL' NC RM' r s1 E). }
  destruct (IH H1) as (H2 & T2 & K2). split; [exact H2|]. split.
  - intros a t J TY. apply T2; [exact J|]. apply (keeps_type s _ H k AL' NC RM' r s1 E); [|exact TY].
    rewrite (after_app huge e (lib ++ passed) mine (passed ++ rest) s k None AL). rewrite !in_app_iff in *. tauto.
  - intros v AP. destruct H as (o & HH & P). assert (P' := Permutation_sym P).
    assert (RM2 : room huge (lib ++ o) s k).
    { intros x. specialize (RM' x). rewrite (references_perm _ _ s x (Permutation_app_head lib P)). exact RM'. }
    destruct (call_apart huge fresh fresh_ok e vs lib o s k r s1 v (mine ++ passed) HH (allowed_perm _ _ s k P' AL') NC RM2 E) as (E1 & AP1);
      [|exact AP|].
    { intros a J. destruct (arguments_usable huge e (lib ++ passed) mine s k a AL J) as [(b & B & R)|J'].
      - right. exists b. split; [|exact R]. rewrite !in_app_iff in *. tauto.
      - left. apply in_or_app. auto. }
    assert (AP2 : apart huge lib (after k r mine ++ passed) s1 v).
    { apply AP1. assert (G : forall x a l, In x (give_up a l) -> In x l).
      { intros x a l. induction l as [|b l IL]; cbn; auto. destruct (b =? a); cbn; intros Z; tauto. }
      intros a J. rewrite in_app_iff in *. destruct J as [J|J]; [|auto].
      destruct k; cbn [after] in J; try (apply G in J; auto); destruct r as [r'|]; cbn in *; tauto. }
    destruct (K2 v AP2) as (E2 & AP3). split; [rewrite E2; exact E1|exact AP3].
Qed.
End Calls.
