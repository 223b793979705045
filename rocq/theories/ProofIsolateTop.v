(** Proof of the theorems about what a call can touch. *)

From Coq Require Import NArith List Bool Arith Lia.
From Coq Require Import ZifyBool ZifyNat ZifyN.
From Verif Require Import Bytes ModelTypes ModelObject ModelHeader SpecHeader ModelText ModelHeap SpecHeap SpecGet SpecIsolate.
From Verif Require Import ProofObject ProofHeader ProofHeap ProofHeapRun ProofHeapFun ProofHeapName ProofHeapComp ProofHeapTop ProofHeapLib ProofHeapEnd
  ProofHeapSame ProofHeapGet ProofIsolate.
Import ListNotations.
Local Open Scope N_scope.

Section Top.
Variable huge : bool.
Variable fresh : N -> heap -> N.
Hypothesis fresh_ok : allocator fresh.

Local Notation cs := (ProofHeap.cs huge).
Local Notation cell_of := (ProofHeap.cell_of huge).
Local Notation Inv := (ProofHeap.Inv huge).

Section At.
Variables (e : env) (vs : list vocab) (lib own : list N) (s : state).
Hypothesis H : history huge fresh e vs lib s own.

Lemma table_unique a : (exists t, In a (table t s)) <-> unique huge s a.
Proof.
  destruct (history_inv huge fresh fresh_ok _ _ _ _ _ H) as (A & X & L & -> & EL & I & LB).
  unfold unique. split.
  - intros (t & J). rewrite table_cs in J. apply (i_tab _ _ _ _ _ I) in J. destruct J as (v & k & E & P & D).
    exists (cell_of v). split; [apply lk; eauto|]. destruct (i_fit _ _ _ _ _ I a v E) as [F S].
    rewrite type_cell, bit_cell by auto. clear -D S. destruct v as [t' b n d]. cbn in *. unfold ident in D. cbn in D.
    destruct S; try discriminate D; auto.
    + destruct b; [reflexivity|discriminate D].
    + destruct t0; auto; discriminate.
  - intros (c & E & U). apply lk in E as (v & E & ->). destruct (i_fit _ _ _ _ _ I a v E) as [F S].
    rewrite type_cell, bit_cell in U by auto. pose proof (live_all _ _ _ _ _ _ I E) as P.
    pose proof (i_kids _ _ _ _ _ I a v E P) as K. unfold kids_ok in K.
    assert (TX : forall x, is_type (a_h A) x OT_STRING -> exists u, txt (a_h A) x = Some u).
    { intros x (w & EW & TW). destruct (i_fit _ _ _ _ _ I x w EW) as [_ SW]. unfold txt. rewrite EW.
      destruct w as [t' b n d]. cbn in *. subst t'. inversion SW as [| | | | |? ? ? TE|? ? ? ? C|]; subst; [eauto|discriminate TE|exfalso; apply C; reflexivity]. }
    assert (D : exists T k, ident (a_h A) v = Some (T, k)).
    { unfold ident. clear -S U K TX. destruct v as [t b n d]. cbn in *. destruct S; cbn in *; try discriminate U; eauto.
      - rewrite U. eauto.
      - destruct K as (_ & _ & K). apply TX in K. destruct K as (u & ->). eauto.
      - apply TX in K. destruct K as (u & ->). eauto.
      - exfalso. destruct t; cbn in *; try discriminate U; congruence. }
    destruct D as (T & k & D). exists T. rewrite table_cs. apply (i_tab _ _ _ _ _ I). eauto.
Qed.

Lemma env_unique a : In a [e_thing e; e_literal e; e_lang_string e; e_plain_literal e; e_string e] -> unique huge s a.
Proof.
  intros J. destruct (vocab_named huge fresh fresh_ok _ _ _ _ _ H) as (B1 & B2 & B3 & B4 & B5).
  assert (K : forall t n m, entity_named huge s a t n m -> unique huge s a).
  { intros t n m (i & (c & E & T & D) & _). exists c. split; [exact E|]. rewrite T.
    destruct (history_inv huge fresh fresh_ok _ _ _ _ _ H) as (A & X & L & ES & EL & I & LB).
    rewrite ES in E. apply lk in E as (v & E & ->). destruct (i_fit _ _ _ _ _ I a v E) as [F S].
    rewrite type_cell in T by auto. inversion T; subst t. cbn in D. rewrite D in S. inversion S as [| | | | |? ? ? TE| |]; subst.
    destruct (o_t v); try exact Logic.I; try exact TE; discriminate TE. }
  cbn in J. destruct J as [<-|[<-|[<-|[<-|[<-|[]]]]]]; eauto.
Qed.
Lemma empty_lib : In (e_empty e) lib.
Proof.
  destruct (history_inv huge fresh fresh_ok _ _ _ _ _ H) as (A & X & L & -> & -> & I & LB).
  destruct LB as (_ & _ & _ & -> & _). now left.
Qed.

Variable from : list N.
Let V := apart huge lib from s.

Lemma apart_off a : In a from \/ In a lib \/ unique huge s a -> off V a.
Proof. intros R (AL & N). exact (N a R (reach_here s a AL)). Qed.
Lemma apart_Q : Q V s.
Proof.
  assert (KY : NoDup (map fst (s_heap s))).
  { destruct (history_inv huge fresh fresh_ok _ _ _ _ _ H) as (A & X & L & -> & -> & I & LB).
    change (s_heap (cs A)) with (amap cell_of (a_h A)). unfold amap. rewrite map_map. cbn. apply I. }
  constructor.
  - intros a c J O. apply Forall_forall. intros b K (AL & N). apply O. apply in_lookup in J; [|exact KY]. split; [exists c; exact J|].
    intros r R P. apply (N r R). clear -P J K AL. induction P as [a _|r c' x a E J' P IH].
    + eapply reach_step; [exact J|exact K|]. constructor. exact AL.
    + eapply reach_step; [exact E|exact J'|]. apply IH; auto.
  - intros t. apply Forall_forall. intros a J. apply apart_off. right. right. apply table_unique. eauto.
  - intros v (AL & _). exact AL.
Qed.
Lemma apart_env : off V (e_empty e) /\ off V (e_thing e) /\ off V (e_literal e) /\ off V (e_lang_string e) /\
  off V (e_plain_literal e) /\ off V (e_string e).
Proof.
  split; [apply apart_off; right; left; apply empty_lib|].
  repeat split; apply apart_off; right; right; apply env_unique; cbn; auto 6.
Qed.

Lemma apart_call k r s' : Forall (off V) (arguments k) -> exec huge fresh e k s = Ok r s' ->
  Q V s' /\ (forall v, V v -> lookup (s_heap s') v = lookup (s_heap s) v) /\ oopt V r.
Proof.
  intros F E. pose proof (quiet_exec huge fresh fresh_ok e V apart_env k F s apart_Q) as Z. rewrite E in Z. exact Z.
Qed.
End At.

Lemma call_apart e vs lib own s k r s' v from : history huge fresh e vs lib s own ->
  allowed huge e lib own s k -> SpecHeap.no_cycle s k -> room huge (lib ++ own) s k -> exec huge fresh e k s = Ok r s' ->
  (forall a, In a (arguments k) -> In a from \/ exists b, (In b from \/ In b lib) /\ reach s b a) ->
  apart huge lib from s v ->
  lookup (s_heap s') v = lookup (s_heap s) v /\
  (forall l, (forall a, In a l -> In a from \/ In a (opt_list r) \/ In a lib) -> apart huge lib l s' v).
Proof.
  intros H AL NC RM E AR AP.
  assert (H' : history huge fresh e vs lib s' (after k r own)) by (eapply hist_call; eauto).
  set (V := apart huge lib from s) in *.
  pose proof (apart_Q e vs lib own s H from) as Q0. fold V in Q0.
  assert (F : Forall (off V) (arguments k)).
  { apply Forall_forall. intros a J. destruct (AR a J) as [B|(b & B & P)]; [apply apart_off; auto|]. apply (reach_off V s b a Q0 P).
    apply apart_off. destruct B; auto. }
  destruct (apart_call e vs lib own s H from k r s' F E) as (Q1 & K & R). split; [exact (K v AP)|].
  intros l JL. split; [exact (q_alive V s' Q1 v AP)|]. intros a A P.
  assert (O : off V a).
  { destruct A as [A|[A|A]].
    - destruct (JL a A) as [B|[B|B]]; [apply apart_off; auto| |apply apart_off; auto].
      destruct r as [r|]; [|destruct B]. destruct B as [<-|[]]. exact R.
    - apply apart_off. auto.
    - apply (table_unique e vs lib _ s' H') in A. destruct A as (t & J).
      exact (proj1 (Forall_forall _ _) (q_tab V s' Q1 t) a J). }
  exact (reach_off V s' a v Q1 P O AP).
Qed.

Lemma call_isolated e vs lib own s k r s' v : history huge fresh e vs lib s own ->
  allowed huge e lib own s k -> SpecHeap.no_cycle s k -> room huge (lib ++ own) s k -> exec huge fresh e k s = Ok r s' ->
  apart huge lib (arguments k) s v ->
  lookup (s_heap s') v = lookup (s_heap s) v /\ apart huge lib (opt_list r ++ arguments k) s' v.
Proof.
  intros H AL NC RM E AP.
  destruct (call_apart e vs lib own s k r s' v (arguments k) H AL NC RM E ltac:(auto) AP) as (E1 & E2).
  split; [exact E1|]. apply E2. intros a J. apply in_app_or in J. tauto.
Qed.

(** What is allowed with some references is allowed with more. *)
Lemma usable_more l m s a : incl l m -> usable l s a -> usable m s a.
Proof. intros I (r & J & P). exists r. split; [apply I; exact J|exact P]. Qed.
Lemma count_le x l m : (count x l <= count x (l ++ m))%nat.
Proof. unfold count. rewrite count_occ_app. lia. Qed.
Lemma allowed_more e lib mine rest s k : allowed huge e lib mine s k -> allowed huge e lib (mine ++ rest) s k.
Proof.
  assert (U : forall a, usable (lib ++ mine) s a -> usable (lib ++ mine ++ rest) s a).
  { intros a. apply usable_more. intros x J. apply in_app_or in J. apply in_or_app. rewrite in_app_iff. tauto. }
  assert (O : forall (P R : N -> Prop) p, (forall a, P a -> R a) -> optional P p -> optional R p).
  { intros P R [a|] PR; cbn; auto. }
  assert (Q : forall (P R : N -> Prop) p, (forall a, P a -> R a) -> required P p -> required R p).
  { intros P R [a|] PR; cbn; auto. }
  assert (RF : forall i, (2 <= references (lib ++ mine) s i)%nat -> (2 <= references (lib ++ mine ++ rest) s i)%nat).
  { intros i. unfold references. rewrite app_assoc. pose proof (count_le i (lib ++ mine) rest). lia. }
  unfold allowed. cbv zeta. destruct k; cbn;
    repeat match goal with
    | |- context [match ctor_of ?t with _ => _ end] => destruct (ctor_of t) as [[]|]
    end; intros HH; repeat match goal with X : _ /\ _ |- _ => destruct X end; repeat split; auto; try (apply in_or_app; auto);
    try (eapply O; [|eassumption]; cbn; intros; repeat match goal with X : _ /\ _ |- _ => destruct X end; repeat split; eauto);
    try (eapply Forall_impl; [|eassumption]; auto; intros p; apply Q; auto).
  all: try (destruct HH as (c & o & d & EF & A1 & A2 & A3 & A4); exists c, o, d; split; [exact EF|]; split; [auto|];
    split; [eapply O; [|exact A2]; auto|]; split; [eapply O; [|exact A3]; auto|];
    eapply O; [|exact A4]; cbn; intros a [? ?]; auto).
  all: try match goal with C : clean _ _ ?a, J : inside _ _ ?a ?b |- _ => apply (C b J) end.
  all: match goal with G : forall p v l, _ |- _ => eapply G; eauto end.
Qed.
Lemma give_app a l m : In a l -> give_up a (l ++ m) = give_up a l ++ m.
Proof.
  induction l as [|b l IH]; intros J; [destruct J|]. cbn. destruct (N.eqb_spec b a); [reflexivity|].
  destruct J as [J|J]; [contradiction|]. cbn. now rewrite IH.
Qed.
Lemma after_app e lib mine rest s k r : allowed huge e lib mine s k -> after k r (mine ++ rest) = after k r mine ++ rest.
Proof.
  intros AL. unfold allowed in AL. cbv zeta in AL. destruct k; cbn [after]; try (destruct r; reflexivity); apply give_app; tauto.
Qed.

Lemma arguments_usable e lib mine s k a : allowed huge e lib mine s k -> In a (arguments k) -> usable (lib ++ mine) s a \/ In a mine.
Proof.
  unfold allowed. cbv zeta. intros AL J.
  assert (O : forall (P : N -> Prop) p, In a (opt_list p) -> optional P p -> P a).
  { intros P [b|] K; cbn in *; [destruct K as [->|[]]; auto|destruct K]. }
  assert (Q : forall (P : N -> Prop) l, In a (flat_map opt_list l) -> Forall (required P) l -> P a).
  { intros P l K F. apply in_flat_map in K. destruct K as (p & K & K'). rewrite Forall_forall in F. specialize (F p K).
    destruct p as [b|]; cbn in *; [destruct K' as [->|[]]; auto|destruct K']. }
  unfold arguments, optional_argument in J. destruct k; cbn in AL;
    repeat match type of AL with context [match ctor_of ?t with _ => _ end] => destruct (ctor_of t) as [[]|] end;
    try (cbn [opt_list] in J; rewrite app_nil_r in J); repeat match goal with X : _ /\ _ |- _ => destruct X end;
    repeat match goal with
    | X : In _ (_ ++ _) |- _ => apply in_app_or in X; destruct X
    | X : In _ (_ :: _) |- _ => destruct X as [X|X]; [subst|]
    | X : In _ [] |- _ => destruct X
    end; auto;
    try (left; match goal with F : Forall _ ?l, X : In _ ?l |- _ => rewrite Forall_forall in F; apply F; exact X end);
    try (left; match goal with X : In _ (opt_list ?p), Y : optional _ ?p |- _ => pose proof (O _ p X Y) as Z; cbn in Z; repeat match goal with X : _ /\ _ |- _ => destruct X end; assumption end);
    try (left; match goal with X : In _ (flat_map opt_list ?p) |- _ => eapply (Q _ p X); eassumption end).
  all: try (destruct AL as (c & o & d & EF & A1 & A2 & A3 & A4)); subst;
    try (left; match goal with X : In _ (opt_list ?p), Y : optional _ ?p |- _ => pose proof (O _ p X Y) as Z; cbn in Z; repeat match goal with X : _ /\ _ |- _ => destruct X end; assumption end).
  all: try contradiction.
  cbn in H. destruct H as [<-|H]; [auto|]. rewrite app_nil_r in H. apply in_app_or in H.
  left. destruct H as [H|H]; eapply O in H; eauto.
Qed.

Lemma works_apart e vs lib rest s mine s' mine' : works huge fresh e lib rest s mine s' mine' ->
  history huge fresh e vs lib s (mine ++ rest) ->
  history huge fresh e vs lib s' (mine' ++ rest) /\
  forall v, apart huge lib mine s v -> lookup (s_heap s') v = lookup (s_heap s) v /\ apart huge lib mine' s' v.
Proof.
  intros W. induction W as [s mine|s mine k r s1 s2 mine2 AL NC RM E W IH]; intros H; [auto|].
  pose proof (allowed_more e lib mine rest s k AL) as AL'.
  assert (H1 : history huge fresh e vs lib s1 (after k r mine ++ rest)).
  { rewrite <- (after_app e lib mine rest s k r AL). eapply hist_call; eauto. }
  destruct (IH H1) as (H2 & K2). split; [exact H2|]. intros v AP.
  destruct (call_apart e vs lib (mine ++ rest) s k r s1 v mine H AL' NC RM E) as (E1 & AP1); [|exact AP|].
  { intros a J. destruct (arguments_usable e lib mine s k a AL J) as [(b & B & P)|J']; [|auto].
    right. exists b. split; [|exact P]. apply in_app_or in B. tauto. }
  assert (AP2 : apart huge lib (after k r mine) s1 v).
  { apply AP1. assert (G : forall x a l, In x (give_up a l) -> In x l).
    { intros x a l. induction l as [|b l IL]; cbn; auto. destruct (b =? a); cbn; intros Z; tauto. }
    intros a J. destruct k; cbn [after] in J; try (left; apply G in J; exact J); destruct r as [r|]; cbn in *; tauto. }
  destruct (K2 v AP2) as (E2 & AP3). split; [rewrite E2; exact E1|exact AP3].
Qed.

End Top.
