(** Proofs about readers, writers and the defaults. *)

From Coq Require Import NArith List Bool Lia.
From Verif Require Import ModelPlugin SpecPlugin.
Import ListNotations.
Local Open Scope N_scope.

Definition held (s : plugins) (k : slot) (i : N) : N := if same (p_default s k) (Some i) then 1 else 0.

(** The count of every object is the number of references of the client and of the globals; exactly the objects without
    references were freed, once. *)
Definition inv (s : plugins) (own : N -> nat) : Prop :=
  (forall i, p_count s i = N.of_nat (own i) + held s Reader i + held s Writer i) /\
  (forall i, p_next s <= i -> p_count s i = 0) /\
  NoDup (p_freed s) /\
  (forall i, In i (p_freed s) <-> i < p_next s /\ p_count s i = 0) /\
  (forall k i, p_default s k = Some i -> p_kind s i = k /\ i < p_next s) /\
  (p_init s = false -> forall k, p_default s k = None).

Lemma same_true p q : same p q = true <-> p = q.
Proof.
  destruct p as [a|], q as [b|]; simpl; try (split; discriminate); [|tauto]. rewrite N.eqb_eq. split; congruence.
Qed.

Lemma inv_start : inv start (fun _ => 0%nat).
Proof.
  repeat split; auto; try constructor; try discriminate; simpl in *; try tauto; try lia.
Qed.

Lemma held_self s k i : p_default s k = Some i -> held s k i = 1.
Proof. intros E. unfold held. rewrite E. simpl. now rewrite N.eqb_refl. Qed.

Lemma may_use_count s own i : inv s own -> may_use s own i -> 0 < p_count s i /\ i < p_next s.
Proof.
  intros (C & B & _) M. assert (P : 0 < p_count s i).
  { rewrite C. destruct M as [M|[k M]]; [lia|]. unfold get_default in M. pose proof (held_self s k i M). destruct k; lia. }
  split; auto. destruct (N.lt_ge_cases i (p_next s)) as [L|L]; auto. rewrite (B i L) in P. lia.
Qed.

Lemma inv_make k s own : inv s own -> inv (snd (make k s)) (ledger (CMake k) s own).
Proof.
  intros (C & B & D & F & K & I). unfold make; simpl. 
  assert (Z0 : p_count s (p_next s) = 0) by (apply B; lia).
  assert (H0 : forall j, held s j (p_next s) = 0).
  { intros j. specialize (C (p_next s)). destruct j; lia. }
  repeat split; simpl; auto.
  - intros i. unfold set_at. change (held _ Reader i) with (held s Reader i) at 1. change (held _ Writer i) with (held s Writer i) at 1.
    destruct (N.eqb_spec i (p_next s)) as [->|N0]; [|apply C]. rewrite !H0. reflexivity.
  - intros i L. unfold set_at. destruct (N.eqb_spec i (p_next s)); [lia|]. apply B. lia.
  - apply F in H. lia.
  - apply F in H. unfold set_at. destruct (N.eqb_spec i (p_next s)); [lia|]. tauto.
  - intros [L E]. unfold set_at in E. destruct (N.eqb_spec i (p_next s)); [discriminate|]. apply F. split; auto. lia.
  - destruct (K k0 i H) as [<- L]. unfold set_at. destruct (N.eqb_spec i (p_next s)); [lia|]. reflexivity.
  - destruct (K k0 i H) as [_ L]. lia.
Qed.

Lemma inv_retain i s own : inv s own -> may_use s own i -> exists s', retain (Some i) s = Some s' /\ inv s' (ledger (CRetain i) s own).
Proof.
  intros V M. destruct (may_use_count s own i V M) as [P L]. destruct V as (C & B & D & F & K & I). unfold retain.
  destruct (N.eqb_spec (p_count s i) 0); [lia|]. eexists. split; [reflexivity|].
  repeat split; simpl; auto.
  - intros j. unfold set_at. change (held _ Reader j) with (held s Reader j) at 1. change (held _ Writer j) with (held s Writer j) at 1.
    destruct (N.eqb_spec j i) as [->|N0]; [rewrite C, Nat2N.inj_succ; lia | apply C].
  - intros j G. unfold set_at. destruct (N.eqb_spec j i); [lia|]. auto.
  - now apply F in H.
  - apply F in H. unfold set_at. destruct (N.eqb_spec i0 i) as [->|]; [lia|tauto].
  - intros [G E]. unfold set_at in E. destruct (N.eqb_spec i0 i) as [->|]; [lia|]. apply F. auto.
  - now apply K.
  - now apply (K k i0).
Qed.

(** Releasing an object on behalf of the client. *)
Lemma inv_release i s own : inv s own -> (0 < own i)%nat -> exists s', release (Some i) s = Some s' /\ inv s' (ledger (CRelease i) s own).
Proof.
  intros V M. destruct (may_use_count s own i V (or_introl M)) as [P L]. destruct V as (C & B & D & F & K & I). unfold release.
  destruct (N.eqb_spec (p_count s i) 0); [lia|]. eexists. split; [reflexivity|].
  repeat split; simpl; auto.
  - intros j. unfold set_at. change (held _ Reader j) with (held s Reader j) at 1. change (held _ Writer j) with (held s Writer j) at 1.
    destruct (N.eqb_spec j i) as [->|N0]; [rewrite C; lia | apply C].
  - intros j G. unfold set_at. destruct (N.eqb_spec j i); [lia|]. auto.
  - destruct (N.eqb_spec (p_count s i) 1); auto. constructor; auto. intros X. apply F in X. lia.
  - destruct (N.eqb_spec (p_count s i) 1); [destruct H as [<-|H]|]; auto; now apply F in H.
  - unfold set_at. destruct (N.eqb_spec i0 i) as [->|N0].
    + destruct (N.eqb_spec (p_count s i) 1); [lia|]. apply F in H. lia.
    + destruct (N.eqb_spec (p_count s i) 1); [destruct H as [<-|H]; [congruence|]|]; now apply F in H.
  - intros [G E]. unfold set_at in E. destruct (N.eqb_spec i0 i) as [->|N0].
    + replace (p_count s i =? 1) with true by (symmetry; apply N.eqb_eq; lia). simpl; auto.
    + assert (X : In i0 (p_freed s)) by (apply F; auto). destruct (p_count s i =? 1); simpl; auto.
  - now apply K.
  - now apply (K k i0).
Qed.

(** Moving a reference from a global to the client and back. *)
Definition give (own : N -> nat) (i : N) : N -> nat := fun j => if j =? i then S (own j) else own j.
Definition take (own : N -> nat) (i : N) : N -> nat := fun j => if j =? i then pred (own j) else own j.
Lemma inv_ext s own own' : inv s own -> (forall i, own i = own' i) -> inv s own'.
Proof. intros (C & R) E. split; auto. intros i. now rewrite C, E. Qed.

Lemma held_assign k p s j i : held (assign k p s) j i = if slot_eqb j k then (if same p (Some i) then 1 else 0) else held s j i.
Proof. unfold held, assign, set_slot. simpl. destruct (slot_eqb j k); reflexivity. Qed.

Lemma inv_forget k s own i : inv s own -> p_default s k = Some i -> inv (assign k None s) (give own i).
Proof.
  intros (C & B & D & F & K & I) E. repeat split; simpl; auto.
  - intros j. rewrite !held_assign, C. pose proof (held_self s k i E) as H. unfold give.
    assert (X : j <> i -> held s k j = 0).
    { intros N0. unfold held. rewrite E. simpl. destruct (N.eqb_spec i j); congruence. }
    destruct (N.eqb_spec j i) as [->|N0]; [|specialize (X N0)]; destruct k; cbn [slot_eqb same]; rewrite ?Nat2N.inj_succ; lia.
  - now apply F.
  - now apply F.
  - now apply F.
  - revert H. simpl. unfold set_slot. destruct (slot_eqb k0 k); [discriminate|]. intros H. now apply K.
  - revert H. simpl. unfold set_slot. destruct (slot_eqb k0 k); [discriminate|]. intros H. now apply (K k0 i0).
  - intros Q j. unfold set_slot. destruct (slot_eqb j k); auto.
Qed.

Lemma slot_eqb_true a b : slot_eqb a b = true -> a = b.
Proof. destruct a, b; simpl; congruence. Qed.

Lemma inv_install k s own i : inv s own -> p_default s k = None -> (0 < own i)%nat -> p_kind s i = k -> i < p_next s -> p_init s = true ->
  inv (assign k (Some i) s) (take own i).
Proof.
  intros (C & B & D & F & K & I) E O T L P. repeat split; simpl; auto.
  - intros j. rewrite !held_assign, C. assert (X : held s k j = 0) by (unfold held; now rewrite E). unfold take.
    destruct (N.eqb_spec j i) as [->|N0].
    + destruct k; cbn [slot_eqb same]; rewrite N.eqb_refl; lia.
    + destruct k; cbn [slot_eqb same]; destruct (N.eqb_spec i j); try congruence; lia.
  - now apply F.
  - now apply F.
  - now apply F.
  - revert H. simpl. unfold set_slot. destruct (slot_eqb k0 k) eqn:Q; intros H; [|now apply K]. injection H as <-. apply slot_eqb_true in Q as ->. auto.
  - revert H. simpl. unfold set_slot. destruct (slot_eqb k0 k) eqn:Q; intros H; [|now apply (K k0 i0)]. now injection H as <-.
  - congruence.
Qed.

Lemma inv_default_ext s own f : inv s own -> (forall k, p_default s k = f k) ->
  inv (mkPlugins (p_next s) (p_count s) (p_kind s) f (p_init s) (p_freed s)) own.
Proof.
  intros (C & B & D & F & K & I) E. split; [|split; [|split; [|split; [|split]]]]; simpl; auto.
  - intros i. rewrite C. unfold held. simpl. now rewrite !E.
  - intros k i H. apply K. now rewrite E.
  - intros P k. rewrite <- E. auto.
Qed.

(** Releasing what a global has. *)
Lemma release_default k s own : inv s own -> exists s', release (p_default s k) s = Some s' /\ inv (assign k None s') own /\
  p_default s' = p_default s /\ p_init s' = p_init s /\ p_kind s' = p_kind s /\ p_next s' = p_next s.
Proof.
  intros V. destruct (p_default s k) as [i|] eqn:E.
  - pose proof (inv_forget k s own i V E) as V1.
    destruct (inv_release i _ _ V1) as (s1 & R1 & V2); [unfold give; rewrite N.eqb_refl; lia|].
    unfold release in *. cbn [p_count assign] in R1. destruct (p_count s i =? 0); [discriminate|].
    eexists. split; [reflexivity|]. injection R1 as <-. split; [|auto].
    eapply inv_ext; [exact V2|]. intros j. simpl. unfold give. destruct (j =? i); reflexivity.
  - exists s. split; [reflexivity|]. split; [|auto]. destruct V as (C & B & D & F & K & I). repeat split; simpl; auto.
    + intros j. rewrite !held_assign, C. assert (X : held s k j = 0) by (unfold held; now rewrite E).
      destruct k; cbn [slot_eqb same]; lia.
    + now apply F.
    + now apply F.
    + now apply F.
    + revert H. simpl. unfold set_slot. destruct (slot_eqb k0 k); [discriminate|]. intros H. now apply K.
    + revert H. simpl. unfold set_slot. destruct (slot_eqb k0 k); [discriminate|]. intros H. now apply (K k0 i).
    + intros Q j. unfold set_slot. destruct (slot_eqb j k); auto.
Qed.

Lemma inv_set k i s own : inv s own -> obeys false (CSet k (Some i)) s own ->
  exists s', set_default k (Some i) s = Some s' /\ inv s' own /\ p_default s' k = Some i /\
    (forall j, j <> k -> p_default s' j = p_default s j).
Proof.
  intros V (P & M & T). unfold set_default. destruct (same (Some i) (p_default s k)) eqn:S.
  - apply same_true in S. exists s. auto.
  - destruct (may_use_count s own i V M) as [CP L].
    destruct (release_default k s own V) as (s1 & R1 & V1 & D1 & I1 & K1 & N1). rewrite R1.
    assert (C1 : 0 < p_count s1 i).
    { assert (Q : p_default s k <> Some i) by (intros Q; rewrite Q in S; simpl in S; rewrite N.eqb_refl in S; discriminate).
      unfold release in R1. destruct (p_default s k) as [x|]; [|injection R1 as <-; auto].
      destruct (p_count s x =? 0); [discriminate|]. injection R1 as <-. simpl. unfold set_at.
      destruct (N.eqb_spec i x); [congruence|]. auto. }
    unfold retain. destruct (N.eqb_spec (p_count s1 i) 0); [lia|]. eexists. split; [reflexivity|]. split.
    + (* a reference for the client, which it gives to the global *)
      assert (Mu : may_use (assign k None s1) own i).
      { destruct M as [M|[j M]]; [left; auto|right; exists j]. unfold get_default in *. simpl. unfold set_slot.
        destruct (slot_eqb j k) eqn:J; [|now rewrite D1].
        apply slot_eqb_true in J as ->. rewrite M in S. simpl in S. rewrite N.eqb_refl in S. discriminate. }
      destruct (inv_retain i _ _ V1 Mu) as (s2 & R2 & V2). unfold retain in R2. cbn [p_count assign] in R2.
      destruct (N.eqb_spec (p_count s1 i) 0); [discriminate|]. injection R2 as <-.
      assert (V3 : inv (assign k (Some i) (mkPlugins (p_next s1) (set_at (p_count s1) i (p_count s1 i + 1)) (p_kind s1)
                          (set_slot (p_default s1) k None) (p_init s1) (p_freed s1))) own).
      { eapply inv_ext; [apply (inv_install k _ _ i V2)|].
        - simpl. unfold set_slot. now destruct k.
        - simpl. rewrite N.eqb_refl. lia.
        - simpl. congruence.
        - simpl. congruence.
        - simpl. congruence.
        - intros j. simpl. unfold take. destruct (j =? i); reflexivity. }
      apply (inv_default_ext _ _ (set_slot (p_default s1) k (Some i)) V3).
      intros j. simpl. unfold set_slot. now destruct (slot_eqb j k).
    + simpl. unfold set_slot. split; [now destruct k|]. intros j J. destruct (slot_eqb j k) eqn:Q; [apply slot_eqb_true in Q; congruence|].
      now rewrite D1.
Qed.

Lemma inv_with_init b s own : inv s own -> (b = false -> forall k, p_default s k = None) -> inv (with_init b s) own.
Proof. intros (C & B & D & F & K & I) E. split; [|split; [|split; [|split; [|split]]]]; simpl; auto. Qed.

Lemma inv_boot s own : inv s own -> inv (cowl_init s) own.
Proof.
  intros V. unfold cowl_init. destruct (p_init s) eqn:P; [auto|].
  assert (Dn : forall k, p_default s k = None) by (destruct V as (_ & _ & _ & _ & _ & I); auto).
  assert (B0 : forall i, p_next s <= i -> own i = 0%nat).
  { intros i L. destruct V as (C & B & _). specialize (C i). rewrite (B i L) in C. lia. }
  pose proof (inv_with_init true s own V ltac:(discriminate)) as V0.
  pose proof (inv_make Reader _ _ V0) as V1.
  assert (V2 := inv_install Reader _ _ (p_next s) V1 (Dn Reader)).
  simpl in V2. rewrite N.eqb_refl in V2. specialize (V2 ltac:(lia)). unfold set_at in V2 at 1. rewrite N.eqb_refl in V2.
  specialize (V2 eq_refl ltac:(lia) eq_refl).
  pose proof (inv_make Writer _ _ V2) as V3.
  assert (V4 := inv_install Writer _ _ (p_next s + 1) V3 (Dn Writer)).
  simpl in V4. rewrite N.eqb_refl in V4. specialize (V4 ltac:(lia)). unfold set_at in V4 at 1. rewrite N.eqb_refl in V4.
  specialize (V4 eq_refl ltac:(lia) eq_refl).
  eapply inv_ext; [exact V4|]. intros i. unfold take. simpl.
  destruct (N.eqb_spec i (p_next s + 1)) as [->|N1].
  - symmetry. simpl. apply B0. lia.
  - destruct (N.eqb_spec i (p_next s)) as [->|N2]; auto. simpl. symmetry. apply B0. lia.
Qed.

Lemma inv_down s own : inv s own -> exists s', cowl_deinit s = Some s' /\ inv s' own /\ p_init s' = false /\ forall k, p_default s' k = None.
Proof.
  intros V. unfold cowl_deinit. destruct (p_init s) eqn:P; cbn [negb].
  - destruct (release_default Reader s own V) as (s1 & R1 & V1 & _). rewrite R1.
    destruct (release_default Writer _ own V1) as (s2 & R2 & V2 & D2 & _). 
    cbv zeta. rewrite R2.
    assert (Z0 : forall k, p_default (assign Writer None s2) k = None).
    { intros [|]; simpl; unfold set_slot; simpl; auto. rewrite D2. reflexivity. }
    eexists. split; [reflexivity|]. split; [now apply inv_with_init|]. split; [reflexivity|]. exact Z0.
  - exists s. destruct V as (C & B & D & F & K & I). split; [auto|]. split; [split; auto|]. split; auto.
Qed.

Lemma obeys_step c s own : inv s own -> obeys false c s own -> exists s', exec c s = Some s' /\ inv s' (ledger c s own).
Proof.
  intros V O. destruct c as [k|i|i|i|k [i|]| |]; cbn [exec ledger] in *.
  - eexists. split; [reflexivity|]. now apply inv_make.
  - now apply inv_retain.
  - now apply inv_release.
  - destruct (may_use_count s own i V O) as [P _]. unfold use. destruct (N.eqb_spec (p_count s i) 0); [lia|]. eauto.
  - destruct (inv_set k i s own V O) as (s' & E & V' & _). eauto.
  - destruct O as [_ O]. discriminate.
  - eexists. split; [reflexivity|]. now apply inv_boot.
  - destruct (inv_down s own V) as (s' & E & V' & _). eauto.
Qed.

Lemma history_inv h s own : history false h s own -> inv s own.
Proof.
  induction 1 as [|h s own c s' H IH O E]; [apply inv_start|].
  destruct (obeys_step c s own IH O) as (s2 & E2 & V2). congruence.
Qed.

Lemma safe_holds h s own c : history false h s own -> obeys false c s own -> exec c s <> None.
Proof. intros H O. destruct (obeys_step c s own (history_inv h s own H) O) as (s' & E & _). congruence. Qed.

Lemma freed_holds h s own : history false h s own ->
  NoDup (p_freed s) /\ forall i, i < p_next s -> In i (p_freed s) <-> own i = 0%nat /\ forall k, get_default k s <> Some i.
Proof.
  intros H. pose proof (history_inv h s own H) as V. pose proof (may_use_count s own) as M. destruct V as (C & B & D & F & K & I).
  assert (V : inv s own) by (split; auto). split; auto. intros i L. rewrite F. split.
  - intros [_ Z0]. split.
    + specialize (C i). lia.
    + intros k E. destruct (M i V (or_intror (ex_intro _ k E))). lia.
  - intros [O E]. split; auto. rewrite C, O. unfold held.
    destruct (same (p_default s Reader) (Some i)) eqn:Q1; [apply same_true in Q1; destruct (E Reader Q1)|].
    destruct (same (p_default s Writer) (Some i)) eqn:Q2; [apply same_true in Q2; destruct (E Writer Q2)|]. reflexivity.
Qed.

Lemma end_holds h s own : history false (h ++ [CDeinit]) s own -> (forall i, own i = 0%nat) -> forall i, i < p_next s -> In i (p_freed s).
Proof.
  intros H O i L. destruct (freed_holds _ _ _ H) as [_ X]. apply X; auto. split; auto. intros k E.
  inversion H as [Q|h' s0 own0 c s' H' O' E' Q1 Q2 Q3]; [destruct h; discriminate|]. apply app_inj_tail in Q1 as [-> ->].
  destruct (inv_down s0 own0 (history_inv _ _ _ H')) as (s2 & E2 & _ & _ & Z0). simpl in E'. rewrite E2 in E'. injection E' as <-.
  unfold get_default in E. rewrite Z0 in E. discriminate.
Qed.

Lemma release_default_same p s s' : release p s = Some s' -> p_default s' = p_default s.
Proof. destruct p as [i|]; simpl; [destruct (_ =? 0); [discriminate|]|]; intros E; injection E as <-; reflexivity. Qed.

Lemma last_holds h2 : forall h k i s own, history false (h ++ [CSet k (Some i)] ++ h2) s own -> Forall (leaves k) h2 -> get_default k s = Some i /\ p_init s = true.
Proof.
  induction h2 as [|c h2 IH] using rev_ind; intros h k i s own H L.
  - inversion H as [Q|h' s0 own0 c s' H' O' E' Q1 Q2 Q3]; [destruct h; discriminate|]. simpl in Q1. apply app_inj_tail in Q1 as [-> ->].
    destruct (inv_set k i s0 own0 (history_inv _ _ _ H') O') as (s2 & E2 & _ & D2 & _). cbn [exec] in E'. rewrite E2 in E'. injection E' as <-. split; [exact D2|].
    destruct O' as (P & _). revert E2. unfold set_default. destruct (same _ _); [now intros [= <-]|].
    destruct (release _ s0) as [s1|] eqn:R; [|discriminate]. unfold retain. destruct (_ =? 0); [discriminate|]. intros [= <-]. simpl.
    revert R. unfold release. destruct (p_default s0 k); [destruct (_ =? 0); [discriminate|]|]; intros [= <-]; auto.
  - apply Forall_app in L as [L1 L2]. inversion L2 as [|x y Lc _]; subst.
    inversion H as [Q|h' s0 own0 c' s' H' O' E' Q1 Q2 Q3]; [destruct h; discriminate|].
    change (CSet k (Some i) :: h2 ++ [c]) with ((CSet k (Some i) :: h2) ++ [c]) in Q1. rewrite app_assoc in Q1.
    apply app_inj_tail in Q1 as [-> ->].
    destruct (IH _ _ _ _ _ H' L1) as [G P]. unfold get_default in *. destruct c as [j|j|j|j|j [p|]| |]; cbn [exec leaves] in E', Lc.
    + injection E' as <-. auto.
    + unfold retain, release, use in E'. destruct (_ =? 0); [discriminate|]. injection E' as <-. auto.
    + unfold retain, release, use in E'. destruct (_ =? 0); [discriminate|]. injection E' as <-. auto.
    + unfold retain, release, use in E'. destruct (_ =? 0); [discriminate|]. injection E' as <-. auto.
    + destruct (inv_set j p s0 own0 (history_inv _ _ _ H') O') as (s2 & E2 & _ & _ & D2). rewrite E2 in E'. injection E' as <-.
      split; [rewrite D2; auto|]. revert E2. unfold set_default. destruct (same _ _); [now intros [= <-]|].
      destruct (release _ s0) as [s1|] eqn:R; [|discriminate]. unfold retain. destruct (_ =? 0); [discriminate|]. intros [= <-]. simpl.
      revert R. unfold release. destruct (p_default s0 j); [destruct (_ =? 0); [discriminate|]|]; intros [= <-]; auto.
    + destruct O' as [_ O']. discriminate.
    + injection E' as <-. unfold cowl_init. rewrite P. auto.
    + destruct Lc.
Qed.

Lemma last_default h k i h2 s own : history false (h ++ [CSet k (Some i)] ++ h2) s own -> Forall (leaves k) h2 -> get_default k s = Some i.
Proof. intros H L. now destruct (last_holds h2 h k i s own H L). Qed.
