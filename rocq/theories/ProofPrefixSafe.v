(** Memory safety of prefix maps (C51), and histories (C20, C21, C23). *)

From Coq Require Import NArith ZArith String List Bool Lia Permutation.
From Verif Require Import Bytes ModelTypes ModelObject ModelText ModelPrefixMap SpecPrefixMap SpecText ProofObject ProofText ProofPrefixMap ProofPrefixRev.
Import ListNotations.
Local Open Scope N_scope.

Definition owned (s : pst) : Prop :=
  distinct_keys (fwd s) /\ distinct_keys (rev_tbl s) /\
  (forall i, held (fwd s) i <= rc s i) /\
  (forall k v k' v', In (k, v) (fwd s) -> In (k', v') (fwd s) -> stx v = stx v' -> v = v') /\
  (forall n p, In (n, p) (rev_tbl s) -> In (p, n) (fwd s)).

Lemma held_alive t (r : N -> N) : (forall i, held t i <= r i) -> forall k v, In (k, v) t -> alive r k = true /\ alive r v = true.
Proof.
  intros H k v I. apply held_in in I as (A & B). pose proof (H (sid k)). pose proof (H (sid v)).
  unfold alive. rewrite !negb_true_iff, !N.eqb_neq. lia.
Qed.

Lemma alive_nz r s : alive r s = true <-> r (sid s) <> 0.
Proof. unfold alive. now rewrite negb_true_iff, N.eqb_neq. Qed.

Lemma add_owned s p n ow : owned s ->
  rc s (sid p) <> 0 -> rc s (sid (intern_ns p n)) <> 0 -> interned_in (fwd s) (intern_ns p n) ->
  (ow = false \/ get_ns s (stx p) = Some None) ->
  exists s' r, pm_add s p n ow = Some (s', r) /\ owned s' /\
    (forall i, rc s i <= rc s' i) /\
    (forall e, In e (fwd s') -> In e (fwd s) \/ e = (p, intern_ns p n)).
Proof.
  intros (Df & Dr & Hh & Hi & Hr) Lp Ln In0 How. pose proof (held_alive _ _ Hh) as A.
  unfold pm_add. set (ns := intern_ns p n) in *.
  destruct (find_entry (fwd s) (stx p)) as [[k old]|] eqn:F.
  - apply find_in in F as F'. destruct F' as (I & E). destruct (A _ _ I) as (Ak & _). rewrite Ak. simpl.
    assert (ow = false) as ->.
    { destruct How as [How|How]; auto. unfold get_ns in How. rewrite F, Ak in How. discriminate. }
    simpl. eexists _, _. split; [reflexivity|]. split; [repeat split; auto|]. split; [intros; lia|auto].
  - pose proof (find_none _ _ F) as N0.
    destruct (retain_some (rc s) p Lp) as (r1 & -> & R1).
    destruct (retain_some r1 ns) as (r2 & -> & R2); [rewrite R1; lia|].
    eexists _, _. split; [reflexivity|]. cbn [fwd rc rev_tbl]. split; [|split].
    + split; [|split; [|split; [|split]]]; cbn [fwd rc rev_tbl]; auto.
      * now apply distinct_snoc.
      * intros i. rewrite held_app, held_cons, R2, R1. specialize (Hh i). simpl. lia.
      * intros k v k' v' I I' E. apply in_app_iff in I as [I|[[= <- <-]|[]]]; apply in_app_iff in I' as [I'|[[= <- <-]|[]]]; auto.
        -- eapply Hi; eauto.
        -- eapply In0; eauto.
        -- symmetry. eapply In0; eauto.
      * intros m x I. apply in_app_iff. auto.
    + intros i. rewrite R2, R1. lia.
    + intros e I. apply in_app_iff in I as [I|[<-|[]]]; auto.
Qed.

Lemma merge_owned es : forall s r0, owned s ->
  (forall k v, In (k, v) es ->
     rc s (sid k) <> 0 /\ rc s (sid (intern_ns k v)) <> 0 /\ interned_in (fwd s) (intern_ns k v) /\
     forall k' v', In (k', v') es -> stx (intern_ns k' v') = stx (intern_ns k v) -> intern_ns k' v' = intern_ns k v) ->
  exists s' r, merge_loop s es false r0 = Some (s', r) /\ owned s'.
Proof.
  induction es as [|[k v] es IH]; intros s r0 O H; simpl; eauto.
  destruct (H k v) as (L1 & L2 & In0 & Hu); [now left|].
  destruct (add_owned s k v false O L1 L2 In0) as (s1 & r1 & -> & O1 & M & Sub); auto.
  apply IH; auto. intros k1 v1 I1. destruct (H k1 v1) as (A1 & A2 & A3 & A4); [now right|].
  split; [|split; [|split]].
  - specialize (M (sid k1)). lia.
  - specialize (M (sid (intern_ns k1 v1))). lia.
  - intros k2 v2 I2 E2. apply Sub in I2 as [I2|[= -> ->]]; [eapply A3; eauto|]. apply A4; auto. now left.
  - intros k2 v2 I2. apply A4. now right.
Qed.

Section Order.
Variable visit : tbl -> tbl.
Hypothesis visit_perm : forall t, Permutation (visit t) t.
Let vin := visit_in visit visit_perm.

Lemma reverse_owned s : owned s -> exists s', reverse_table visit s = Some s' /\ owned s' /\ fwd s' = fwd s /\ rc s' = rc s.
Proof.
  intros (Df & Dr & Hh & Hi & Hr).
  assert (A := held_alive _ _ Hh).
  destruct (reverse_safe visit visit_perm (fun n p => In (p, n) (fwd s)) s) as (s' & E); auto.
  - intros k v n p I Ip En. assert (n = v) by (eapply Hi; eauto). subst n. auto.
  - intros k v n p I Ip En. destruct (A _ _ Ip); auto.
  - pose proof E as E0. unfold reverse_table in E. exists s'. split; auto.
    destruct (dirty s) eqn:Ed; simpl in E.
    + destruct (update_loop (rc s) (visit (fwd s)) (rev_tbl s)) as [h|] eqn:U; [|discriminate]. injection E as <-. simpl.
      apply (update_inv (fun n p => In (p, n) (fwd s))) in U as (D' & P' & _ & _); auto.
      * repeat split; auto.
      * intros k v I. now apply vin.
      * intros k v n p I Ip En. rewrite vin in I. assert (n = v) by (eapply Hi; eauto). subst n. auto.
    + injection E as <-. repeat split; auto.
Qed.

Lemma remove_prefix_owned s p : owned s -> exists s' r, pm_remove_prefix visit s p = Some (s', r) /\ owned s'.
Proof.
  intros O. pose proof O as (Df & Dr & Hh & Hi & Hr). pose proof (held_alive _ _ Hh) as A.
  unfold pm_remove_prefix. destruct (find_entry (fwd s) p) as [[k v]|] eqn:F; [|eauto].
  apply find_in in F as (I & E). destruct (A _ _ I) as (Ak & Av). rewrite Ak. cbn [negb].
  set (s1 := {| fwd := del_entry (fwd s) p; rev_tbl := rev_tbl s; dirty := dirty s; rc := rc s |}).
  pose (P := fun n x => In (x, n) (del_entry (fwd s) p) \/ (x = k /\ n = v)).
  assert (HP0 : forall n x, In (n, x) (rev_tbl s1) -> P n x).
  { intros n x J. apply Hr in J. destruct (bytes_eqb (stx x) p) eqn:B.
    - apply bytes_eqb_eq in B. right. assert (Q : (x, n) = (k, v)) by (apply (distinct_unique (fwd s)); auto; simpl; congruence).
      injection Q as -> ->. auto.
    - left. apply in_del. split; auto. simpl. intros X. apply bytes_eqb_eq in X. congruence. }
  assert (HPin : forall n x, P n x -> In (x, n) (fwd s)).
  { intros n x [J|(-> & ->)]; auto. now apply in_del in J. }
  assert (Hsub : forall a b, In (a, b) (del_entry (fwd s) p) -> In (a, b) (fwd s)) by (intros a b J; now apply in_del in J).
  assert (HPv : forall a b, In (a, b) (fwd s1) -> P b a) by (intros a b J; left; auto).
  assert (HPn : forall a b n x, In (a, b) (fwd s1) -> P n x -> stx n = stx b -> P n a).
  { intros a b n x J Q En. assert (n = b) by (eapply Hi; eauto). subst n. left. auto. }
  destruct (reverse_safe visit visit_perm P s1) as (s2 & R); auto.
  { intros a b n x J Q En. apply HPin in Q. cbn [rc s1]. destruct (A _ _ Q). auto. }
  rewrite R.
  assert (R' : fwd s2 = fwd s1 /\ rc s2 = rc s1 /\ distinct_keys (rev_tbl s2) /\ forall n x, In (n, x) (rev_tbl s2) -> P n x).
  { unfold reverse_table in R. destruct (dirty s1); cbn [negb] in R.
    - destruct (update_loop (rc s1) (visit (fwd s1)) (rev_tbl s1)) as [h|] eqn:U; [|discriminate]. injection R as <-. cbn [fwd rc rev_tbl].
      apply (update_inv P) in U as (D' & P' & _ & _); auto.
      + intros a b J. apply HPv. now apply vin.
      + intros a b n x J. refine (HPn a b n x _). now apply vin.
    - injection R as <-. auto. }
  destruct R' as (F2 & R2 & D2 & P2).
  assert (HK : forall i, held (fwd s) i = one (sid k) i + one (sid v) i + held (fwd s2) i).
  { intros i. rewrite F2. now apply held_del. }
  assert (exists s3, match find_entry (rev_tbl s2) (stx v) with
            | None => Some s2
            | Some (n, p0) =>
                if negb (alive (rc s2) n) then None else
                if sid k =? sid p0
                then Some {| fwd := fwd s2; rev_tbl := del_entry (rev_tbl s2) (stx v); dirty := true; rc := rc s2 |}
                else Some s2
            end = Some s3 /\ fwd s3 = fwd s2 /\ rc s3 = rc s2 /\ distinct_keys (rev_tbl s3) /\
            forall n x, In (n, x) (rev_tbl s3) -> In (x, n) (fwd s2)) as (s3 & -> & F3 & R3 & D3 & P3).
  { destruct (find_entry (rev_tbl s2) (stx v)) as [[n x]|] eqn:F3.
    - apply find_in in F3 as (I3 & E3). assert (Ix := HPin _ _ (P2 _ _ I3)). rewrite R2. cbn [rc s1].
      destruct (A _ _ Ix) as (_ & An). rewrite An. cbn [negb]. destruct (sid k =? sid x) eqn:Ek.
      + eexists. split; [reflexivity|]. cbn [fwd rc rev_tbl]. split; auto. split; auto. split; [now apply distinct_filter|].
        intros n1 x1 J. apply in_del in J as (J & N1). simpl in N1. rewrite F2. destruct (P2 _ _ J) as [Q|(-> & ->)]; auto. contradiction.
      + eexists. split; [reflexivity|]. split; auto. split; auto. split; auto.
        intros n1 x1 J. rewrite F2. destruct (P2 _ _ J) as [Q|(-> & ->)]; auto.
        assert (Ex : (v, k) = (n, x)) by (apply (distinct_unique (rev_tbl s2)); auto; simpl; congruence).
        injection Ex as _ Ex. rewrite <- Ex, N.eqb_refl in Ek. discriminate.
    - pose proof (find_none _ _ F3) as N3. eexists. split; [reflexivity|]. split; auto. split; auto. split; auto.
      intros n1 x1 J. rewrite F2. destruct (P2 _ _ J) as [Q|(-> & ->)]; auto. exfalso. eapply N3; eauto. }
  rewrite R3, R2. cbn [rc s1].
  destruct (release_some (rc s) k) as (r1 & -> & Q1); [now apply alive_nz|].
  destruct (release_some r1 v) as (r2 & -> & Q2).
  { rewrite Q1. specialize (Hh (sid v)). rewrite HK in Hh. unfold one in Hh at 2. rewrite N.eqb_refl in Hh.
    pose proof (one_le (sid k) (sid v)). lia. }
  eexists _, _. split; [reflexivity|]. split; [|split; [|split; [|split]]]; cbn [fwd rc rev_tbl]; rewrite ?F3, ?F2; auto.
  - now apply distinct_filter.
  - intros i. rewrite Q2, Q1. specialize (Hh i). rewrite HK, F2 in Hh. lia.
  - intros a b a' b' J J'. cbn [fwd s1] in *. eapply Hi; eauto.
  - intros n x J. rewrite <- F2. auto.
Qed.

End Order.

Lemma remove_ns_loop_owned ns es : forall r K0, (forall i, r i = K0 i + held es i) -> K0 (sid ns) <> 0 ->
  exists r' b, remove_ns_loop r es ns = Some (filter (fun e => negb (bytes_eqb (stx (snd e)) (stx ns))) es, r', b) /\
    (forall i, r' i = K0 i + held (filter (fun e => negb (bytes_eqb (stx (snd e)) (stx ns))) es) i).
Proof.
  induction es as [|[k v] es IH]; intros r K0 H Hn; simpl.
  - exists r, false. split; auto.
  - assert (Av : alive r v = true).
    { apply alive_nz. rewrite H, held_cons. unfold one at 2. rewrite N.eqb_refl. lia. }
    assert (An : alive r ns = true) by (apply alive_nz; rewrite H; lia).
    rewrite Av, An. cbn [andb negb].
    destruct (bytes_eqb (stx v) (stx ns)) eqn:B.
    + destruct (release_some r k) as (r1 & -> & Q1).
      { rewrite H, held_cons. unfold one at 1. rewrite N.eqb_refl. lia. }
      destruct (release_some r1 v) as (r2 & -> & Q2).
      { rewrite Q1, H, held_cons. unfold one at 2. rewrite N.eqb_refl. pose proof (one_le (sid k) (sid v)). lia. }
      destruct (IH r2 K0) as (r3 & b & -> & H3); auto.
      { intros i. rewrite Q2, Q1, H, held_cons. lia. }
      exists r3, true. simpl. auto.
    + destruct (IH r (fun i => K0 i + (one (sid k) i + one (sid v) i))) as (r3 & b & -> & H3).
      { intros i. rewrite H, held_cons. lia. }
      { lia. }
      exists r3, b. simpl. split; auto. intros i. rewrite H3. fold (one (sid k) i). fold (one (sid v) i). lia.
Qed.

Section Order2.
Variable visit : tbl -> tbl.
Hypothesis visit_perm : forall t, Permutation (visit t) t.
Let vin := visit_in visit visit_perm.

Lemma remove_ns_owned s ns : owned s -> client_owns s ns ->
  (forall k v, In (k, v) (fwd s) -> stx v = stx ns -> client_owns s v) ->
  exists s' r, pm_remove_ns visit s ns = Some (s', r) /\ owned s'.
Proof.
  intros (Df & Dr & Hh & Hi & Hr) Cn Cv. unfold client_owns in *. unfold pm_remove_ns.
  pose (K0 := fun i => rc s i - held (fwd s) i).
  destruct (remove_ns_loop_owned ns (visit (fwd s)) (rc s) K0) as (r & b & -> & H).
  { intros i. rewrite (held_perm _ _ i (visit_perm (fwd s))). unfold K0. specialize (Hh i). lia. }
  { unfold K0. lia. }
  set (es := filter _ (visit (fwd s))) in *.
  assert (Ie : forall k v, In (k, v) es <-> In (k, v) (fwd s) /\ stx v <> stx ns).
  { intros k v. unfold es. rewrite filter_In, vin, negb_true_iff. simpl. rewrite <- bytes_eqb_eq, not_true_iff_false. tauto. }
  assert (De : distinct_keys es) by (apply distinct_filter, visit_distinct; auto).
  set (s1 := {| fwd := es; rev_tbl := rev_tbl s; dirty := dirty s; rc := r |}).
  assert (Hle : forall i, held es i <= r i) by (intros i; rewrite H; lia).
  assert (A := held_alive _ _ Hle).
  pose (P := fun n x => In (x, n) es \/ (stx n = stx ns /\ exists y, In (y, n) (fwd s))).
  assert (HP0 : forall n x, In (n, x) (rev_tbl s1) -> P n x).
  { intros n x J. apply Hr in J. destruct (bytes_eqb (stx n) (stx ns)) eqn:B.
    - apply bytes_eqb_eq in B. right. eauto.
    - left. apply Ie. split; auto. intros X. apply bytes_eqb_eq in X. congruence. }
  assert (HPv : forall a c, In (a, c) (fwd s1) -> P c a) by (intros a c J; left; auto).
  assert (HPe : forall a c n x, In (a, c) es -> P n x -> stx n = stx c -> In (x, n) es /\ n = c).
  { intros a c n x J [Q|(Q & y & Iy)] En.
    - split; auto. apply Ie in Q as (Q & _). apply Ie in J as (J & _). eapply Hi; eauto.
    - apply Ie in J as (_ & J). congruence. }
  assert (HPn : forall a c n x, In (a, c) (fwd s1) -> P n x -> stx n = stx c -> P n a).
  { intros a c n x J Q En. destruct (HPe _ _ _ _ J Q En) as (_ & ->). left. auto. }
  destruct (reverse_safe visit visit_perm P s1) as (s2 & R); auto.
  { intros a c n x J Q En. destruct (HPe _ _ _ _ J Q En) as (Q' & _). destruct (A _ _ Q'). auto. }
  rewrite R.
  assert (R' : fwd s2 = es /\ rc s2 = r /\ distinct_keys (rev_tbl s2) /\ forall n x, In (n, x) (rev_tbl s2) -> P n x).
  { unfold reverse_table in R. destruct (dirty s1); cbn [negb] in R.
    - destruct (update_loop (rc s1) (visit (fwd s1)) (rev_tbl s1)) as [h|] eqn:U; [|discriminate]. injection R as <-. cbn [fwd rc rev_tbl s1].
      apply (update_inv P) in U as (D' & P' & _ & _); auto.
      + intros a c J. apply HPv. now apply vin.
      + intros a c n x J. refine (HPn a c n x _). now apply vin.
    - injection R as <-. cbn [fwd rc rev_tbl s1]. auto. }
  destruct R' as (F2 & R2 & D2 & P2). rewrite R2.
  assert (An : alive r ns = true) by (apply alive_nz; rewrite H; unfold K0; lia). rewrite An. cbn [negb].
  assert (Hio : forall k v k' v', In (k, v) es -> In (k', v') es -> stx v = stx v' -> v = v').
  { intros k v k' v' J J'. apply Ie in J as (J & _). apply Ie in J' as (J' & _). eapply Hi; eauto. }
  destruct (find_entry (rev_tbl s2) (stx ns)) as [[n x]|] eqn:F3.
  - apply find_in in F3 as (I3 & E3). assert (Al : alive r n = true).
    { destruct (P2 _ _ I3) as [Q|(Q & y & Iy)].
      - apply Ie in Q as (_ & Q). contradiction.
      - apply alive_nz. specialize (Cv _ _ Iy Q). rewrite H. unfold K0. lia. }
    rewrite Al. cbn [negb]. eexists _, _. split; [reflexivity|].
    split; [|split; [|split; [|split]]]; cbn [fwd rc rev_tbl]; rewrite ?F2; auto.
    + now apply distinct_filter.
    + intros n1 x1 J. apply in_del in J as (J & N1). simpl in N1. destruct (P2 _ _ J) as [Q|(Q & _)]; auto. contradiction.
  - pose proof (find_none _ _ F3) as N3. eexists _, _. split; [reflexivity|].
    split; [|split; [|split; [|split]]]; rewrite ?F2, ?R2; auto.
    intros n1 x1 J. destruct (P2 _ _ J) as [Q|(Q & _)]; auto. exfalso. eapply N3; eauto.
Qed.

Lemma step_owned s o : owned s -> fair s o -> exists s' r, pm_step visit s o = Some (s', r) /\ owned s'.
Proof.
  intros O H. destruct o as [p n ow|p|n|src ow|n|x]; cbn [pm_step fair] in *.
  - destruct H as (A & B & C & D). destruct (add_owned s p n ow O A B C D) as (s' & r & E & O' & _). eauto.
  - now apply remove_prefix_owned.
  - destruct H. now apply remove_ns_owned.
  - destruct H as (-> & H). unfold pm_merge. apply merge_owned; auto. intros k v I. rewrite vin in I.
    destruct (H k v I) as (A & B & C & D). repeat split; auto. intros k' v' I'. apply D. now apply vin.
  - destruct (reverse_owned visit visit_perm s O) as (s' & E & O' & F & R). unfold get_prefix. rewrite E.
    destruct (find_entry (rev_tbl s') n) as [[k v]|] eqn:G; [|eauto].
    apply find_in in G as (I & _). pose proof O' as (_ & _ & Hh & _ & Hr). apply Hr in I.
    destruct (held_alive _ _ Hh _ _ I) as (_ & ->). eauto.
  - unfold client_owns in H. destruct (release_some (rc s) x) as (r' & -> & Q); [lia|]. eexists _, _. split; [reflexivity|].
    destruct O as (Df & Dr & Hh & Hi & Hr). split; [|split; [|split; [|split]]]; cbn [fwd rc rev_tbl]; auto.
    intros i. rewrite Q. unfold one. destruct (sid x =? i) eqn:E.
    + apply N.eqb_eq in E. subst i. lia.
    + specialize (Hh i). lia.
Qed.

(** * Histories *)

Lemma run_owned ops : forall s, owned s -> all_calls fair visit s ops -> exists s' rs, pm_run visit s ops = Some (s', rs) /\ owned s'.
Proof.
  induction ops as [|o ops IH]; intros s O H; simpl; eauto.
  inversion H as [|? ? ? H1 H2]; subst. destruct (step_owned s o O H1) as (s1 & r & E & O1). rewrite E.
  destruct (IH s1 O1 (H2 _ _ E)) as (s2 & rs & -> & O2). eauto.
Qed.

Lemma run_consistent ops : forall s, Forall keeps ops -> all_calls quiet visit s ops -> good s -> consistent s ->
  exists s' rs, pm_run visit s ops = Some (s', rs) /\ good s' /\ consistent s'.
Proof.
  induction ops as [|o ops IH]; intros s Hk Hq G C; simpl; eauto 6.
  inversion Hk as [|? ? Hk1 Hk2]; subst. inversion Hq as [|? ? ? Hq1 Hq2]; subst.
  destruct (step_good visit visit_perm s o Hk1 G) as (s1 & r & E & G1 & _). rewrite E.
  assert (C1 : consistent s1) by (eapply step_consistent; eauto).
  destruct (IH s1 Hk2 (Hq2 _ _ E) G1 C1) as (s2 & rs & -> & G2 & C2). eauto 6.
Qed.

End Order2.

Lemma init_consistent r s c : (forall i, r i <> 0) -> pm_init r = Some (s, c) -> consistent s.
Proof.
  intros H E. unfold pm_init in E. set (s0 := {| fwd := []; rev_tbl := []; dirty := false; rc := r |}) in *.
  assert (G0 : good s0).
  { split; [constructor|]. intros i. simpl. specialize (H i). lia. }
  assert (C0 : consistent s0).
  { split; [constructor|]. split; [intros ? ? []|]. intros _ ? ? []. }
  assert (D : distinct_keys reserved).
  { apply distinct_NoDup. vm_compute.
    repeat (constructor; [simpl; intros Q; repeat match goal with H : _ \/ _ |- _ => destruct H end; try discriminate; auto|]). constructor. }
  refine (merge_consistent reserved false D s0 COWL_NO s c G0 C0 _ E). intros k v _ [=].
Qed.

Lemma init_owned r : (forall k v, In (k, v) reserved -> r (sid k) <> 0 /\ r (sid v) <> 0) ->
  exists s c, pm_init r = Some (s, c) /\ owned s.
Proof.
  intros H. unfold pm_init. apply merge_owned.
  - repeat split; simpl; try constructor; try tauto; try lia.
  - intros k v I.
    assert (E : intern_ns k v = v).
    { unfold reserved in I. simpl in I. destruct I as [I|[I|[I|[I|[]]]]]; injection I as <- <-; reflexivity. }
    rewrite E. destruct (H _ _ I). split; auto. split; auto. split; [intros ? ? []|].
    intros k' v' I'.
    assert (E' : intern_ns k' v' = v').
    { unfold reserved in I'. simpl in I'. destruct I' as [I'|[I'|[I'|[I'|[]]]]]; injection I' as <- <-; reflexivity. }
    rewrite E'. unfold reserved in I, I'. simpl in I, I'.
    destruct I as [I|[I|[I|[I|[]]]]], I' as [I'|[I'|[I'|[I'|[]]]]]; injection I as <- <-; injection I' as <- <-;
      intros Q; try reflexivity; vm_compute in Q; discriminate.
Qed.

(** Reserved prefixes, on the abstract map. *)
Definition pinned_ok (m : amap) : Prop := forall p n x, In (p, n) standard -> m p = Some x -> x = n.

Lemma standard_unique p a b : In (p, a) standard -> In (p, b) standard -> a = b.
Proof. intros A B. apply (pinned_unique p a a b); left; auto. Qed.

Lemma pinned_standard p n n' x : In (p, n) standard -> pinned_ns p x n' -> n' = n.
Proof. intros I [J|(J & _)]; [eapply standard_unique; eauto|exfalso; eapply J; eauto]. Qed.

Lemma a_step_pinned m o m' r : pinned_ok m -> a_step m o m' r -> pinned_ok m'.
Proof.
  intros H S p n x I E. destruct o as [q v ow|q|q|src ow|q|q]; simpl in S.
  - destruct S as (b & (So & Sp) & _). destruct (list_eq_dec N.eq_dec p (stx q)) as [->|Hq].
    + destruct (m (stx q)) as [old|] eqn:Em; [destruct ow|].
      * destruct Sp as (_ & n' & P & E'). rewrite E' in E. injection E as <-. eapply pinned_standard; eauto.
      * destruct Sp as (_ & E'). rewrite E' in E. injection E as <-. eapply H; eauto.
      * destruct Sp as (_ & n' & P & E'). rewrite E' in E. injection E as <-. eapply pinned_standard; eauto.
    + rewrite So in E by auto. eapply H; eauto.
  - destruct S as (S1 & S2 & _). destruct (list_eq_dec N.eq_dec p q) as [->|Hq]; [congruence|].
    rewrite S2 in E by auto. eapply H; eauto.
  - destruct S as (S1 & S2 & _). destruct (m p) as [y|] eqn:Em.
    + destruct (list_eq_dec N.eq_dec y (stx q)) as [->|Hy].
      * rewrite (S1 p Em) in E. discriminate.
      * rewrite S2 in E by congruence. rewrite Em in E. injection E as <-. eapply H; eauto.
    + rewrite S2 in E by congruence. congruence.
  - destruct S as (b & (Mo & Mi & _) & _).
    set (l := map (fun e => (stx (fst e), stx (snd e))) src) in *.
    assert (Dec : (exists y, In (p, y) l) \/ (forall y, ~ In (p, y) l)).
    { clear. induction l as [|[a b] l [(y & I)|IH]]; [right; intros y []|left; exists y; right; auto|].
      destruct (list_eq_dec N.eq_dec a p) as [->|Hn]; [left; exists b; left; auto|].
      right. intros y [[= A _]|I]; [congruence|eapply IH; eauto]. }
    destruct Dec as [(y & Iy)|Dec].
    + specialize (Mi p y Iy). destruct ow.
      * destruct Mi as (n' & P & E'). rewrite E' in E. injection E as <-. eapply pinned_standard; eauto.
      * destruct (m p) as [old|] eqn:Em.
        -- rewrite Mi in E. injection E as <-. eapply H; eauto.
        -- destruct Mi as (n' & P & E'). rewrite E' in E. injection E as <-. eapply pinned_standard; eauto.
    + rewrite Mo in E by auto. eapply H; eauto.
  - destruct S as (S & _). rewrite S in E. eapply H; eauto.
  - destruct S as (S & _). rewrite S in E. eapply H; eauto.
Qed.

Lemma a_run_pinned m ops m' rs : a_run m ops m' rs -> pinned_ok m -> pinned_ok m'.
Proof.
  induction 1 as [m m' E|m o m1 r ops m' rs S R IH]; intros H.
  - intros p n x I X. rewrite E in X. eapply H; eauto.
  - apply IH. eapply a_step_pinned; eauto.
Qed.

Lemma a_init_pinned : pinned_ok a_init.
Proof.
  intros p n x I. unfold a_init. destruct (find _ standard) as [[q y]|] eqn:F; [|discriminate].
  simpl. intros [= <-]. apply find_some in F as (J & E). simpl in E. apply bytes_eqb_eq in E. subst q.
  eapply standard_unique; eauto.
Qed.

(** * Whole histories from a fresh map *)

Theorem history_refines visit r ops : (forall t, Permutation (visit t) t) -> (forall i, r i <> 0) -> Forall keeps ops ->
  exists s0 c s rs m, pm_init r = Some (s0, c) /\ pm_run visit s0 ops = Some (s, rs) /\ a_run a_init ops m rs /\ answers s m.
Proof.
  intros V H K. destruct (init_good r H) as (s0 & c & E0 & G0 & M0).
  destruct (run_good visit V ops s0 K G0) as (s & rs & E & G & R).
  exists s0, c, s, rs, (fm (fwd s)). split; auto. split; auto. split; [|apply answers_fm, good_alive; auto].
  clear - R M0. inversion R; subst.
  - constructor. intros q. rewrite H. apply M0.
  - econstructor; [|eassumption].
    clear - H M0. destruct o as [p n ow|p|n|src ow|n|x]; simpl in *.
    + destruct H as (b & (A & B) & C). exists b. split; auto. split; [intros; rewrite <- M0; auto|]. rewrite <- M0. auto.
    + rewrite <- M0. destruct H as (A & B & C). split; auto. split; auto. intros. rewrite <- M0. auto.
    + destruct H as (A & B & C). split; [intros q Q; rewrite <- M0 in Q; auto|]. split; [intros q Q; rewrite <- M0 in *; auto|].
      destruct C as [(C & q & Q)|(C & Q)]; [left; split; auto; exists q; now rewrite <- M0|right; split; auto; intros; now rewrite <- M0].
    + destruct H as (b & (A & B & D) & C). exists b. split; auto. split; [intros; rewrite <- M0; auto|]. split.
      * intros p n I. specialize (B p n I). now rewrite M0 in B.
      * rewrite D. split; intros (p & n & I & [Q|Q]); exists p, n; split; auto; right; [now rewrite <- M0|now rewrite M0].
    + destruct H as (A & C). split; auto. intros q. rewrite A. apply M0.
    + destruct H as (A & C). split; auto. intros q. rewrite A. apply M0.
Qed.

Theorem reserved_pinned visit r ops : (forall t, Permutation (visit t) t) -> (forall i, r i <> 0) -> Forall keeps ops ->
  exists s0 c s rs, pm_init r = Some (s0, c) /\ pm_run visit s0 ops = Some (s, rs) /\
  forall p n, In (p, n) standard -> get_ns s p = Some None \/ exists v, get_ns s p = Some (Some v) /\ stx v = n.
Proof.
  intros V H K. destruct (history_refines visit r ops V H K) as (s0 & c & s & rs & m & E0 & E & R & A).
  exists s0, c, s, rs. split; auto. split; auto. intros p n I. destruct (A p) as ([v|] & Ev & Em); auto.
  right. exists v. split; auto. eapply (a_run_pinned _ _ _ _ R a_init_pinned); eauto.
Qed.

(** Nothing was ever looked up in reverse. *)
Definition untouched (s : pst) : Prop := rev_tbl s = [] /\ dirty s = true.
Lemma untouched_consistent s : untouched s -> consistent s.
Proof. intros (E & D). unfold consistent. rewrite E, D. split; [constructor|]. split; [intros ? ? []|discriminate]. Qed.
Lemma add_untouched s p n ow s' r : rev_tbl s = [] -> pm_add s p n ow = Some (s', r) -> rev_tbl s' = [] /\ (dirty s = true -> dirty s' = true).
Proof.
  unfold pm_add. intros E. destruct (find_entry _ _) as [[k old]|].
  - destruct (negb _); [discriminate|]. destruct (negb ow); [intros [= <- _]; auto|].
    destruct (release _ _); [|discriminate]. destruct (retain _ _); [|discriminate]. intros [= <- _]. auto.
  - destruct (retain (rc s) p); [|discriminate]. destruct (retain _ _); [|discriminate]. intros [= <- _]. auto.
Qed.
Lemma merge_untouched es ow : forall s r0 s' r, untouched s -> merge_loop s es ow r0 = Some (s', r) -> untouched s'.
Proof.
  induction es as [|[k v] es IH]; cbn; intros s r0 s' r U E.
  - injection E as <- _. exact U.
  - destruct (pm_add s k v ow) as [[s1 c]|] eqn:A; [|discriminate]. apply (IH _ _ _ _) in E; auto.
    destruct U as (U1 & U2). destruct (add_untouched _ _ _ _ _ _ U1 A) as (A1 & A2). split; auto.
Qed.
Lemma adds_untouched visit ops : Forall adds ops -> forall s s' rs, untouched s -> pm_run visit s ops = Some (s', rs) -> untouched s'.
Proof.
  induction 1 as [|o ops Ho _ IH]; cbn; intros s s' rs U E.
  - injection E as <- _. exact U.
  - destruct (pm_step visit s o) as [[s1 c]|] eqn:A; [|discriminate]. destruct (pm_run visit s1 ops) as [[s2 rs2]|] eqn:E2; [|discriminate].
    injection E as <- _. refine (IH _ _ _ _ E2). destruct o; try contradiction; cbn in A.
    + destruct U as (U1 & U2). destruct (add_untouched _ _ _ _ _ _ U1 A) as (A1 & A2). split; auto.
    + exact (merge_untouched _ _ _ _ _ _ U A).
Qed.
Lemma init_untouched r s c : pm_init r = Some (s, c) -> untouched s.
Proof.
  unfold pm_init. destruct reserved as [|[k v] es] eqn:R; [discriminate R|]. cbn [merge_loop].
  destruct (pm_add _ _ _ _) as [[s1 c1]|] eqn:A; [|discriminate]. intros E. refine (merge_untouched _ _ _ _ _ _ _ E).
  destruct (add_untouched {| fwd := []; rev_tbl := []; dirty := false; rc := r |} _ _ _ _ _ eq_refl A) as (A1 & _). split; [exact A1|]. unfold pm_add in A. cbn [fwd find_entry] in A.
  destruct (retain _ _); [|discriminate]. destruct (retain _ _); [|discriminate]. injection A as <- _. reflexivity.
Qed.
Lemma run_app visit ops1 : forall s ops2 s1 rs1, pm_run visit s ops1 = Some (s1, rs1) ->
  pm_run visit s (ops1 ++ ops2) = match pm_run visit s1 ops2 with Some (s2, rs2) => Some (s2, rs1 ++ rs2) | None => None end.
Proof.
  induction ops1 as [|o ops1 IH]; cbn; intros s ops2 s1 rs1 E.
  - injection E as <- <-. destruct (pm_run visit s ops2) as [[s2 rs2]|]; reflexivity.
  - destruct (pm_step visit s o) as [[s' r]|]; [|discriminate]. destruct (pm_run visit s' ops1) as [[s'' rs']|] eqn:E1; [|discriminate].
    injection E as <- <-. rewrite (IH _ ops2 _ _ E1). destruct (pm_run visit s'' ops2) as [[s2 rs2]|]; reflexivity.
Qed.

Theorem reverse_history visit r ops1 ops2 n : (forall t, Permutation (visit t) t) -> (forall i, r i <> 0) -> Forall keeps (ops1 ++ ops2) -> Forall adds ops1 ->
  exists s0 c s1 rs1, pm_init r = Some (s0, c) /\ pm_run visit s0 ops1 = Some (s1, rs1) /\
  (all_calls quiet visit s1 ops2 ->
   exists s rs s' p m, pm_run visit s0 (ops1 ++ ops2) = Some (s, rs) /\ answers s m /\
     get_prefix visit s n = Some (s', p) /\ shortest_prefix m n (option_map stx p)).
Proof.
  intros V H K0 A. apply Forall_app in K0 as (K1 & K). destruct (init_good r H) as (s0 & c & E0 & G0 & M0).
  destruct (run_good visit V ops1 s0 K1 G0) as (s1 & rs1 & E1 & G1 & _). exists s0, c, s1, rs1. split; auto. split; auto. intros Q.
  pose proof (untouched_consistent _ (adds_untouched visit ops1 A _ _ _ (init_untouched _ _ _ E0) E1)) as C0.
  destruct (run_consistent visit V ops2 s1 K Q G1 C0) as (s & rs & E & G & C).
  destruct (get_prefix_shortest visit V s n G C) as (s' & p & Ep & Hp).
  exists s, (rs1 ++ rs), s', p, (fm (fwd s)). split; [rewrite (run_app _ _ _ _ _ _ E1), E; reflexivity|]. split; [apply answers_fm, good_alive; auto|]. auto.
Qed.

Theorem safe_history visit r ops : (forall t, Permutation (visit t) t) ->
  (forall k v, In (k, v) reserved -> r (sid k) <> 0 /\ r (sid v) <> 0) ->
  exists s0 c, pm_init r = Some (s0, c) /\ (all_calls fair visit s0 ops -> exists s rs, pm_run visit s0 ops = Some (s, rs)).
Proof.
  intros V H. destruct (init_owned r H) as (s0 & c & E0 & O0). exists s0, c. split; auto. intros F.
  destruct (run_owned visit V ops s0 O0 F) as (s & rs & E & _). eauto.
Qed.

(** * Short IRIs (C22) *)

Lemma index_of_app p r : ~ In 58 p -> index_of (p ++ 58 :: r) 58 = List.length p.
Proof.
  induction p as [|c p IH]; simpl; auto. intros H. destruct (c =? 58) eqn:E.
  - apply N.eqb_eq in E. exfalso. apply H. auto.
  - f_equal. apply IH. intros I. apply H. auto.
Qed.

Lemma index_of_absent p : ~ In 58 p -> index_of p 58 = List.length p.
Proof.
  induction p as [|c p IH]; simpl; auto. intros H. destruct (c =? 58) eqn:E.
  - apply N.eqb_eq in E. exfalso. apply H. auto.
  - f_equal. apply IH. intros I. apply H. auto.
Qed.

Lemma firstn_prefix (p r : bytes) : firstn (List.length p) (p ++ r) = p.
Proof. rewrite firstn_app_le by lia. apply firstn_all. Qed.

Theorem short_iri_expands s m p r : answers s m -> ~ In 58 p ->
  match m p with
  | None => pm_parse_short_iri s (p ++ 58 :: r) = Some None /\
            pm_parse_iri s (p ++ 58 :: r) = Some (iri_from_string (p ++ 58 :: r))
  | Some n => exists ns rem, pm_parse_short_iri s (p ++ 58 :: r) = Some (Some (ns, rem)) /\
                             pm_parse_iri s (p ++ 58 :: r) = Some (Some (ns, rem)) /\ ns ++ rem = n ++ r
  end.
Proof.
  intros A H. destruct (A p) as (x & Ex & Em).
  assert (E : pm_parse_short_iri s (p ++ 58 :: r) = pm_get_iri s p r).
  { unfold pm_parse_short_iri. rewrite index_of_app by auto. rewrite app_length. simpl List.length.
    assert (Nat.ltb (List.length p) (List.length p + S (List.length r)) = true) as -> by (apply Nat.ltb_lt; lia).
    rewrite firstn_prefix.
    replace (S (List.length p)) with (List.length (p ++ [58])) by (rewrite app_length; simpl; lia).
    replace (p ++ 58 :: r) with ((p ++ [58]) ++ r) by now rewrite <- app_assoc.
    rewrite <- (Nat.add_0_r (List.length (p ++ [58]))), skipn_app_ge. reflexivity. }
  unfold pm_parse_iri. rewrite E. unfold pm_get_iri. rewrite Ex. destruct x as [v|]; simpl in Em; rewrite <- Em.
  - destruct (iri_of_parts (stx v) r) as [ns rem] eqn:Ei. exists ns, rem. split; auto. split; auto.
    pose proof (iri_of_parts_text (stx v) r) as T. rewrite Ei in T. exact T.
  - auto.
Qed.

Theorem short_iri_no_colon s m t : answers s m -> ~ In 58 t ->
  match m t with
  | None => pm_parse_short_iri s t = Some None /\ pm_parse_iri s t = Some (iri_from_string t)
  | Some _ => pm_parse_short_iri s t = None
  end.
Proof.
  intros A H. destruct (A t) as (x & Ex & Em).
  assert (E : pm_parse_short_iri s t = match get_ns s t with Some None => Some None | _ => None end).
  { unfold pm_parse_short_iri. rewrite index_of_absent by auto. rewrite Nat.ltb_irrefl, firstn_all. reflexivity. }
  unfold pm_parse_iri. rewrite E, Ex. destruct x as [v|]; simpl in Em; rewrite <- Em; auto.
Qed.
