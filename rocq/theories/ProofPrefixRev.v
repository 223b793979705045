(** Reverse look-ups (C21) and memory safety of prefix maps (C51). *)

From Coq Require Import NArith ZArith String List Bool Lia Permutation.
From Verif Require Import Bytes ModelTypes ModelObject ModelText ModelPrefixMap SpecPrefixMap SpecText ProofObject ProofText ProofPrefixMap.
Import ListNotations.
Local Open Scope N_scope.

(** Every binding is covered by a reverse entry that is not longer. *)
Definition covered (es h : tbl) : Prop := forall k v, In (k, v) es ->
  exists n p, In (n, p) h /\ stx n = stx v /\ (List.length (stx p) <= List.length (stx k))%nat.

Lemma update_inv (P : str -> str -> Prop) r es : forall h2 h2', update_loop r es h2 = Some h2' ->
  distinct_keys h2 -> (forall n p, In (n, p) h2 -> P n p) ->
  (forall k v, In (k, v) es -> P v k) ->
  (forall k v n p, In (k, v) es -> P n p -> stx n = stx v -> P n k) ->
  distinct_keys h2' /\ (forall n p, In (n, p) h2' -> P n p) /\
  (forall n p, In (n, p) h2 -> exists n' p', In (n', p') h2' /\ stx n' = stx n /\ (List.length (stx p') <= List.length (stx p))%nat) /\
  covered es h2'.
Proof.
  induction es as [|[k v] es IH]; intros h2 h2' H D HP Hv Hn; simpl in H.
  - injection H as <-. split; auto. split; auto. split; [|intros ? ? []]. intros n p I. exists n, p. auto.
  - assert (Hv' : forall k1 v1, In (k1, v1) es -> P v1 k1) by (intros; apply Hv; right; auto).
    assert (Hn' : forall k1 v1 n p, In (k1, v1) es -> P n p -> stx n = stx v1 -> P n k1) by (intros; eapply Hn; eauto; right; eauto).
    destruct (negb (alive r v)); [discriminate|].
    destruct (find_entry h2 (stx v)) as [[n ex]|] eqn:F.
    + destruct (negb _); [discriminate|]. apply find_in in F as (I & E).
      destruct (Nat.ltb_spec (List.length (stx k)) (List.length (stx ex))) as [L|L].
      * apply IH in H as (D' & P' & C' & V'); auto using distinct_set.
        -- split; auto. split; auto. split.
           ++ intros n1 p1 I1. destruct (C' n1 (if bytes_eqb (stx n1) (stx v) then k else p1)) as (n2 & p2 & I2 & E2 & L2).
              { apply in_set. destruct (bytes_eqb (stx n1) (stx v)) eqn:B.
                - apply bytes_eqb_eq in B. left. eauto.
                - right. split; auto. intros Q. apply bytes_eqb_eq in Q. congruence. }
              exists n2, p2. split; auto. split; auto. destruct (bytes_eqb (stx n1) (stx v)) eqn:B; auto.
              apply bytes_eqb_eq in B.
              assert ((n1, p1) = (n, ex)) as [= -> ->] by (apply (distinct_unique h2); auto; simpl; congruence). lia.
           ++ intros k1 v1 [[= <- <-]|I1]; [|auto].
              destruct (C' n k) as (n2 & p2 & I2 & E2 & L2); [apply in_set; left; eauto|].
              exists n2, p2. split; auto. split; auto. congruence.
        -- intros n1 p1 I1. apply in_set in I1 as [(Q & -> & p' & I1)|(Q & I1)]; auto. eapply Hn; eauto. now left.
      * apply IH in H as (D' & P' & C' & V'); auto. split; auto. split; auto. split; auto.
        intros k1 v1 [[= <- <-]|I1]; [|auto]. destruct (C' n ex I) as (n2 & p2 & I2 & E2 & L2).
        exists n2, p2. split; auto. split; [congruence|lia].
    + pose proof (find_none _ _ F) as N0. apply IH in H as (D' & P' & C' & V'); auto.
      * split; auto. split; auto. split.
        -- intros n1 p1 I1. apply C'. apply in_app_iff. auto.
        -- intros k1 v1 [[= <- <-]|I1]; [|auto]. apply C'. apply in_app_iff. simpl. auto.
      * apply distinct_snoc; auto.
      * intros n1 p1 I1. apply in_app_iff in I1 as [I1|[[= <- <-]|[]]]; auto. apply Hv. now left.
Qed.

Lemma update_safe (P : str -> str -> Prop) r es : forall h2,
  (forall k v, In (k, v) es -> alive r k = true /\ alive r v = true) ->
  (forall n p, In (n, p) h2 -> P n p) ->
  (forall k v, In (k, v) es -> P v k) ->
  (forall k v n p, In (k, v) es -> P n p -> stx n = stx v -> P n k) ->
  (forall k v n p, In (k, v) es -> P n p -> stx n = stx v -> alive r n = true /\ alive r p = true) ->
  exists h2', update_loop r es h2 = Some h2'.
Proof.
  induction es as [|[k v] es IH]; intros h2 A HP Hv Hn Ha; simpl; eauto.
  destruct (A k v) as (Ak & Av); [now left|]. rewrite Av. simpl.
  assert (A' : forall k1 v1, In (k1, v1) es -> alive r k1 = true /\ alive r v1 = true) by (intros; apply A; right; auto).
  assert (Hv' : forall k1 v1, In (k1, v1) es -> P v1 k1) by (intros; apply Hv; right; auto).
  assert (Hn' : forall k1 v1 n p, In (k1, v1) es -> P n p -> stx n = stx v1 -> P n k1) by (intros; eapply Hn; eauto; right; eauto).
  assert (Ha' : forall k1 v1 n p, In (k1, v1) es -> P n p -> stx n = stx v1 -> alive r n = true /\ alive r p = true)
    by (intros; eapply Ha; eauto; right; eauto).
  destruct (find_entry h2 (stx v)) as [[n ex]|] eqn:F.
  - apply find_in in F as (I & E). destruct (Ha k v n ex) as (A1 & A2); auto; [now left|]. rewrite A1, A2, Ak. simpl.
    destruct (Nat.ltb _ _).
    + apply IH; auto. intros n1 p1 I1. apply in_set in I1 as [(Q & -> & p' & I1)|(Q & I1)]; auto. eapply Hn; eauto. now left.
    + apply IH; auto.
  - apply IH; auto. intros n1 p1 I1. apply in_app_iff in I1 as [I1|[[= <- <-]|[]]]; auto. apply Hv. now left.
Qed.

Section Order.
Variable visit : tbl -> tbl.
Hypothesis visit_perm : forall t, Permutation (visit t) t.

Let vin := visit_in visit visit_perm.

Lemma reverse_inv (P : str -> str -> Prop) s s' : reverse_table visit s = Some s' ->
  distinct_keys (rev_tbl s) -> (forall n p, In (n, p) (rev_tbl s) -> P n p) ->
  (forall k v, In (k, v) (fwd s) -> P v k) ->
  (forall k v n p, In (k, v) (fwd s) -> P n p -> stx n = stx v -> P n k) ->
  (dirty s = false -> covered (fwd s) (rev_tbl s)) ->
  fwd s' = fwd s /\ rc s' = rc s /\ dirty s' = false /\ distinct_keys (rev_tbl s') /\
  (forall n p, In (n, p) (rev_tbl s') -> P n p) /\ covered (fwd s') (rev_tbl s').
Proof.
  unfold reverse_table. intros H D HP Hv Hn C. destruct (dirty s) eqn:Ed; simpl in H.
  - destruct (update_loop (rc s) (visit (fwd s)) (rev_tbl s)) as [h|] eqn:U; [|discriminate]. injection H as <-. simpl.
    apply (update_inv P) in U as (D' & P' & _ & C'); auto.
    + repeat split; auto. intros k v I. apply C'. now apply vin.
    + intros k v I. apply Hv. now apply vin.
    + intros k v n p I. apply Hn. now apply vin.
  - injection H as <-. auto 8.
Qed.

Lemma reverse_safe (P : str -> str -> Prop) s :
  (forall k v, In (k, v) (fwd s) -> alive (rc s) k = true /\ alive (rc s) v = true) ->
  (forall n p, In (n, p) (rev_tbl s) -> P n p) ->
  (forall k v, In (k, v) (fwd s) -> P v k) ->
  (forall k v n p, In (k, v) (fwd s) -> P n p -> stx n = stx v -> P n k) ->
  (forall k v n p, In (k, v) (fwd s) -> P n p -> stx n = stx v -> alive (rc s) n = true /\ alive (rc s) p = true) ->
  exists s', reverse_table visit s = Some s'.
Proof.
  intros A HP Hv Hn Ha. unfold reverse_table. destruct (dirty s); simpl; eauto.
  destruct (update_safe P (rc s) (visit (fwd s)) (rev_tbl s)) as (h & ->); eauto.
  - intros k v I. apply A. now apply vin.
  - intros k v I. apply Hv. now apply vin.
  - intros k v n p I. apply Hn. now apply vin.
  - intros k v n p I. apply (Ha k v n p). now apply vin.
Qed.

(** * C21 *)

Definition consistent (s : pst) : Prop :=
  distinct_keys (rev_tbl s) /\
  (forall n p, In (n, p) (rev_tbl s) -> exists v, In (p, v) (fwd s) /\ stx v = stx n) /\
  (dirty s = false -> covered (fwd s) (rev_tbl s)).

Lemma pinned_unique p n a b : pinned_ns p n a -> pinned_ns p n b -> a = b.
Proof.
  unfold pinned_ns. intros [A|(A & ->)] [B|(B & ->)]; auto.
  - unfold standard in A, B. simpl in A, B.
    destruct A as [A|[A|[A|[A|[]]]]], B as [B|[B|[B|[B|[]]]]]; injection A as A1 A2; injection B as B1 B2;
      try (rewrite <- A2, <- B2; reflexivity); exfalso; rewrite <- A1 in B1; vm_compute in B1; discriminate.
  - exfalso. eapply B; eauto.
  - exfalso. eapply A; eauto.
Qed.

Lemma get_ns_find s p k v : (forall x, alive (rc s) x = true) -> find_entry (fwd s) p = Some (k, v) -> get_ns s p = Some (Some v).
Proof. intros A F. unfold get_ns. rewrite F, A. reflexivity. Qed.

Lemma add_consistent s p n ow s' r : good s -> consistent s -> no_rebind s p n ow ->
  pm_add s p n ow = Some (s', r) -> consistent s'.
Proof.
  intros G (D & R1 & R3) Q. pose proof (good_alive s G) as A. destruct G as (Df & _). unfold pm_add.
  pose proof (intern_pinned p n) as PI. set (ns := intern_ns p n) in *.
  destruct (find_entry (fwd s) (stx p)) as [[k old]|] eqn:F.
  - destruct (negb (alive (rc s) k)); [discriminate|]. destruct ow; simpl.
    + destruct (release _ _); [|discriminate]. destruct (retain _ _); [|discriminate]. intros [= <- _].
      pose proof (Q eq_refl old (get_ns_find _ _ _ _ A F)) as PO. pose proof (pinned_unique _ _ _ _ PI PO) as Et.
      apply find_in in F as (I & E).
      split; [exact D|]. split; [|discriminate]. cbn [fwd rev_tbl]. intros m x Im. destruct (R1 m x Im) as (v & Iv & Ev).
      destruct (bytes_eqb (stx x) (stx p)) eqn:B.
      * apply bytes_eqb_eq in B. assert ((x, v) = (k, old)) as [= -> ->] by (apply (distinct_unique (fwd s)); auto; simpl; congruence).
        exists ns. split; [apply in_set; left; eauto|congruence].
      * exists v. split; auto. apply in_set. right. split; auto. intros X. apply bytes_eqb_eq in X. congruence.
    + intros [= <- _]. split; auto.
  - destruct (retain (rc s) p); [|discriminate]. destruct (retain _ _); [|discriminate]. intros [= <- _].
    split; [exact D|]. split; [|discriminate]. cbn [fwd rev_tbl]. intros m x Im. destruct (R1 m x Im) as (v & Iv & Ev).
    exists v. split; auto. apply in_app_iff. auto.
Qed.

Lemma merge_consistent es ow : distinct_keys es -> forall s r0 s' r, good s -> consistent s ->
  (forall k v, In (k, v) es -> no_rebind s k v ow) -> merge_loop s es ow r0 = Some (s', r) -> consistent s'.
Proof.
  induction es as [|[k v] es IH]; intros De s r0 s' r G C Q H; simpl in H.
  - injection H as <- _. auto.
  - apply distinct_cons in De as (D1 & D2).
    destruct (add_good s k v ow G) as (s1 & r1 & E & G1 & b & (Ho & _) & _). rewrite E in H.
    refine (IH D2 s1 _ _ _ G1 _ _ H).
    + refine (add_consistent s k v ow s1 r1 G C _ E). apply Q. now left.
    + intros k1 v1 I1 How old Hold.
      pose proof (answers_fm s1 (good_alive _ G1) (stx k1)) as (x & Ex & Em). rewrite Hold in Ex. injection Ex as <-.
      rewrite Ho in Em by (intros Z; apply (D1 _ I1); simpl; auto).
      pose proof (answers_fm s (good_alive _ G) (stx k1)) as (y & Ey & Em2). rewrite <- Em in Em2. simpl in Em2.
      destruct y as [y|]; [|discriminate]. injection Em2 as <-. exact (Q k1 v1 (or_intror I1) How y Ey).
Qed.

Lemma reverse_consistent s s' : consistent s -> reverse_table visit s = Some s' ->
  consistent s' /\ fwd s' = fwd s /\ rc s' = rc s /\ dirty s' = false.
Proof.
  intros (D & R1 & R3) H.
  apply (reverse_inv (fun n p => exists v, In (p, v) (fwd s) /\ stx v = stx n)) in H as (F & R & Dy & D' & P' & C'); auto.
  - split; auto. split; [auto|]. rewrite F in *. split; auto.
  - intros k v I. exists v. auto.
  - intros k v n p I (w & Iw & Ew) E. exists v. auto.
Qed.

Lemma remove_prefix_consistent s p s' r : good s -> consistent s -> pm_remove_prefix visit s p = Some (s', r) -> consistent s'.
Proof.
  intros G (D & R1 & R3) H. destruct G as (Df & _). unfold pm_remove_prefix in H.
  destruct (find_entry (fwd s) p) as [[k v]|] eqn:F; [|injection H as <- _; split; auto].
  apply find_in in F as (I & E). destruct (negb _); [discriminate|].
  destruct (reverse_table visit _) as [s2|] eqn:R; [|discriminate].
  apply (reverse_inv (fun n x => (exists w, In (x, w) (del_entry (fwd s) p) /\ stx w = stx n) \/ (x = k /\ stx n = stx v)))
    in R as (F2 & _ & Dy & D2 & P2 & C2); cbn [fwd rev_tbl dirty] in *; auto.
  - destruct (find_entry (rev_tbl s2) (stx v)) as [[n x]|] eqn:F3.
    + destruct (negb (alive (rc s2) n)); [discriminate|]. apply find_in in F3 as (I3 & E3).
      destruct (sid k =? sid x) eqn:Ek.
      * destruct (release _ _) as [q1|]; [|discriminate]. destruct (release _ _) as [q2|]; [|discriminate]. injection H as <- _. split; [|split]; cbn [fwd rev_tbl dirty].
        -- apply distinct_filter; auto.
        -- intros n1 p1 I1. apply in_del in I1 as (I1 & N1). rewrite F2.
           destruct (P2 _ _ I1) as [Q|(_ & Q)]; auto. simpl in N1. contradiction.
        -- discriminate.
      * destruct (release _ _) as [q1|]; [|discriminate]. destruct (release _ _) as [q2|]; [|discriminate]. injection H as <- _. split; [|split]; cbn [fwd rev_tbl dirty]; auto.
        intros n1 p1 I1. rewrite F2. destruct (P2 _ _ I1) as [Q|(-> & Q)]; auto.
        assert (Ex : (n1, k) = (n, x)) by (apply (distinct_unique (rev_tbl s2)); auto; simpl; congruence).
        injection Ex as _ Ex. rewrite <- Ex in Ek. rewrite N.eqb_refl in Ek. discriminate.
    + pose proof (find_none _ _ F3) as N3.
      destruct (release _ _) as [q1|]; [|discriminate]. destruct (release _ _) as [q2|]; [|discriminate]. injection H as <- _. split; [|split]; cbn [fwd rev_tbl dirty]; auto.
      intros n1 p1 I1. rewrite F2. destruct (P2 _ _ I1) as [Q|(-> & Q)]; auto. exfalso. apply (N3 n1 k); auto.
  - intros n1 p1 I1. destruct (R1 n1 p1 I1) as (w & Iw & Ew). destruct (bytes_eqb (stx p1) p) eqn:B.
    + apply bytes_eqb_eq in B. right. assert ((p1, w) = (k, v)) as [= -> ->] by (apply (distinct_unique (fwd s)); auto; simpl; congruence). auto.
    + left. exists w. split; auto. apply in_del. split; auto. simpl. intros X. apply bytes_eqb_eq in X. congruence.
  - intros k1 v1 I1. left. exists v1. auto.
  - intros k1 v1 n1 p1 I1 _ E1. left. exists v1. auto.
  - intros Hd k1 v1 I1. apply in_del in I1 as (I1 & _). now apply R3.
Qed.

Lemma remove_ns_consistent s ns s' r : good s -> consistent s -> pm_remove_ns visit s ns = Some (s', r) -> consistent s'.
Proof.
  intros (D0 & K) (D & R1 & R3) H. unfold pm_remove_ns in H.
  destruct (remove_ns_loop_good ns (visit (fwd s)) (rc s) (fun _ => 0)) as (r1 & b & E & _ & _).
  { intros i. rewrite (held_perm _ _ i (visit_perm (fwd s))). specialize (K i). lia. }
  rewrite E in H. set (es := filter _ (visit (fwd s))) in *.
  assert (Ie : forall k v, In (k, v) es <-> In (k, v) (fwd s) /\ stx v <> stx ns).
  { intros k v. unfold es. rewrite filter_In, vin, negb_true_iff. simpl. rewrite <- bytes_eqb_eq, not_true_iff_false. tauto. }
  destruct (reverse_table visit _) as [s2|] eqn:R; [|discriminate].
  apply (reverse_inv (fun n x => (exists w, In (x, w) es /\ stx w = stx n) \/ stx n = stx ns))
    in R as (F2 & _ & Dy & D2 & P2 & C2); cbn [fwd rev_tbl dirty] in *; auto.
  - destruct (negb _); [discriminate|].
    destruct (find_entry (rev_tbl s2) (stx ns)) as [[n x]|] eqn:F3.
    + destruct (negb _); [discriminate|]. injection H as <- _. split; [|split]; cbn [fwd rev_tbl dirty].
      * apply distinct_filter; auto.
      * intros n1 p1 I1. apply in_del in I1 as (I1 & N1). rewrite F2. destruct (P2 _ _ I1) as [Q|Q]; auto. simpl in N1. contradiction.
      * intros _ k v I. destruct (C2 k v I) as (n1 & p1 & I1 & E1 & L1). exists n1, p1. split; auto. apply in_del. split; auto.
        simpl. rewrite F2 in I. apply Ie in I as (_ & I). congruence.
    + pose proof (find_none _ _ F3) as N3. injection H as <- _. split; auto. split; auto.
      intros n1 p1 I1. rewrite F2. destruct (P2 _ _ I1) as [Q|Q]; auto. exfalso. eapply N3; eauto.
  - intros n1 p1 I1. destruct (R1 n1 p1 I1) as (w & Iw & Ew). destruct (bytes_eqb (stx n1) (stx ns)) eqn:B.
    + apply bytes_eqb_eq in B. auto.
    + left. exists w. split; auto. apply Ie. split; auto. intros X. rewrite Ew in X. apply bytes_eqb_eq in X. congruence.
  - intros k1 v1 I1. left. exists v1. auto.
  - intros k1 v1 n1 p1 I1 _ E1. left. exists v1. auto.
  - intros Hd k1 v1 I1. apply Ie in I1 as (I1 & _). now apply R3.
Qed.

Lemma step_consistent s o s' r : keeps o -> quiet s o -> good s -> consistent s -> pm_step visit s o = Some (s', r) -> consistent s'.
Proof.
  intros Hk Hq G C H. destruct o as [p n ow|p|n|src ow|n|x]; cbn [pm_step keeps quiet] in *.
  - eapply add_consistent; eauto.
  - eapply remove_prefix_consistent; eauto.
  - eapply remove_ns_consistent; eauto.
  - unfold pm_merge in H. refine (merge_consistent (visit src) ow _ s COWL_NO s' r G C _ H).
    + now apply visit_distinct.
    + intros k v I. apply Hq. now apply vin.
  - unfold get_prefix in H. destruct (reverse_table visit s) as [s2|] eqn:R; [|discriminate].
    apply reverse_consistent in R as (C2 & _); auto.
    destruct (find_entry (rev_tbl s2) n) as [[k v]|]; [destruct (alive _ _); [|discriminate]|]; injection H as <- _; auto.
  - destruct Hk.
Qed.

Theorem get_prefix_shortest s n : good s -> consistent s -> exists s' r,
  get_prefix visit s n = Some (s', r) /\ shortest_prefix (fm (fwd s)) n (option_map stx r).
Proof.
  intros G C. destruct (get_prefix_good visit s n G) as (s' & r & H & G' & F & R). exists s', r. split; auto.
  unfold get_prefix in H. destruct (reverse_table visit s) as [s2|] eqn:Rv; [|discriminate].
  apply reverse_consistent in Rv as ((D2 & R1 & R3) & F2 & _ & Dy); auto. specialize (R3 Dy). destruct G as (Df & _).
  destruct (find_entry (rev_tbl s2) n) as [[k v]|] eqn:E.
  - destruct (alive _ _); [|discriminate]. injection H as <- <-. apply find_in in E as (I & E).
    simpl. destruct (R1 _ _ I) as (w & Iw & Ew). rewrite F2 in Iw. split.
    + apply fm_some; auto. exists v, w. split; auto. split; auto. congruence.
    + intros q Hq. apply fm_some in Hq as (k1 & v1 & I1 & <- & E1); auto. rewrite <- F2 in I1.
      destruct (R3 _ _ I1) as (n2 & p2 & I2 & E2 & L2).
      assert ((n2, p2) = (k, v)) as [= -> ->] by (apply (distinct_unique (rev_tbl s2)); auto; simpl; congruence). auto.
  - injection H as <- <-. simpl. intros q Hq. apply fm_some in Hq as (k1 & v1 & I1 & <- & E1); auto. rewrite <- F2 in I1.
    destruct (R3 _ _ I1) as (n2 & p2 & I2 & E2 & L2). apply (find_none _ _ E n2 p2); auto. congruence.
Qed.

End Order.
