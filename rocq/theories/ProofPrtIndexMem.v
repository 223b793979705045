(** Proofs about the index of a ProtocOWL writer. *)

From Coq Require Import NArith List Bool Permutation Lia Arith.
From Verif Require Import ModelPrtIndexMem SpecPrtIndexMem.
Import ListNotations.

Lemma retains_app : forall x a b, retains x (a ++ b) = retains x a + retains x b.
Proof. intros. unfold retains. rewrite filter_app, app_length. reflexivity. Qed.
Lemma releases_app : forall x a b, releases x (a ++ b) = releases x a + releases x b.
Proof. intros. unfold releases. rewrite filter_app, app_length. reflexivity. Qed.
Lemma times_app : forall x a b, times x (a ++ b) = times x a + times x b.
Proof. intros. unfold times. rewrite filter_app, app_length. reflexivity. Qed.
Lemma times_perm : forall x a b, Permutation a b -> times x a = times x b.
Proof.
  intros x a b H. induction H; unfold times in *; simpl; auto.
  - destruct (N.eqb x0 x); simpl; congruence.
  - destruct (N.eqb x0 x), (N.eqb y x); reflexivity.
  - congruence.
Qed.
Lemma retains_rel : forall x l, retains x (map Release l) = 0.
Proof. induction l; simpl; auto. Qed.
Lemma releases_rel : forall x l, releases x (map Release l) = times x l.
Proof. induction l as [|a l IH]; simpl; auto. unfold releases, times in *. simpl. destruct (N.eqb a x); simpl; congruence. Qed.

Section Proofs.
  Variable key : N -> N.
  Notation lk := (lookup key).
  Notation sv := (set_val key).

  Definition keys (l : list N) := map key l.

  Lemma lookup_set : forall V x v (t t' : list (N * V)) y, sv x v t = Some t' -> lk y t' = if N.eqb (key x) (key y) then Some v else lk y t.
  Proof.
    induction t as [|[k u] t IH]; simpl; intros t' y H; [discriminate|].
    destruct (N.eqb (key k) (key x)) eqn:E.
    - inversion H; subst. simpl. apply N.eqb_eq in E. rewrite E. destruct (N.eqb (key x) (key y)); reflexivity.
    - destruct (sv x v t) as [t1|] eqn:S1; [|discriminate]. inversion H; subst. simpl. rewrite (IH t1 y eq_refl).
      destruct (N.eqb (key k) (key y)) eqn:E2; [|reflexivity].
      destruct (N.eqb (key x) (key y)) eqn:E3; [|reflexivity].
      apply N.eqb_eq in E2, E3. apply N.eqb_neq in E. congruence.
  Qed.
  Lemma set_some : forall V x v (t : list (N * V)), lk x t <> None -> exists t', sv x v t = Some t'.
  Proof.
    induction t as [|[k u] t IH]; simpl; intros H; [congruence|].
    destruct (N.eqb (key k) (key x)); [eauto|]. destruct (IH H) as [t' E]. rewrite E. simpl. eauto.
  Qed.
  Lemma set_none : forall V x v (t : list (N * V)), lk x t = None -> sv x v t = None.
  Proof. induction t as [|[k u] t IH]; simpl; intros H; auto. destruct (N.eqb (key k) (key x)); [discriminate|]. rewrite (IH H). reflexivity. Qed.
  Lemma set_fst : forall V x v (t t' : list (N * V)), sv x v t = Some t' -> map fst t' = map fst t.
  Proof.
    induction t as [|[k u] t IH]; simpl; intros t' H; [discriminate|]. destruct (N.eqb (key k) (key x)); [inversion H; reflexivity|].
    destruct (sv x v t) as [t1|] eqn:E; [|discriminate]. inversion H; subst. simpl. rewrite (IH t1); reflexivity.
  Qed.
  Lemma lookup_in : forall V x (t : list (N * V)), lk x t <> None <-> In (key x) (map key (map fst t)).
  Proof.
    induction t as [|[k u] t IH]; simpl; [intuition congruence|].
    destruct (N.eqb (key k) (key x)) eqn:E.
    - apply N.eqb_eq in E. intuition congruence.
    - apply N.eqb_neq in E. rewrite IH. intuition congruence.
  Qed.

  Lemma set_item_split : forall a y b x, set_item (a ++ y :: b) (length a) x = a ++ x :: b.
  Proof. induction a; simpl; intros; [reflexivity|]. rewrite IHa. reflexivity. Qed.

  Definition ninv (m : nmap) : Prop :=
    Permutation (map fst (n_idx m)) (n_vec m) /\ NoDup (keys (n_vec m)) /\ n_enc m <= n_sep m <= length (n_vec m) /\
    (forall i x, i < n_enc m -> nth_error (n_vec m) i = Some x -> lk x (n_idx m) = Some (Some i)).

  Lemma ninv_empty : ninv nmap_empty.
  Proof. repeat split; simpl; try constructor; lia. Qed.

  Lemma nmap_add_spec : forall x f m m' b, ninv m -> nmap_add key x f m = (m', b) ->
    ninv m' /\ (if b then Permutation (n_vec m') (x :: n_vec m) /\ lk x (n_idx m) = None else m' = m) /\ n_enc m' = n_enc m /\
    firstn (n_enc m) (n_vec m') = firstn (n_enc m) (n_vec m) /\ lk x (n_idx m') <> None.
  Proof.
    intros x f m m' b (P & D & B & E) H. unfold nmap_add in H. destruct (lk x (n_idx m)) eqn:L.
    { inversion H; subst. repeat split; auto; try lia; congruence. }
    assert (NI : ~ In (key x) (keys (n_vec m))).
    { intro X. assert (Y : lk x (n_idx m) <> None); [|congruence]. apply lookup_in.
      apply (Permutation_in (l := keys (n_vec m))); [|exact X]. apply Permutation_map. symmetry. exact P. }
    assert (G : forall v s, Permutation v (x :: n_vec m) -> firstn (n_enc m) v = firstn (n_enc m) (n_vec m) -> n_enc m <= s <= length v ->
      ninv (mkN v ((x, None) :: n_idx m) (n_enc m) s)).
    { intros v s PV FV BV. unfold ninv. cbn [n_vec n_idx n_enc n_sep]. repeat split; try lia.
      - simpl. rewrite P. symmetry. exact PV.
      - apply (Permutation_NoDup (l := keys (x :: n_vec m))); [apply Permutation_map; symmetry; exact PV|].
        simpl. constructor; assumption.
      - intros i y I N1. assert (N2 : nth_error (n_vec m) i = Some y).
        { rewrite <- (firstn_skipn (n_enc m) (n_vec m)), <- FV. rewrite <- (firstn_skipn (n_enc m) v) in N1.
          assert (LL : i < length (firstn (n_enc m) v)) by (rewrite firstn_length; lia).
          rewrite nth_error_app1 in * by exact LL. exact N1. }
        simpl. destruct (N.eqb (key x) (key y)) eqn:K; [|apply E; assumption].
        exfalso. apply NI. apply N.eqb_eq in K. rewrite K. apply in_map. eapply nth_error_In; eassumption. }
    assert (T : forall v s, Permutation v (x :: n_vec m) -> firstn (n_enc m) v = firstn (n_enc m) (n_vec m) -> n_enc m <= s <= length v ->
      ninv (mkN v ((x, None) :: n_idx m) (n_enc m) s) /\ (Permutation v (x :: n_vec m) /\ @None (option nat) = None) /\
      n_enc m = n_enc m /\ firstn (n_enc m) v = firstn (n_enc m) (n_vec m) /\ lk x ((x, @None nat) :: n_idx m) <> None).
    { intros v s A1 A2 A3. split; [apply G; assumption|]. repeat split; auto. simpl. rewrite N.eqb_refl. discriminate. }
    assert (Q : Permutation (n_vec m ++ [x]) (x :: n_vec m)) by (symmetry; apply Permutation_cons_append).
    assert (FQ : firstn (n_enc m) (n_vec m ++ [x]) = firstn (n_enc m) (n_vec m)).
    { rewrite firstn_app. replace (n_enc m - length (n_vec m)) with 0 by lia. simpl. apply app_nil_r. }
    destruct f; inversion H; subst; clear H; cbn [n_vec n_idx n_enc n_sep].
    - destruct (Nat.ltb (n_sep m) (length (n_vec m))) eqn:LT.
      + apply Nat.ltb_lt in LT. destruct (nth_error (n_vec m) (n_sep m)) as [y|] eqn:NE; [|apply nth_error_None in NE; lia].
        rewrite (nth_error_nth _ _ _ NE). destruct (nth_error_split _ _ NE) as (a & c & EV & LA).
        assert (SI : set_item (n_vec m ++ [y]) (n_sep m) x = a ++ x :: c ++ [y]).
        { rewrite EV, <- LA, <- app_assoc. simpl. apply set_item_split. }
        rewrite SI. apply T.
        * rewrite EV. rewrite <- Permutation_middle. apply perm_skip. apply Permutation_app_head.
          symmetry. apply Permutation_cons_append.
        * rewrite EV, !firstn_app. replace (n_enc m - length a) with 0 by lia. reflexivity.
        * rewrite app_length. simpl. rewrite app_length. simpl. rewrite EV, app_length in B. simpl in B. lia.
      + apply Nat.ltb_ge in LT. apply T; auto. rewrite app_length. simpl. lia.
    - apply T; auto. rewrite app_length. simpl. lia.
  Qed.

  Lemma sync_loop_ok : forall l i t, (forall x, In x l -> lk x t <> None) -> NoDup (keys l) ->
    exists t', sync_loop key l i t = Some t' /\ map fst t' = map fst t /\
      (forall j x, nth_error l j = Some x -> lk x t' = Some (Some (i + j))) /\ (forall x, ~ In (key x) (keys l) -> lk x t' = lk x t).
  Proof.
    induction l as [|a l IH]; simpl; intros i t H D.
    - exists t. repeat split; auto. intros [|j] x; discriminate.
    - inversion D; subst. destruct (set_some _ a (Some i) t) as [t1 S1]; [apply H; auto|]. rewrite S1.
      destruct (IH (S i) t1) as (t' & R & F & A & O); auto.
      { intros x I. rewrite (lookup_set _ _ _ _ _ x S1). destruct (N.eqb (key a) (key x)); [discriminate|]. apply H; auto. }
      exists t'. repeat split; auto.
      + rewrite F. eapply set_fst; eassumption.
      + intros [|j] x E; simpl in E.
        * inversion E; subst. rewrite O by assumption. rewrite (lookup_set _ _ _ _ _ x S1), N.eqb_refl, Nat.add_0_r. reflexivity.
        * rewrite (A j x E). do 2 f_equal. lia.
      + intros x NI. rewrite O by intuition. rewrite (lookup_set _ _ _ _ _ x S1).
        destruct (N.eqb (key a) (key x)) eqn:K; [|reflexivity]. apply N.eqb_eq in K. exfalso. apply NI. left. exact K.
  Qed.

  Lemma in_skipn : forall (l : list N) n x, In x (skipn n l) -> In x l.
  Proof. intros l n x I. rewrite <- (firstn_skipn n l). apply in_or_app. right. exact I. Qed.

  Lemma nmap_sync_ok : forall m, ninv m -> exists m', nmap_sync key m = Some m' /\ ninv m' /\ n_vec m' = n_vec m /\ n_enc m' = length (n_vec m).
  Proof.
    intros m (P & D & B & E). unfold nmap_sync.
    assert (DS : NoDup (keys (firstn (n_enc m) (n_vec m)) ++ keys (skipn (n_enc m) (n_vec m)))).
    { unfold keys. rewrite <- map_app, firstn_skipn. exact D. }
    destruct (sync_loop_ok (skipn (n_enc m) (n_vec m)) (n_enc m) (n_idx m)) as (t' & R & F & A & O).
    - intros x I. apply lookup_in. apply (Permutation_in (l := keys (n_vec m))); [apply Permutation_map; symmetry; exact P|].
      apply in_map. eapply in_skipn; eassumption.
    - revert DS. generalize (keys (firstn (n_enc m) (n_vec m))). induction l; simpl; auto. intro Z. inversion Z; auto.
    - rewrite R. simpl. eexists. split; [reflexivity|]. cbn [n_vec n_enc]. repeat split; auto; cbn [n_vec n_idx n_enc n_sep]; try lia.
      + rewrite F. exact P.
      + intros i x I NE. destruct (Nat.ltb i (n_enc m)) eqn:LT.
        * apply Nat.ltb_lt in LT. rewrite O; [apply E; assumption|].
          assert (IX : In (key x) (keys (firstn (n_enc m) (n_vec m)))).
          { apply in_map. rewrite <- (firstn_skipn (n_enc m) (n_vec m)) in NE.
            rewrite nth_error_app1 in NE by (rewrite firstn_length; lia). eapply nth_error_In; eassumption. }
          intro IS. revert DS IX IS. generalize (keys (firstn (n_enc m) (n_vec m))), (keys (skipn (n_enc m) (n_vec m))).
          induction l; simpl; [tauto|]. intros l0 Z [W|W] IS; inversion Z; subst; [|eauto].
          match goal with X : ~ In _ (_ ++ _) |- _ => apply X end. apply in_or_app. auto.
        * apply Nat.ltb_ge in LT. rewrite (A (i - n_enc m) x); [do 2 f_equal; lia|].
          rewrite <- (firstn_skipn (n_enc m) (n_vec m)) in NE. rewrite nth_error_app2 in NE by (rewrite firstn_length; lia).
          rewrite firstn_length in NE. rewrite <- NE. f_equal. lia.
  Qed.

  (** The objects an index holds a reference to, as often as it holds one. *)
  Definition held (s : index) : list N := map snd (x_pre s) ++ n_vec (x_ns s) ++ n_vec (x_ids s).
  Definition inv (s : index) : Prop :=
    ninv (x_ns s) /\ ninv (x_ids s) /\ incl (map fst (x_pre s)) (n_vec (x_ns s)).
  Definition step_ok (s s' : index) (l : list ev) : Prop := inv s' /\ forall x, retains x l + times x (held s) = releases x l + times x (held s').

  Lemma step_trans : forall a b c l k, step_ok a b l -> step_ok b c k -> step_ok a c (l ++ k).
  Proof.
    intros a b c l k [_ H] [I K]. split; [exact I|]. intro x. specialize (H x). specialize (K x).
    rewrite retains_app, releases_app. lia.
  Qed.

  Lemma prefix_add_ok : forall ns p s, inv s -> step_ok s (fst (prefix_add key ns p s)) (snd (prefix_add key ns p s)) /\
    x_ids (fst (prefix_add key ns p s)) = x_ids s /\ n_enc (x_ns (fst (prefix_add key ns p s))) = n_enc (x_ns s) /\
    firstn (n_enc (x_ns s)) (n_vec (x_ns (fst (prefix_add key ns p s)))) = firstn (n_enc (x_ns s)) (n_vec (x_ns s)) /\
    lk ns (n_idx (x_ns (fst (prefix_add key ns p s)))) <> None.
  Proof.
    intros ns p s (A & B & C). unfold prefix_add.
    destruct (nmap_add key ns match p with Some _ => true | None => false end (x_ns s)) as [m b] eqn:E.
    destruct (nmap_add_spec _ _ _ _ _ A E) as (I & P & En & F & L). destruct b.
    - destruct P as [P NL].
      assert (INC : forall z, In z (n_vec (x_ns s)) -> In z (n_vec m)).
      { intros z Z. apply (Permutation_in _ (Permutation_sym P)). right. exact Z. }
      destruct p as [p|]; cbn [fst snd].
      + rewrite set_none.
        2:{ destruct (lk ns (x_pre s)) eqn:LP; [|reflexivity]. exfalso.
            assert (Y : lk ns (n_idx (x_ns s)) <> None); [|congruence]. apply lookup_in.
            apply (Permutation_in (l := keys (n_vec (x_ns s)))); [apply Permutation_map; symmetry; apply A|].
            assert (Y : lk ns (x_pre s) <> None) by congruence. apply lookup_in in Y. apply in_map_iff in Y.
            destruct Y as (z & KZ & IZ). rewrite <- KZ. apply in_map. apply C. exact IZ. }
        split; [split|].
        * repeat split; try apply I; try apply B. simpl. intros z [<-|Z]; [apply (Permutation_in _ (Permutation_sym P)); left; reflexivity|].
          apply INC, C, Z.
        * intro x. unfold held. cbn [x_pre x_ns x_ids map snd]. rewrite !times_app. rewrite (times_perm x _ _ P).
          unfold retains, releases, times. cbn [app filter]. destruct (N.eqb p x), (N.eqb ns x); cbn [filter app length]; destruct (N.eqb p x), (N.eqb ns x); cbn [length]; try lia.
        * auto.
      + split; [split|].
        * repeat split; try apply I; try apply B. simpl. intros z Z. apply INC, C, Z.
        * intro x. unfold held. cbn [x_pre x_ns x_ids map snd]. rewrite !times_app. rewrite (times_perm x _ _ P).
          unfold retains, releases, times. cbn [app filter]. destruct (N.eqb ns x); cbn [length]; lia.
        * auto.
    - subst m. cbn [fst snd]. repeat split; auto; try apply A; try apply B.
  Qed.

  Lemma id_add_ok : forall id f s, inv s -> step_ok s (fst (id_add key id f s)) (snd (id_add key id f s)) /\
    x_ns (fst (id_add key id f s)) = x_ns s /\ n_enc (x_ids (fst (id_add key id f s))) = n_enc (x_ids s) /\
    firstn (n_enc (x_ids s)) (n_vec (x_ids (fst (id_add key id f s)))) = firstn (n_enc (x_ids s)) (n_vec (x_ids s)) /\
    lk id (n_idx (x_ids (fst (id_add key id f s)))) <> None.
  Proof.
    intros id f s (A & B & C). unfold id_add. destruct (nmap_add key id f (x_ids s)) as [m b] eqn:E.
    destruct (nmap_add_spec _ _ _ _ _ B E) as (I & P & En & F & L). destruct b; cbn [fst snd].
    - destruct P as [P NL]. split; [split|].
      + repeat split; try apply I; try apply A. exact C.
      + intro x. unfold held. cbn [x_pre x_ns x_ids map snd]. rewrite !times_app. rewrite (times_perm x _ _ P).
        unfold retains, releases, times. cbn [app filter]. destruct (N.eqb id x); cbn [length]; lia.
      + auto.
    - subst m. repeat split; auto; try apply A; try apply B.
  Qed.

  Lemma add_standard_ok : forall std s, inv s -> step_ok s (fst (add_standard key std s)) (snd (add_standard key std s)) /\
    x_ids (fst (add_standard key std s)) = x_ids s.
  Proof.
    induction std as [|[ns p] std IH]; intros s I.
    - simpl. repeat split; auto; apply I.
    - simpl. destruct (prefix_add_ok ns (Some p) s I) as (S1 & X1 & _). destruct (prefix_add key ns (Some p) s) as [s1 l1] eqn:E1. cbn [fst snd] in *.
      destruct (IH s1 (proj1 S1)) as (S2 & X2). destruct (add_standard key std s1) as [s2 l2]. cbn [fst snd] in *.
      split; [eapply step_trans; eassumption|congruence].
  Qed.

  Lemma prefix_init_ok : forall std s, ninv (x_ids s) -> exists s' l, prefix_init key std s = Some (s', l) /\
    step_ok (mkX nmap_empty [] (x_ids s)) s' l /\ x_ids s' = x_ids s.
  Proof.
    intros std s B. unfold prefix_init.
    assert (I : inv (mkX nmap_empty [] (x_ids s))) by (split; [apply ninv_empty|split; [exact B|intros z []]]).
    destruct (add_standard_ok std _ I) as ((J & S1) & X1). destruct (add_standard key std _) as [s1 l]. cbn [fst snd] in *.
    destruct J as (J1 & J2 & J3). destruct (nmap_sync_ok _ J1) as (m & R & M & V & _). rewrite R. simpl. do 2 eexists. split; [reflexivity|].
    split; [|exact X1]. split.
    - repeat split; try apply M; try apply J2. cbn [x_pre x_ns]. rewrite V. exact J3.
    - intro x. specialize (S1 x). unfold held in *. cbn [x_pre x_ns x_ids] in *. rewrite V. exact S1.
  Qed.

  Lemma prefix_add_norel : forall ns p s x, releases x (snd (prefix_add key ns p s)) = 0.
  Proof. intros. unfold prefix_add. destruct (nmap_add _ _ _ _) as [m []]; destruct p; reflexivity. Qed.
  Lemma id_add_norel : forall id f s x, releases x (snd (id_add key id f s)) = 0.
  Proof. intros. unfold id_add. destruct (nmap_add _ _ _ _) as [m []]; reflexivity. Qed.
  Lemma add_standard_norel : forall std s x, releases x (snd (add_standard key std s)) = 0.
  Proof.
    induction std as [|[ns p] std IH]; intros s x; [reflexivity|]. simpl. pose proof (prefix_add_norel ns (Some p) s x) as Z.
    destruct (prefix_add key ns (Some p) s) as [s1 l1]. specialize (IH s1 x). destruct (add_standard key std s1) as [s2 l2].
    cbn [snd] in *. rewrite releases_app. lia.
  Qed.
  Lemma prefix_init_norel : forall std s s' l x, prefix_init key std s = Some (s', l) -> releases x l = 0.
  Proof.
    intros std s s' l x H. unfold prefix_init in H. pose proof (add_standard_norel std (mkX nmap_empty [] (x_ids s)) x) as Z.
    destruct (add_standard key std _) as [s1 k]. destruct (nmap_sync key (x_ns s1)); [|discriminate]. inversion H; subst. exact Z.
  Qed.
  Lemma run_op_rel : forall std o s s' l x, run_op key std o s = Some (s', l) -> releases x l <= times x (held s).
  Proof.
    intros std o s s' l x H. destruct o; simpl in H.
    - inversion H as [E]. pose proof (prefix_add_norel ns prefix s x) as Z. rewrite E in Z. simpl in Z. lia.
    - pose proof (prefix_add_norel ns None s x) as Z. destruct (prefix_add key ns None s) as [s1 l1].
      pose proof (id_add_norel iri true s1 x) as Y. destruct (id_add key iri true s1) as [s2 l2]. inversion H; subst.
      cbn [snd] in *. rewrite releases_app. lia.
    - inversion H as [E]. pose proof (id_add_norel id false s x) as Z. rewrite E in Z. simpl in Z. lia.
    - destruct (nmap_sync key (x_ns s)); inversion H; subst. simpl. apply Nat.le_0_l.
    - destruct (nmap_sync key (x_ids s)); inversion H; subst. simpl. apply Nat.le_0_l.
    - destruct (prefix_init key std s) as [[s1 k]|] eqn:E; inversion H; subst. rewrite releases_app. cbn [snd].
      rewrite (prefix_init_norel _ _ _ _ x E). unfold prefix_deinit, held. rewrite <- (map_map snd Release).
      rewrite !releases_app, !releases_rel, !times_app. lia.
    - inversion H; subst. unfold id_deinit, held. rewrite releases_rel, !times_app. lia.
  Qed.

  Lemma run_op_ok : forall std o s, inv s -> exists s' l, run_op key std o s = Some (s', l) /\ step_ok s s' l.
  Proof.
    intros std o s I. destruct o; simpl.
    - do 2 eexists. split; [rewrite <- surjective_pairing; reflexivity|]. apply prefix_add_ok. exact I.
    - destruct (prefix_add_ok ns None s I) as (S1 & _). destruct (prefix_add key ns None s) as [s1 l1]. cbn [fst snd] in *.
      destruct (id_add_ok iri true s1 (proj1 S1)) as (S2 & _). destruct (id_add key iri true s1) as [s2 l2]. cbn [fst snd] in *.
      do 2 eexists. split; [reflexivity|]. eapply step_trans; eassumption.
    - do 2 eexists. split; [rewrite <- surjective_pairing; reflexivity|]. apply id_add_ok. exact I.
    - destruct I as (A & B & C). destruct (nmap_sync_ok _ A) as (m & R & M & V & _). rewrite R. simpl. do 2 eexists. split; [reflexivity|].
      split; [repeat split; try apply M; try apply B; cbn [x_pre x_ns]; rewrite V; exact C|].
      intro x. unfold held. cbn [x_pre x_ns x_ids]. rewrite V. reflexivity.
    - destruct I as (A & B & C). destruct (nmap_sync_ok _ B) as (m & R & M & V & _). rewrite R. simpl. do 2 eexists. split; [reflexivity|].
      split; [repeat split; try apply M; try apply A; exact C|].
      intro x. unfold held. cbn [x_pre x_ns x_ids]. rewrite V. reflexivity.
    - destruct I as (A & B & C). destruct (prefix_init_ok std s B) as (s' & l & R & (J & S1) & X). rewrite R. simpl. do 2 eexists. split; [reflexivity|].
      split; [exact J|]. intro x. specialize (S1 x). unfold prefix_deinit. rewrite <- (map_map snd Release).
      rewrite !retains_app, !releases_app, !retains_rel, !releases_rel. unfold held in *. cbn [x_pre x_ns x_ids map n_vec nmap_empty] in S1.
      rewrite !times_app in *. unfold nmap_empty in S1. cbn [n_vec] in S1. change (times x []) with 0 in S1. lia.
    - destruct I as (A & B & C). do 2 eexists. split; [reflexivity|]. split; [split; [exact A|split; [apply ninv_empty|exact C]]|].
      intro x. unfold id_deinit. rewrite retains_rel, releases_rel. unfold held. cbn [x_pre x_ns x_ids]. rewrite !times_app.
      unfold nmap_empty. cbn [n_vec]. change (times x []) with 0. lia.
  Qed.

  Lemma run_ops_ok : forall std l s, inv s -> exists s' e, run_ops key std l s = Some (s', e) /\ step_ok s s' e.
  Proof.
    induction l as [|o l IH]; intros s I; simpl.
    - do 2 eexists. split; [reflexivity|]. split; [exact I|reflexivity].
    - destruct (run_op_ok std o s I) as (s1 & e1 & R1 & S1). rewrite R1. destruct (IH s1 (proj1 S1)) as (s2 & e2 & R2 & S2). rewrite R2. simpl.
      do 2 eexists. split; [reflexivity|]. eapply step_trans; eassumption.
  Qed.

  Lemma inv_empty : inv (mkX nmap_empty [] nmap_empty).
  Proof. split; [apply ninv_empty|split; [apply ninv_empty|intros z []]]. Qed.

  Lemma run_index_ok : forall std l, exists s e, run_index key std l = Some (s, e) /\ inv s /\
    forall x, retains x e = releases x e + times x (held s).
  Proof.
    intros std l. unfold run_index. destruct (prefix_init_ok std (mkX nmap_empty [] nmap_empty) ninv_empty) as (s & e & R & S1 & _). rewrite R.
    destruct (run_ops_ok std l s (proj1 S1)) as (s2 & e2 & R2 & S2). rewrite R2. simpl. do 2 eexists. split; [reflexivity|].
    destruct (step_trans _ _ _ _ _ S1 S2) as [J K]. split; [exact J|]. intro x. specialize (K x).
    change (times x (held (mkX nmap_empty [] (x_ids (mkX nmap_empty [] nmap_empty))))) with 0 in K. lia.
  Qed.

  (** The theorems. *)
  Lemma index_found : forall std l, run_index key std l <> None.
  Proof. intros std l. destruct (run_index_ok std l) as (s & e & R & _). congruence. Qed.

  Lemma index_balance : forall std l s e x, run_index key std l = Some (s, e) ->
    retains x e = releases x e + times x (map snd (x_pre s)) + times x (n_vec (x_ns s)) + times x (n_vec (x_ids s)).
  Proof.
    intros std l s e x H. destruct (run_index_ok std l) as (s1 & e1 & R & _ & K). rewrite R in H. inversion H; subst.
    rewrite (K x). unfold held. rewrite !times_app. lia.
  Qed.

  Lemma index_end : forall std l s e x, run_index key std l = Some (s, e) ->
    retains x (e ++ index_deinit s) = releases x (e ++ index_deinit s).
  Proof.
    intros std l s e x H. pose proof (index_balance std l s e x H) as B. unfold index_deinit, prefix_deinit, id_deinit.
    rewrite <- (map_map snd Release). rewrite !retains_app, !releases_app, !retains_rel, !releases_rel. lia.
  Qed.

  Lemma app_split : forall (a b c d : list ev), a ++ b = c ++ d -> (exists k, a = c ++ k) \/ (exists k, c = a ++ k /\ b = k ++ d).
  Proof.
    induction a as [|x a IH]; intros b c d H; [right; exists c; auto|]. destruct c as [|y c]; [left; exists (x :: a); reflexivity|].
    inversion H; subst. destruct (IH _ _ _ H2) as [[k ->]|(k & -> & ->)]; [left|right]; exists k; auto.
  Qed.
  Lemma releases_le : forall x a b, releases x a <= releases x (a ++ b).
  Proof. intros. rewrite releases_app. lia. Qed.

  Lemma run_ops_order : forall std l s s' e x e1 e2, inv s -> run_ops key std l s = Some (s', e) -> e = e1 ++ e2 ->
    releases x e1 <= retains x e1 + times x (held s).
  Proof.
    induction l as [|o l IH]; intros s s' e x e1 e2 I H S; simpl in H.
    - inversion H; subst. destruct e1; [simpl; apply Nat.le_0_l|discriminate].
    - destruct (run_op_ok std o s I) as (s1 & k & R & (I1 & B)). rewrite R in H. pose proof (run_op_rel _ _ _ _ _ x R) as Z.
      destruct (run_ops key std l s1) as [[s2 k2]|] eqn:R2; [|discriminate]. simpl in H. inversion H as [[H1 H2]]. rewrite S in H2. subst s'.
      destruct (app_split _ _ _ _ H2) as [[q ->]|(q & -> & E2)].
      + pose proof (releases_le x e1 q). lia.
      + specialize (IH s1 s2 k2 x q e2 I1 R2 E2). specialize (B x). rewrite releases_app, retains_app. lia.
  Qed.

  Lemma index_order : forall std l s e x e1 e2, run_index key std l = Some (s, e) -> e ++ index_deinit s = e1 ++ e2 ->
    releases x e1 <= retains x e1.
  Proof.
    intros std l s e x e1 e2 H S. pose proof (index_end std l s e x H) as T.
    destruct (app_split _ _ _ _ S) as [[q Q]|(q & -> & E2)].
    - unfold run_index in H. destruct (prefix_init_ok std (mkX nmap_empty [] nmap_empty) ninv_empty) as (s0 & k & R & (I0 & B0) & _).
      rewrite R in H. destruct (run_ops key std l s0) as [[s2 k2]|] eqn:R2; [|discriminate]. simpl in H.
      assert (Q2 : k ++ k2 = e1 ++ q) by (inversion H; congruence).
      pose proof (prefix_init_norel _ _ _ _ x R) as Z. specialize (B0 x).
      change (times x (held (mkX nmap_empty [] (x_ids (mkX nmap_empty [] nmap_empty))))) with 0 in B0.
      destruct (app_split _ _ _ _ Q2) as [[r E1]|(r & E1 & E2)].
      + rewrite E1, releases_app in Z. lia.
      + pose proof (run_ops_order _ _ _ _ _ x r q I0 R2 E2). rewrite E1, releases_app, retains_app. lia.
    - rewrite E2 in T. rewrite app_assoc, retains_app, releases_app in T.
      assert (W : retains x e2 = 0).
      { assert (V : retains x (q ++ e2) = 0).
        { rewrite <- E2. unfold index_deinit, prefix_deinit, id_deinit. rewrite <- (map_map snd Release), !retains_app, !retains_rel. reflexivity. }
        rewrite retains_app in V. lia. }
      lia.
  Qed.

  Lemma index_keys : forall std l s e k, run_index key std l = Some (s, e) ->
    In k (map fst (x_pre s)) \/ In k (map fst (n_idx (x_ns s))) \/ In k (map fst (n_idx (x_ids s))) -> releases k e < retains k e.
  Proof.
    intros std l s e k H O. pose proof (index_balance std l s e k H) as B.
    destruct (run_index_ok std l) as (s1 & e1 & R & (A1 & A2 & A3) & _). rewrite R in H. inversion H; subst.
    assert (T : forall v, In k v -> 0 < times k v).
    { induction v as [|a v IH]; simpl; [tauto|]. unfold times in *. simpl. intros [<-|X]; [rewrite N.eqb_refl; simpl; lia|].
      destruct (N.eqb a k); simpl; auto; lia. }
    destruct O as [O|[O|O]].
    - specialize (T _ (A3 _ O)). lia.
    - specialize (T _ (Permutation_in _ (proj1 A1) O)). lia.
    - specialize (T _ (Permutation_in _ (proj1 A2) O)). lia.
  Qed.

  Lemma enc_number : forall m, ninv m -> n_enc m = length (n_vec m) -> forall x, lk x (n_idx m) <> None ->
    exists i y, lk x (n_idx m) = Some (Some i) /\ nth_error (n_vec m) i = Some y /\ key y = key x.
  Proof.
    intros m (P & D & B & E) EL x L. apply lookup_in in L. apply (Permutation_in (l' := keys (n_vec m))) in L; [|apply Permutation_map; exact P].
    apply in_map_iff in L. destruct L as (y & KY & IY). apply In_nth_error in IY. destruct IY as [i NE].
    assert (LT : i < n_enc m) by (rewrite EL; apply nth_error_Some; congruence).
    exists i, y. split; [|auto]. rewrite <- (E i y LT NE). clear - KY. induction (n_idx m) as [|[k u] t IH]; simpl; auto. rewrite KY, IH. reflexivity.
  Qed.

  Lemma run_ops_app : forall std a b s, run_ops key std (a ++ b) s =
    match run_ops key std a s with None => None | Some (s1, e1) => option_map (fun r => (fst r, e1 ++ snd r)) (run_ops key std b s1) end.
  Proof.
    induction a as [|o a IH]; intros b s; simpl.
    - destruct (run_ops key std b s) as [[? ?]|]; reflexivity.
    - destruct (run_op key std o s) as [[s1 e1]|]; [|reflexivity]. rewrite IH. destruct (run_ops key std a s1) as [[s2 e2]|]; simpl; [|reflexivity].
      destruct (run_ops key std b s2) as [[s3 e3]|]; simpl; [|reflexivity]. rewrite app_assoc. reflexivity.
  Qed.
  Lemma run_index_snoc : forall std l o s e, run_index key std (l ++ [o]) = Some (s, e) ->
    exists s0 e0 e1, run_index key std l = Some (s0, e0) /\ inv s0 /\ run_op key std o s0 = Some (s, e1).
  Proof.
    intros std l o s e H. destruct (run_index_ok std l) as (s0 & e0 & R & I & _). exists s0, e0. unfold run_index in *.
    destruct (prefix_init key std _) as [[i ei]|]; [|discriminate]. rewrite run_ops_app in H.
    destruct (run_ops key std l i) as [[s1 e1]|]; simpl in *; [|discriminate]. inversion R; subst. simpl in H.
    destruct (run_op key std o s0) as [[s2 e2]|]; [|discriminate]. simpl in H. inversion H; subst. eauto.
  Qed.

  Lemma index_number_ns : forall std l s e x, run_index key std (l ++ [ODeclareNs]) = Some (s, e) -> get_idx key x (x_ns s) <> None ->
    exists i y, get_idx key x (x_ns s) = Some (Some i) /\ nth_error (n_vec (x_ns s)) i = Some y /\ key y = key x.
  Proof.
    intros std l s e x H. destruct (run_index_snoc _ _ _ _ _ H) as (s0 & e0 & e1 & R & (A & B & C) & O). simpl in O.
    destruct (nmap_sync_ok _ A) as (m & S1 & M & V & L). rewrite S1 in O. inversion O; subst. simpl. apply enc_number; [exact M|congruence].
  Qed.
  Lemma index_number_id : forall std l s e x, run_index key std (l ++ [ODeclareIds]) = Some (s, e) -> get_idx key x (x_ids s) <> None ->
    exists i y, get_idx key x (x_ids s) = Some (Some i) /\ nth_error (n_vec (x_ids s)) i = Some y /\ key y = key x.
  Proof.
    intros std l s e x H. destruct (run_index_snoc _ _ _ _ _ H) as (s0 & e0 & e1 & R & (A & B & C) & O). simpl in O.
    destruct (nmap_sync_ok _ B) as (m & S1 & M & V & L). rewrite S1 in O. inversion O; subst. simpl. apply enc_number; [exact M|congruence].
  Qed.
  Lemma index_known : forall std l s e iri ns, run_index key std (l ++ [OIri iri ns]) = Some (s, e) ->
    get_idx key iri (x_ids s) <> None /\ get_idx key ns (x_ns s) <> None.
  Proof.
    intros std l s e iri ns H. destruct (run_index_snoc _ _ _ _ _ H) as (s0 & e0 & e1 & R & I & O). simpl in O.
    destruct (prefix_add_ok ns None s0 I) as (S1 & _ & _ & _ & K1). destruct (prefix_add key ns None s0) as [s1 l1]. cbn [fst snd] in *.
    destruct (id_add_ok iri true s1 (proj1 S1)) as (S2 & X & _ & _ & K2). destruct (id_add key iri true s1) as [s2 l2]. cbn [fst snd] in *.
    inversion O; subst. unfold get_idx. rewrite X. auto.
  Qed.

  (** The views *)
  Definition dec (m : nmap) (E V1 V2 : list N) : Prop :=
    n_vec m = E ++ V1 ++ V2 /\ n_enc m = length E /\ n_sep m = length E + length V1.

  Lemma dec_views : forall m E V1 V2, dec m E V1 V2 -> first_view m = V1 /\ rest_view m = V2.
  Proof.
    intros m E V1 V2 (A & B & C). unfold first_view, rest_view. rewrite A, B, C. split.
    - rewrite skipn_app, skipn_all, Nat.sub_diag. simpl. replace (length E + length V1 - length E) with (length V1 + 0) by lia.
      rewrite firstn_app_2. simpl. apply app_nil_r.
    - rewrite app_assoc, <- app_length, skipn_app, skipn_all, Nat.sub_diag. reflexivity.
  Qed.

  Lemma add_dec : forall x f m m' E V1 V2, dec m E V1 V2 -> nmap_add key x f m = (m', true) ->
    exists W, dec m' E (if f then V1 ++ [x] else V1) W /\ Permutation W (if f then V2 else x :: V2).
  Proof.
    intros x f m m' E V1 V2 (A & B & C) H. unfold nmap_add in H. destruct (lk x (n_idx m)); [discriminate|].
    destruct f; inversion H; subst; clear H.
    - destruct (Nat.ltb (n_sep m) (length (n_vec m))) eqn:LT.
      + apply Nat.ltb_lt in LT. rewrite A, !app_length in LT. destruct V2 as [|y V2]; [simpl in LT; lia|].
        exists (V2 ++ [y]). split; [|symmetry; apply Permutation_cons_append]. unfold dec. cbn [n_vec n_enc n_sep].
        split; [|split; [exact B|rewrite app_length; simpl; lia]].
        assert (NY : nth (n_sep m) (n_vec m) 0%N = y).
        { rewrite A, C, app_assoc, <- app_length. apply nth_middle. }
        rewrite NY, A, C, app_assoc, <- app_length, <- app_assoc. simpl. rewrite set_item_split. rewrite <- !app_assoc. reflexivity.
      + apply Nat.ltb_ge in LT. rewrite A, !app_length in LT. destruct V2 as [|y V2]; [|simpl in LT; lia].
        exists []. split; [|constructor]. unfold dec. cbn [n_vec n_enc n_sep]. rewrite A. rewrite !app_nil_r.
        split; [rewrite app_assoc; reflexivity|split; [exact B|rewrite app_length; simpl; lia]].
    - exists (V2 ++ [x]). split; [|symmetry; apply Permutation_cons_append]. unfold dec. cbn [n_vec n_enc n_sep]. rewrite A.
      rewrite <- !app_assoc. auto.
  Qed.

  Lemma sync_dec : forall m m', nmap_sync key m = Some m' -> dec m' (n_vec m') [] [].
  Proof.
    intros m m' H. unfold nmap_sync in H. destruct (sync_loop _ _ _ _); inversion H; subst. unfold dec. cbn [n_vec n_enc n_sep].
    rewrite !app_nil_r. simpl. auto.
  Qed.

  Definition prefixed (s : index) (x : N) := lk x (x_pre s) <> None.
  Definition plain (s : index) (x : N) := lk x (x_pre s) = None.
  Definition ns_views (s : index) : Prop := exists E V1 V2, dec (x_ns s) E V1 V2 /\ Forall (prefixed s) V1 /\ Forall (plain s) V2.
  Definition id_views (kind : N -> bool) (s : index) : Prop :=
    exists E V1 V2, dec (x_ids s) E V1 V2 /\ Forall (fun x => kind x = true) V1 /\ Forall (fun x => kind x = false) V2.

  Lemma perm_forall : forall (P : N -> Prop) a b, Permutation a b -> Forall P b -> Forall P a.
  Proof. intros P a b H F. apply Forall_forall. intros x I. rewrite Forall_forall in F. apply F. eapply Permutation_in; eassumption. Qed.

  Lemma prefix_add_views : forall ns p s, inv s -> ns_views s -> ns_views (fst (prefix_add key ns p s)).
  Proof.
    intros ns p s (A & B & C) (E & V1 & V2 & D & F1 & F2). unfold prefix_add.
    destruct (nmap_add key ns match p with Some _ => true | None => false end (x_ns s)) as [m b] eqn:Q.
    destruct (nmap_add_spec _ _ _ _ _ A Q) as (I & P & _). destruct b; [|exists E, V1, V2; auto].
    destruct P as [_ NL]. destruct (add_dec _ _ _ _ _ _ _ D Q) as (W & DW & PW).
    assert (FR : forall y, In y (n_vec (x_ns s)) -> N.eqb (key ns) (key y) = false).
    { intros y IY. apply N.eqb_neq. intro K. assert (Z : lk ns (n_idx (x_ns s)) <> None); [|congruence]. apply lookup_in.
      apply (Permutation_in (l := keys (n_vec (x_ns s)))); [apply Permutation_map; symmetry; apply A|]. rewrite K. apply in_map. exact IY. }
    assert (NP : lk ns (x_pre s) = None).
    { destruct (lk ns (x_pre s)) eqn:LP; [|reflexivity]. exfalso. assert (Y : lk ns (x_pre s) <> None) by congruence.
      apply lookup_in in Y. apply in_map_iff in Y. destruct Y as (z & KZ & IZ). apply C in IZ. apply FR in IZ. apply N.eqb_neq in IZ. congruence. }
    destruct D as (DV & _ & _). destruct p as [p|]; cbn [fst].
    - rewrite set_none by exact NP. exists E, (V1 ++ [ns]), W. split; [exact DW|]. split.
      + apply Forall_app. split.
        * apply Forall_impl with (P := prefixed s); [|exact F1]. intros y Y. unfold prefixed. simpl. destruct (N.eqb (key ns) (key y)); [discriminate|exact Y].
        * constructor; [|constructor]. unfold prefixed. simpl. rewrite N.eqb_refl. discriminate.
      + apply (perm_forall _ _ _ PW). apply Forall_forall. intros y IY. unfold plain. simpl. rewrite FR.
        * rewrite Forall_forall in F2. apply F2. exact IY.
        * rewrite DV. apply in_or_app. right. apply in_or_app. right. exact IY.
    - exists E, V1, W. split; [exact DW|]. split; [exact F1|]. apply (perm_forall _ _ _ PW). constructor; [exact NP|exact F2].
  Qed.

  Lemma id_add_views : forall kind id f s, inv s -> kind id = f -> id_views kind s -> id_views kind (fst (id_add key id f s)).
  Proof.
    intros kind id f s (A & B & C) K (E & V1 & V2 & D & F1 & F2). unfold id_add. destruct (nmap_add key id f (x_ids s)) as [m b] eqn:Q.
    destruct b; [|exists E, V1, V2; auto]. destruct (add_dec _ _ _ _ _ _ _ D Q) as (W & DW & PW). cbn [fst]. destruct f.
    - exists E, (V1 ++ [id]), W. split; [exact DW|]. split; [apply Forall_app; auto|]. exact (perm_forall _ _ _ PW F2).
    - exists E, V1, W. split; [exact DW|]. split; [exact F1|]. apply (perm_forall _ _ _ PW). constructor; assumption.
  Qed.

  Lemma prefix_add_ids : forall ns p s, x_ids (fst (prefix_add key ns p s)) = x_ids s.
  Proof. intros. unfold prefix_add. destruct (nmap_add _ _ _ _) as [m []]; destruct p; reflexivity. Qed.
  Lemma id_add_ns : forall id f s, x_ns (fst (id_add key id f s)) = x_ns s /\ x_pre (fst (id_add key id f s)) = x_pre s.
  Proof. intros. unfold id_add. destruct (nmap_add _ _ _ _) as [m []]; auto. Qed.
  Lemma ids_eq : forall kind s s', x_ids s' = x_ids s -> id_views kind s -> id_views kind s'.
  Proof. unfold id_views. intros kind s s' ->. auto. Qed.
  Lemma ns_eq : forall s s', x_ns s' = x_ns s /\ x_pre s' = x_pre s -> ns_views s -> ns_views s'.
  Proof. unfold ns_views, prefixed, plain. intros s s' [-> ->]. auto. Qed.

  Lemma prefix_init_views : forall std s s' l, prefix_init key std s = Some (s', l) -> ns_views s'.
  Proof.
    intros std s s' l H. unfold prefix_init in H. destruct (add_standard key std _) as [s1 k].
    destruct (nmap_sync key (x_ns s1)) as [m|] eqn:Q; [|discriminate]. inversion H; subst. exists (n_vec m), [], []. split; [|auto].
    eapply sync_dec; eassumption.
  Qed.

  Lemma run_op_ns : forall std o s s' l, inv s -> ns_views s -> run_op key std o s = Some (s', l) -> ns_views s'.
  Proof.
    intros std o s s' l I V H. destruct o; simpl in H.
    - inversion H as [Q]. replace s' with (fst (prefix_add key ns prefix s)) by (rewrite Q; reflexivity). apply prefix_add_views; assumption.
    - pose proof (prefix_add_views ns None s I V) as V1. destruct (prefix_add key ns None s) as [s1 l1]. cbn [fst] in *.
      pose proof (ns_eq s1 _ (id_add_ns iri true s1) V1) as V2. destruct (id_add key iri true s1) as [s2 l2]. inversion H; subst. exact V2.
    - inversion H as [Q]. replace s' with (fst (id_add key id false s)) by (rewrite Q; reflexivity). eapply ns_eq; [apply id_add_ns|exact V].
    - destruct (nmap_sync key (x_ns s)) as [m|] eqn:Q; inversion H; subst. exists (n_vec m), [], []. split; [eapply sync_dec; eassumption|auto].
    - destruct (nmap_sync key (x_ids s)) as [m|] eqn:Q; inversion H; subst. exact V.
    - destruct (prefix_init key std s) as [[s1 k]|] eqn:Q; inversion H; subst. eapply prefix_init_views; eassumption.
    - inversion H; subst. exact V.
  Qed.
  Lemma run_op_ids : forall kind std o s s' l, inv s -> typed kind o -> id_views kind s -> run_op key std o s = Some (s', l) -> id_views kind s'.
  Proof.
    intros kind std o s s' l I T V H. destruct o; simpl in H, T.
    - inversion H as [Q]. replace s' with (fst (prefix_add key ns prefix s)) by (rewrite Q; reflexivity). eapply ids_eq; [apply prefix_add_ids|exact V].
    - pose proof (ids_eq kind s _ (prefix_add_ids ns None s) V) as V2.
      destruct (prefix_add_ok ns None s I) as ((I1 & _) & _). destruct (prefix_add key ns None s) as [s1 l1]. cbn [fst] in *.
      pose proof (id_add_views kind iri true s1 I1 T V2) as V3. destruct (id_add key iri true s1) as [s2 l2]. inversion H; subst. exact V3.
    - inversion H as [Q]. replace s' with (fst (id_add key id false s)) by (rewrite Q; reflexivity). apply id_add_views; assumption.
    - destruct (nmap_sync key (x_ns s)) as [m|] eqn:Q; inversion H; subst. exact V.
    - destruct (nmap_sync key (x_ids s)) as [m|] eqn:Q; inversion H; subst. exists (n_vec m), [], []. split; [eapply sync_dec; eassumption|auto].
    - destruct (prefix_init_ok std s (proj1 (proj2 I))) as (s1 & k & R & _ & X). rewrite R in H. inversion H; subst. exact (ids_eq kind s _ X V).
    - inversion H; subst. exists [], [], []. split; [repeat split|auto].
  Qed.

  Lemma run_ops_ns : forall std l s s' e, inv s -> ns_views s -> run_ops key std l s = Some (s', e) -> ns_views s'.
  Proof.
    induction l as [|o l IH]; intros s s' e I V H; simpl in H; [inversion H; subst; exact V|].
    destruct (run_op_ok std o s I) as (s1 & e1 & R & (I1 & _)). rewrite R in H. destruct (run_ops key std l s1) as [[s2 e2]|] eqn:R2; [|discriminate].
    inversion H; subst. exact (IH s1 _ e2 I1 (run_op_ns std o s s1 e1 I V R) R2).
  Qed.
  Lemma run_ops_ids : forall kind std l s s' e, inv s -> Forall (typed kind) l -> id_views kind s -> run_ops key std l s = Some (s', e) -> id_views kind s'.
  Proof.
    induction l as [|o l IH]; intros s s' e I T V H; simpl in H; [inversion H; subst; exact V|]. inversion T; subst.
    destruct (run_op_ok std o s I) as (s1 & e1 & R & (I1 & _)). rewrite R in H. destruct (run_ops key std l s1) as [[s2 e2]|] eqn:R2; [|discriminate].
    inversion H; subst. assert (V1 : id_views kind s1) by (eapply run_op_ids; [exact I| |exact V|exact R]; assumption).
    eapply IH; [exact I1|assumption|exact V1|exact R2].
  Qed.

  Lemma index_views_ns : forall std l s e x, run_index key std l = Some (s, e) ->
    (In x (first_view (x_ns s)) -> exists p, get_prefix key x s = Some p) /\ (In x (rest_view (x_ns s)) -> get_prefix key x s = None).
  Proof.
    intros std l s e x H.
    assert (G : ns_views s).
    { unfold run_index in H. destruct (prefix_init_ok std (mkX nmap_empty [] nmap_empty) ninv_empty) as (s0 & k & R & (I0 & _) & X).
      rewrite R in H. destruct (run_ops key std l s0) as [[s2 e2]|] eqn:R2; [|discriminate]. inversion H; subst.
      eapply run_ops_ns; [exact I0| |exact R2]. eapply prefix_init_views; eassumption. }
    destruct G as (E & V1 & V2 & D & F1 & F2). destruct (dec_views _ _ _ _ D) as [-> ->]. rewrite Forall_forall in F1, F2. unfold get_prefix. split; intro I.
    - specialize (F1 x I). unfold prefixed in F1. destruct (lk x (x_pre s)) as [p|]; [eauto|congruence].
    - exact (F2 x I).
  Qed.

  Lemma index_views_id : forall kind std l s e x, Forall (typed kind) l -> run_index key std l = Some (s, e) ->
    (In x (first_view (x_ids s)) -> kind x = true) /\ (In x (rest_view (x_ids s)) -> kind x = false).
  Proof.
    intros kind std l s e x T H.
    assert (G : id_views kind s).
    { unfold run_index in H. destruct (prefix_init_ok std (mkX nmap_empty [] nmap_empty) ninv_empty) as (s0 & k & R & (I0 & _) & X).
      rewrite R in H. destruct (run_ops key std l s0) as [[s2 e2]|] eqn:R2; [|discriminate]. inversion H; subst.
      eapply run_ops_ids; [exact I0|exact T| |exact R2]. eapply ids_eq; [exact X|]. exists [], [], []. split; [repeat split|auto]. }
    destruct G as (E & V1 & V2 & D & F1 & F2). destruct (dec_views _ _ _ _ D) as [-> ->]. rewrite Forall_forall in F1, F2. auto.
  Qed.

  Lemma skipn_add : forall (l : list N) a b, skipn a (skipn b l) = skipn (b + a) l.
  Proof. induction l as [|x l IH]; intros a [|b]; simpl; auto. apply skipn_nil. Qed.
  (** Every object not yet numbered is in a view. *)
  Lemma view_all : forall m, ninv m -> skipn (n_enc m) (n_vec m) = first_view m ++ rest_view m.
  Proof.
    intros m (P & D & B & E). unfold first_view, rest_view. replace (skipn (n_sep m) (n_vec m)) with (skipn (n_sep m - n_enc m) (skipn (n_enc m) (n_vec m))).
    - symmetry. apply firstn_skipn.
    - rewrite skipn_add. f_equal. lia.
  Qed.
  Lemma index_views_all : forall std l s e, run_index key std l = Some (s, e) ->
    n_vec (x_ns s) = firstn (n_enc (x_ns s)) (n_vec (x_ns s)) ++ first_view (x_ns s) ++ rest_view (x_ns s) /\
    n_vec (x_ids s) = firstn (n_enc (x_ids s)) (n_vec (x_ids s)) ++ first_view (x_ids s) ++ rest_view (x_ids s).
  Proof.
    intros std l s e H. destruct (run_index_ok std l) as (s1 & e1 & R & (A1 & A2 & _) & _). rewrite R in H. inversion H; subst.
    rewrite <- !view_all, !firstn_skipn by assumption. auto.
  Qed.

  (** Numbers and prefixes stay *)
  Definition late (m : nmap) : Prop := exists E V1 V2, dec m E V1 V2 /\ Forall (fun y => lk y (n_idx m) = Some None) (V1 ++ V2).

  Lemma fresh_key : forall m x y, ninv m -> lk x (n_idx m) = None -> lk y (n_idx m) <> None -> N.eqb (key x) (key y) = false.
  Proof.
    intros m x y I X Y. apply N.eqb_neq. intro K. apply Y. rewrite <- X. clear - K. induction (n_idx m) as [|[k u] t IH]; simpl; auto. rewrite K, IH. reflexivity.
  Qed.
  Lemma add_idx : forall x f m m', nmap_add key x f m = (m', true) -> n_idx m' = (x, None) :: n_idx m /\ lk x (n_idx m) = None.
  Proof. intros x f m m' H. unfold nmap_add in H. destruct (lk x (n_idx m)); [discriminate|]. destruct f; inversion H; subst; auto. Qed.

  Lemma late_add : forall x f m, ninv m -> late m -> late (fst (nmap_add key x f m)).
  Proof.
    intros x f m I (E & V1 & V2 & D & F). destruct (nmap_add key x f m) as [m' b] eqn:Q. cbn [fst].
    destruct b; [|destruct (nmap_add_spec _ _ _ _ _ I Q) as (_ & -> & _); exists E, V1, V2; auto].
    destruct (add_dec _ _ _ _ _ _ _ D Q) as (W & DW & PW). destruct (add_idx _ _ _ _ Q) as [X NL].
    exists E, (if f then V1 ++ [x] else V1), W. split; [exact DW|]. rewrite X.
    assert (G : Forall (fun y => lk y ((x, None) :: n_idx m) = Some None) (x :: V1 ++ V2)).
    { constructor; [simpl; rewrite N.eqb_refl; reflexivity|]. apply Forall_forall. intros y IY. rewrite Forall_forall in F. simpl.
      destruct (N.eqb (key x) (key y)); [reflexivity|]. apply F, IY. }
    apply (perm_forall _ _ (x :: V1 ++ V2)); [|exact G]. destruct f.
    - rewrite PW, <- app_assoc. simpl. symmetry. apply Permutation_middle.
    - rewrite PW. symmetry. apply Permutation_middle.
  Qed.
  Lemma late_sync : forall m m', nmap_sync key m = Some m' -> late m'.
  Proof. intros m m' H. exists (n_vec m'), [], []. split; [eapply sync_dec; eassumption|constructor]. Qed.
  Lemma late_empty : late nmap_empty.
  Proof. exists [], [], []. split; [repeat split|constructor]. Qed.

  Definition lates (s : index) := late (x_ns s) /\ late (x_ids s).
  Lemma prefix_add_ns : forall ns p s, x_ns (fst (prefix_add key ns p s)) = fst (nmap_add key ns match p with Some _ => true | None => false end (x_ns s)).
  Proof.
    intros. unfold prefix_add. destruct (nmap_add key ns match p with Some _ => true | None => false end (x_ns s)) as [m b] eqn:Q. destruct b.
    - destruct p; reflexivity.
    - cbn [fst]. unfold nmap_add in Q. destruct (lk ns (n_idx (x_ns s))); [inversion Q; reflexivity|]. destruct p; discriminate.
  Qed.
  Lemma id_add_ids : forall id f s, x_ids (fst (id_add key id f s)) = fst (nmap_add key id f (x_ids s)).
  Proof.
    intros. unfold id_add. destruct (nmap_add key id f (x_ids s)) as [m b] eqn:Q. destruct b; [reflexivity|].
    cbn [fst]. unfold nmap_add in Q. destruct (lk id (n_idx (x_ids s))); [inversion Q; reflexivity|]. destruct f; discriminate.
  Qed.
  Lemma run_op_late : forall std o s s' l, inv s -> lates s -> run_op key std o s = Some (s', l) -> lates s'.
  Proof.
    intros std o s s' l I [L1 L2] H. pose proof I as (A & B & C). destruct o; simpl in H.
    - inversion H as [Q]. replace s' with (fst (prefix_add key ns prefix s)) by (rewrite Q; reflexivity). split.
      + rewrite prefix_add_ns. apply late_add; assumption.
      + rewrite prefix_add_ids. exact L2.
    - pose proof (prefix_add_ns ns None s) as X1. pose proof (prefix_add_ids ns None s) as X2. destruct (prefix_add key ns None s) as [s1 l1]. cbn [fst] in X1, X2.
      pose proof (id_add_ids iri true s1) as Y1. pose proof (proj1 (id_add_ns iri true s1)) as Y2. destruct (id_add key iri true s1) as [s2 l2]. cbn [fst] in Y1, Y2.
      inversion H; subst. split; [rewrite Y2, X1|rewrite Y1, X2]; apply late_add; assumption.
    - inversion H as [Q]. replace s' with (fst (id_add key id false s)) by (rewrite Q; reflexivity). split.
      + rewrite (proj1 (id_add_ns id false s)). exact L1.
      + rewrite id_add_ids. apply late_add; assumption.
    - destruct (nmap_sync key (x_ns s)) as [m|] eqn:Q; inversion H; subst. split; [eapply late_sync; eassumption|exact L2].
    - destruct (nmap_sync key (x_ids s)) as [m|] eqn:Q; inversion H; subst. split; [exact L1|eapply late_sync; eassumption].
    - destruct (prefix_init_ok std s B) as (s1 & k & R & _ & X). rewrite R in H. inversion H; subst. cbn [fst]. split; [|rewrite X; exact L2].
      unfold prefix_init in R. destruct (add_standard key std _) as [s2 k2]. destruct (nmap_sync key (x_ns s2)) as [m|] eqn:Q; [|discriminate].
      inversion R; subst. eapply late_sync; eassumption.
    - inversion H; subst. split; [exact L1|apply late_empty].
  Qed.
  Lemma run_ops_late : forall std l s s' e, inv s -> lates s -> run_ops key std l s = Some (s', e) -> lates s'.
  Proof.
    induction l as [|o l IH]; intros s s' e I V H; simpl in H; [inversion H; subst; exact V|].
    destruct (run_op_ok std o s I) as (s1 & e1 & R & (I1 & _)). rewrite R in H. destruct (run_ops key std l s1) as [[s2 e2]|] eqn:R2; [|discriminate].
    inversion H; subst. exact (IH s1 _ e2 I1 (run_op_late std o s s1 e1 I V R) R2).
  Qed.
  Lemma run_index_late : forall std l s e, run_index key std l = Some (s, e) -> lates s.
  Proof.
    intros std l s e H. unfold run_index in H. destruct (prefix_init_ok std (mkX nmap_empty [] nmap_empty) ninv_empty) as (s0 & k & R & (I0 & _) & X).
    rewrite R in H. destruct (run_ops key std l s0) as [[s2 e2]|] eqn:R2; [|discriminate]. inversion H; subst.
    eapply run_ops_late; [exact I0| |exact R2]. split; [|rewrite X; apply late_empty].
    unfold prefix_init in R. destruct (add_standard key std _) as [s3 k3]. destruct (nmap_sync key (x_ns s3)) as [m|] eqn:Q; [|discriminate].
    inversion R; subst. eapply late_sync; eassumption.
  Qed.

  Lemma lookup_eq : forall V (t : list (N * V)) x y, key x = key y -> lk x t = lk y t.
  Proof. intros V t x y K. induction t as [|[k u] t IH]; simpl; auto. rewrite K, IH. reflexivity. Qed.

  Lemma add_keeps : forall x f m y i, ninv m -> lk y (n_idx m) = Some (Some i) -> lk y (n_idx (fst (nmap_add key x f m))) = Some (Some i).
  Proof.
    intros x f m y i I L. destruct (nmap_add key x f m) as [m' b] eqn:Q. cbn [fst].
    destruct b; [|destruct (nmap_add_spec _ _ _ _ _ I Q) as (_ & -> & _); exact L].
    destruct (add_idx _ _ _ _ Q) as [-> NL]. simpl. rewrite (fresh_key m x y I NL); [exact L|congruence].
  Qed.
  Lemma sync_keeps : forall m m' y i, ninv m -> late m -> nmap_sync key m = Some m' -> lk y (n_idx m) = Some (Some i) -> lk y (n_idx m') = Some (Some i).
  Proof.
    intros m m' y i I (E & V1 & V2 & (DV & DE & _) & F) H L. destruct (nmap_sync_ok m I) as (m2 & Q & (_ & _ & _ & N2) & VV & EE).
    rewrite Q in H. inversion H; subst m2. destruct I as (P & D & B & N1).
    assert (LI : lk y (n_idx m) <> None) by congruence. apply lookup_in in LI.
    apply (Permutation_in (l' := keys (n_vec m))) in LI; [|apply Permutation_map; exact P].
    apply in_map_iff in LI. destruct LI as (z & KZ & IZ). rewrite <- (lookup_eq _ (n_idx m) _ _ KZ) in L. rewrite <- (lookup_eq _ (n_idx m') _ _ KZ). rewrite DV in IZ. apply in_app_or in IZ.
    destruct IZ as [IZ|IZ]; [|rewrite Forall_forall in F; rewrite (F z IZ) in L; discriminate].
    apply In_nth_error in IZ. destruct IZ as [j NE]. assert (LJ : j < length E) by (apply nth_error_Some; congruence).
    assert (NV : nth_error (n_vec m) j = Some z) by (rewrite DV, nth_error_app1; assumption).
    rewrite (N1 j z) in L by (auto; lia). rewrite (N2 j z); [exact L|rewrite EE; apply nth_error_Some; congruence|rewrite VV; exact NV].
  Qed.

  Lemma index_stable_ns : forall std l o s e s' e' x i, run_index key std l = Some (s, e) -> run_index key std (l ++ [o]) = Some (s', e') ->
    o <> OResetPrefixes -> get_idx key x (x_ns s) = Some (Some i) -> get_idx key x (x_ns s') = Some (Some i).
  Proof.
    intros std l o s e s' e' x i H H' O G. destruct (run_index_snoc _ _ _ _ _ H') as (s0 & e0 & e1 & R & (A & B & C) & Q).
    rewrite R in H. inversion H; subst s0 e0. destruct (run_index_late _ _ _ _ R) as [L1 L2]. unfold get_idx in *. destruct o; simpl in Q; try congruence.
    - inversion Q as [Z]. replace s' with (fst (prefix_add key ns prefix s)) by (rewrite Z; reflexivity). rewrite prefix_add_ns. apply add_keeps; assumption.
    - pose proof (prefix_add_ns ns None s) as X1. destruct (prefix_add key ns None s) as [s1 l1]. cbn [fst] in X1.
      pose proof (proj1 (id_add_ns iri true s1)) as Y2. destruct (id_add key iri true s1) as [s2 l2]. cbn [fst] in Y2. inversion Q; subst.
      rewrite Y2, X1. apply add_keeps; assumption.
    - inversion Q as [Z]. replace s' with (fst (id_add key id false s)) by (rewrite Z; reflexivity). rewrite (proj1 (id_add_ns id false s)). exact G.
    - destruct (nmap_sync key (x_ns s)) as [m|] eqn:S1; inversion Q; subst. exact (sync_keeps _ _ _ _ A L1 S1 G).
    - destruct (nmap_sync key (x_ids s)) as [m|] eqn:S1; inversion Q; subst. exact G.
    - inversion Q; subst. exact G.
  Qed.
  Lemma index_stable_id : forall std l o s e s' e' x i, run_index key std l = Some (s, e) -> run_index key std (l ++ [o]) = Some (s', e') ->
    o <> OResetIds -> get_idx key x (x_ids s) = Some (Some i) -> get_idx key x (x_ids s') = Some (Some i).
  Proof.
    intros std l o s e s' e' x i H H' O G. destruct (run_index_snoc _ _ _ _ _ H') as (s0 & e0 & e1 & R & (A & B & C) & Q).
    rewrite R in H. inversion H; subst s0 e0. destruct (run_index_late _ _ _ _ R) as [L1 L2]. unfold get_idx in *. destruct o; simpl in Q; try congruence.
    - inversion Q as [Z]. replace s' with (fst (prefix_add key ns prefix s)) by (rewrite Z; reflexivity). rewrite prefix_add_ids. exact G.
    - pose proof (prefix_add_ids ns None s) as X1. destruct (prefix_add key ns None s) as [s1 l1]. cbn [fst] in X1.
      pose proof (id_add_ids iri true s1) as Y2. destruct (id_add key iri true s1) as [s2 l2]. cbn [fst] in Y2. inversion Q; subst.
      rewrite Y2, X1. apply add_keeps; assumption.
    - inversion Q as [Z]. replace s' with (fst (id_add key id false s)) by (rewrite Z; reflexivity). rewrite id_add_ids. apply add_keeps; assumption.
    - destruct (nmap_sync key (x_ns s)) as [m|] eqn:S1; inversion Q; subst. exact G.
    - destruct (nmap_sync key (x_ids s)) as [m|] eqn:S1; inversion Q; subst. exact (sync_keeps _ _ _ _ B L2 S1 G).
    - destruct (prefix_init_ok std s B) as (s1 & k & R1 & _ & X). rewrite R1 in Q. inversion Q; subst. cbn [fst]. rewrite X. exact G.
  Qed.
End Proofs.

(** When memory runs out *)
Lemma index_nomem : exists std l s e ns x, run_index (fun z => z) std l = Some (s, e) /\
  retains x (e ++ index_deinit (prefix_add_nomem (fun z => z) ns s)) < releases x (e ++ index_deinit (prefix_add_nomem (fun z => z) ns s)).
Proof. exists [(1, 2); (3, 4)]%N, [OIri 10 11; ODeclareNs]%N. do 2 eexists. exists 12%N, 12%N. split; [vm_compute; reflexivity|]. vm_compute. constructor. Qed.
