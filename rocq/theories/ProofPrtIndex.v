(** The index tables of the ProtocOWL writer. *)

From Coq Require Import String NArith ZArith List Bool Lia Permutation.
From Coq Require Import ZifyBool ZifyNat ZifyN.
From Verif Require Import Bytes ModelTypes ModelObject SpecObject ProofObject ModelPrtValue ModelPrtEncoder.
Import ListNotations.
Local Open Scope N_scope.

Section Table.
  Context {A : Type}.
  Variable eqb : A -> A -> bool.
  (** The keys on which [eqb] is equality. *)
  Variable P : A -> Prop.
  Hypothesis eqb_eq : forall x y, P x -> (eqb x y = true <-> x = y).

  (** The table [m] holds [E], already known to the reader, then [V1] and [V2], not yet. *)
  Record table (m : imap A) (E V1 V2 : list A) : Prop := mkTable {
    t_list : m_list m = E ++ V1 ++ V2;
    t_enc : m_enc m = List.length E;
    t_sep : m_sep m = (List.length E + List.length V1)%nat;
    t_nodup : NoDup (E ++ V1 ++ V2);
    t_keys : Forall P (E ++ V1 ++ V2);
    t_idx : Forall P (map fst (m_idx m));
    t_missing : forall x, idx_get eqb (m_idx m) x = IMissing <-> ~ In x (E ++ V1 ++ V2);
    t_at : forall x i, idx_get eqb (m_idx m) x = IAt i <-> nth_error E (N.to_nat i) = Some x
  }.

  Lemma table_empty : table m_empty [] [] [].
  Proof.
    constructor; cbn; auto using NoDup_nil, Forall_nil.
    - intros x. tauto.
    - intros x i. split; [discriminate|]. now destruct (N.to_nat i).
  Qed.

  Lemma idx_get_app t x y : Forall P (map fst t) -> P x ->
    idx_get eqb (t ++ [(x, None)]) y =
    match idx_get eqb t y with IMissing => if eqb x y then IGarbage else IMissing | r => r end.
  Proof.
    intros F Px. induction t as [|[k v] t IH]; cbn; auto. destruct (eqb k y); [now destruct v|].
    apply IH. now inversion F.
  Qed.

  Lemma list_set_mid (a : list A) y b x : list_set (a ++ y :: b) (List.length a) x = a ++ x :: b.
  Proof. induction a as [|z a IH]; cbn; auto. now rewrite IH. Qed.

  Lemma m_add_present m x E V1 V2 first : table m E V1 V2 -> In x (E ++ V1 ++ V2) -> m_add eqb m x first = m.
  Proof.
    intros T I. unfold m_add. destruct (idx_get eqb (m_idx m) x) eqn:Ex; auto. now apply (t_missing _ _ _ _ T) in Ex.
  Qed.

  Lemma t_add m x E V1 V2 l : table m E V1 V2 -> P x -> ~ In x (E ++ V1 ++ V2) ->
    forall V1' V2' sep', l = E ++ V1' ++ V2' -> Permutation l (x :: E ++ V1 ++ V2) -> sep' = (List.length E + List.length V1')%nat ->
    table (mkImap l (m_idx m ++ [(x, None)]) (m_enc m) sep') E V1' V2'.
  Proof.
    intros T Px Nx V1' V2' sep' El Pm Es. constructor; cbn [m_list m_idx m_enc m_sep].
    - exact El.
    - apply (t_enc _ _ _ _ T).
    - exact Es.
    - rewrite <- El. eapply Permutation_NoDup; [apply Permutation_sym, Pm|]. constructor; auto. apply (t_nodup _ _ _ _ T).
    - rewrite <- El. eapply Permutation_Forall; [apply Permutation_sym, Pm|]. constructor; auto. apply (t_keys _ _ _ _ T).
    - rewrite map_app. apply Forall_app. split; [apply (t_idx _ _ _ _ T)|]. constructor; auto.
    - intros y. rewrite idx_get_app by (auto; apply (t_idx _ _ _ _ T)). rewrite <- El.
      rewrite (Permutation_in' (eq_refl y) Pm). cbn [In].
      pose proof (t_missing _ _ _ _ T y) as M. destruct (idx_get eqb (m_idx m) y) eqn:Ey.
      + destruct (eqb x y) eqn:Exy.
        * apply eqb_eq in Exy; auto. split; [discriminate|]. intros H. elim H. auto.
        * split; auto. intros _ [->|H]; [|now apply M]. rewrite (proj2 (eqb_eq y y Px) eq_refl) in Exy. discriminate.
      + split; [discriminate|]. intros H. apply M. intros I. apply H. auto.
      + split; [discriminate|]. intros H. apply M. intros I. apply H. auto.
    - intros y i. rewrite idx_get_app by (auto; apply (t_idx _ _ _ _ T)).
      pose proof (t_missing _ _ _ _ T y) as M. pose proof (t_at _ _ _ _ T y i) as At.
      destruct (idx_get eqb (m_idx m) y) eqn:Ey; [|apply At|apply At].
      assert (~ nth_error E (N.to_nat i) = Some y).
      { intros H. apply nth_error_In in H. apply M; auto. apply in_or_app; auto. }
      destruct (eqb x y); split; try discriminate; tauto.
  Qed.

  Lemma m_add_last m x E V1 V2 : table m E V1 V2 -> P x -> ~ In x (E ++ V1 ++ V2) -> table (m_add eqb m x false) E V1 (V2 ++ [x]).
  Proof.
    intros T Px Nx. unfold m_add. rewrite (proj2 (t_missing _ _ _ _ T x) Nx).
    apply (t_add m x E V1 V2); auto.
    - now rewrite (t_list _ _ _ _ T), <- !app_assoc.
    - rewrite (t_list _ _ _ _ T). apply Permutation_sym, Permutation_cons_append.
    - apply (t_sep _ _ _ _ T).
  Qed.

  Lemma m_add_first m x E V1 V2 : table m E V1 V2 -> P x -> ~ In x (E ++ V1 ++ V2) ->
    exists V2', Permutation V2 V2' /\ table (m_add eqb m x true) E (V1 ++ [x]) V2'.
  Proof.
    intros T Px Nx. unfold m_add. rewrite (proj2 (t_missing _ _ _ _ T x) Nx).
    rewrite (t_list _ _ _ _ T), (t_sep _ _ _ _ T). rewrite !app_length.
    assert (Ls : (List.length E + List.length V1 = List.length (E ++ V1))%nat) by now rewrite app_length.
    destruct V2 as [|y V2].
    - exists []. split; auto. destruct (Nat.ltb_spec (List.length E + List.length V1) (List.length E + (List.length V1 + List.length (@nil A)))) as [L|_];
        [cbn in L; lia|].
      apply (t_add m x E V1 []); auto.
      + now rewrite !app_nil_r, <- app_assoc.
      + apply Permutation_sym, Permutation_cons_append.
      + rewrite app_length. cbn. lia.
    - exists (V2 ++ [y]). split; [apply Permutation_cons_append|].
      destruct (Nat.ltb_spec (List.length E + List.length V1) (List.length E + (List.length V1 + List.length (y :: V2)))) as [_|L];
        [|cbn in L; lia].
      assert (El : list_set ((E ++ V1 ++ y :: V2) ++ [nth (List.length E + List.length V1) (E ++ V1 ++ y :: V2) x])
                (List.length E + List.length V1) x = E ++ (V1 ++ [x]) ++ V2 ++ [y]).
      { replace (E ++ V1 ++ y :: V2) with ((E ++ V1) ++ y :: V2) by now rewrite <- app_assoc.
        rewrite Ls, app_nth2, Nat.sub_diag by lia. cbn [nth]. rewrite <- (app_assoc (E ++ V1)). cbn [app].
        rewrite list_set_mid. now rewrite <- !app_assoc. }
      rewrite El. apply (t_add m x E V1 (y :: V2)); auto.
      + replace (E ++ (V1 ++ [x]) ++ V2 ++ [y]) with ((E ++ V1) ++ x :: V2 ++ [y]) by now rewrite <- !app_assoc.
        rewrite <- Permutation_middle. constructor. rewrite (app_assoc E V1). apply Permutation_app_head.
        apply Permutation_sym, Permutation_cons_append.
      + rewrite app_length. cbn. lia.
  Qed.

  Lemma view1_table m E V1 V2 : table m E V1 V2 -> m_view1 m = V1.
  Proof.
    intros T. unfold m_view1. rewrite (t_list _ _ _ _ T), (t_sep _ _ _ _ T), (t_enc _ _ _ _ T).
    rewrite skipn_app, skipn_all, Nat.sub_diag. cbn [skipn app].
    replace (List.length E + List.length V1 - List.length E)%nat with (List.length V1) by lia.
    now rewrite firstn_app, firstn_all, Nat.sub_diag, firstn_O, app_nil_r.
  Qed.
  Lemma view2_table m E V1 V2 : table m E V1 V2 -> m_view2 m = V2.
  Proof.
    intros T. unfold m_view2. rewrite (t_list _ _ _ _ T), (t_sep _ _ _ _ T). rewrite app_assoc, <- app_length.
    now rewrite skipn_app, skipn_all, Nat.sub_diag.
  Qed.

  Lemma in_cases l x : Forall P l -> In x l \/ ~ In x l.
  Proof.
    induction 1 as [|k l Pk F [I|I]]; cbn; auto. destruct (eqb k x) eqn:E.
    - apply eqb_eq in E; auto.
    - right. intros [->|H]; auto. rewrite (proj2 (eqb_eq x x Pk) eq_refl) in E. discriminate.
  Qed.

  (** Assigning positions. *)
  Lemma idx_set_get t x i y : Forall P (map fst t) -> P x ->
    idx_get eqb (idx_set eqb t x i) y =
    if eqb x y then match idx_get eqb t y with IMissing => IMissing | _ => IAt i end else idx_get eqb t y.
  Proof.
    intros F Px. induction t as [|[k v] t IH]; cbn; [now destruct (eqb x y)|].
    inversion F as [|? ? Pk F']; subst. cbn in Pk. specialize (IH F').
    destruct (eqb k x) eqn:Ekx.
    - apply eqb_eq in Ekx; auto. subst k. cbn. destruct (eqb x y); auto. now destruct v.
    - cbn. destruct (eqb k y) eqn:Eky; auto.
      apply eqb_eq in Eky; auto. subst k. destruct (eqb x y) eqn:Exy; auto.
      apply eqb_eq in Exy; auto. subst x. rewrite (proj2 (eqb_eq y y Pk) eq_refl) in Ekx. discriminate.
  Qed.
  Lemma idx_set_keys t x i : map fst (idx_set eqb t x i) = map fst t.
  Proof. induction t as [|[k v] t IH]; cbn; auto. destruct (eqb k x); cbn; auto. now rewrite IH. Qed.
  Lemma sync_keys l : forall t i, map fst (sync_loop eqb t l i) = map fst t.
  Proof. induction l as [|x l IH]; intros t i; cbn; auto. now rewrite IH, idx_set_keys. Qed.

  Lemma sync_get l : forall t i, Forall P (map fst t) -> Forall P l -> NoDup l ->
    (forall x, In x l -> idx_get eqb t x <> IMissing) ->
    forall y, (~ In y l -> idx_get eqb (sync_loop eqb t l i) y = idx_get eqb t y) /\
      (forall j, nth_error l j = Some y -> idx_get eqb (sync_loop eqb t l i) y = IAt (i + N.of_nat j)).
  Proof.
    induction l as [|x l IH]; intros t i Ft Fl Nd Hin y; cbn [sync_loop].
    - split; auto. intros j. now destruct j.
    - inversion Fl as [|? ? Px Fl']; subst. inversion Nd as [|? ? Nx Nd']; subst.
      destruct (IH (idx_set eqb t x i) (i + 1)) with (y := y) as [H1 H2]; auto.
      { now rewrite idx_set_keys. }
      { intros z Hz. rewrite idx_set_get by auto. destruct (eqb x z); [|apply Hin; now right].
        specialize (Hin z (or_intror Hz)). now destruct (idx_get eqb t z). }
      split.
      + intros Ny. rewrite H1 by (intros I; apply Ny; now right). rewrite idx_set_get by auto.
        destruct (eqb x y) eqn:Exy; auto. apply eqb_eq in Exy; auto. subst y. elim Ny. now left.
      + intros [|j] Ej; cbn in Ej.
        * inversion Ej; subst y. rewrite H1 by auto. rewrite idx_set_get by auto.
          rewrite (proj2 (eqb_eq x x Px) eq_refl). specialize (Hin x (or_introl eq_refl)).
          rewrite N.add_0_r. now destruct (idx_get eqb t x).
        * rewrite (H2 j Ej). f_equal. lia.
  Qed.

  Lemma m_sync_table m E V1 V2 : table m E V1 V2 -> table (m_sync eqb m) (E ++ V1 ++ V2) [] [].
  Proof.
    intros T. unfold m_sync. rewrite (t_list _ _ _ _ T), (t_enc _ _ _ _ T). rewrite skipn_app, skipn_all, Nat.sub_diag. cbn [skipn app].
    pose proof (t_nodup _ _ _ _ T) as Nd. pose proof (t_keys _ _ _ _ T) as Fk.
    assert (Nd2 : NoDup (V1 ++ V2)).
    { clear -Nd. induction E as [|e E IH]; auto. inversion Nd; auto. }
    assert (S : forall y, (~ In y (V1 ++ V2) -> idx_get eqb (sync_loop eqb (m_idx m) (V1 ++ V2) (N.of_nat (List.length E))) y = idx_get eqb (m_idx m) y) /\
      (forall j, nth_error (V1 ++ V2) j = Some y -> idx_get eqb (sync_loop eqb (m_idx m) (V1 ++ V2) (N.of_nat (List.length E))) y = IAt (N.of_nat (List.length E) + N.of_nat j))).
    { apply sync_get; auto.
      - apply (t_idx _ _ _ _ T).
      - apply Forall_app in Fk. tauto.
      - intros x I M. apply (t_missing _ _ _ _ T) in M. apply M. apply in_or_app. auto. }
    constructor; cbn [m_list m_idx m_enc m_sep]; rewrite ?app_nil_r; cbn [List.length]; auto.
    - rewrite sync_keys. apply (t_idx _ _ _ _ T).
    - intros x. destruct (S x) as [S1 S2]. destruct (in_cases (V1 ++ V2) x) as [I|I]; [apply Forall_app in Fk; tauto| |].
      + destruct (In_nth_error _ _ I) as (j & Ej). rewrite (S2 j Ej). split; [discriminate|]. intros H. elim H. apply in_or_app; auto.
      + rewrite (S1 I). apply (t_missing _ _ _ _ T).
    - intros x i. destruct (S x) as [S1 S2]. destruct (in_cases (V1 ++ V2) x) as [I|I]; [apply Forall_app in Fk; tauto| |].
      + destruct (In_nth_error _ _ I) as (j & Ej). rewrite (S2 j Ej). split.
        * intros H. assert (i = N.of_nat (List.length E) + N.of_nat j) by congruence. subst i.
          rewrite nth_error_app2 by lia. replace (N.to_nat (N.of_nat (List.length E) + N.of_nat j) - List.length E)%nat with j by lia. exact Ej.
        * intros H. f_equal. assert (Hj : nth_error (E ++ V1 ++ V2) (List.length E + j) = Some x).
          { rewrite nth_error_app2 by lia. now replace (List.length E + j - List.length E)%nat with j by lia. }
          rewrite <- Hj in H. pose proof (proj1 (NoDup_nth_error (E ++ V1 ++ V2)) Nd (N.to_nat i) (List.length E + j)%nat) as Q.
          specialize (Q ltac:(apply nth_error_Some; congruence) H). lia.
      + rewrite (S1 I). rewrite (t_at _ _ _ _ T). split.
        * intros H. rewrite nth_error_app1; auto. apply nth_error_Some. congruence.
        * intros H. destruct (Nat.lt_ge_cases (N.to_nat i) (List.length E)) as [L|L].
          -- now rewrite nth_error_app1 in H.
          -- rewrite nth_error_app2 in H by lia. apply nth_error_In in H. tauto.
  Qed.

  Lemma table_known m E V1 V2 x : table m E V1 V2 -> In x E -> exists i, idx_get eqb (m_idx m) x = IAt i /\ nth_error E (N.to_nat i) = Some x.
  Proof.
    intros T I. destruct (In_nth_error _ _ I) as (j & Ej). exists (N.of_nat j). rewrite Nnat.Nat2N.id. split; auto.
    apply (t_at _ _ _ _ T). now rewrite Nnat.Nat2N.id.
  Qed.
End Table.
