(** Proofs: structurally equivalent duplicate-free objects have equal hashes. *)

From Coq Require Import NArith ZArith List Bool String Lia Permutation.
From Verif Require Import Bytes ModelTypes ModelObject SpecObject ProofObject.
Import ListNotations.
Local Open Scope N_scope.

Lemma fold_lxor_acc {A} (f : A -> N) l acc :
  fold_left (fun h x => N.lxor h (f x)) l acc = N.lxor acc (fold_left (fun h x => N.lxor h (f x)) l 0).
Proof.
  revert acc. induction l as [|x l IH]; intros acc; simpl.
  - now rewrite N.lxor_0_r.
  - rewrite IH, (IH (f x)). rewrite N.lxor_assoc. reflexivity.
Qed.

Lemma fold_lxor_perm {A} (f : A -> N) l m : Permutation l m ->
  fold_left (fun h x => N.lxor h (f x)) l 0 = fold_left (fun h x => N.lxor h (f x)) m 0.
Proof.
  induction 1; simpl; auto.
  - rewrite fold_lxor_acc. rewrite (fold_lxor_acc f l' (f x)). now rewrite IHPermutation.
  - rewrite fold_lxor_acc. rewrite (fold_lxor_acc f l (N.lxor (f x) (f y))).
    now rewrite (N.lxor_comm (f x)).
  - congruence.
Qed.

Lemma fold_ext2 {A} (g : N -> N -> N) (f : A -> N) l m acc :
  Forall2 (fun x y => f x = f y) l m ->
  fold_left (fun h x => g h (f x)) l acc = fold_left (fun h x => g h (f x)) m acc.
Proof.
  intros H. revert acc. induction H; intros acc; simpl; auto. rewrite H. apply IHForall2.
Qed.

Section H.
  Variable ptr_hash : obj -> N.
  Variable str_hash : bytes -> N.
  Variable combine : N -> N -> N.
  Notation hash := (cowl_hash ptr_hash str_hash combine).

  Lemma hash_list_eq l m :
    Forall (fun a => forall b, dup_free a -> dup_free b -> seq a b -> hash a = hash b) l ->
    Forall dup_free l -> Forall dup_free m -> Forall2 seq l m -> Forall2 (fun x y => hash x = hash y) l m.
  Proof.
    intros H Dl Dm H2. induction H2; constructor; inversion H; subst; inversion Dl; subst; inversion Dm; subst; auto.
  Qed.

  Lemma hash_seq a : forall b, dup_free a -> dup_free b -> seq a b -> hash a = hash b.
  Proof.
    induction a as [i st|n r|e n r|i|v n r|v l|o l IH|t fs opt n IH IHo] using obj_ind';
      intros b Da Db Hs.
    - inversion Hs; subst; reflexivity.
    - inversion Hs; subst; reflexivity.
    - inversion Hs; subst; reflexivity.
    - inversion Hs; subst; reflexivity.
    - inversion Hs; subst; reflexivity.
    - inversion Hs; subst; reflexivity.
    - destruct o.
      + inversion Hs; subst. destruct Da as [_ Dl]. destruct Db as [_ Dm]. fold dup_free in *.
        apply dup_free_list in Dl, Dm. simpl. apply fold_ext2. now apply hash_list_eq.
      + assert (exists m, b = OVec false m) as [m ->] by (inversion Hs; eauto).
        destruct Da as [Pl Dl]. destruct Db as [Pm Dm]. fold dup_free in *.
        apply dup_free_list in Dl, Dm. specialize (Pl eq_refl). specialize (Pm eq_refl).
        apply seq_set_inv in Hs as [H1 H2].
        assert (Hlen : List.length l = List.length m).
        { apply (mutual_inclusion_length seq); auto using seq_sym. intros; eapply seq_trans; eauto. }
        destruct (matching seq seq l m) as (m' & Hperm & HF); auto.
        * intros x y z Hx Hy. apply seq_sym in Hy. eapply seq_trans; eauto.
        * lia.
        * simpl. rewrite (fold_lxor_perm _ m m' Hperm).
          apply (fold_ext2 N.lxor). apply hash_list_eq; auto.
          rewrite Forall_forall in *. intros x Hx. apply Dm. eapply Permutation_in; [symmetry; eauto|auto].
    - apply seq_comp_inv in Hs as (gs & q & k & -> & H1 & H2 & H3).
      destruct Da as [Dl Do]. destruct Db as [Dm Do']. fold dup_free in *.
      apply dup_free_list in Dl, Dm. simpl. rewrite type_is_card_spec.
      rewrite (fold_ext2 combine hash fs gs); [|now apply hash_list_eq].
      assert (E : match opt with
                  | Some p => combine (fold_left (fun h x => combine h (hash x)) gs (combine 6151 (otype_num t))) (hash p)
                  | None => fold_left (fun h x => combine h (hash x)) gs (combine 6151 (otype_num t)) end =
                  match q with
                  | Some p => combine (fold_left (fun h x => combine h (hash x)) gs (combine 6151 (otype_num t))) (hash p)
                  | None => fold_left (fun h x => combine h (hash x)) gs (combine 6151 (otype_num t)) end).
      { destruct opt as [p|], q as [q|]; try tauto. f_equal. eapply IHo; eauto. }
      rewrite E. destruct (is_card_restr t); auto. now rewrite H2.
  Qed.
End H.

Theorem equals_hash ptr_hash str_hash combine a b s s' :
  wt s a = true -> wt s' b = true -> same_order a b -> dup_free a -> dup_free b ->
  cowl_equals a b = true ->
  cowl_hash ptr_hash str_hash combine a = cowl_hash ptr_hash str_hash combine b.
Proof. intros Wa Wb So Da Db H. apply hash_seq; auto. eapply equals_seq; eauto. Qed.

Lemma seq_equivalence : (forall a, seq a a) /\ (forall a b, seq a b -> seq b a) /\
  (forall a b c, seq a b -> seq b c -> seq a c).
Proof. split; [exact seq_refl|split; [exact seq_sym|exact seq_trans]]. Qed.
