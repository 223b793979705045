(** Proofs about equality and hashing of objects. *)

From Coq Require Import NArith ZArith List Bool String Lia Permutation.
From Verif Require Import Bytes ModelTypes ModelObject SpecObject.
Import ListNotations.
Local Open Scope N_scope.

(** * Generic lemmas *)

Lemma bytes_eqb_eq a b : bytes_eqb a b = true <-> a = b.
Proof.
  revert b; induction a as [|x a IH]; intros [|y b]; simpl; split; intros H;
    try discriminate; try reflexivity.
  - apply andb_true_iff in H as [H1 H2]. apply N.eqb_eq in H1. apply IH in H2. now subst.
  - inversion H; subst. rewrite N.eqb_refl. simpl. now apply IH.
Qed.

Lemma bytes_eqb_refl a : bytes_eqb a a = true.
Proof. now apply bytes_eqb_eq. Qed.

Lemma bytes_eqb_neq a b : bytes_eqb a b = false <-> a <> b.
Proof.
  rewrite <- bytes_eqb_eq. destruct (bytes_eqb a b); split; congruence.
Qed.

Lemma forall2b_Forall2 {A B} (f : A -> B -> bool) l m :
  forall2b f l m = true <-> Forall2 (fun x y => f x y = true) l m.
Proof.
  revert m; induction l as [|x l IH]; intros [|y m]; simpl; split; intros H;
    try discriminate; try constructor; try (inversion H; fail).
  - apply andb_true_iff in H as [H _]. exact H.
  - apply andb_true_iff in H as [_ H]. now apply IH.
  - inversion H; subst. rewrite H3. simpl. now apply IH.
Qed.

Lemma Forall2_len {A B} (R : A -> B -> Prop) l m : Forall2 R l m -> List.length l = List.length m.
Proof. induction 1; simpl; congruence. Qed.

Lemma otype_of_num_num t : otype_of_num (otype_num t) = Some t.
Proof. destruct t; reflexivity. Qed.

Lemma otype_num_inj a b : otype_num a = otype_num b -> a = b.
Proof.
  intros H. assert (E : Some a = Some b) by (rewrite <- !otype_of_num_num; now rewrite H).
  now inversion E.
Qed.

Lemma otype_eqb_eq a b : otype_eqb a b = true <-> a = b.
Proof.
  unfold otype_eqb. rewrite N.eqb_eq. split; intros H; [now apply otype_num_inj|now subst].
Qed.

Lemma otype_eqb_refl a : otype_eqb a a = true.
Proof. now apply otype_eqb_eq. Qed.

Lemma etype_otype_inj a b : etype_otype a = etype_otype b -> a = b.
Proof. destruct a, b; simpl; congruence. Qed.

Arguments otype_eqb : simpl never.

(** * Induction over objects *)

Section ObjInd.
  Variable P : obj -> Prop.
  Hypothesis Hstr : forall i s, P (OStr i s).
  Hypothesis Hiri : forall n r, P (OIri n r).
  Hypothesis Hent : forall e n r, P (OEnt e n r).
  Hypothesis Hanon : forall i, P (OAnon i).
  Hypothesis Hlit : forall v n r, P (OLit v n r).
  Hypothesis Hlang : forall v l, P (OLang v l).
  Hypothesis Hvec : forall o l, Forall P l -> P (OVec o l).
  Hypothesis Hcomp : forall t fs opt n, Forall P fs -> (forall p, opt = Some p -> P p) -> P (OComp t fs opt n).

  Fixpoint obj_ind' (o : obj) : P o :=
    let all := fix all (l : list obj) : Forall P l :=
                 match l with
                 | [] => Forall_nil _
                 | x :: l' => Forall_cons _ (obj_ind' x) (all l')
                 end in
    match o with
    | OStr i s => Hstr i s
    | OIri n r => Hiri n r
    | OEnt e n r => Hent e n r
    | OAnon i => Hanon i
    | OLit v n r => Hlit v n r
    | OLang v l => Hlang v l
    | OVec ord l => Hvec ord l (all l)
    | OComp t fs opt n =>
        Hcomp t fs opt n (all fs)
          (match opt as o' return (forall p, o' = Some p -> P p) with
           | None => fun p E => match E in _ = y return match y with Some _ => P p | None => True end with eq_refl => I end
           | Some q => fun p E =>
               match E in _ = y return match y with Some z => P z | None => True end with
               | eq_refl => obj_ind' q
               end
           end)
    end.
End ObjInd.

(** * Structural equivalence is an equivalence relation *)

Lemma Forall2_refl_in {A} (R : A -> A -> Prop) l : Forall (fun x => R x x) l -> Forall2 R l l.
Proof. induction 1; constructor; auto. Qed.

Lemma seq_refl a : seq a a.
Proof.
  induction a as [i s|n r|e n r|i|v n r|v l|o l IH|t fs opt n IH IHo] using obj_ind'; try constructor.
  - destruct o; constructor.
    + now apply Forall2_refl_in.
    + intros x Hx. exists x. split; auto. rewrite Forall_forall in IH; auto.
    + intros x Hx. exists x. split; auto. rewrite Forall_forall in IH; auto.
  - destruct opt as [p|]; constructor; auto using Forall2_refl_in.
Qed.

Lemma Forall2_sym_in {A} (R : A -> A -> Prop) l m :
  Forall (fun x => forall y, R x y -> R y x) l -> Forall2 R l m -> Forall2 R m l.
Proof.
  intros H H2. induction H2; constructor; inversion H; subst; auto.
Qed.

Lemma seq_sym a b : seq a b -> seq b a.
Proof.
  revert b.
  induction a as [i s|n r|e n r|i|v n r|v l|o l IH|t fs opt n IH IHo] using obj_ind';
    intros b H; inversion H; subst; try constructor.
  - now apply Forall2_sym_in.
  - intros x Hx. destruct (H4 x Hx) as (y & Hy & Hs).
    exists y. split; auto. rewrite Forall_forall in IH; auto.
  - intros x Hx. destruct (H2 x Hx) as (y & Hy & Hs).
    exists y. split; auto. rewrite Forall_forall in IH; auto.
  - now apply Forall2_sym_in.
  - intros E. symmetry. auto.
  - now apply Forall2_sym_in.
  - eapply IHo; eauto.
  - intros E. symmetry. auto.
Qed.

Lemma Forall2_trans_in {A} (R : A -> A -> Prop) l m k :
  Forall (fun x => forall y z, R x y -> R y z -> R x z) l -> Forall2 R l m -> Forall2 R m k -> Forall2 R l k.
Proof.
  intros H H2. revert k. induction H2; intros k Hk; inversion Hk; subst; constructor;
    inversion H; subst; eauto.
Qed.

Lemma seq_trans a b c : seq a b -> seq b c -> seq a c.
Proof.
  revert b c.
  induction a as [i s|n r|e n r|i|v n r|v l|o l IH|t fs opt n IH IHo] using obj_ind';
    intros b c H1 H2; inversion H1; subst; inversion H2; subst; try constructor.
  - eapply Forall2_trans_in; eauto.
  - intros x Hx. destruct (H3 x Hx) as (y & Hy & Hxy). destruct (H0 y Hy) as (z & Hz & Hyz).
    exists z. split; auto. rewrite Forall_forall in IH. eapply IH; eauto.
  - intros z Hz. destruct (H4 z Hz) as (y & Hy & Hyz). destruct (H5 y Hy) as (x & Hx & Hxy).
    exists x. split; auto. rewrite Forall_forall in IH. eapply IH; eauto.
  - eapply Forall2_trans_in; eauto.
  - intros E. transitivity k; auto.
  - eapply Forall2_trans_in; eauto.
  - eapply IHo; eauto.
  - intros E. transitivity k; auto.
Qed.

Lemma seq_list_inv l m : seq (OVec true l) (OVec true m) -> Forall2 seq l m.
Proof. intros H; inversion H; auto. Qed.

Lemma seq_set_inv l m : seq (OVec false l) (OVec false m) ->
  (forall x, In x l -> exists y, In y m /\ seq x y) /\ (forall y, In y m -> exists x, In x l /\ seq x y).
Proof. intros H; inversion H; auto. Qed.

Lemma seq_comp_inv t fs p n b : seq (OComp t fs p n) b ->
  exists gs q k, b = OComp t gs q k /\ Forall2 seq fs gs /\ (is_card_restr t = true -> n = k) /\
    match p, q with Some x, Some y => seq x y | None, None => True | _, _ => False end.
Proof. intros H; inversion H; subst; do 3 eexists; split; eauto. Qed.

(** * Counting argument for unordered operand lists *)

Lemma pairwise_split {A} (R : A -> A -> Prop) l1 x l2 :
  ForallOrdPairs R (l1 ++ x :: l2) -> (forall a b, R a b -> R b a) ->
  ForallOrdPairs R (l1 ++ l2) /\ Forall (R x) (l1 ++ l2).
Proof.
  intros H Hs. induction l1 as [|a l1 IH]; simpl in *.
  - inversion H; subst; auto.
  - inversion H; subst. destruct (IH H3) as [I1 I2]. split.
    + constructor; auto. rewrite Forall_app in *. destruct H2 as [F1 F2]. inversion F2; subst. auto.
    + constructor; auto. rewrite Forall_app in H2. destruct H2 as [_ F2]. inversion F2; subst. auto.
Qed.

(** If the elements of [l] are pairwise inequivalent, [m] is not longer than [l] and every element of
    [l] has a partner in [m], then [m] is a rearrangement of partners of [l]. *)
Lemma matching {A B} (R : A -> B -> Prop) (E : A -> A -> Prop) l m :
  (forall x y z, R x z -> R y z -> E x y) ->
  ForallOrdPairs (fun x y => ~ E x y) l ->
  (List.length m <= List.length l)%nat ->
  (forall x, In x l -> exists y, In y m /\ R x y) ->
  exists m', Permutation m m' /\ Forall2 R l m'.
Proof.
  intros HE. revert m. induction l as [|x l IH]; intros m Hp Hlen Hall; simpl in *.
  - destruct m; simpl in *; [|lia]. exists []. split; constructor.
  - destruct (Hall x (or_introl eq_refl)) as (y & Hy & Hxy).
    apply in_split in Hy as (m1 & m2 & ->).
    rewrite app_length in Hlen. simpl in Hlen. inversion Hp; subst.
    destruct (IH (m1 ++ m2)) as (m' & Hperm & HF); auto.
    + rewrite app_length. lia.
    + intros z Hz. destruct (Hall z (or_intror Hz)) as (w & Hw & Hzw).
      exists w. split; auto. rewrite in_app_iff in *. simpl in Hw.
      destruct Hw as [Hw|[Hw|Hw]]; auto. subst w.
      exfalso. rewrite Forall_forall in H1. apply (H1 z Hz). eapply HE; eauto.
    + exists (y :: m'). split; [|now constructor].
      rewrite <- Hperm. symmetry. apply Permutation_middle.
Qed.

Lemma Forall2_in_r {A B} (R : A -> B -> Prop) l m y :
  Forall2 R l m -> In y m -> exists x, In x l /\ R x y.
Proof.
  induction 1; simpl; [tauto|]. intros [->|H1]; eauto.
  destruct (IHForall2 H1) as (x' & ? & ?); eauto.
Qed.

Lemma Forall2_in_l {A B} (R : A -> B -> Prop) l m x :
  Forall2 R l m -> In x l -> exists y, In y m /\ R x y.
Proof.
  induction 1; simpl; [tauto|]. intros [->|H1]; eauto.
  destruct (IHForall2 H1) as (x' & ? & ?); eauto.
Qed.

(** Two mutually included duplicate-free lists have the same length. *)
Lemma mutual_inclusion_length {A} (R : A -> A -> Prop) l m :
  (forall x y, R x y -> R y x) -> (forall x y z, R x y -> R y z -> R x z) ->
  ForallOrdPairs (fun x y => ~ R x y) l -> ForallOrdPairs (fun x y => ~ R x y) m ->
  (forall x, In x l -> exists y, In y m /\ R x y) ->
  (forall y, In y m -> exists x, In x l /\ R x y) ->
  List.length l = List.length m.
Proof.
  intros Hs Ht.
  assert (Hle : forall l m, ForallOrdPairs (fun x y => ~ R x y) l ->
    (forall x, In x l -> exists y, In y m /\ R x y) -> (List.length l <= List.length m)%nat).
  { clear l m. induction l as [|x l IH]; intros m Hp Hall; simpl; [lia|].
    destruct (Hall x (or_introl eq_refl)) as (y & Hy & Hxy).
    apply in_split in Hy as (m1 & m2 & ->). rewrite app_length. simpl. inversion Hp; subst.
    specialize (IH (m1 ++ m2)). rewrite app_length in IH. rewrite <- plus_n_Sm. apply le_n_S.
    apply IH; auto. intros z Hz. destruct (Hall z (or_intror Hz)) as (w & Hw & Hzw).
    exists w. split; auto. rewrite in_app_iff in *. simpl in Hw.
    destruct Hw as [Hw|[Hw|Hw]]; auto. subst w.
    exfalso. rewrite Forall_forall in H1. apply (H1 z Hz). eauto. }
  intros Hl Hm Hlm Hml. apply PeanoNat.Nat.le_antisymm; apply Hle; auto.
  intros y Hy. destruct (Hml y Hy) as (x & Hx & Hxy). eauto.
Qed.

(** * cowl_equals decides structural equivalence on duplicate-free objects *)

Lemma prim_eqb_eq_iri n r b : prim_eqb (OIri n r) b = true <-> b = OIri n r.
Proof.
  destruct b; simpl; split; intros H; try discriminate.
  - apply andb_true_iff in H as [H1 H2]. apply bytes_eqb_eq in H1, H2. now subst.
  - inversion H; subst. now rewrite !bytes_eqb_refl.
Qed.

Lemma prim_eqb_eq_ent e n r b : prim_eqb (OEnt e n r) b = true <-> b = OEnt e n r.
Proof.
  destruct b; simpl; split; intros H; try discriminate.
  - apply andb_true_iff in H as [H H2]. apply andb_true_iff in H as [H0 H1].
    apply bytes_eqb_eq in H1, H2. apply otype_eqb_eq, etype_otype_inj in H0. now subst.
  - inversion H; subst. now rewrite !bytes_eqb_refl, otype_eqb_refl.
Qed.

Lemma prim_eqb_eq_anon i b : prim_eqb (OAnon i) b = true <-> b = OAnon i.
Proof.
  destruct b; simpl; split; intros H; try discriminate.
  - apply bytes_eqb_eq in H. now subst.
  - inversion H; subst. now rewrite !bytes_eqb_refl.
Qed.

Lemma prim_eqb_eq a b k : kind a = Some k -> (prim_eqb a b = true <-> b = a).
Proof.
  destruct a; simpl; intros H; try discriminate.
  - apply prim_eqb_eq_iri.
  - apply prim_eqb_eq_ent.
  - apply prim_eqb_eq_anon.
Qed.

Lemma prim_eqb_refl a k : kind a = Some k -> prim_eqb a a = true.
Proof. intros H. now apply (prim_eqb_eq a a k). Qed.

Lemma prim_eqb_sym a b : prim_eqb a b = prim_eqb b a.
Proof.
  destruct (prim_eqb a b) eqn:E1, (prim_eqb b a) eqn:E2; auto; exfalso.
  - destruct (kind a) as [k|] eqn:K.
    + apply (prim_eqb_eq a b k K) in E1. subst. rewrite (prim_eqb_refl a k K) in E2. discriminate.
    + destruct a; discriminate.
  - destruct (kind b) as [k|] eqn:K.
    + apply (prim_eqb_eq b a k K) in E2. subst. rewrite (prim_eqb_refl b k K) in E1. discriminate.
    + destruct b; discriminate.
Qed.

Lemma type_is_card_spec t : type_is_card t = is_card_restr t.
Proof. destruct t; reflexivity. Qed.

Lemma dup_free_list l : fold_right (fun x P => dup_free x /\ P) True l <-> Forall dup_free l.
Proof.
  induction l; simpl; split; intros H; auto.
  - destruct H. constructor; tauto.
  - inversion H; subst. tauto.
Qed.

Lemma wt_same_order s a b : wt s a = true -> wt s b = true -> same_order a b.
Proof.
  destruct a, b; simpl; auto. destruct s; try discriminate.
  - rewrite !andb_true_iff. intros [H1 _] [H2 _].
    apply Bool.eqb_prop in H1, H2. congruence.
  - rewrite !andb_true_iff. intros [H1 _] [H2 _]. congruence.
Qed.

Lemma wt_item_same_order i j a b : wt (SOne i) a = true -> wt (SOne j) b = true -> same_order a b.
Proof. destruct a, b; simpl; auto; discriminate. Qed.

Lemma wt_comp_inv s t fs opt n : wt s (OComp t fs opt n) = true ->
  exists sorts os, construct_sig t = Some (sorts, os) /\
    Forall2 (fun f s' => wt s' f = true) fs sorts /\
    (forall p, opt = Some p ->
       match os with
       | NoOpt => False
       | OptAnnots => wt (SMany false SAnnot) p = true
       | OptFiller i _ => wt (SOne i) p = true
       end) /\
    (is_card_restr t = false -> n = 0).
Proof.
  simpl. rewrite andb_true_iff. intros [_ H].
  destruct (construct_sig t) as [[sorts os]|]; [|discriminate].
  exists sorts, os. rewrite !andb_true_iff in H. destruct H as [[H1 H2] H3].
  split; auto. split; [now apply forall2b_Forall2|]. split.
  - intros p ->. destruct os; try discriminate; apply andb_true_iff in H2; tauto.
  - intros E. rewrite E in H3. now apply N.eqb_eq.
Qed.

Lemma Forall2_combine3 {A B} (P Q : A -> B -> Prop) (R : A -> A -> Prop) fs gs ss :
  (forall x y s, In x fs -> In y gs -> P x s -> Q y s -> R x y) ->
  Forall2 P fs ss -> Forall2 Q gs ss -> Forall2 R fs gs.
Proof.
  intros H H1. revert gs H. induction H1; intros gs HH H2; inversion H2; subst; constructor.
  - eapply HH; eauto; simpl; auto.
  - apply IHForall2; auto. intros. eapply HH; eauto; simpl; auto.
Qed.

Lemma Forall2_iff {A B} (P Q R : A -> B -> Prop) l m :
  Forall2 R l m -> (forall x y, In x l -> In y m -> R x y -> (P x y <-> Q x y)) -> (Forall2 P l m <-> Forall2 Q l m).
Proof.
  intros H HPQ. split.
  - intros H1. induction H1; constructor; inversion H; subst.
    + apply HPQ; simpl; auto.
    + apply IHForall2; auto. intros; apply HPQ; simpl; auto.
  - intros H1. induction H1; constructor; inversion H; subst.
    + apply HPQ; simpl; auto.
    + apply IHForall2; auto. intros; apply HPQ; simpl; auto.
Qed.

Ltac kill :=
  try (repeat match goal with |- context [otype_eqb ?x ?y] => destruct (otype_eqb x y) end;
       simpl; split; first [discriminate | let H := fresh in intros H; inversion H; fail]).

Theorem equals_seq a : forall b s s',
  wt s a = true -> wt s' b = true -> same_order a b -> dup_free a -> dup_free b ->
  (cowl_equals a b = true <-> seq a b).
Proof.
  induction a as [i st|n r|e n r|i|v n r|v l|o l IH|t fs opt n IH IHo] using obj_ind';
    intros b s s' Wa Wb So Da Db.
  - discriminate.
  - simpl. destruct b; simpl;
      kill.
    rewrite ?otype_eqb_refl; simpl. rewrite andb_true_iff, !bytes_eqb_eq. split.
    + intros [-> ->]. constructor.
    + intros H; inversion H; auto.
  - simpl. destruct b as [| |e' n' r'| | | | |]; simpl;
      kill.
    destruct (otype_eqb (etype_otype e) (etype_otype e')) eqn:E; simpl.
    + rewrite andb_true_iff, !bytes_eqb_eq.
      apply otype_eqb_eq, etype_otype_inj in E. subst e'. split.
      * intros [-> ->]. constructor.
      * intros H; inversion H; auto.
    + split; [discriminate|]. intros H; inversion H; subst. now rewrite otype_eqb_refl in E.
  - simpl. destruct b; simpl;
      kill.
    rewrite ?otype_eqb_refl; simpl. rewrite bytes_eqb_eq. split; [intros ->; constructor|intros H; now inversion H].
  - simpl. destruct b; simpl;
      kill.
    rewrite ?otype_eqb_refl; simpl. rewrite !andb_true_iff, !bytes_eqb_eq. split; [intros [[-> ->] ->]; constructor|].
    intros H; inversion H; auto.
  - simpl. destruct b; simpl;
      kill.
    rewrite ?otype_eqb_refl; simpl. rewrite !andb_true_iff, !bytes_eqb_eq. split; [intros [-> ->]; constructor|].
    intros H; inversion H; auto.
  - destruct b as [| | | | | |o' m|]; simpl;
      kill.
    simpl in So. subst o'. rewrite ?otype_eqb_refl; simpl.
    destruct Da as [Dp Dl]. destruct Db as [Dp' Dm]. fold dup_free in *.
    apply dup_free_list in Dl, Dm. rewrite Forall_forall in Dl, Dm, IH.
    assert (Hit : exists i, forall x, In x l -> wt (SOne i) x = true).
    { simpl in Wa. destruct s; try discriminate; apply andb_true_iff in Wa as [_ Wa];
        rewrite forallb_forall in Wa; eauto. }
    assert (Hit' : exists i, forall x, In x m -> wt (SOne i) x = true).
    { simpl in Wb. destruct s'; try discriminate; apply andb_true_iff in Wb as [_ Wb];
        rewrite forallb_forall in Wb; eauto. }
    destruct Hit as [i1 Hi1]. destruct Hit' as [i2 Hi2].
    assert (Hiff : forall x y, In x l -> In y m -> (cowl_equals x y = true <-> seq x y)).
    { intros x y Hx Hy. eapply IH; eauto. eapply wt_item_same_order; eauto. }
    destruct o.
    + rewrite andb_true_iff, PeanoNat.Nat.eqb_eq, forall2b_Forall2. split.
      * intros [_ H]. constructor.
        assert (Hlen : List.length l = List.length m) by (eapply Forall2_len; eauto).
        eapply Forall2_iff; [exact H| |exact H]. intros x y Hx Hy _. symmetry. auto.
      * intros H. apply seq_list_inv in H. split; [eapply Forall2_len; eauto|].
        eapply Forall2_iff; [exact H| |exact H]. intros x y Hx Hy _. auto.
    + rewrite andb_true_iff, PeanoNat.Nat.eqb_eq, forallb_forall.
      specialize (Dp eq_refl). specialize (Dp' eq_refl). split.
      * intros [Hlen Hall].
        destruct (matching seq seq l m) as (m' & Hperm & HF); auto.
        -- intros x y z H1 H2. apply seq_sym in H2. eapply seq_trans; eauto.
        -- lia.
        -- intros x Hx. pose proof (Hall x Hx) as Hex. apply existsb_exists in Hex as (y & Hy & Hxy).
           exists y. split; auto. apply Hiff; auto.
        -- constructor.
           ++ intros x Hx. destruct (Forall2_in_l _ _ _ _ HF Hx) as (y & Hy & Hs).
              exists y. split; auto. eapply Permutation_in; [symmetry; eauto|auto].
           ++ intros y Hy. destruct (Forall2_in_r _ _ _ y HF) as (x & Hx & Hs); eauto.
              eapply Permutation_in; eauto.
      * intros H. apply seq_set_inv in H as [H1 H2]. split.
        -- apply (mutual_inclusion_length seq); auto using seq_sym. intros; eapply seq_trans; eauto.
        -- intros x Hx. apply existsb_exists. destruct (H1 x Hx) as (y & Hy & Hs).
           exists y. split; auto. apply Hiff; auto.
  - destruct b as [| | | | | | |t' gs opt' k]; simpl;
      kill.
    destruct (otype_eqb t t') eqn:E; simpl.
    2:{ split; [discriminate|]. intros H.
        inversion H; subst; rewrite otype_eqb_refl in E; discriminate. }
    apply otype_eqb_eq in E. subst t'.
    apply wt_comp_inv in Wa as (so & os & Hsig & Wfs & Wo & Wn).
    apply wt_comp_inv in Wb as (so' & os' & Hsig' & Wgs & Wo' & Wn').
    rewrite Hsig in Hsig'. inversion Hsig'; subst so' os'.
    destruct Da as [Dl Dopt]. destruct Db as [Dl' Dopt']. fold dup_free in *.
    apply dup_free_list in Dl, Dl'. rewrite Forall_forall in Dl, Dl', IH.
    assert (Hrel : Forall2 (fun x y => cowl_equals x y = true <-> seq x y) fs gs).
    { eapply Forall2_combine3; [|exact Wfs|exact Wgs].
      intros x y sx Hx Hy Wx Wy. simpl in Wx, Wy. eapply IH; eauto. eapply wt_same_order; eauto. }
    assert (HF : Forall2 (fun x y => cowl_equals x y = true) fs gs <-> Forall2 seq fs gs).
    { eapply Forall2_iff; [exact Hrel|]. auto. }
    rewrite type_is_card_spec.
    assert (Hcard : (if is_card_restr t then n =? k else true) = true <-> (is_card_restr t = true -> n = k)).
    { destruct (is_card_restr t); [rewrite N.eqb_eq; tauto|]. split; auto; discriminate. }
    destruct opt as [p|], opt' as [q|]; simpl.
    + specialize (Wo p eq_refl). specialize (Wo' q eq_refl).
      assert (Hpq : cowl_equals p q = true <-> seq p q).
      { destruct os; try tauto.
        - eapply IHo; eauto. eapply wt_same_order; eauto.
        - eapply IHo; eauto. eapply wt_same_order; eauto. }
      rewrite !andb_true_iff, forall2b_Forall2. split.
      * intros [[H1 H2] H3]. constructor; [now apply HF|now apply Hpq|now apply Hcard].
      * intros H. apply seq_comp_inv in H as (gs' & q' & k' & E & H1 & H2 & H3).
        inversion E; subst. rewrite HF, Hpq, Hcard. auto.
    + split; [discriminate|]. intros H; inversion H.
    + split; [discriminate|]. intros H; inversion H.
    + rewrite andb_true_iff, forall2b_Forall2. split.
      * intros [H1 H3]. constructor; [now apply HF|now apply Hcard].
      * intros H. apply seq_comp_inv in H as (gs' & q' & k' & E & H1 & H2 & H3).
        inversion E; subst. rewrite HF, Hcard. auto.
Qed.
