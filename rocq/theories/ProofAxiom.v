(** Proofs about axioms: equality with and without annotations, operand queries; reflexivity and
    transitivity of equality. *)

From Coq Require Import NArith ZArith List Bool String Lia.
From Verif Require Import Bytes ModelTypes ModelObject SpecObject ProofObject ProofIter.
Import ListNotations.
Local Open Scope N_scope.

(** * Reflexivity and transitivity *)

Lemma forall2b_refl {A} (f : A -> A -> bool) l : Forall (fun x => f x x = true) l -> forall2b f l l = true.
Proof. induction 1; simpl; auto. now rewrite H. Qed.

Theorem equals_refl a : cowl_equals a a = true.
Proof.
  induction a as [i st|n r|e n r|i|v n r|v l|o l IH|t fs opt n IH IHo] using obj_ind'; simpl;
    rewrite ?otype_eqb_refl; simpl; rewrite ?bytes_eqb_refl; auto.
  - rewrite Nat.eqb_refl. destruct o; simpl.
    + now apply forall2b_refl.
    + apply forallb_forall. intros x Hx. apply existsb_exists. exists x. split; auto.
      rewrite Forall_forall in IH; auto.
  - rewrite (forall2b_refl _ _ IH). destruct opt as [p|]; simpl; rewrite ?(IHo p eq_refl); simpl;
      destruct (type_is_card t); auto; apply N.eqb_refl.
Qed.

Lemma prim_eqb_kind a b k : kind a = Some k -> cowl_equals a b = true -> b = a.
Proof.
  intros K H. apply (prim_eqb_eq _ _ _ K).
  destruct a; simpl in K; try discriminate; cbn [cowl_equals] in H;
    destruct (negb _) in H; try discriminate; exact H.
Qed.

Definition comp_equals (t : otype) (fs : list obj) opt (n : N) gs opt' (k : N) : bool :=
  match opt, opt' with
  | None, None => forall2b cowl_equals fs gs
  | Some p, Some p' => forall2b cowl_equals fs gs && cowl_equals p p'
  | _, _ => false
  end && (if type_is_card t then n =? k else true).

Lemma comp_equals_inv t fs opt n b : cowl_equals (OComp t fs opt n) b = true ->
  match b with OComp t' gs opt' k => t' = t /\ comp_equals t fs opt n gs opt' k = true | _ => False end.
Proof.
  intros H. simpl in H. destruct (negb (otype_eqb t (get_type b))) eqn:E; [discriminate|].
  apply negb_false_iff in E. apply otype_eqb_eq in E.
  destruct b; try discriminate; simpl in E. split; auto.
Qed.

Lemma comp_equals_intro t fs opt n gs opt' k : comp_equals t fs opt n gs opt' k = true ->
  cowl_equals (OComp t fs opt n) (OComp t gs opt' k) = true.
Proof. intros H. simpl. rewrite otype_eqb_refl. simpl. exact H. Qed.

Lemma forall2b_trans l : forall m k,
  Forall (fun a => forall b c, In b m -> In c k -> cowl_equals a b = true -> cowl_equals b c = true -> cowl_equals a c = true) l ->
  forall2b cowl_equals l m = true -> forall2b cowl_equals m k = true -> forall2b cowl_equals l k = true.
Proof.
  induction l as [|a l IH]; intros [|b m] [|c k] HF H1 H2; simpl in *; try discriminate; auto.
  apply andb_true_iff in H1 as [H1 H1'], H2 as [H2 H2']. inversion HF; subst.
  rewrite (H3 b c); simpl; auto. apply (IH m k); auto.
  eapply Forall_impl; [|exact H4]. simpl. intros; eauto.
Qed.

(** Contents of a vector are not vectors themselves. *)
Lemma wt_items o l s : wt s (OVec o l) = true -> forall x, In x l -> exists i, wt (SOne i) x = true.
Proof.
  simpl. intros H x Hx. destruct s; try discriminate; apply andb_true_iff in H as [_ H];
    rewrite forallb_forall in H; eauto.
Qed.

Lemma wt_one_same_order i a b : wt (SOne i) a = true -> same_order a b.
Proof. destruct a; simpl; auto; discriminate. Qed.

Theorem equals_trans a : forall b c s s' s'',
  wt s a = true -> wt s' b = true -> wt s'' c = true -> same_order a b -> same_order b c ->
  cowl_equals a b = true -> cowl_equals b c = true -> cowl_equals a c = true.
Proof.
  induction a as [i st|n r|e n r|i|v n r|v l|o l IH|t fs opt n IH IHo] using obj_ind';
    intros b c s s' s'' Wa Wb Wc Sab Sbc H1 H2.
  - discriminate.
  - apply (prim_eqb_kind _ _ PT_IRI) in H1; [subst; auto|reflexivity].
  - apply (prim_eqb_kind _ _ (PT_ENT e)) in H1; [subst; auto|reflexivity].
  - apply (prim_eqb_kind _ _ PT_ANON_IND) in H1; [subst; auto|reflexivity].
  - assert (b = OLit v n r) as ->; auto.
    { simpl in H1. destruct (negb _) in H1; [discriminate|]. destruct b; try discriminate.
      simpl in H1. rewrite !andb_true_iff in H1. destruct H1 as [[E1 E2] E3].
      apply bytes_eqb_eq in E1, E2, E3. now subst. }
  - assert (b = OLang v l) as ->; auto.
    { simpl in H1. destruct (negb _) in H1; [discriminate|]. destruct b; try discriminate.
      simpl in H1. rewrite !andb_true_iff in H1. destruct H1 as [E1 E2].
      apply bytes_eqb_eq in E1, E2. now subst. }
  - assert (exists o' m, b = OVec o' m) as (o' & m & ->).
    { simpl in H1. destruct (negb _) eqn:E in H1; [discriminate|]. destruct b; try discriminate; eauto. }
    assert (exists o'' k, c = OVec o'' k) as (o'' & k & ->).
    { simpl in H2. destruct (negb _) eqn:E in H2; [discriminate|]. destruct c; try discriminate; eauto. }
    simpl in Sab, Sbc. subst o' o''. rewrite Forall_forall in IH.
    pose proof (wt_items _ _ _ Wa) as Il. pose proof (wt_items _ _ _ Wb) as Im. pose proof (wt_items _ _ _ Wc) as Ik.
    assert (T : forall x y z, In x l -> In y m -> In z k ->
      cowl_equals x y = true -> cowl_equals y z = true -> cowl_equals x z = true).
    { intros x y z Hx Hy Hz. destruct (Il x Hx) as [i Wx], (Im y Hy) as [j Wy], (Ik z Hz) as [h Wz].
      eapply IH; eauto using wt_one_same_order. }
    simpl in H1, H2 |- *.
    change (otype_eqb OT_VECTOR OT_VECTOR) with true in *. simpl in *.
    destruct o; apply andb_true_iff in H1 as [L1 H1], H2 as [L2 H2];
      apply Nat.eqb_eq in L1, L2; rewrite L1, L2, Nat.eqb_refl; simpl.
    + eapply forall2b_trans; eauto. apply Forall_forall. intros x Hx y z Hy Hz. now apply T.
    + apply forallb_forall. intros x Hx. rewrite forallb_forall in H1, H2.
      specialize (H1 x Hx). apply existsb_exists in H1 as (y & Hy & E1).
      specialize (H2 y Hy). apply existsb_exists in H2 as (z & Hz & E2).
      apply existsb_exists. exists z. split; auto. eapply T; eauto.
  - apply comp_equals_inv in H1. destruct b as [| | | | | | |t' gs opt' k]; try tauto. destruct H1 as [-> H1].
    apply comp_equals_inv in H2. destruct c as [| | | | | | |t'' hs opt'' k']; try tauto. destruct H2 as [-> H2].
    apply comp_equals_intro.
    apply wt_comp_inv in Wa as (so & os & Hsig & Wfs & Wo & _).
    apply wt_comp_inv in Wb as (so' & os' & Hsig' & Wgs & Wo' & _).
    apply wt_comp_inv in Wc as (so'' & os'' & Hsig'' & Whs & Wo'' & _).
    rewrite Hsig in Hsig', Hsig''. injection Hsig' as <- <-. injection Hsig'' as <- <-.
    assert (T : forall2b cowl_equals fs gs = true -> forall2b cowl_equals gs hs = true -> forall2b cowl_equals fs hs = true).
    { clear H1 H2 Hsig Sab Sbc. revert gs hs so Wfs Wgs Whs.
      induction fs as [|f fs IHf]; intros [|g gs] [|h hs] so Wfs Wgs Whs E1 E2; simpl in *; try discriminate; auto.
      apply andb_true_iff in E1 as [E1 E1'], E2 as [E2 E2'].
      inversion IH as [|? ? IHh IHt]; subst. inversion Wfs; subst. inversion Wgs; subst. inversion Whs; subst.
      erewrite (IHh g h); simpl; eauto using wt_same_order.
      }
    unfold comp_equals in *. apply andb_true_iff in H1 as [H1 K1], H2 as [H2 K2].
    assert (K : (if type_is_card t then n =? k' else true) = true).
    { destruct (type_is_card t); auto. apply N.eqb_eq in K1, K2. subst. apply N.eqb_refl. }
    rewrite K, andb_true_r.
    destruct opt as [p|], opt' as [q|], opt'' as [u|]; try discriminate; auto.
    apply andb_true_iff in H1 as [H1 P1], H2 as [H2 P2]. rewrite (T H1 H2). simpl.
    specialize (Wo p eq_refl). specialize (Wo' q eq_refl). specialize (Wo'' u eq_refl).
    destruct os; try tauto;
      eapply (IHo p eq_refl q u); eauto; eapply wt_same_order; eauto.
Qed.

(** * Axiom equality *)

Lemma axiom_comp a : is_axiom_object a -> exists t fs opt, a = OComp t fs opt 0 /\ is_card_restr t = false.
Proof.
  unfold is_axiom_object. intros W. destruct a as [| |e ? ?| | | | |t fs opt n]; try discriminate; try (destruct e; discriminate).
  pose proof W as W'. apply wt_comp_inv in W as (so & os & _ & _ & _ & Hn).
  simpl in W'. apply andb_true_iff in W' as [Wt _].
  assert (E : is_card_restr t = false) by (destruct t; try discriminate; reflexivity).
  exists t, fs, opt. rewrite (Hn E). auto.
Qed.

Lemma axiom_wt a t fs opt : a = OComp t fs opt 0 -> is_axiom_object a -> wt (SOne SAxiom) (OComp t fs opt 0) = true.
Proof. intros ->; auto. Qed.

Lemma forall2b_len {A B} (f : A -> B -> bool) l : forall m, forall2b f l m = true -> List.length l = List.length m.
Proof.
  induction l as [|x l IH]; intros [|y m] H; simpl in *; try discriminate; auto.
  apply andb_true_iff in H as [_ H]. f_equal. now apply IH.
Qed.

Lemma forall2b_app1 {A} (f : A -> A -> bool) l m x y : List.length l = List.length m ->
  forall2b f (l ++ [x]) (m ++ [y]) = forall2b f l m && f x y.
Proof.
  revert m; induction l as [|a l IH]; intros [|b m] H; simpl in *; try discriminate.
  - now rewrite andb_true_r.
  - rewrite IH by congruence. now rewrite andb_assoc.
Qed.

Lemma len_forall2b {A B} (f : A -> B -> bool) l m :
  Nat.eqb (List.length l) (List.length m) && forall2b f l m = forall2b f l m.
Proof.
  destruct (Nat.eqb (List.length l) (List.length m)) eqn:E; auto. simpl.
  destruct (forall2b f l m) eqn:F; auto. apply forall2b_len in F. apply Nat.eqb_neq in E. congruence.
Qed.

Theorem axiom_equals_full a b : is_axiom_object a -> is_axiom_object b ->
  axiom_equals a b true = cowl_equals a b.
Proof.
  intros Wa Wb. destruct (axiom_comp a Wa) as (t & fs & opt & -> & Ca). destruct (axiom_comp b Wb) as (t' & gs & opt' & -> & Cb).
  unfold axiom_equals. simpl cowl_equals. simpl get_type.
  destruct (otype_eqb t t') eqn:E; [|reflexivity]. simpl negb. cbv iota.
  apply otype_eqb_eq in E. subst t'.
  unfold is_axiom_object in *.
  destruct (get_fields_wt _ _ _ _ _ Wa) as [_ ->]. destruct (get_fields_wt _ _ _ _ _ Wb) as [_ ->].
  apply axiom_arity in Wa as [La _]. apply axiom_arity in Wb as [Lb _].
  rewrite type_is_card_spec, Ca, andb_true_r.
  rewrite len_forall2b.
  destruct opt as [p|], opt' as [q|].
  - rewrite forall2b_app1; congruence.
  - destruct (forall2b _ _ _) eqn:F; auto. apply forall2b_len in F. rewrite !app_length in F. simpl in F. lia.
  - destruct (forall2b _ _ _) eqn:F; auto. apply forall2b_len in F. rewrite !app_length in F. simpl in F. lia.
  - now rewrite !app_nil_r.
Qed.

Theorem axiom_equals_plain a b : is_axiom_object a -> is_axiom_object b ->
  axiom_equals a b false = cowl_equals (without_annots a) (without_annots b).
Proof.
  intros Wa Wb. destruct (axiom_comp a Wa) as (t & fs & opt & -> & Ca). destruct (axiom_comp b Wb) as (t' & gs & opt' & -> & Cb).
  unfold axiom_equals. simpl cowl_equals. simpl get_type.
  destruct (otype_eqb t t') eqn:E; [|reflexivity]. simpl negb. cbv iota.
  unfold is_axiom_object in *.
  destruct (get_fields_wt _ _ _ _ _ Wa) as [-> _]. destruct (get_fields_wt _ _ _ _ _ Wb) as [-> _].
  rewrite type_is_card_spec, Ca, andb_true_r. apply len_forall2b.
Qed.

Lemma without_annots_wt a : is_axiom_object a -> is_axiom_object (without_annots a).
Proof.
  intros W. destruct (axiom_comp a W) as (t & fs & opt & -> & C). unfold is_axiom_object in *. simpl in *.
  apply andb_true_iff in W as [W1 W2]. rewrite W1. simpl.
  destruct (construct_sig t) as [[so os]|]; [|discriminate].
  rewrite C in *. rewrite !andb_true_iff in W2. destruct W2 as [[W2 W3] W4]. rewrite W2. simpl.
  destruct os; reflexivity.
Qed.

(** * Operand queries *)

Lemma deliver_stop {S A} (f : A -> bool) (call : S -> A -> S * ret) :
  (forall s x, snd (call s x) = if f x then 1%Z else 0%Z) ->
  forall l s, snd (deliver call l s) = if existsb f l then 1%Z else 0%Z.
Proof.
  intros Hc. induction l as [|x l IH]; intros s; simpl; auto.
  specialize (Hc s x). destruct (call s x) as [s' r]. simpl in Hc. subst r.
  destruct (f x); simpl; auto.
Qed.

Lemma stopped_ires {S} (p : S * ret) b : snd p = (if b : bool then 1%Z else 0%Z) -> stopped (as_ires p) = Some b.
Proof. intros H. unfold as_ires, stopped. rewrite H. now destruct b. Qed.

Lemma decides_of b (P : Prop) : (b = true <-> P) -> decides (Some b) P.
Proof. intros H. destruct b; [left|right]; split; auto; [now apply H|]. intros HP. apply H in HP. discriminate. Qed.

Lemma axiom_operands a position : is_axiom_object a ->
  exists l, (forall S (call : S -> obj -> S * ret) st, iterate_operands call a position st = as_ires (deliver call l st)) /\
            (forall op, In op l <-> operand_at a op position).
Proof.
  intros W. destruct (axiom_comp a W) as (t & fs & opt & -> & _). exists (operands_at fs position). split.
  - intros. eapply iterate_operands_deliver; eauto.
  - intros op. eapply operands_at_spec; eauto.
Qed.

Theorem has_operand_prim a op k position : is_axiom_object a -> kind op = Some k ->
  decides (axiom_has_operand a op position) (operand_at a op position).
Proof.
  intros W K. destruct (axiom_operands a position W) as (l & Hl & Hin). unfold axiom_has_operand. rewrite Hl.
  set (f := fun o => prim_eqb o op).
  rewrite (stopped_ires _ (existsb f l)).
  2:{ apply deliver_stop. intros s x. simpl. rewrite (is_primitive_kind _ _ K). unfold f. now destruct (prim_eqb x op). }
  apply decides_of. rewrite existsb_exists, <- Hin. unfold f. split.
  - intros (x & Hx & E). rewrite prim_eqb_sym in E. apply (prim_eqb_eq _ _ _ K) in E. now subst.
  - intros H. exists op. split; auto. eapply prim_eqb_refl; eauto.
Qed.

Lemma is_primitive_kind_none o s : wt s o = true -> kind o = None -> is_primitive o = false.
Proof.
  intros W K. destruct o as [| | | | | | |t fs opt n]; try discriminate; auto.
  apply wt_comp_inv in W as (so & os & Hsig & _). destruct t; try discriminate; reflexivity.
Qed.

Theorem has_operand_struct a op s position : is_axiom_object a -> wt s op = true -> kind op = None ->
  decides (axiom_has_operand a op position) (exists x, operand_at a x position /\ cowl_equals x op = true).
Proof.
  intros W Wo K. destruct (axiom_operands a position W) as (l & Hl & Hin). unfold axiom_has_operand. rewrite Hl.
  rewrite (stopped_ires _ (existsb (fun o => cowl_equals o op) l)).
  2:{ apply deliver_stop. intros u x. simpl. rewrite (is_primitive_kind_none _ _ Wo K). now destruct (cowl_equals x op). }
  apply decides_of. rewrite existsb_exists. split; intros (x & H1 & H2); exists x; (split; [now apply Hin|auto]).
Qed.

Lemma has_iri_spec o n r : has_iri o (OIri n r) = true <-> iri_of o = Some (OIri n r).
Proof.
  unfold has_iri. destruct o; simpl; split; intros H; try discriminate.
  - apply andb_true_iff in H as [H1 H2]. apply bytes_eqb_eq in H1, H2. now subst.
  - inversion H; subst. now rewrite !bytes_eqb_refl.
  - apply andb_true_iff in H as [H1 H2]. apply bytes_eqb_eq in H1, H2. now subst.
  - inversion H; subst. now rewrite !bytes_eqb_refl.
Qed.

Theorem has_operand_iri a n r position : is_axiom_object a ->
  decides (axiom_has_operand_with_iri a (OIri n r) position)
          (exists op, operand_at a op position /\ iri_of op = Some (OIri n r)).
Proof.
  intros W. destruct (axiom_operands a position W) as (l & Hl & Hin). unfold axiom_has_operand_with_iri. rewrite Hl.
  rewrite (stopped_ires _ (existsb (fun o => has_iri o (OIri n r)) l)).
  2:{ apply deliver_stop. intros u x. simpl. now destruct (has_iri x (OIri n r)). }
  apply decides_of. rewrite existsb_exists. split; intros (x & H1 & H2); exists x;
    (split; [now apply Hin|now apply has_iri_spec]).
Qed.

Lemma wt_operand a op position : is_axiom_object a -> operand_at a op position -> exists s, wt s op = true.
Proof.
  intros W Ho. destruct (axiom_comp a W) as (t & fs & opt & -> & _). unfold is_axiom_object in W.
  apply wt_comp_inv in W as (so & os & _ & Wfs & _).
  destruct Ho as (i & f & m & Hi & Hop & _). apply nth_error_In in Hi.
  destruct (Forall2_in_l _ _ _ _ Wfs Hi) as (s & _ & Ws).
  destruct f; simpl in Hop; try (destruct Hop as [<-|[]]; eauto).
  destruct (wt_items _ _ _ Ws op Hop); eauto.
Qed.

Lemma mentions_prim p o k : kind o = Some k -> mentions p o -> p = o.
Proof. intros K H. inversion H; subst; auto. destruct o; simpl in *; try discriminate; tauto. Qed.

Theorem axiom_has_primitive_pos a p k position : is_axiom_object a -> kind p = Some k -> position <> PS_ANY ->
  decides (axiom_has_primitive a p position) (exists op, operand_at a op position /\ mentions p op).
Proof.
  intros W K Hpos. destruct (axiom_operands a position W) as (l & Hl & Hin). unfold axiom_has_primitive.
  apply N.eqb_neq in Hpos. rewrite Hpos, Hl. unfold as_ires.
  assert (Hw : forall x, In x l -> exists s, wt s x = true) by (intros x Hx; eapply wt_operand; eauto; now apply Hin).
  assert (Hgen : (exists op, In op l /\ mentions p op) /\ deliver (operand_has_primitive p) l false = (false, 1%Z) \/
                 (~ (exists op, In op l /\ mentions p op)) /\ deliver (operand_has_primitive p) l false = (false, 0%Z)).
  { clear Hin Hl. induction l as [|x l IH].
    - right. split; auto. intros (x & [] & _).
    - simpl. unfold operand_has_primitive at 1 3.
      destruct (prim_eqb x p) eqn:E.
      + left. split; auto. rewrite prim_eqb_sym in E. apply (prim_eqb_eq _ _ _ K) in E. subst.
        exists p. split; [simpl; auto|]. eapply mentions_here; eauto.
      + assert (Hx : well_formed x) by (apply Hw; simpl; auto).
        destruct (has_primitive_mentions x p k Hx K) as [[M ->]|[M ->]].
        * left. split; auto. exists x. simpl; auto.
        * simpl. destruct IH as [[(y & Hy & My) ->]|[N ->]].
          -- intros; apply Hw; simpl; auto.
          -- left. split; auto. exists y. simpl; auto.
          -- right. split; auto. intros (y & [<-|Hy] & My); [tauto|]. apply N; eauto. }
  destruct Hgen as [[(x & Hx & Mx) ->]|[N ->]]; simpl.
  - left. split; auto. exists x. split; auto. now apply Hin.
  - right. split; auto. intros (x & Hx & Mx). apply N. exists x. split; auto. now apply Hin.
Qed.

(** * Summary lemmas in the form of the properties *)

Lemma equals_sym_dup_free a b s s' : wt s a = true -> wt s' b = true -> same_order a b -> dup_free a -> dup_free b ->
  cowl_equals a b = cowl_equals b a.
Proof.
  intros Wa Wb So Da Db.
  assert (So' : same_order b a) by (destruct a, b; simpl in *; auto).
  apply eq_true_iff_eq. rewrite (equals_seq a b s s'), (equals_seq b a s' s); auto.
  split; apply seq_sym.
Qed.

Lemma iterate_all o l flags S (call : S -> obj -> S * ret) st : well_formed o -> occurrences o l ->
  (forall s x, snd (call s x) = COWL_CONTINUE) ->
  iterate_primitives call flags o st =
  IRet (fold_left (fun s x => fst (call s x)) (filter (enabled flags) l) st) COWL_OK.
Proof.
  intros [s W] Ho Hc. apply occurrences_det in Ho. subst l. rewrite (iterate_deliver o s W).
  generalize (filter (enabled flags) (occ o)). intros l. revert st.
  induction l as [|x l IH]; intros st; simpl; auto.
  specialize (Hc st x) as Hx. destruct (call st x) as [s1 r1]. simpl in Hx. subst r1. simpl. apply IH.
Qed.

Lemma occurrences_exists_unique o : exists! l, occurrences o l.
Proof. exists (occ o). split; [apply occ_occurrences|]. intros l H. symmetry. now apply occurrences_det. Qed.

Lemma has_primitive_decides o p k : well_formed o -> kind p = Some k -> decides (has_primitive o p) (mentions p o).
Proof. intros W K. exact (has_primitive_mentions o p k W K). Qed.

Lemma axiom_has_primitive_any a p k : is_axiom_object a -> kind p = Some k ->
  decides (axiom_has_primitive a p PS_ANY) (mentions p a).
Proof. intros W K. apply (has_primitive_mentions a p k); auto. now exists (SOne SAxiom). Qed.

Lemma operands_at_sequence fs position t opt n : (1 <= List.length fs <= 3)%nat ->
  operand_sequence (OComp t fs opt n) position (operands_at fs position).
Proof.
  intros Hl. simpl. unfold operands_at. rewrite flat_map_concat_map. eexists. split; [reflexivity|].
  destruct fs as [|a [|b [|c [|d fs]]]]; simpl in *; try lia; split; auto;
    intros [|[|[|i]]] f Hi; simpl in *; inversion Hi; subst; try (destruct i; discriminate);
    eexists; (split; [constructor|reflexivity]).
Qed.

Lemma axiom_iterate_operands a position : is_axiom_object a ->
  exists l, operand_sequence a position l /\
            delivers (fun S call s => iterate_operands call a position s) l /\
            (forall op, In op l <-> operand_at a op position).
Proof.
  intros W. destruct (axiom_comp a W) as (t & fs & opt & -> & _). exists (operands_at fs position). split; [|split].
  - unfold is_axiom_object in W. apply axiom_arity in W as [_ Hl]. now apply operands_at_sequence.
  - apply delivers_intro. intros. eapply iterate_operands_deliver; eauto.
  - intros op. eapply operands_at_spec; eauto.
Qed.

Lemma without_annots_dup_free a : dup_free a -> dup_free (without_annots a).
Proof. destruct a; simpl; tauto. Qed.

Lemma axiom_equals_structural a b : is_axiom_object a -> is_axiom_object b -> dup_free a -> dup_free b ->
  (axiom_equals a b true = true <-> seq a b) /\
  (axiom_equals a b false = true <-> seq (without_annots a) (without_annots b)).
Proof.
  intros Wa Wb Da Db. rewrite axiom_equals_full, axiom_equals_plain by auto.
  assert (So : forall a b, is_axiom_object a -> same_order a b).
  { intros x y W. eapply wt_one_same_order; eauto. }
  split; (eapply equals_seq; [| |apply So| |]);
    try apply without_annots_wt; try apply without_annots_dup_free; eauto using without_annots_wt.
Qed.
