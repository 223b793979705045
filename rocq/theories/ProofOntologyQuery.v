(** Queries on ontologies that fulfil the index invariant. *)

From Coq Require Import NArith ZArith List Bool Arith Lia Permutation Sorted.
From Verif Require Import Bytes ModelTypes ModelObject ModelHeader SpecObject SpecHeader.
From Verif Require Import ProofObject ProofIter ProofAxiom ProofHeader ModelOntology SpecOntology ProofOntology.
Import ListNotations.
Local Open Scope nat_scope.

(** * Delivery *)

Lemma called_record {A} l : forall (s s' : list A) r,
  called (fun s x => (s ++ [x], 0%Z)) s l s' r -> s' = s ++ l /\ r = 0%Z.
Proof.
  intros s s' r H. remember (fun (s : list A) x => (s ++ [x], 0%Z)) as call eqn:E.
  induction H as [s | s x s' r H N | s x s1 l s' r H C IH]; subst call.
  - now rewrite app_nil_r.
  - injection H as <- <-. now destruct N.
  - injection H as <-. destruct IH as [-> ->]. now rewrite <- app_assoc.
Qed.

Lemma delivers_unique {A} (run : forall S, (S -> A -> S * ret) -> S -> ires S) l m :
  delivers run l -> delivers run m -> l = m.
Proof.
  intros H1 H2.
  destruct (H1 (list A) (fun s x => (s ++ [x], 0%Z)) []) as (d1 & r1 & s1 & c1 & -> & C1 & R1 & N1).
  destruct (H2 (list A) (fun s x => (s ++ [x], 0%Z)) []) as (d2 & r2 & s2 & c2 & -> & C2 & R2 & N2).
  apply called_record in C1 as [-> ->]. apply called_record in C2 as [-> ->]. simpl in *.
  rewrite N1, N2 by auto. rewrite !app_nil_r. congruence.
Qed.

Lemma flat_map_single {A} (l : list A) : flat_map (fun x => [x]) l = l.
Proof. induction l; simpl; congruence. Qed.

Lemma ref_loop {S} (call : S -> ref -> S * ret) l s : iter_loop (ref_call call) l s = as_ires (deliver call l s).
Proof.
  rewrite (iter_loop_deliver call (ref_call call) (fun x => [x])).
  - now rewrite flat_map_single.
  - intros x s' _. unfold ref_call, as_ires. simpl. destruct (call s' x) as [s1 r]. simpl.
    destruct (should_stop r) eqn:E; auto. apply should_stop_false in E. now subst.
Qed.

Lemma iterate_axioms_deliver {S} (call : S -> ref -> S * ret) o s :
  iterate_axioms call o s = as_ires (deliver call (all_ax o) s).
Proof. unfold iterate_axioms, all_ax. apply iter_loop_deliver. intros t s' _. apply ref_loop. Qed.

Lemma contains_all o : contains o (all_ax o).
Proof. apply delivers_intro. intros. apply iterate_axioms_deliver. Qed.

Lemma contains_eq o l : contains o l -> l = all_ax o.
Proof. intros H. exact (delivers_unique _ _ _ H (contains_all o)). Qed.

Lemma of_type_deliver {S} (call : S -> ref -> S * ret) o t s :
  iterate_axioms_of_type call o t s = as_ires (deliver call (vec_data (tindex o t)) s).
Proof. apply ref_loop. Qed.

Lemma of_types_deliver {S} (call : S -> ref -> S * ret) o types l s : foreach_types types = Some l ->
  iterate_axioms_of_types call o types s = as_ires (deliver call (flat_map (fun t => vec_data (tindex o t)) l) s).
Proof. intros E. unfold iterate_axioms_of_types. rewrite E. apply iter_loop_deliver. intros t s' _. apply of_type_deliver. Qed.

Definition about_list (o : onto) (p : obj) : list ref :=
  vec_data (pindex (o_refs o) p) ++
  match p with OEnt _ ns rem => vec_data (pindex (o_refs o) (OIri ns rem)) | _ => [] end.

Lemma for_primitive_deliver {S} (call : S -> ref -> S * ret) o p s :
  iterate_axioms_for_primitive call o p s = as_ires (deliver call (about_list o p) s).
Proof.
  unfold iterate_axioms_for_primitive, about_list. rewrite ref_loop, deliver_app. unfold as_ires at 1.
  destruct (deliver call (vec_data (pindex (o_refs o) p)) s) as [s' r]. simpl.
  destruct (should_stop r); [reflexivity|]. destruct p; try reflexivity. apply ref_loop.
Qed.

(** * Counting *)

Open Scope N_scope.
Lemma mod_add_sum w (f : N -> N) l c : c < 2 ^ w ->
  fold_left (fun c t => (c + f t) mod 2 ^ w) l c = (c + fold_right (fun t n => f t + n) 0 l) mod 2 ^ w.
Proof.
  assert (W : 2 ^ w <> 0) by (apply N.pow_nonzero; lia).
  revert c. induction l as [|t l IH]; intros c Hc; simpl.
  - now rewrite N.add_0_r, N.mod_small.
  - rewrite IH by (now apply N.mod_lt). rewrite N.add_mod_idemp_l by auto. f_equal. lia.
Qed.
Close Scope N_scope.

Lemma sum_length (o : onto) l :
  fold_right (fun t n => N.of_nat (vec_count (tindex o t)) + n)%N 0%N l =
  N.of_nat (length (flat_map (fun t => vec_data (tindex o t)) l)).
Proof. induction l; simpl; auto. rewrite app_length, IHl. unfold vec_count. lia. Qed.

Lemma pow_pos w : (0 < 2 ^ w)%N.
Proof. assert (2 ^ w <> 0)%N by (apply N.pow_nonzero; lia). lia. Qed.

Lemma axiom_count_spec w o : axiom_count w o = (N.of_nat (length (all_ax o)) mod 2 ^ w)%N.
Proof.
  unfold axiom_count. rewrite (mod_add_sum w (fun t => N.of_nat (vec_count (tindex o t)))) by apply pow_pos.
  rewrite sum_length. reflexivity.
Qed.

Lemma count_for_types_spec w o types l : foreach_types types = Some l ->
  count_for_types w o types = Some (N.of_nat (length (flat_map (fun t => vec_data (tindex o t)) l)) mod 2 ^ w)%N.
Proof.
  intros E. unfold count_for_types. rewrite E. f_equal.
  rewrite (mod_add_sum w (fun t => N.of_nat (count_for_type o t))) by apply pow_pos.
  unfold count_for_type. now rewrite sum_length.
Qed.

Lemma count_for_primitive_spec w o p : count_for_primitive w o p = (N.of_nat (length (about_list o p)) mod 2 ^ w)%N.
Proof.
  unfold count_for_primitive, about_list, uint, vec_count. rewrite app_length. destruct p; simpl; rewrite ?Nat.add_0_r; reflexivity.
Qed.

(** Axioms of some types. *)
Lemma types_filter heap o ts : Inv heap o -> NoDup ts -> (forall t, In t ts -> (t < 37)%N) ->
  forall sel : N -> bool, (forall t, (t < 37)%N -> (sel t = true <-> In t ts)) ->
  Permutation (flat_map (fun t => vec_data (tindex o t)) ts) (filter (fun a => sel (ax_type (r_obj a))) (all_ax o)).
Proof.
  intros I ND B sel Hs.
  assert (E : filter (fun a => sel (ax_type (r_obj a))) (all_ax o) =
              flat_map (fun t => vec_data (tindex o t)) (filter sel all_axiom_types)).
  { unfold all_ax. induction all_axiom_types as [|t l IH]; auto. simpl. rewrite filter_app, IH.
    assert (Q : filter (fun a => sel (ax_type (r_obj a))) (vec_data (tindex o t)) =
                if sel t then vec_data (tindex o t) else []).
    { assert (T : forall a, In a (vec_data (tindex o t)) -> ax_type (r_obj a) = t) by (intros a Ha; now apply (inv_types _ _ I)).
      induction (vec_data (tindex o t)) as [|a v IHv]; simpl; [now destruct (sel t)|].
      rewrite (T a) by (simpl; auto). rewrite IHv by (intros; apply T; simpl; auto). now destruct (sel t). }
    rewrite Q. destruct (sel t); auto. }
  rewrite E. apply flat_map_perm. apply NoDup_Permutation; auto.
  - apply NoDup_filter, all_axiom_types_nodup.
  - intros t. rewrite filter_In, all_axiom_types_in. split.
    + intros Ht. split; auto. apply Hs; auto.
    + intros [Ht Hsel]. now apply Hs in Hsel.
Qed.

Lemma of_types_filter heap o types l : Inv heap o -> foreach_types types = Some l ->
  Permutation (flat_map (fun t => vec_data (tindex o t)) l)
              (filter (fun a => N.testbit types (ax_type (r_obj a))) (all_ax o)).
Proof.
  intros I E. destruct (foreach_types_spec types) as (l' & E' & H & SS). rewrite E in E'. injection E' as <-.
  apply (types_filter heap o l I).
  - now apply in_sorted_unique.
  - intros t Ht. now apply H.
  - intros t Ht. rewrite H. unfold in_set. tauto.
Qed.

(** * Equality and mentions *)

Lemma equals_occ a : forall b p, cowl_equals a b = true -> In p (occ a) -> In p (occ b).
Proof.
  induction a as [i s|n r|e n r|i|v n r|v l|ord l IH|t fs opt n IHf IHo] using obj_ind'; intros b p E H.
  - destruct H.
  - rewrite (prim_eqb_kind (OIri n r) b PT_IRI eq_refl E). exact H.
  - rewrite (prim_eqb_kind (OEnt e n r) b (PT_ENT e) eq_refl E). exact H.
  - rewrite (prim_eqb_kind (OAnon i) b PT_ANON_IND eq_refl E). exact H.
  - destruct b; simpl in E; try discriminate; try (destruct (negb _); discriminate).
    apply andb_true_iff in E as [E _]. apply andb_true_iff in E as [E1 E2].
    apply bytes_eqb_eq in E1, E2. now subst.
  - destruct b; simpl in E; try discriminate; try (destruct (negb _); discriminate). exact H.
  - destruct b as [| | | | | |ord' l'|]; simpl in E; try discriminate; try (destruct (negb _); discriminate).
    simpl in H |- *. apply in_flat_map in H as (x & Hx & H). rewrite Forall_forall in IH.
    apply in_flat_map. destruct ord.
    + apply andb_true_iff in E as [_ E]. apply forall2b_Forall2 in E.
      destruct (Forall2_in_l _ _ _ x E Hx) as (y & Hy & E'). exists y. split; auto. now apply (IH x Hx).
    + apply andb_true_iff in E as [_ E]. rewrite forallb_forall in E. specialize (E x Hx).
      apply existsb_exists in E as (y & Hy & E'). exists y. split; auto. now apply (IH x Hx).
  - apply comp_equals_inv in E. destruct b as [| | | | | | |t' gs opt' k]; try easy. destruct E as [-> E].
    unfold comp_equals in E. rewrite Forall_forall in IHf.
    assert (F : forall2b cowl_equals fs gs = true -> forall q, In q (flat_map occ fs) -> In q (flat_map occ gs)).
    { intros E' q Hq. apply in_flat_map in Hq as (x & Hx & Hq). apply forall2b_Forall2 in E'.
      destruct (Forall2_in_l _ _ _ x E' Hx) as (y & Hy & E''). apply in_flat_map. exists y. split; auto. now apply (IHf x Hx). }
    cbn [occ] in H |- *. apply in_app_iff. apply in_app_iff in H. apply andb_true_iff in E as [E _].
    destruct opt as [q|], opt' as [q'|]; try discriminate.
    + apply andb_true_iff in E as [E1 E2]. destruct H as [H|H]; [left; now apply F | right; now apply (IHo q eq_refl)].
    + destruct H as [H|H]; [left; now apply F | right; exact H].
Qed.

(** * Choosing an index *)

Definition best_step (m : list (obj * option (list ref))) (c : best_ctx) (p : obj) : best_ctx :=
  fst (best_pindex_foreach m c p).

Lemma best_fold m l : forall c,
  (exists p, b_prim c = Some p /\ b_index c = pindex m p /\ b_count c = Some (vec_count (pindex m p))) \/
  (b_count c = None /\ b_prim c = None /\ b_index c = None) ->
  let d := fold_left (best_step m) l c in
  (d = c \/ exists p, In p l /\ b_prim d = Some p /\ b_index d = pindex m p /\ b_count d = Some (vec_count (pindex m p))) /\
  (b_count c = None -> l <> [] -> b_prim d <> None).
Proof.
  induction l as [|q l IH]; intros c Hc; simpl.
  - split; [auto|congruence].
  - assert (Q : best_step m c q = c /\ b_count c <> None \/ best_step m c q = mkBest (Some (vec_count (pindex m q))) (Some q) (pindex m q)).
    { unfold best_step, best_pindex_foreach. destruct (b_count c) as [n|]; simpl; auto.
      destruct (vec_count (pindex m q) <? n); simpl; auto. left. split; auto. discriminate. }
    destruct Q as [[Q Q']|Q]; rewrite Q.
    + destruct (IH c Hc) as [[H|(p & Hp & H)] H']; split; auto; try congruence.
      right. exists p. auto.
    + destruct (IH (mkBest (Some (vec_count (pindex m q))) (Some q) (pindex m q))) as [[H|(p & Hp & H1 & H2 & H3)] H'].
      * left. exists q. auto.
      * split; [right; exists q; rewrite H; auto|]. intros _ _. rewrite H. discriminate.
      * split; [right; exists p; auto|]. intros _ _. rewrite H1. discriminate.
Qed.

Lemma best_pindex_spec m x l :
  (forall S (call : S -> obj -> S * ret) st, (forall s y, snd (call s y) = COWL_CONTINUE) ->
    iterate_primitives call PF_ALL x st = IRet (fold_left (fun s y => fst (call s y)) l st) COWL_OK) ->
  exists c, best_pindex m x = Some c /\
    (l = [] /\ b_prim c = None /\ b_index c = None \/
     exists p, In p l /\ b_prim c = Some p /\ b_index c = pindex m p).
Proof.
  intros H. unfold best_pindex. rewrite H.
  - eexists. split; [reflexivity|].
    destruct (best_fold m l (mkBest None None None)) as [[E|(p & Hp & E1 & E2 & _)] N]; auto.
    + change (fold_left (fun s y => fst (best_pindex_foreach m s y)) l (mkBest None None None))
        with (fold_left (best_step m) l (mkBest None None None)). rewrite E. simpl.
      destruct l as [|q l]; auto. exfalso. apply N; try easy. now rewrite E.
    + right. exists p. auto.
  - intros s y. unfold best_pindex_foreach. destruct (match b_count s with None => true | Some n => _ end); reflexivity.
Qed.

Lemma best_pindex_obj m x : well_formed x -> exists c, best_pindex m x = Some c /\
  (occ x = [] /\ b_prim c = None /\ b_index c = None \/
   exists p, In p (occ x) /\ b_prim c = Some p /\ b_index c = pindex m p).
Proof. intros W. apply best_pindex_spec. intros. now apply iterate_fold. Qed.

Lemma kind_wt p k : kind p = Some k -> exists s, wt s p = true.
Proof.
  destruct p; simpl; try discriminate; intros _.
  - exists (SOne SIri). reflexivity.
  - exists (SOne SEntity). now destruct e.
  - exists (SOne SInd). reflexivity.
Qed.

Lemma occ_self p k : kind p = Some k -> occ p = [p].
Proof. destruct p; simpl; try discriminate; auto. Qed.

Lemma flat_map_occ_prims l : prims l -> flat_map occ l = l.
Proof.
  induction l as [|p l IH]; intros H; auto. simpl. destruct (H p) as [k K]; [simpl; auto|].
  rewrite (occ_self p k K), IH; auto. intros q Hq. apply H. simpl; auto.
Qed.

Lemma iterate_vec_prims {S} (call : S -> obj -> S * ret) l st : prims l ->
  iterate_primitives call PF_ALL (OVec false l) st = as_ires (deliver call l st).
Proof.
  intros H. cbn [iterate_primitives].
  rewrite (iter_loop_deliver call (fun x s => iterate_primitives call PF_ALL x s) (fun x => [x])).
  - now rewrite flat_map_single.
  - intros x s Hx. destruct (H x Hx) as [k K]. destruct (kind_wt x k K) as [ss W].
    rewrite (iterate_deliver x ss W), (occ_self x k K). simpl. now rewrite (enabled_all x k K).
Qed.

Lemma deliver_fold {S A} (call : S -> A -> S * ret) l : (forall s y, snd (call s y) = COWL_CONTINUE) ->
  forall st, deliver call l st = (fold_left (fun s y => fst (call s y)) l st, 0%Z).
Proof.
  intros H. induction l as [|x l IH]; intros st; auto. simpl. specialize (H st x).
  destruct (call st x) as [s r] eqn:E. simpl in *. subst r. apply IH.
Qed.

Lemma best_pindex_prims m l : prims l -> exists c, best_pindex m (OVec false l) = Some c /\
  (l = [] /\ b_prim c = None /\ b_index c = None \/
   exists p, In p l /\ b_prim c = Some p /\ b_index c = pindex m p).
Proof.
  intros H. apply best_pindex_spec. intros S call st Hc. rewrite iterate_vec_prims by auto.
  now rewrite deliver_fold.
Qed.

(** * Membership of an axiom *)

Lemma axiom_not_primitive x : is_axiom_object x -> is_primitive x = false.
Proof.
  intros H. destruct (axiom_comp x H) as (t & fs & opt & -> & _).
  apply (is_primitive_kind_none _ (SOne SAxiom)); auto.
Qed.

Lemma equals_type a b : cowl_equals a b = true -> get_type a = get_type b.
Proof.
  intros E. destruct a; cbn [cowl_equals] in E;
  match type of E with (if negb (otype_eqb ?x ?y) then _ else _) = _ => destruct (otype_eqb x y) eqn:T; [|discriminate] end;
  now apply otype_eqb_eq in T.
Qed.

Lemma best_index_axiom heap o x : Inv heap o -> is_axiom_object x ->
  exists i, best_index o x (ax_type x) = Some i /\
    (forall b, In b (vec_data i) -> In b (all_ax o)) /\
    (forall b, In b (all_ax o) -> cowl_equals x (r_obj b) = true -> In b (vec_data i)) /\
    (i <> None -> tindex o (ax_type x) <> None).
Proof.
  intros I W. unfold best_index. pose proof (ax_type_bound x W) as B.
  assert (L : N.ltb (ax_type x) AT_COUNT = true) by (apply N.ltb_lt; exact B). rewrite L.
  assert (T : forall b, In b (all_ax o) -> cowl_equals x (r_obj b) = true -> In b (vec_data (tindex o (ax_type x)))).
  { intros b Hb E. apply equals_type in E. unfold ax_type. rewrite E. now apply (all_ax_in o heap b I). }
  destruct (tindex o (ax_type x)) as [v|] eqn:Ev.
  2:{ exists None. split; auto. simpl. repeat split; try easy. }
  rewrite (axiom_not_primitive x W).
  assert (V : forall b, In b v -> In b (all_ax o)).
  { intros b Hb. apply (in_all_ax o (ax_type x)); auto. now rewrite Ev. }
  destruct (best_pindex_obj (o_refs o) x (axiom_wf x W)) as (c & Ec & Hc). rewrite Ec.
  eexists. split; [reflexivity|]. rewrite <- and_assoc. split; [|discriminate].
  unfold best_index_between.
  destruct Hc as [(_ & _ & Hi)|(p & Hp & _ & Hi)]; rewrite Hi.
  - simpl. auto.
  - destruct (pindex (o_refs o) p) as [vp|] eqn:Ep; [|simpl; auto].
    destruct (vec_count (Some vp) <? vec_count (Some v)); [|simpl; auto]. simpl.
    destruct (occ_prims x p Hp) as [k K]. pose proof (inv_index _ _ I p k K) as H.
    destruct (o_indexing o); [|congruence]. rewrite Ep in H. simpl in H. split.
    + intros b Hb. eapply Permutation_in in Hb; [|exact H]. now apply expand_in in Hb.
    + intros b Hb E. eapply Permutation_in; [symmetry; exact H|]. apply expand_in. split; auto.
      apply (cnt_mentions p k); auto. apply mentions_occ. split; eauto. eapply equals_occ; eauto.
Qed.

Lemma has_axiom_spec heap o a : Inv heap o -> is_axiom_object (r_obj a) ->
  decides (has_axiom o a) (exists b, In b (all_ax o) /\ cowl_equals (r_obj a) (r_obj b) = true).
Proof.
  intros I W. unfold has_axiom. destruct (best_index_axiom heap o (r_obj a) I W) as (i & -> & H1 & H2 & _).
  destruct i as [v|].
  - apply decides_of. unfold vec_contains. rewrite existsb_exists. split.
    + intros (b & Hb & E). exists b. auto.
    + intros (b & Hb & E). exists b. auto.
  - apply (decides_of false). split; [discriminate|]. intros (b & Hb & E). destruct (H2 b Hb E).
Qed.

Lemma heap_eq heap a b : r_obj a = heap (r_id a) -> r_obj b = heap (r_id b) -> r_id a = r_id b -> a = b.
Proof. destruct a, b; simpl. intros -> -> ->. reflexivity. Qed.

(** The three cases of removal. *)
Lemma remove_axiom_spec heap o a : Inv heap o -> is_axiom_object (r_obj a) -> r_obj a = heap (r_id a) ->
  (In a (all_ax o) /\ exists o', remove_axiom o a = Some (o', true, [Release (r_id a)]) /\
     remove_and_unindex o a = Some (o', [Release (r_id a)])) \/
  (~ In a (all_ax o) /\ (exists b, In b (all_ax o) /\ cowl_equals (r_obj a) (r_obj b) = true) /\
     exists o' v, remove_axiom o a = Some (o', true, [Release (r_id a)]) /\
     remove_and_unindex o a = Some (o', [Release (r_id a)]) /\
     tindex o (ax_type (r_obj a)) = Some v /\ (forall b, In b (all_ax o) -> r_id b <> r_id a)) \/
  ((forall b, In b (all_ax o) -> cowl_equals (r_obj a) (r_obj b) = false) /\ remove_axiom o a = Some (o, false, [])).
Proof.
  intros I W C. unfold remove_axiom. destruct (best_index_axiom heap o (r_obj a) I W) as (i & -> & H1 & H2 & H3).
  destruct i as [v|].
  2:{ right. right. split; auto. intros b Hb. destruct (cowl_equals (r_obj a) (r_obj b)) eqn:E; auto. destruct (H2 b Hb E). }
  destruct (existsb (fun y => cowl_equals (r_obj a) (r_obj y)) (rev v)) eqn:E.
  - apply existsb_exists in E as (b & Hb & E). apply in_rev in Hb. specialize (H1 b Hb).
    destruct (last_index (all_ax o) (r_id a)) as [n|] eqn:L.
    + left. apply last_index_some in L as (y & L1 & L2 & _). apply nth_error_In in L1.
      assert (y = a) as -> by exact (heap_eq heap y a (all_ax_coh heap o I y L1) C L2).
      split; auto. destruct (remove_and_unindex_in heap o a I L1) as (o' & R & _). exists o'. now rewrite R.
    + right. left. pose proof (proj1 (last_index_none _ _) L) as N. split; [intros H; exact (N a H eq_refl)|].
      split; [eauto|]. destruct (tindex o (ax_type (r_obj a))) as [tv|] eqn:T; [|exfalso; now apply H3].
      destruct (remove_and_unindex_out heap o a tv I W T N) as (o' & R & _). exists o', tv. now rewrite R.
  - right. right. split; auto. intros b Hb. destruct (cowl_equals (r_obj a) (r_obj b)) eqn:E'; auto.
    exfalso. assert (X : existsb (fun y => cowl_equals (r_obj a) (r_obj y)) (rev v) = true); [|congruence].
    apply existsb_exists. exists b. split; auto. rewrite <- in_rev. auto.
Qed.

(** * Filters *)

Definition matchb (f : afilter) (a : ref) : bool :=
  match filter_matches f a with Some b => b | None => false end.

Lemma matches_primitives_spec a l : prims l -> well_formed (r_obj a) ->
  decides (matches_primitives l a) (forall p, In p l -> mentions p (r_obj a)).
Proof.
  intros H W. induction l as [|p l IH].
  - apply (decides_of true). split; auto. now intros _ p [].
  - simpl. destruct (H p) as [k K]; [simpl; auto|].
    destruct (has_primitive_decides (r_obj a) p k W K) as [[M ->]|[M ->]].
    + destruct IH as [[X ->]|[X ->]]; [intros q Hq; apply H; simpl; auto| |].
      * left. split; auto. intros q [<-|Hq]; auto.
      * right. split; auto.
    + right. split; auto.
Qed.

Lemma af_all_num : AF_ALL = N.ones 37. Proof. reflexivity. Qed.

Lemma matches_types_spec f a : is_axiom_object (r_obj a) ->
  (matches_types f a = true <-> N.testbit (f_types f) (ax_type (r_obj a)) = true).
Proof.
  intros W. unfold matches_types. rewrite orb_true_iff, N.eqb_eq, af_has_spec. unfold in_set. split; [|auto].
  intros [->|H]; auto. rewrite af_all_bits. apply N.ltb_lt. now apply ax_type_bound.
Qed.

Lemma filter_matches_spec f a : prims (f_prims f) -> is_axiom_object (r_obj a) ->
  filter_matches f a = Some (matchb f a) /\ (matchb f a = true <-> satisfies f a).
Proof.
  intros H W. unfold matchb, filter_matches, satisfies.
  pose proof (matches_types_spec f a W) as T. destruct (matches_types f a).
  - destruct (matches_primitives_spec a (f_prims f) H (axiom_wf _ W)) as [[X ->]|[X ->]].
    + split; auto. unfold matches_closure. destruct (f_closure f) as [c|].
      * split.
        -- intros Hc. split; [now apply T|]. split; auto. now intros c' [= <-].
        -- intros (_ & _ & Hc). auto.
      * split; auto. intros _. split; [now apply T|]. split; auto. discriminate.
    + split; auto. split; [discriminate|]. intros (_ & Y & _). now destruct X.
  - split; auto. split; [discriminate|]. intros (X & _). apply T in X. discriminate.
Qed.

Lemma matching_deliver {S} (call : S -> ref -> S * ret) f l :
  (forall a, In a l -> filter_matches f a = Some (matchb f a)) -> forall s,
  strip (as_ires (deliver (matching_foreach call f) l (false, s))) = as_ires (deliver call (filter (matchb f) l) s).
Proof.
  induction l as [|a l IH]; intros H s; auto. cbn [deliver filter].
  assert (M : matching_foreach call f (false, s) a =
              if matchb f a then let (s', r) := call s a in ((false, s'), r) else ((false, s), 0%Z)).
  { unfold matching_foreach. rewrite (H a) by (simpl; auto). now destruct (matchb f a). }
  rewrite M. destruct (matchb f a).
  - cbn [deliver]. destruct (call s a) as [s' r] eqn:E. destruct (should_stop r); auto.
    apply IH. intros; apply H; simpl; auto.
  - apply IH. intros; apply H; simpl; auto.
Qed.

Lemma remove_prim_in l p k q : kind p = Some k -> NoDup l -> (In q (remove_prim l p) <-> In q l /\ q <> p).
Proof.
  intros K. induction l as [|x l IH]; intros N; simpl; [tauto|]. inversion N as [|y m N1 N2]; subst.
  destruct (prim_eqb p x) eqn:E.
  - apply (prim_eqb_eq _ _ k K) in E. subst x. split; [|intuition congruence]. intros Hq. split; auto. intros ->. auto.
  - simpl. rewrite IH by auto. assert (x <> p) by (intros ->; rewrite (prim_eqb_refl p k K) in E; discriminate).
    intuition congruence.
Qed.

Lemma remove_prim_incl l p q : In q (remove_prim l p) -> In q l.
Proof. induction l as [|x l IH]; simpl; auto. destruct (prim_eqb p x); simpl; intuition. Qed.

Lemma remove_prim_or l p k q : kind p = Some k -> In q l -> q = p \/ In q (remove_prim l p).
Proof.
  intros K. induction l as [|x l IH]; simpl; [tauto|]. destruct (prim_eqb p x) eqn:E.
  - apply (prim_eqb_eq _ _ k K) in E. subst x. intuition.
  - simpl. intuition.
Qed.

(** What the choice of an index for a filter gives. *)
Lemma best_filter_spec heap w o f : Inv heap o -> o_indexing o = true -> prims (f_prims f) ->
  exists g best, best_pindex_for_filter w o f = Some (g, best) /\ f_closure g = f_closure f /\
  match best with
  | None =>
      f_prims g = f_prims f /\
      ((f_types g = AF_NONE /\ (f_prims f <> [] -> forall a, In a (all_ax o) -> ~ satisfies f a)) \/
       (f_prims f <> [] /\ f_types g = f_types f /\ f_types f <> AF_NONE /\ f_types f <> AF_ALL))
  | Some p =>
      In p (f_prims f) /\ f_prims g = remove_prim (f_prims f) p /\ pindex (o_refs o) p <> None /\
      f_types g <> AF_NONE /\
      forall t, (t < 37)%N -> N.testbit (f_types g) t = N.testbit (f_types f) t
  end.
Proof.
  intros I Ind H. unfold best_pindex_for_filter.
  destruct (best_pindex_prims (o_refs o) (f_prims f) H) as (c & -> & Hc).
  destruct (Nat.eqb (vec_count (b_index c)) 0 || af_has_none (f_types f)) eqn:E.
  - eexists _, None. split; [reflexivity|]. split; [reflexivity|]. split; [reflexivity|]. left. split; [reflexivity|].
    intros NE a Ha (S1 & S2 & _). destruct (all_ax_in o heap a I Ha) as (_ & W & _). apply orb_true_iff in E as [E|E].
    + apply Nat.eqb_eq in E. destruct Hc as [(X & _)|(p & Hp & _ & Hi)]; [now apply NE in X|].
      destruct (H p Hp) as [k K]. pose proof (inv_index _ _ I p k K) as P. rewrite Ind in P.
      assert (X : In a (vec_data (pindex (o_refs o) p))).
      { eapply Permutation_in; [symmetry; exact P|]. apply expand_in. split; auto. apply (cnt_mentions p k); auto. }
      rewrite Hi in E. unfold vec_count in E. destruct (vec_data (pindex (o_refs o) p)); [destruct X|discriminate].
    + rewrite af_has_none_spec in E. apply (E (ax_type (r_obj a))); [now apply ax_type_bound|exact S1].
  - apply orb_false_iff in E as [E1 E2]. apply Nat.eqb_neq in E1.
    destruct Hc as [(_ & _ & Hi)|(p & Hp & Hb & Hi)]; [rewrite Hi in E1; now destruct E1|].
    assert (NP : pindex (o_refs o) p <> None) by (rewrite Hi in E1; intros X; rewrite X in E1; now destruct E1).
    assert (NZ : f_types f <> AF_NONE) by (intros X; rewrite X in E2; vm_compute in E2; discriminate).
    rewrite Hb. destruct (af_has_all (f_types f)) eqn:E3.
    + eexists _, (Some p). split; [reflexivity|]. split; [reflexivity|]. cbn [f_prims f_types].
      split; auto. split; auto. split; auto. split; [discriminate|]. intros t Ht. rewrite af_all_bits.
      apply (proj1 (af_has_all_spec (f_types f)) E3) in Ht as X. unfold in_set in X. rewrite X. now apply N.ltb_lt.
    + destruct (foreach_types_spec (f_types f)) as (l & El & _). rewrite (count_for_types_spec w o _ l El).
      match goal with |- context [if N.ltb ?x ?y then _ else _] => destruct (N.ltb x y) end.
      * eexists _, None. split; [reflexivity|]. split; [reflexivity|]. cbn [f_prims f_types]. split; auto.
        right. split; [intros X; rewrite X in Hp; destruct Hp|]. split; auto. split; auto.
        intros X. rewrite X in E3. vm_compute in E3. discriminate.
      * eexists _, (Some p). split; [reflexivity|]. split; [reflexivity|]. cbn [f_prims f_types].
        split; auto.
Qed.
