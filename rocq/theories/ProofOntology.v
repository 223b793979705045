(** The index invariant of ontologies and its preservation by every edit. *)

From Coq Require Import NArith ZArith List Bool Arith Lia Permutation Sorted.
From Verif Require Import Bytes ModelTypes ModelObject ModelHeader SpecObject SpecHeader.
From Verif Require Import ProofObject ProofIter ProofAxiom ProofHeader ModelOntology SpecOntology.
Import ListNotations.
Local Open Scope nat_scope.

(** * Occurrences *)


Lemma occ_prims o : prims (occ o).
Proof.
  assert (H : forall l, occurrences o l -> prims l).
  { revert o. fix IH 3. intros o l H. destruct H as [o k K | o ls K F].
    - intros p [<- | []]. eauto.
    - revert ls F. generalize (components o) as cs.
      fix IH2 3. intros cs ls F. destruct F as [| c m cs ls H F]; simpl; [now intros p []|].
      intros p [Hp | Hp] % in_app_iff; [exact (IH _ _ H p Hp) | exact (IH2 _ _ F p Hp)]. }
  apply H, occ_occurrences.
Qed.

Definition cnt (p : obj) (l : list obj) : nat := length (filter (prim_eqb p) l).

Lemma filter_id {A} (f : A -> bool) l : (forall x, In x l -> f x = true) -> filter f l = l.
Proof. induction l as [|x l IH]; simpl; intros H; auto. rewrite H, IH; auto. Qed.

Lemma enabled_all p k : kind p = Some k -> enabled PF_ALL p = true.
Proof. destruct p; simpl; try discriminate; intros _; [reflexivity| |reflexivity]. now destruct e. Qed.

Lemma occ_enabled o : filter (enabled PF_ALL) (occ o) = occ o.
Proof. apply filter_id. intros p H. destruct (occ_prims o p H) as [k K]. eapply enabled_all, K. Qed.

Lemma iterate_fold {S} o (call : S -> obj -> S * ret) st : well_formed o ->
  (forall s x, snd (call s x) = COWL_CONTINUE) ->
  iterate_primitives call PF_ALL o st = IRet (fold_left (fun s x => fst (call s x)) (occ o) st) COWL_OK.
Proof.
  intros W H. rewrite (iterate_all o (occ o)); auto using occ_occurrences. now rewrite occ_enabled.
Qed.

Lemma cnt_mentions p k o : kind p = Some k -> (cnt p (occ o) <> 0 <-> mentions p o).
Proof.
  intros K. rewrite mentions_occ. unfold cnt. split.
  - intros H. split; eauto. destruct (filter (prim_eqb p) (occ o)) as [|q l] eqn:E; [easy|].
    assert (Hq : In q (filter (prim_eqb p) (occ o))) by (rewrite E; simpl; auto).
    apply filter_In in Hq as [Hq Hp]. apply (prim_eqb_eq _ _ k K) in Hp. now subst.
  - intros [_ H]. assert (Hq : In p (filter (prim_eqb p) (occ o))).
    { apply filter_In. split; auto. now apply (prim_eqb_refl p k). }
    destruct (filter (prim_eqb p) (occ o)); simpl; [destruct Hq|lia].
Qed.

Lemma times_cnt p k l n : kind p = Some k -> (times p l n <-> cnt p l = n).
Proof.
  intros K. unfold cnt. revert n. induction l as [|q l IH]; intros n; simpl.
  - split; [now inversion 1 | intros <-; constructor].
  - destruct (prim_eqb p q) eqn:E; simpl.
    + apply (prim_eqb_eq _ _ k K) in E. subst q. split.
      * inversion 1; subst; [f_equal; now apply IH | congruence].
      * destruct n; [discriminate|]. injection 1 as H. constructor. now apply IH.
    + assert (N : q <> p) by (intros ->; rewrite (prim_eqb_refl p k K) in E; discriminate). split.
      * inversion 1; subst; [congruence | now apply IH].
      * intros H. constructor; auto. now apply IH.
Qed.

Lemma occurs_cnt p k o n : kind p = Some k -> (occurs p o n <-> cnt p (occ o) = n).
Proof.
  intros K. unfold occurs. split.
  - intros (l & Hl & Ht). apply occurrences_det in Hl. subst. now apply (times_cnt p k).
  - intros H. exists (occ o). split; [apply occ_occurrences|]. now apply (times_cnt p k).
Qed.

(** * Maps *)

Definition keys (m : list (obj * option (list ref))) : list obj := map fst m.

Lemma map_get_in m p k : kind p = Some k -> (map_get m p <> None <-> In p (keys m)).
Proof.
  intros K. induction m as [|[q v] m IH]; simpl; [easy|].
  rewrite prim_eqb_sym. destruct (prim_eqb p q) eqn:E.
  - apply (prim_eqb_eq _ _ k K) in E. subst. split; [auto|discriminate].
  - rewrite IH. split; auto. intros [->|]; auto. now rewrite (prim_eqb_refl p k K) in E.
Qed.

Lemma map_get_set_same m q k v : kind q = Some k -> map_get m q <> None -> map_get (map_set m q v) q = Some v.
Proof.
  intros K. induction m as [|[r w] m IH]; simpl; [easy|].
  destruct (prim_eqb r q) eqn:E; simpl; rewrite E; auto.
Qed.

Lemma map_get_set_other m q v p k : kind q = Some k -> prim_eqb q p = false -> map_get (map_set m q v) p = map_get m p.
Proof.
  intros K N. induction m as [|[r w] m IH]; simpl; [easy|].
  destruct (prim_eqb r q) eqn:E; simpl; [|now rewrite IH].
  rewrite prim_eqb_sym in E. apply (prim_eqb_eq _ _ k K) in E. subst. now rewrite N.
Qed.

Lemma keys_set m q v : keys (map_set m q v) = keys m.
Proof. induction m as [|[r w] m IH]; simpl; auto. destruct (prim_eqb r q); simpl; congruence. Qed.

Lemma map_get_app m q v p :
  map_get (m ++ [(q, v)]) p = match map_get m p with Some w => Some w | None => if prim_eqb q p then Some v else None end.
Proof. induction m as [|[r w] m IH]; simpl; auto. now destruct (prim_eqb r p). Qed.

Lemma type_get_set m t v u : type_get (type_set m t v) u = if N.eqb t u then Some v else type_get m u.
Proof.
  induction m as [|[k w] m IH]; simpl.
  - now destruct (N.eqb_spec t u).
  - destruct (N.eqb_spec k t) as [->|]; simpl.
    + now destruct (N.eqb_spec t u).
    + rewrite IH. destruct (N.eqb_spec k u) as [->|], (N.eqb_spec t u); congruence.
Qed.

(** * The two index updates *)

Lemma pindex_add a m q k p : kind q = Some k ->
  vec_data (pindex (fst (index_axiom_foreach a m q)) p) =
  vec_data (pindex m p) ++ (if prim_eqb q p then [a] else []).
Proof.
  intros K. unfold index_axiom_foreach, pindex. simpl. destruct (map_get m q) as [v|] eqn:E.
  - destruct (prim_eqb q p) eqn:Q.
    + apply (prim_eqb_eq _ _ k K) in Q. subst p. rewrite (map_get_set_same m q k); auto; [|congruence]. now rewrite E.
    + rewrite (map_get_set_other m q _ p k); auto. now rewrite app_nil_r.
  - rewrite map_get_app. destruct (prim_eqb q p) eqn:Q.
    + apply (prim_eqb_eq _ _ k K) in Q. subst p. now rewrite E.
    + destruct (map_get m p); now rewrite app_nil_r.
Qed.

Lemma cnt_cons p q l : cnt p (q :: l) = (if prim_eqb q p then 1 else 0) + cnt p l.
Proof. unfold cnt. simpl. rewrite prim_eqb_sym. now destruct (prim_eqb q p). Qed.

Lemma pindex_add_all a l : prims l -> forall m p,
  vec_data (pindex (fold_left (fun s x => fst (index_axiom_foreach a s x)) l m) p) =
  vec_data (pindex m p) ++ repeat a (cnt p l).
Proof.
  induction l as [|q l IH]; intros H m p.
  - now rewrite app_nil_r.
  - change (fold_left ?f (q :: l) m) with (fold_left f l (f m q)).
    rewrite IH by (intros x Hx; apply H; simpl; auto). destruct (H q) as [k K]; [simpl; auto|].
    rewrite (pindex_add a m q k p K), cnt_cons, <- app_assoc. now destruct (prim_eqb q p).
Qed.

Lemma keys_add_in a m q k : kind q = Some k ->
  (forall p, In p (keys (fst (index_axiom_foreach a m q))) <-> p = q \/ In p (keys m)) /\
  (NoDup (keys m) -> NoDup (keys (fst (index_axiom_foreach a m q)))).
Proof.
  intros K. unfold index_axiom_foreach. simpl. destruct (map_get m q) as [v|] eqn:E.
  - rewrite keys_set. split; auto. intros p. split; auto. intros [->|]; auto.
    apply (map_get_in m q k K). congruence.
  - unfold keys. rewrite map_app. simpl. split.
    + intros p. rewrite in_app_iff. simpl. intuition.
    + intros N. apply (Permutation_NoDup (Permutation_cons_append (map fst m) q)). constructor; auto.
      intros H. apply (map_get_in m q k K) in H. auto.
Qed.

Lemma keys_annot_in m q k : kind q = Some k ->
  (forall p, In p (keys (fst (add_annot_foreach m q))) <-> p = q \/ In p (keys m)) /\
  (NoDup (keys m) -> NoDup (keys (fst (add_annot_foreach m q)))).
Proof.
  intros K. unfold add_annot_foreach. simpl. destruct (map_get m q) as [v|] eqn:E.
  - split; auto. intros p. split; auto. intros [->|]; auto. apply (map_get_in m q k K). congruence.
  - unfold keys. rewrite map_app. simpl. split.
    + intros p. rewrite in_app_iff. simpl. intuition.
    + intros N. apply (Permutation_NoDup (Permutation_cons_append (map fst m) q)). constructor; auto.
      intros H. apply (map_get_in m q k K) in H. auto.
Qed.

Lemma keys_fold (f : list (obj * option (list ref)) -> obj -> list (obj * option (list ref)) * ret) l :
  (forall m q k, kind q = Some k ->
     (forall p, In p (keys (fst (f m q))) <-> p = q \/ In p (keys m)) /\
     (NoDup (keys m) -> NoDup (keys (fst (f m q))))) ->
  prims l -> forall m,
  (forall p, In p (keys (fold_left (fun s x => fst (f s x)) l m)) <-> In p l \/ In p (keys m)) /\
  (NoDup (keys m) -> NoDup (keys (fold_left (fun s x => fst (f s x)) l m))).
Proof.
  intros F. induction l as [|q l IH]; intros H m; simpl; [split; auto; intuition|].
  destruct (H q) as [k K]; [simpl; auto|]. destruct (F m q k K) as [F1 F2].
  destruct (IH (fun p Hp => H p (or_intror Hp)) (fst (f m q))) as [H1 H2]. split; auto.
  intros p. rewrite H1, F1. intuition.
Qed.

Lemma pindex_annot m q p k : kind q = Some k -> pindex (fst (add_annot_foreach m q)) p = pindex m p.
Proof.
  intros K. unfold add_annot_foreach, pindex. simpl. destruct (map_get m q) as [v|] eqn:E; auto.
  rewrite map_get_app. destruct (map_get m p); auto. now destruct (prim_eqb q p).
Qed.

Lemma pindex_annot_all l : prims l -> forall m p,
  pindex (fold_left (fun s x => fst (add_annot_foreach s x)) l m) p = pindex m p.
Proof.
  induction l as [|q l IH]; intros H m p; auto.
  change (fold_left ?f (q :: l) m) with (fold_left f l (f m q)).
  rewrite IH by (intros x Hx; apply H; simpl; auto). destruct (H q) as [k K]; [simpl; auto|].
  now apply (pindex_annot m q p k).
Qed.

Lemma pindex_del id m q k p : kind q = Some k ->
  vec_data (pindex (fst (unindex_foreach id m q)) p) =
  if prim_eqb q p then remove_ptr (vec_data (pindex m p)) id else vec_data (pindex m p).
Proof.
  intros K. unfold unindex_foreach, pindex. simpl. destruct (map_get m q) as [[v|]|] eqn:E.
  - destruct (prim_eqb q p) eqn:Q.
    + apply (prim_eqb_eq _ _ k K) in Q. subst p. rewrite (map_get_set_same m q k); auto; [|congruence]. now rewrite E.
    + now rewrite (map_get_set_other m q _ p k).
  - destruct (prim_eqb q p) eqn:Q; auto. apply (prim_eqb_eq _ _ k K) in Q. subst p. now rewrite E.
  - destruct (prim_eqb q p) eqn:Q; auto. apply (prim_eqb_eq _ _ k K) in Q. subst p. now rewrite E.
Qed.

Lemma pindex_del_none id m q k p : kind q = Some k -> pindex (fst (unindex_foreach id m q)) p = None <-> pindex m p = None.
Proof.
  intros K. unfold unindex_foreach, pindex. simpl. destruct (map_get m q) as [[v|]|] eqn:E; try tauto.
  destruct (prim_eqb q p) eqn:Q.
  - apply (prim_eqb_eq _ _ k K) in Q. subst p. rewrite (map_get_set_same m q k); auto; [|congruence]. rewrite E. split; discriminate.
  - now rewrite (map_get_set_other m q _ p k).
Qed.

Lemma iter_swap {A} (f : A -> A) n x : Nat.iter n f (f x) = f (Nat.iter n f x).
Proof. induction n; simpl; congruence. Qed.

Lemma iter_S {A} (f : A -> A) n x : Nat.iter (S n) f x = Nat.iter n f (f x).
Proof. simpl. now rewrite iter_swap. Qed.

Lemma pindex_del_all id l : prims l -> forall m p,
  vec_data (pindex (fold_left (fun s x => fst (unindex_foreach id s x)) l m) p) =
  Nat.iter (cnt p l) (fun v => remove_ptr v id) (vec_data (pindex m p)).
Proof.
  induction l as [|q l IH]; intros H m p; auto.
  change (fold_left ?f (q :: l) m) with (fold_left f l (f m q)).
  rewrite IH by (intros x Hx; apply H; simpl; auto). destruct (H q) as [k K]; [simpl; auto|].
  rewrite (pindex_del id m q k p K), cnt_cons. destruct (prim_eqb q p); auto. simpl.
  now rewrite (iter_swap (fun v => remove_ptr v id)).
Qed.

Lemma pindex_del_all_none id l : prims l -> forall m p,
  pindex (fold_left (fun s x => fst (unindex_foreach id s x)) l m) p = None <-> pindex m p = None.
Proof.
  induction l as [|q l IH]; intros H m p; [reflexivity|].
  change (fold_left ?f (q :: l) m) with (fold_left f l (f m q)).
  rewrite IH by (intros x Hx; apply H; simpl; auto). destruct (H q) as [k K]; [simpl; auto|].
  now apply (pindex_del_none id m q k p).
Qed.

Lemma keys_del id l : forall m, keys (fold_left (fun s x => fst (unindex_foreach id s x)) l m) = keys m.
Proof.
  induction l as [|q l IH]; intros m; auto.
  change (fold_left ?f (q :: l) m) with (fold_left f l (f m q)).
  rewrite IH. unfold unindex_foreach. simpl. destruct (pindex m q); auto. apply keys_set.
Qed.

(** * Removing one pointer *)

Lemma last_index_none l id : last_index l id = None <-> forall y, In y l -> r_id y <> id.
Proof.
  induction l as [|y l IH]; simpl; [easy|]. destruct (last_index l id) as [i|] eqn:E.
  - split; [discriminate|]. intros H. exfalso. assert (Some i = None); [|discriminate]. apply IH. auto.
  - destruct (N.eqb_spec (r_id y) id) as [e|n].
    + split; [discriminate|]. intros H. now specialize (H y (or_introl eq_refl)).
    + split; auto. intros _ z [<-|Hz]; auto. now apply IH.
Qed.

Lemma last_index_some l id i : last_index l id = Some i ->
  exists y, nth_error l i = Some y /\ r_id y = id /\ forall j z, i < j -> nth_error l j = Some z -> r_id z <> id.
Proof.
  revert i. induction l as [|y l IH]; simpl; [discriminate|]. intros i.
  destruct (last_index l id) as [i'|] eqn:E.
  - injection 1 as <-. destruct (IH i' eq_refl) as (z & H1 & H2 & H3). exists z. split; auto. split; auto.
    intros [|j] w Hj; [lia|]. simpl. apply H3. lia.
  - destruct (N.eqb_spec (r_id y) id) as [e|n]; [|discriminate]. injection 1 as <-. exists y. split; auto. split; auto.
    intros [|j] w Hj; [lia|]. simpl. intros Hw. apply nth_error_In in Hw. now apply (proj1 (last_index_none l id)).
Qed.

Lemma unordered_remove_perm l i y : nth_error l i = Some y -> Permutation l (y :: unordered_remove_at l i).
Proof.
  intros H. assert (Hi : i < length l) by (apply nth_error_Some; congruence).
  unfold unordered_remove_at. destruct (rev l) as [|z r] eqn:E.
  - apply (f_equal (@rev ref)) in E. rewrite rev_involutive in E. simpl in E. subst. simpl in Hi. lia.
  - assert (L : l = rev r ++ [z]).
    { apply (f_equal (@rev ref)) in E. rewrite rev_involutive in E. simpl in E. auto. }
    set (l' := rev r) in *. clearbody l'. rewrite L in H, Hi. rewrite L. rewrite app_length in *. cbn [length] in *.
    destruct (Nat.eqb_spec (S i) (length l' + 1)) as [e|n].
    + rewrite nth_error_app2 in H by lia. replace (i - length l') with 0 in H by lia. simpl in H. injection H as ->.
      rewrite Permutation_app_comm. reflexivity.
    + rewrite nth_error_app1 in H by lia. apply nth_error_split in H as (l1 & l2 & -> & Hl).
      rewrite firstn_app, skipn_app, Hl. replace (i - i) with 0 by lia. replace (S i - i) with 1 by lia.
      rewrite firstn_all2, skipn_all2 by lia. simpl. rewrite app_nil_r, <- app_assoc. simpl.
      rewrite <- (Permutation_middle l1 (l2 ++ [z])). apply perm_skip, Permutation_app_head.
      rewrite Permutation_app_comm. reflexivity.
Qed.

(** Pointers agree with a heap. *)
Definition coh (heap : N -> obj) (l : list ref) : Prop := forall a, In a l -> r_obj a = heap (r_id a).

Lemma coh_eq heap l a b : coh heap l -> In a l -> r_obj b = heap (r_id b) -> r_id a = r_id b -> a = b.
Proof. intros C Ha Hb E. destruct a as [i x], b as [j y]. simpl in *. subst j. f_equal. rewrite Hb. apply (C _ Ha). Qed.

Lemma remove_ptr_in heap l a : coh heap l -> In a l -> Permutation l (a :: remove_ptr l (r_id a)).
Proof.
  intros C Ha. unfold remove_ptr. destruct (last_index l (r_id a)) as [i|] eqn:E.
  - apply last_index_some in E as (y & H1 & H2 & _). assert (y = a) as ->.
    { refine (coh_eq heap l y a C _ (C a Ha) H2). eapply nth_error_In, H1. }
    now apply unordered_remove_perm.
  - exfalso. now apply (proj1 (last_index_none l (r_id a)) E a Ha).
Qed.

Lemma remove_ptr_out l id : (forall y, In y l -> r_id y <> id) -> remove_ptr l id = l.
Proof. intros H. unfold remove_ptr. apply last_index_none in H. now rewrite H. Qed.

Lemma coh_perm heap l m : Permutation l m -> coh heap l -> coh heap m.
Proof. intros P C a Ha. apply C. eapply Permutation_in; [symmetry|]; eauto. Qed.

Lemma remove_ptr_iter heap a k : forall l r, coh heap l -> Permutation l (repeat a k ++ r) ->
  Permutation (Nat.iter k (fun v => remove_ptr v (r_id a)) l) r.
Proof.
  induction k as [|k IH]; intros l r C P; auto.
  rewrite (iter_S (fun v => remove_ptr v (r_id a))).
  assert (Ha : In a l) by (eapply Permutation_in; [symmetry; exact P|simpl; auto]).
  pose proof (remove_ptr_in heap l a C Ha) as Q.
  apply IH.
  - intros b Hb. apply C. eapply Permutation_in; [symmetry; exact Q|simpl; auto].
  - eapply Permutation_cons_inv. rewrite <- Q. exact P.
Qed.

Lemma remove_ptr_iter_out l id k : (forall y, In y l -> r_id y <> id) -> Nat.iter k (fun v => remove_ptr v id) l = l.
Proof. intros H. induction k; simpl; auto. rewrite IHk. now apply remove_ptr_out. Qed.

(** * All axioms *)

Definition all_ax (o : onto) : list ref := flat_map (fun t => vec_data (tindex o t)) all_axiom_types.
Definition expand (p : obj) (l : list ref) : list ref := flat_map (fun a => repeat a (cnt p (occ (r_obj a)))) l.

Lemma flat_map_perm {A B} (f : A -> list B) l m : Permutation l m -> Permutation (flat_map f l) (flat_map f m).
Proof.
  induction 1; simpl; auto.
  - now apply Permutation_app_head.
  - rewrite !app_assoc. apply Permutation_app_tail, Permutation_app_comm.
  - etransitivity; eauto.
Qed.

Lemma flat_map_update {A B} (f g : A -> list B) L t : NoDup L -> In t L ->
  (forall u, u <> t -> f u = g u) ->
  exists rest, Permutation (flat_map f L) (f t ++ rest) /\ Permutation (flat_map g L) (g t ++ rest).
Proof.
  intros N H E. apply in_split in H as (l1 & l2 & ->). apply NoDup_remove_2 in N.
  exists (flat_map f (l1 ++ l2)). split.
  - rewrite <- (flat_map_perm f _ _ (Permutation_middle l1 l2 t)). reflexivity.
  - rewrite <- (flat_map_perm g _ _ (Permutation_middle l1 l2 t)). simpl. apply Permutation_app_head.
    assert (Q : flat_map g (l1 ++ l2) = flat_map f (l1 ++ l2)); [|now rewrite Q].
    clear -N E. induction (l1 ++ l2) as [|u l IH]; auto. simpl. simpl in N.
    rewrite IH by tauto. rewrite E; auto; intros ->; tauto.
Qed.

Lemma all_axiom_types_nodup : NoDup all_axiom_types.
Proof. unfold all_axiom_types. apply FinFun.Injective_map_NoDup; [intros x y; lia | apply seq_NoDup]. Qed.

Lemma all_axiom_types_in t : In t all_axiom_types <-> (t < 37)%N.
Proof.
  unfold all_axiom_types. rewrite in_map_iff. split.
  - intros (n & <- & H). apply in_seq in H. lia.
  - intros H. exists (N.to_nat t). split; [lia|]. apply in_seq. lia.
Qed.

Lemma ax_type_bound a : is_axiom_object a -> (ax_type a < 37)%N.
Proof.
  intros H. destruct (axiom_comp a H) as (t & fs & opt & -> & _). unfold is_axiom_object in H.
  unfold ax_type. cbn [get_type]. simpl wt in H. apply andb_true_iff in H as [H _].
  destruct t; simpl in H; try discriminate; vm_compute; reflexivity.
Qed.

Lemma all_ax_set o t v refs ind i vn im an : (t < 37)%N ->
  exists rest, Permutation (all_ax o) (vec_data (tindex o t) ++ rest) /\
    Permutation (all_ax (mkOnto i vn im an (type_set (o_types o) t v) refs ind)) (v ++ rest).
Proof.
  intros H. unfold all_ax.
  destruct (flat_map_update (fun u => vec_data (tindex o u))
    (fun u => vec_data (tindex (mkOnto i vn im an (type_set (o_types o) t v) refs ind) u)) all_axiom_types t)
    as (rest & H1 & H2).
  - apply all_axiom_types_nodup.
  - now apply all_axiom_types_in.
  - intros u Hu. unfold tindex. simpl. rewrite type_get_set. apply not_eq_sym, N.eqb_neq in Hu. now rewrite Hu.
  - exists rest. split; auto. unfold tindex at 2 in H2. simpl in H2. rewrite type_get_set, N.eqb_refl in H2. exact H2.
Qed.

Lemma in_all_ax o t a : (t < 37)%N -> In a (vec_data (tindex o t)) -> In a (all_ax o).
Proof. intros H Ha. unfold all_ax. apply in_flat_map. exists t. split; auto. now apply all_axiom_types_in. Qed.

(** * Invariant *)

Record Inv (heap : N -> obj) (o : onto) : Prop := {
  inv_nodup : NoDup (keys (o_refs o));
  inv_kinds : prims (keys (o_refs o));
  inv_types : forall t a, In a (vec_data (tindex o t)) ->
    ax_type (r_obj a) = t /\ is_axiom_object (r_obj a) /\ r_obj a = heap (r_id a);
  inv_index : forall p k, kind p = Some k ->
    if o_indexing o then Permutation (vec_data (pindex (o_refs o) p)) (expand p (all_ax o))
    else pindex (o_refs o) p = None
}.

Lemma all_ax_in o heap a : Inv heap o -> In a (all_ax o) ->
  In a (vec_data (tindex o (ax_type (r_obj a)))) /\ is_axiom_object (r_obj a) /\ r_obj a = heap (r_id a).
Proof.
  intros I H. apply in_flat_map in H as (t & _ & H). destruct (inv_types _ _ I t a H) as (E & W & C). now subst t.
Qed.

Lemma all_ax_coh heap o : Inv heap o -> coh heap (all_ax o).
Proof. intros I a H. now apply (all_ax_in o heap a I). Qed.

Lemma axiom_wf a : is_axiom_object a -> well_formed a.
Proof. intros H. exists (SOne SAxiom). exact H. Qed.

Lemma inv_empty heap b : Inv heap (o_empty b).
Proof.
  constructor; simpl.
  - constructor.
  - now intros p [].
  - now intros t a [].
  - intros p k K. destruct b; auto.
Qed.

Lemma inv_other heap o i vn im an : Inv heap o ->
  Inv heap (mkOnto i vn im an (o_types o) (o_refs o) (o_indexing o)) /\
  all_ax (mkOnto i vn im an (o_types o) (o_refs o) (o_indexing o)) = all_ax o.
Proof. intros [I1 I2 I3 I4]. split; [|reflexivity]. constructor; auto. Qed.

Lemma expand_cons p a l : expand p (a :: l) = repeat a (cnt p (occ (r_obj a))) ++ expand p l.
Proof. reflexivity. Qed.

Lemma expand_perm p l m : Permutation l m -> Permutation (expand p l) (expand p m).
Proof. apply flat_map_perm. Qed.

Lemma add_axiom_spec heap o a : Inv heap o -> is_axiom_object (r_obj a) -> r_obj a = heap (r_id a) ->
  exists o', add_axiom o a = Some (o', [Retain (r_id a)]) /\ Inv heap o' /\
    Permutation (all_ax o') (a :: all_ax o) /\
    o_indexing o' = o_indexing o /\ o_annot o' = o_annot o /\ o_imports o' = o_imports o /\
    o_iri o' = o_iri o /\ o_version o' = o_version o /\
    (o_indexing o = true -> forall p, In p (keys (o_refs o')) <-> In p (occ (r_obj a)) \/ In p (keys (o_refs o))).
Proof.
  intros I W C. unfold add_axiom.
  set (t := ax_type (r_obj a)). set (types := type_set (o_types o) t (vec_data (tindex o t) ++ [a])).
  assert (T : forall refs ind, forall u b,
    In b (vec_data (tindex (mkOnto (o_iri o) (o_version o) (o_imports o) (o_annot o) types refs ind) u)) ->
    ax_type (r_obj b) = u /\ is_axiom_object (r_obj b) /\ r_obj b = heap (r_id b)).
  { intros refs ind u b. unfold tindex, types. simpl. rewrite type_get_set.
    destruct (N.eqb_spec t u) as [<-|n].
    - simpl. rewrite in_app_iff. intros [H|[<-|[]]]; [|now repeat split]. now apply (inv_types _ _ I).
    - apply (inv_types _ _ I). }
  assert (P : forall refs ind,
    Permutation (all_ax (mkOnto (o_iri o) (o_version o) (o_imports o) (o_annot o) types refs ind)) (a :: all_ax o)).
  { intros refs ind. unfold types.
    destruct (all_ax_set o t (vec_data (tindex o t) ++ [a]) refs ind (o_iri o) (o_version o) (o_imports o) (o_annot o))
      as (rest & H1 & H2); [now apply ax_type_bound|].
    rewrite H2, H1. rewrite <- app_assoc. simpl. symmetry. apply Permutation_middle. }
  destruct (o_indexing o) eqn:Ind.
  - rewrite iterate_fold; auto using axiom_wf.
    eexists. split; [reflexivity|]. split; [|repeat (split; [auto; reflexivity|])].
    + destruct (keys_fold (index_axiom_foreach a) (occ (r_obj a)) (keys_add_in a) (occ_prims _) (o_refs o)) as [K1 K2].
      constructor; cbn [o_refs o_indexing].
      * apply K2, (inv_nodup _ _ I).
      * intros p Hp. apply K1 in Hp as [Hp|Hp]; [eapply occ_prims, Hp|now apply (inv_kinds _ _ I)].
      * apply T.
      * intros p k K. rewrite pindex_add_all by apply occ_prims.
        rewrite (expand_perm p _ _ (P _ _)), expand_cons. rewrite Permutation_app_comm. apply Permutation_app_head.
        pose proof (inv_index _ _ I p k K) as H. now rewrite Ind in H.
    + intros _. destruct (keys_fold (index_axiom_foreach a) (occ (r_obj a)) (keys_add_in a) (occ_prims _) (o_refs o)) as [K1 K2].
      exact K1.
  - eexists. split; [reflexivity|]. split; [|repeat (split; [auto; reflexivity|])].
    + constructor; cbn [o_refs o_indexing]; try apply I; [apply T|].
      intros p k K. pose proof (inv_index _ _ I p k K) as H. now rewrite Ind in H.
    + discriminate.
Qed.

Lemma add_annot_spec heap o a : Inv heap o -> wt (SOne SAnnot) (r_obj a) = true ->
  exists o', add_annot o a = Some (o', [Retain (r_id a)]) /\ Inv heap o' /\
    all_ax o' = all_ax o /\
    o_indexing o' = o_indexing o /\ o_annot o' = Some (vec_data (o_annot o) ++ [a]) /\ o_imports o' = o_imports o /\
    o_iri o' = o_iri o /\ o_version o' = o_version o /\
    (forall p, In p (keys (o_refs o')) <-> In p (occ (r_obj a)) \/ In p (keys (o_refs o))).
Proof.
  intros I W. unfold add_annot. rewrite iterate_fold; auto; [|now exists (SOne SAnnot)].
  cbn [vector_ptr_add]. eexists. split; [reflexivity|]. split; [|repeat (split; [auto; reflexivity|])].
  - destruct (keys_fold add_annot_foreach (occ (r_obj a)) keys_annot_in (occ_prims _) (o_refs o)) as [K1 K2].
    constructor; cbn [o_refs o_indexing].
    + apply K2, I.
    + intros p Hp. apply K1 in Hp as [Hp|Hp]; [eapply occ_prims, Hp|now apply (inv_kinds _ _ I)].
    + apply (inv_types _ _ I).
    + intros p k K. rewrite pindex_annot_all by apply occ_prims. apply (inv_index _ _ I p k K).
  - destruct (keys_fold add_annot_foreach (occ (r_obj a)) keys_annot_in (occ_prims _) (o_refs o)) as [K1 K2]. exact K1.
Qed.

Lemma expand_in p l a : In a (expand p l) <-> In a l /\ cnt p (occ (r_obj a)) <> 0.
Proof.
  unfold expand. rewrite in_flat_map. split.
  - intros (b & Hb & Ha). assert (b = a) by (symmetry; eapply repeat_spec, Ha). subst b. split; auto.
    intros E. rewrite E in Ha. destruct Ha.
  - intros [Ha H]. exists a. split; auto. destruct (cnt p (occ (r_obj a))); [easy|]. simpl. auto.
Qed.

(** Removal of a pointer that is there, and of one that is not. *)
Lemma remove_and_unindex_in heap o a : Inv heap o -> In a (all_ax o) ->
  exists o', remove_and_unindex o a = Some (o', [Release (r_id a)]) /\ Inv heap o' /\
    Permutation (all_ax o) (a :: all_ax o') /\
    o_indexing o' = o_indexing o /\ o_annot o' = o_annot o /\ o_imports o' = o_imports o /\
    o_iri o' = o_iri o /\ o_version o' = o_version o /\ keys (o_refs o') = keys (o_refs o) /\
    (forall t, vec_data (tindex o' t) = if N.eqb (ax_type (r_obj a)) t then remove_ptr (vec_data (tindex o t)) (r_id a) else vec_data (tindex o t)) /\
    (forall p, vec_data (pindex (o_refs o') p) = Nat.iter (cnt p (occ (r_obj a))) (fun v => remove_ptr v (r_id a)) (vec_data (pindex (o_refs o) p))).
Proof.
  intros I Ha. destruct (all_ax_in o heap a I Ha) as (Ht & W & C).
  unfold remove_and_unindex. destruct (tindex o (ax_type (r_obj a))) as [v|] eqn:E; [|destruct Ht].
  cbn [vec_data] in Ht. rewrite iterate_fold; auto using axiom_wf.
  set (t := ax_type (r_obj a)) in *.
  assert (Cv : coh heap v).
  { intros b Hb. apply (inv_types _ _ I t b). now rewrite E. }
  pose proof (remove_ptr_in heap v a Cv Ht) as Pv.
  match goal with |- context [Some (?x, _)] => set (o' := x) end.
  assert (P : Permutation (all_ax o) (a :: all_ax o')).
  { destruct (all_ax_set o t (remove_ptr v (r_id a)) (o_refs o') (o_indexing o) (o_iri o) (o_version o) (o_imports o) (o_annot o))
      as (rest & H1 & H2); [now apply ax_type_bound|]. rewrite E in H1. simpl vec_data in H1.
    change (all_ax (mkOnto (o_iri o) (o_version o) (o_imports o) (o_annot o) (type_set (o_types o) t (remove_ptr v (r_id a))) (o_refs o') (o_indexing o)))
      with (all_ax o') in H2.
    rewrite H1, H2. change (a :: remove_ptr v (r_id a) ++ rest) with ((a :: remove_ptr v (r_id a)) ++ rest). now apply Permutation_app_tail. }
  assert (D : forall p, vec_data (pindex (o_refs o') p) = Nat.iter (cnt p (occ (r_obj a))) (fun v => remove_ptr v (r_id a)) (vec_data (pindex (o_refs o) p))).
  { intros p. unfold o'. cbn [o_refs]. apply pindex_del_all, occ_prims. }
  assert (T : forall u, vec_data (tindex o' u) = if N.eqb t u then remove_ptr (vec_data (tindex o u)) (r_id a) else vec_data (tindex o u)).
  { intros u. unfold o', tindex. cbn [o_types]. rewrite type_get_set. destruct (N.eqb_spec t u) as [<-|]; auto.
    unfold tindex in E. now rewrite E. }
  exists o'. split; [reflexivity|]. split; [|split; [exact P|repeat (split; [reflexivity|])]].
  - constructor.
    + unfold o'. cbn [o_refs]. rewrite keys_del. apply I.
    + unfold o'. cbn [o_refs]. rewrite keys_del. apply I.
    + intros u b Hb. rewrite T in Hb. apply (inv_types _ _ I u b). destruct (N.eqb_spec t u) as [<-|]; auto.
      rewrite E in *. simpl vec_data in *. eapply Permutation_in; [symmetry; exact Pv|]. simpl. auto.
    + intros p k K. pose proof (inv_index _ _ I p k K) as H. unfold o' at 1. cbn [o_indexing].
      destruct (o_indexing o).
      * rewrite D. apply (remove_ptr_iter heap).
        -- intros b Hb. apply (all_ax_coh heap o I). eapply Permutation_in in Hb; [|exact H]. now apply expand_in in Hb.
        -- rewrite H. rewrite (expand_perm p _ _ P). rewrite expand_cons. reflexivity.
      * unfold o'. cbn [o_refs]. apply pindex_del_all_none; auto using occ_prims.
  - split; [|split; auto]. unfold o'. cbn [o_refs]. apply keys_del.
Qed.

Lemma remove_and_unindex_out heap o a v : Inv heap o -> is_axiom_object (r_obj a) ->
  tindex o (ax_type (r_obj a)) = Some v -> (forall b, In b (all_ax o) -> r_id b <> r_id a) ->
  exists o', remove_and_unindex o a = Some (o', [Release (r_id a)]) /\ Inv heap o' /\
    all_ax o' = all_ax o /\
    o_indexing o' = o_indexing o /\ o_annot o' = o_annot o /\ o_imports o' = o_imports o /\
    o_iri o' = o_iri o /\ o_version o' = o_version o /\ keys (o_refs o') = keys (o_refs o) /\
    (forall t, vec_data (tindex o' t) = vec_data (tindex o t)) /\
    (forall p k, kind p = Some k -> vec_data (pindex (o_refs o') p) = vec_data (pindex (o_refs o) p)).
Proof.
  intros I W E N. unfold remove_and_unindex. rewrite E. rewrite iterate_fold; auto using axiom_wf.
  set (t := ax_type (r_obj a)) in *.
  match goal with |- context [Some (?x, _)] => set (o' := x) end.
  assert (T : forall u, vec_data (tindex o' u) = vec_data (tindex o u)).
  { intros u. unfold o', tindex. cbn [o_types]. rewrite type_get_set. destruct (N.eqb_spec t u) as [<-|]; auto.
    unfold tindex in E. rewrite E. simpl. apply remove_ptr_out. intros y Hy. apply N.
    apply (in_all_ax o t); [now apply ax_type_bound|]. unfold tindex. now rewrite E. }
  assert (A : all_ax o' = all_ax o).
  { unfold all_ax. apply flat_map_ext. intros u. apply T. }
  assert (D : forall p k, kind p = Some k -> vec_data (pindex (o_refs o') p) = vec_data (pindex (o_refs o) p)).
  { intros p k K. unfold o'. cbn [o_refs]. rewrite pindex_del_all by apply occ_prims. apply remove_ptr_iter_out.
    intros y Hy. pose proof (inv_index _ _ I p k K) as H. destruct (o_indexing o).
    - apply N. eapply Permutation_in in Hy; [|exact H]. now apply expand_in in Hy.
    - rewrite H in Hy. destruct Hy. }
  exists o'. split; [reflexivity|]. split; [|split; [exact A|repeat (split; [reflexivity|])]].
  - constructor.
    + unfold o'. cbn [o_refs]. rewrite keys_del. apply I.
    + unfold o'. cbn [o_refs]. rewrite keys_del. apply I.
    + intros u b Hb. rewrite T in Hb. now apply (inv_types _ _ I u b).
    + intros p k K. pose proof (inv_index _ _ I p k K) as H. unfold o' at 1. cbn [o_indexing].
      destruct (o_indexing o).
      * rewrite (D p k K), A. exact H.
      * unfold o'. cbn [o_refs]. apply pindex_del_all_none; auto using occ_prims.
  - split; [|split; auto]. unfold o'. cbn [o_refs]. apply keys_del.
Qed.
