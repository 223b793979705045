(** The functions on ontologies keep the memory invariant. *)

From Coq Require Import NArith List Bool Arith Lia Relations.
From Coq Require Import ZifyBool ZifyNat ZifyN.
From Verif Require Import Bytes ModelTypes ModelObject ModelHeader SpecHeader ModelText ModelHeap SpecHeap.
From Verif Require Import ProofObject ProofHeader ProofHeap ProofHeapRun ProofHeapFun ProofHeapName ProofHeapComp ProofHeapSeen.
Import ListNotations.
Local Open Scope N_scope.

(** * Lists *)

Lemma count_remove_at i : forall (l : list N) x y, nth_error l i = Some x ->
  (count y (remove_at i l) + (if N.eqb x y then 1 else 0) = count y l)%nat.
Proof.
  induction i as [|i IH]; intros [|z l] x y E; try discriminate E; unfold remove_at in *; cbn [firstn skipn app] in *.
  - inversion E; subst. rewrite count_cons. cbn. lia.
  - rewrite !count_cons. rewrite <- (IH l x y E). lia.
Qed.
Lemma count_removelast (l : list N) d y : l <> [] -> (count y (removelast l) + (if N.eqb (last l d) y then 1 else 0) = count y l)%nat.
Proof.
  intros H. rewrite (app_removelast_last d H) at 3. rewrite count_app, count_cons, count_nil. lia.
Qed.
Lemma last_app_cons {A} (l m : list A) x d : last (l ++ x :: m) d = last (x :: m) d.
Proof. induction l as [|y l IH]; auto. cbn [app]. rewrite <- IH. destruct (l ++ x :: m) eqn:E; auto. destruct l; discriminate. Qed.
Lemma split_nth {A} i : forall (l : list A) x, nth_error l i = Some x -> l = firstn i l ++ x :: skipn (S i) l.
Proof. induction i as [|i IH]; intros [|z l] x E; try discriminate; cbn in *; [congruence|]. f_equal. now apply IH. Qed.
Lemma count_swap_remove_at i (l : list N) x y : nth_error l i = Some x ->
  (count y (swap_remove_at i l) + (if N.eqb x y then 1 else 0) = count y l)%nat.
Proof.
  intros E. apply split_nth in E. unfold swap_remove_at. set (a := firstn i l) in *. set (b := skipn (S i) l) in *. clearbody a b. subst l.
  set (z := last (a ++ x :: b) 0).
  assert (L : last (a ++ z :: b) 0 = z).
  { rewrite last_app_cons. unfold z. rewrite last_app_cons. destruct b; reflexivity. }
  pose proof (count_removelast (a ++ z :: b) 0 y ltac:(destruct a; discriminate)) as H. rewrite L in H.
  rewrite count_app, count_cons in H. rewrite count_app, count_cons. lia.
Qed.
Lemma last_at_some x : forall l i, last_at x l = Some i -> nth_error l i = Some x.
Proof.
  induction l as [|y l IH]; cbn; intros i E; [discriminate|]. destruct (last_at x l) as [j|].
  - inversion E; subst. cbn. auto.
  - destruct (y =? x) eqn:Q; [|discriminate]. inversion E; subst. cbn. f_equal. lia.
Qed.
Lemma last_at_none x : forall l, last_at x l = None -> count x l = O.
Proof.
  induction l as [|y l IH]; cbn; intros E; [reflexivity|]. destruct (last_at x l) as [j|]; [discriminate|].
  rewrite count_cons. destruct (y =? x); [discriminate|]. rewrite IH; auto.
Qed.
Lemma count_remove_last x l y : count y (remove_last x l) = (count y l - if N.eqb x y then 1 else 0)%nat.
Proof.
  unfold remove_last. destruct (last_at x l) as [i|] eqn:E.
  - apply last_at_some in E. pose proof (count_swap_remove_at i l x y E). lia.
  - apply last_at_none in E. destruct (x =? y) eqn:Q; [|lia]. apply N.eqb_eq in Q. subst. lia.
Qed.
Lemma nth_in {A} (l : list A) i x : nth_error l i = Some x -> In x l.
Proof. apply nth_error_In. Qed.

(** * The vectors of axioms *)

Lemma count_change t f : forall l y,
  (count y (flat_map snd (change_axioms t f l)) + count y (tindex l t) = count y (flat_map snd l) + count y (f (tindex l t)))%nat.
Proof.
  induction l as [|[u v] l IH]; intros y; cbn [change_axioms tindex flat_map snd].
  - rewrite app_nil_r, count_nil. lia.
  - destruct (otype_eqb u t); cbn [flat_map snd]; rewrite !count_app; [lia|]. specialize (IH y). lia.
Qed.
Lemma change_keys t f : forall l x, In x (map fst (change_axioms t f l)) <-> In x (map fst l) \/ x = t.
Proof.
  induction l as [|[u v] l IH]; intros x; cbn [change_axioms map fst In].
  - intuition.
  - destruct (otype_eqb u t) eqn:E; cbn [map fst In].
    + apply otype_eqb_eq in E. subst. intuition.
    + rewrite IH. intuition.
Qed.
Lemma change_nodup t f : forall l, NoDup (map fst l) -> NoDup (map fst (change_axioms t f l)).
Proof.
  induction l as [|[u v] l IH]; cbn [change_axioms map fst]; intros D.
  - constructor; auto.
  - inversion D; subst. destruct (otype_eqb u t) eqn:E; cbn [map fst]; constructor; auto.
    rewrite change_keys. intros [X|X]; [auto|]. subst. rewrite (proj2 (otype_eqb_eq t t) eq_refl) in E. discriminate.
Qed.
Lemma change_in t f u m : forall l, In (u, m) (change_axioms t f l) -> In (u, m) l \/ (u = t /\ m = f (tindex l t)).
Proof.
  induction l as [|[w v] l IH]; cbn [change_axioms tindex In].
  - intros [X|[]]. inversion X; auto.
  - destruct (otype_eqb w t) eqn:E; cbn [In].
    + intros [X|X]; auto. inversion X; subst. apply otype_eqb_eq in E. subst. auto.
    + intros [X|X]; auto. destruct (IH X) as [Y|Y]; auto.
Qed.
Lemma tindex_in l t : tindex l t = [] \/ In (t, tindex l t) l.
Proof.
  induction l as [|[u v] l IH]; cbn; auto. destruct (otype_eqb u t) eqn:E.
  - apply otype_eqb_eq in E. subst. auto.
  - destruct IH; auto.
Qed.
Lemma tindex_of l t m : NoDup (map fst l) -> In (t, m) l -> tindex l t = m.
Proof.
  induction l as [|[u v] l IH]; cbn; [easy|]. intros D [E|E].
  - inversion E; subst. now rewrite (proj2 (otype_eqb_eq t t) eq_refl).
  - inversion D; subst. destruct (otype_eqb u t) eqn:Q; auto. apply otype_eqb_eq in Q. subst.
    exfalso. apply H1. change t with (fst (t, m)). now apply in_map.
Qed.
Lemma tindex_axs o t y : In y (tindex (n_axioms o) t) -> In y (axs o).
Proof.
  intros J. unfold axs. apply in_flat_map. destruct (tindex_in (n_axioms o) t) as [E|E]; [rewrite E in J; easy|].
  eexists. split; [exact E|]. exact J.
Qed.

(** * The index *)

Lemma lookup_change_ref p f : forall l q, lookup (change_ref p f l) q =
  if q =? p then Some (f (match lookup l p with Some v => v | None => None end)) else lookup l q.
Proof.
  induction l as [|[k v] l IH]; intros q; cbn [change_ref lookup].
  - rewrite N.eqb_sym. destruct (q =? p); reflexivity.
  - destruct (k =? p) eqn:E; cbn [lookup].
    + apply N.eqb_eq in E. subst k. rewrite (N.eqb_sym q p). destruct (p =? q); reflexivity.
    + rewrite IH. destruct (k =? q) eqn:F, (q =? p) eqn:G; auto. lia.
Qed.
(** What the index holds for a primitive. *)
Definition entry (r : list (N * option (list N))) (p : N) : list N :=
  match lookup r p with Some (Some l) => l | _ => [] end.
Lemma indexed_iff e h o : indexed e h o <-> forall p y, exists n,
  (count y (entry (n_refs o) p) <= count p (ProofHeap.pl e n h y) * count y (axs o))%nat.
Proof.
  unfold indexed, entry. split.
  - intros H p y. destruct (lookup (n_refs o) p) as [[l|]|] eqn:E; [eauto| |]; exists O; rewrite count_nil; lia.
  - intros H p l y E. specialize (H p y). now rewrite E in H.
Qed.
Lemma indexed_same e h o p : n_refs p = n_refs o -> n_axioms p = n_axioms o -> indexed e h o -> indexed e h p.
Proof. unfold indexed, axs. intros -> ->. auto. Qed.
Lemma entry_primitive r p q : entry (add_primitive r p) q = entry r q.
Proof.
  unfold entry, add_primitive. rewrite lookup_change_ref. destruct (q =? p) eqn:E; auto. apply N.eqb_eq in E. subst.
  destruct (lookup r p) as [[l|]|]; auto.
Qed.
Lemma entry_primitives ps : forall r q, entry (fold_left add_primitive ps r) q = entry r q.
Proof. induction ps as [|p ps IH]; intros r q; cbn [fold_left]; auto. now rewrite IH, entry_primitive. Qed.
Lemma entry_add x r p q y : count y (entry (add_ref x r p) q) = (count y (entry r q) + (if N.eqb x y then if N.eqb p q then 1 else 0 else 0))%nat.
Proof.
  unfold entry, add_ref. rewrite lookup_change_ref. rewrite (N.eqb_sym p q). destruct (q =? p) eqn:E.
  - apply N.eqb_eq in E. subst. rewrite count_app, count_cons, count_nil. destruct (lookup r p) as [[l|]|]; destruct (x =? y); lia.
  - destruct (x =? y); lia.
Qed.
Lemma entry_adds x y q ps : forall r, count y (entry (fold_left (add_ref x) ps r) q) = (count y (entry r q) + (if N.eqb x y then count q ps else 0))%nat.
Proof.
  induction ps as [|p ps IH]; intros r; cbn [fold_left].
  - rewrite count_nil. destruct (x =? y); lia.
  - rewrite IH, entry_add, count_cons. destruct (x =? y), (p =? q); lia.
Qed.
Lemma entry_remove x r p q y : count y (entry (remove_ref x r p) q) = (count y (entry r q) - (if N.eqb x y then if N.eqb p q then 1 else 0 else 0))%nat.
Proof.
  unfold entry, remove_ref. destruct (lookup r p) as [[l|]|] eqn:L.
  - rewrite lookup_change_ref, (N.eqb_sym p q). destruct (q =? p) eqn:E.
    + apply N.eqb_eq in E. subst. rewrite L, count_remove_last. destruct (x =? y); lia.
    + destruct (x =? y); lia.
  - destruct (p =? q) eqn:E; [|destruct (x =? y); lia]. apply N.eqb_eq in E. subst. rewrite L. rewrite count_nil. lia.
  - destruct (p =? q) eqn:E; [|destruct (x =? y); lia]. apply N.eqb_eq in E. subst. rewrite L. rewrite count_nil. lia.
Qed.
Lemma entry_removes x y q ps : forall r, count y (entry (fold_left (remove_ref x) ps r) q) = (count y (entry r q) - (if N.eqb x y then count q ps else 0))%nat.
Proof.
  induction ps as [|p ps IH]; intros r; cbn [fold_left].
  - rewrite count_nil. destruct (x =? y); lia.
  - rewrite IH, entry_remove, count_cons. destruct (x =? y), (p =? q); lia.
Qed.

Lemma best_pindex_in o ps l : best_pindex o ps = Some l -> exists p, entry (n_refs o) p = l.
Proof.
  unfold best_pindex.
  assert (forall acc, (forall n w, acc = Some (n, Some w) -> exists p, entry (n_refs o) p = w) ->
    match fold_left (fun (best : option (nat * option (list N))) p =>
      let v := pindex o p in
      let n := match v with Some l => List.length l | None => O end in
      match best with
      | Some (m, w) => if Nat.ltb n m then Some (n, v) else best
      | None => Some (n, v)
      end) ps acc with Some (_, v) => v | None => None end = Some l -> exists p, entry (n_refs o) p = l) as H.
  { induction ps as [|p ps IH]; intros acc AC; cbn [fold_left].
    - destruct acc as [[n [w|]]|]; try discriminate. intros X. inversion X; subst. eauto.
    - apply IH. intros n w X. set (m := match pindex o p with Some l => List.length l | None => O end) in X.
      assert (PP : pindex o p = Some w -> exists p, entry (n_refs o) p = w).
      { intros P. exists p. unfold pindex in P. unfold entry. destruct (lookup (n_refs o) p) as [[q|]|]; congruence. }
      cbv zeta in X. destruct acc as [[k u]|].
      + fold m in X. destruct (Nat.ltb m k); [|eauto]. inversion X; auto.
      + inversion X; auto. }
  apply H. discriminate.
Qed.
Lemma best_index_in e h o ps t y : indexed e h o -> In y (best_index o ps t) -> In y (axs o).
Proof.
  intros I. unfold best_index. destruct (best_pindex o ps) as [l|] eqn:B; [|apply tindex_axs].
  destruct (Nat.ltb (List.length l) (List.length (tindex (n_axioms o) t))); [|apply tindex_axs].
  intros J. apply best_pindex_in in B as (p & B). destruct (proj1 (indexed_iff e h o) I p y) as (n & Q). rewrite B in Q.
  apply count_in in J. apply count_in. nia.
Qed.

(** * Memory that loses objects and whose vectors and ontologies change *)

Definition shr (P : N -> Prop) (h h' : obs) : Prop := forall x w, lookup h' x = Some w ->
  exists v, lookup h x = Some v /\ o_t w = o_t v /\ o_b w = o_b v /\ (o_d w = o_d v \/ P x /\ edited (o_d v) (o_d w)).
Lemma shr_trans P h h1 h2 : shr P h h1 -> shr P h1 h2 -> shr P h h2.
Proof.
  intros A B x w E. destruct (B x w E) as (u & F & K1 & K2 & K3). destruct (A x u F) as (v & G & M1 & M2 & M3).
  exists v. split; auto. split; [congruence|]. split; [congruence|].
  destruct K3 as [K3|[K3 K4]], M3 as [M3|[M3 M4]].
  - left. congruence.
  - right. split; auto. congruence.
  - right. split; auto. congruence.
  - right. split; auto. inversion M4 as [l m Z1 Z2|o p Z1 Z2]; rewrite <- Z2 in K4; inversion K4; constructor.
Qed.
Lemma shr_shrink P h h' : shrink h h' -> shr P h h'.
Proof. intros H x w E. destruct (H x w E) as (v & F & (A & B & C) & _). exists v. auto. Qed.
Lemma shr_sim P h h' : sim h h' -> shr P h h'.
Proof. intros [_ H] x w E. destruct (H x w E) as (v & F & (A & B & C)). exists v. auto. Qed.
Lemma shr_refl P h : shr P h h.
Proof. intros x w E. exists w. auto. Qed.

Definition edit_ob (v : ob) (d : body) : ob := mkOb (o_t v) (o_b v) (o_n v) d.
Definition edit (A : ast) (a : N) (v : ob) (d : body) : ast := set_h A (store (a_h A) a (edit_ob v d)).

Lemma edit_at A a v d : lookup (a_h A) a = Some v -> lookup (a_h (edit A a v d)) a = Some (edit_ob v d).
Proof. intros E. cbn. now rewrite lookup_store, E, N.eqb_refl. Qed.
Lemma edit_other A a v d b : b <> a -> lookup (a_h (edit A a v d)) b = lookup (a_h A) b.
Proof. intros X. cbn. rewrite lookup_store. destruct (a =? b) eqn:Y; auto. lia. Qed.
Lemma shr_edit (P : N -> Prop) A a v d : lookup (a_h A) a = Some v -> P a -> edited (o_d v) d -> shr P (a_h A) (a_h (edit A a v d)).
Proof.
  intros E PA D x w F. cbn in F. rewrite lookup_store, E in F. destruct (a =? x) eqn:X.
  - apply N.eqb_eq in X. subst. inversion F; subst. exists v. cbn. auto 6.
  - exists w. auto.
Qed.

(** Changing an object does not change the paths that do not leave it. *)
Lemma rch_edit A a v d r x : rch (a_h A) r x -> x = a \/ ~ rch (a_h A) a x -> rch (a_h (edit A a v d)) r x.
Proof.
  intros H. induction H as [x|r b x E H IH]; intros C; [constructor|]. destruct (N.eq_dec r a) as [->|X].
  - destruct C as [->|C]; [constructor|]. exfalso. apply C. econstructor; eauto.
  - apply rch_step with b; auto. destruct E as (u & F & J). exists u. now rewrite edit_other.
Qed.
Lemma acc_set h a v w : lookup h a = Some v -> (forall y, In y (kids w) -> ~ rch h y a) -> (forall b, Acc (edge h) b) ->
  forall b, Acc (edge (store h a w)) b.
Proof.
  intros E NR AC.
  assert (ED : forall b c, c <> a -> edge (store h a w) b c -> edge h b c).
  { intros b c X (y & Z & J). rewrite lookup_store in Z. destruct (a =? c) eqn:W; [lia|]. exists y. auto. }
  assert (C1 : forall b, ~ rch h b a -> Acc (edge (store h a w)) b).
  { intros b. induction (AC b) as [b _ IH]. intros N0. constructor. intros c J.
    destruct (N.eq_dec b a) as [->|X]; [exfalso; apply N0; constructor|]. apply ED in J; auto.
    apply IH; auto. intros H. apply N0. econstructor; eauto. }
  intros b. induction (AC b) as [b _ IH]. constructor. intros c J. destruct (N.eq_dec b a) as [->|X].
  - apply C1, NR. destruct J as (y & Z & J). rewrite lookup_store, E, N.eqb_refl in Z. inversion Z; subst. auto.
  - apply IH. now apply ED.
Qed.

Section Onto.
Variable huge : bool.
Variable fresh : N -> heap -> N.
Hypothesis fresh_ok : allocator fresh.
Variable e : env.

Local Notation Inv := (ProofHeap.Inv huge e).
Local Notation cs := (ProofHeap.cs huge).
Local Notation Room := (ProofHeap.Room huge).
Local Notation ok := (ProofHeapFun.ok huge).
Local Notation pl := (ProofHeap.pl e).
Local Notation indexed := (ProofHeap.indexed e).
Local Notation kids_ok := (ProofHeap.kids_ok e).

Lemma edit_room A a v d k : lookup (a_h A) a = Some v -> Room A k -> Room (edit A a v d) k.
Proof.
  intros E K b u F. cbn in F. rewrite lookup_store, E in F. destruct (a =? b) eqn:X.
  - inversion F; subst. apply (K a v E).
  - eauto.
Qed.

(** Vectors and ontologies, which are in no table, take other contents. *)
Lemma edit_inv A R R' a v d : Inv A R [] -> lookup (a_h A) a = Some v ->
  ((exists l m, o_d v = BVec l /\ d = BVec m /\
      forall b u o y, lookup (a_h A) b = Some u -> 0 < o_n u -> o_d u = BOnto o -> In y (axs o) ->
        ~ clos_refl_trans _ (inner (a_h A)) a y) \/
   (exists o p, o_d v = BOnto o /\ d = BOnto p /\ kids_ok (a_h A) (edit_ob v d) /\ indexed (a_h A) p)) ->
  (forall x, count x R' + count x (pointers_of d) = count x R + count x (pointers_of (o_d v)))%nat ->
  (forall x, In x (pointers_of d) -> In x (pointers_of (o_d v)) \/ ~ rch (a_h A) x a) ->
  In (e_empty e) R' -> Inv (edit A a v d) R' [].
Proof.
  intros I E ED C NR EM. pose proof (live_all _ _ _ _ _ _ I E) as P. set (w := edit_ob v d).
  destruct (i_fit _ _ _ _ _ I a v E) as [F SH].
  assert (IV : forall h, ident h v = None) by (intros h; destruct ED as [(l & m & D & _)|(o & p & D & _)]; unfold ident; now rewrite D).
  assert (IW : forall h, ident h w = None) by (intros h; destruct ED as [(l & m & _ & -> & _)|(o & p & _ & -> & _)]; reflexivity).
  assert (SW : shape (o_t w) (o_b w) (o_d w)).
  { destruct ED as [(l & m & D & -> & _)|(o & p & D & -> & _)]; rewrite D in SH; cbn; inversion SH; constructor. }
  assert (DS : forall t, o_d v <> BStr t /\ d <> BStr t) by (intros t; destruct ED as [(l & m & -> & -> & _)|(o & p & -> & -> & _)]; split; discriminate).
  apply (inv_up huge e A R [] a v w R' (edit A a v d)); auto.
  - intros _. apply DS.
  - intros T. unfold edit. rewrite atab_set_h. apply (i_nodup _ _ _ _ _ I).
  - intros T b _. unfold edit. rewrite atab_set_h. tauto.
  - intros T. unfold edit. rewrite atab_set_h, IW. split.
    + intros J. apply (i_tab _ _ _ _ _ I) in J as (u & k1 & U1 & U2 & U3). rewrite E in U1. inversion U1; subst.
      rewrite IV in U3. discriminate.
    + intros (k1 & Z). discriminate.
  - intros x b u _ Z. rewrite IW in Z. discriminate.
  - intros x. pose proof (indeg_store (a_h A) a v w x E) as H. rewrite (kids_live v), (kids_live w) in H by auto.
    unfold edit. cbn [set_h a_h]. fold w. specialize (C x). change (o_d w) with d in H. lia.
  - apply (acc_set (a_h A) a v w E); [|apply (i_acyclic _ _ _ _ _ I)]. intros y J H. rewrite kids_live in J by auto.
    destruct (NR y J) as [X|X]; [|auto]. apply (ProofHeapFun.no_cycle (a_h A) (i_acyclic _ _ _ _ _ I) a y); auto.
    exists v. split; auto. now rewrite kids_live.
  - intros ->. destruct (i_empty _ _ _ _ _ I) as (y & Z & _ & _ & DY & _). rewrite E in Z. inversion Z; subst.
    exfalso. destruct (DS []) as [X _]. now apply X.
Qed.

Lemma set_onto_cs A a v o f : lookup (a_h A) a = Some v -> o_d v = BOnto o ->
  set_onto a f (cs A) = Ok tt (cs (edit A a v (BOnto (f o)))).
Proof.
  intros E D. unfold set_onto. rewrite (bind_ok _ _ _ _ _ (read_cs huge A a v E)). cbn [ProofHeap.cell_of c_body c_hdr]. rewrite D.
  apply (write_cs huge A a v (edit_ob v (BOnto (f o))) E).
Qed.

Lemma onto_count o x : count x (pointers_of (BOnto o)) =
  (count x (opt_list (n_iri o)) + count x (opt_list (n_version o)) + count x (n_imports o) + count x (opt_list (n_annot o)) + count x (axs o))%nat.
Proof. cbn [pointers_of]. rewrite !count_app. unfold axs. lia. Qed.

Lemma edit_grow A R a v o p : Inv A R [] -> lookup (a_h A) a = Some v -> o_d v = BOnto o ->
  incl (pointers_of (BOnto o)) (pointers_of (BOnto p)) -> grow (a_h A) (a_h (edit A a v (BOnto p))).
Proof.
  intros I E D C. apply (grow_store _ _ v); auto.
  - apply (live_all _ _ _ _ _ _ I E).
  - split; [reflexivity|]. split; [left; reflexivity|]. right. right. exists o, p. cbn. rewrite D. auto.
Qed.
Lemma edit_keeps A R a v o p : Inv A R [] -> lookup (a_h A) a = Some v -> o_d v = BOnto o ->
  incl (pointers_of (BOnto o)) (pointers_of (BOnto p)) -> keeps R (a_h A) (a_h (edit A a v (BOnto p))).
Proof. intros I E D C. apply (grow_keeps huge e A R []); auto. eapply edit_grow; eauto. Qed.

Lemma onto_kids A R a v o : Inv A R [] -> lookup (a_h A) a = Some v -> o_d v = BOnto o -> kids_ok (a_h A) v /\ indexed (a_h A) o.
Proof.
  intros I E D. pose proof (live_all _ _ _ _ _ _ I E) as P. split; [apply (i_kids _ _ _ _ _ I a v E P)|apply (i_index _ _ _ _ _ I a v o E P D)].
Qed.

Lemma iri_rch A R i x : Inv A R [] -> is_type (a_h A) i OT_IRI -> rch (a_h A) i x -> x = i \/ is_type (a_h A) x OT_STRING.
Proof.
  intros I TI H. assert (S0 : forall s y, is_type (a_h A) s OT_STRING -> rch (a_h A) s y -> y = s).
  { intros s y TS X. destruct (str_of_type _ _ _ _ _ _ I TS) as (t & T). inversion X as [|? b ? (u & F & J)]; auto.
    unfold txt in T. rewrite F in T. destruct (o_d u) eqn:D; try discriminate. rewrite kids_live, D in J; [easy|].
    apply (live_all _ _ _ _ _ _ I F). }
  inversion H as [|? b ? (u & F & J) H']; auto. subst. right.
  destruct (iri_of_type _ _ _ _ _ _ I TI) as (u' & ns & rem & F' & D). rewrite F in F'. inversion F'; subst u'.
  pose proof (live_all _ _ _ _ _ _ I F) as P. rewrite kids_live, D in J by auto.
  pose proof (i_kids _ _ _ _ _ I i u F P) as K. unfold ProofHeap.kids_ok in K. rewrite D in K. destruct K as (_ & K1 & K2).
  assert (TB : is_type (a_h A) b OT_STRING) by (cbn in J; destruct J as [<-|[<-|[]]]; auto).
  now rewrite (S0 b x TB H').
Qed.
Lemma iri_not_onto A R i a v o : Inv A R [] -> is_type (a_h A) i OT_IRI -> lookup (a_h A) a = Some v -> o_d v = BOnto o -> ~ rch (a_h A) i a.
Proof.
  intros I TI E D H. destruct (i_fit _ _ _ _ _ I a v E) as [_ SH]. rewrite D in SH.
  assert (o_t v = OT_ONTOLOGY) as T by (inversion SH; auto).
  destruct (iri_rch A R i a I TI H) as [->|(u & F & TU)].
  - destruct TI as (u & F & TU). congruence.
  - congruence.
Qed.
Lemma onto_type A R a v o : Inv A R [] -> lookup (a_h A) a = Some v -> o_d v = BOnto o -> o_t v = OT_ONTOLOGY.
Proof. intros I E D. destruct (i_fit _ _ _ _ _ I a v E) as [_ SH]. rewrite D in SH. inversion SH; auto. Qed.

(** * Calls that remove nothing *)

Lemma ontology_ok A R : Inv A R [] -> ok A R 0 (ontology huge fresh) (fun a A' => Inv A' (a :: R) []).
Proof.
  intros I. unfold ontology. eapply ok_post; [apply (alloc_ok huge fresh fresh_ok e A R R); auto|].
  - constructor.
  - unfold ProofHeap.kids_ok. cbn. repeat split; try discriminate; [constructor|easy].
  - eapply empty_in; eauto.
  - intros o X. inversion X; subst. reflexivity.
  - intros a A' [X _] _. exact X.
Qed.

Lemma annot_vec_ok A R a v o : Inv A R [] -> lookup (a_h A) a = Some v -> o_d v = BOnto o ->
  ok A R 0 (annot_vec huge fresh a) (fun w A' => Inv A' R [] /\ grow (a_h A) (a_h A') /\ is_type (a_h A') w OT_VECTOR /\
    forall x, live (a_h A) x -> ~ rch (a_h A) x a -> (forall w0, n_annot o = Some w0 -> ~ rch (a_h A) x w0) -> ~ rch (a_h A') x w).
Proof.
  intros I E D. destruct (onto_kids A R a v o I E D) as [KO IX]. unfold annot_vec.
  eapply ok_pure; [apply (onto_cs huge A a v o E D)|]. destruct (n_annot o) as [w|] eqn:AN.
  - apply (ok_ret huge e); auto. split; auto. split; [intros x u F P; exists u; repeat split; auto|].
    unfold ProofHeap.kids_ok in KO. rewrite D in KO. split; [now apply KO|]. auto.
  - intros k K. destruct (vector_ordered_at huge fresh fresh_ok e A R I k K) as (w & A1 & E1 & K1 & V1 & I1 & (M1 & M2 & M3) & H1).
    rewrite (bind_ok _ _ _ _ _ E1).
    assert (WA : w <> a) by congruence.
    assert (F1 : lookup (a_h A1) a = Some v) by (rewrite H1; cbn; destruct (w =? a) eqn:Q; [lia|auto]).
    destruct (onto_kids A1 (w :: R) a v o I1 F1 D) as [KO1 IX1].
    set (p := with_annot (Some w) o). set (A2 := edit A1 a v (BOnto p)).
    assert (WL : forall y, rch (a_h A1) w y -> y = w).
    { intros y X. inversion X as [|? b ? (u & F & J)]; auto. rewrite M2 in F. inversion F; subst u. easy. }
    assert (C : forall x, count x (pointers_of (BOnto p)) = (count x (pointers_of (BOnto o)) + if N.eqb w x then 1 else 0)%nat).
    { intros x. rewrite !onto_count. cbn [p with_annot n_iri n_version n_imports n_annot n_axioms]. rewrite AN. cbn [opt_list].
      rewrite count_cons, count_nil. unfold axs. cbn [p with_annot n_axioms]. lia. }
    assert (IN : incl (pointers_of (BOnto o)) (pointers_of (BOnto p))).
    { intros x J. apply count_in. apply count_in in J. rewrite C. lia. }
    assert (I2 : Inv A2 R []).
    { apply (edit_inv A1 (w :: R) R a v (BOnto p) I1 F1).
      - right. exists o, p. split; auto. split; auto. split.
        + unfold ProofHeap.kids_ok in KO1 |- *. rewrite D in KO1. cbn. destruct KO1 as (Q1 & Q2 & Q3 & Q4). split; auto. split; auto.
          split; auto. intros i X. inversion X; subst. exists (mkOb OT_VECTOR true 1 (BVec [])). auto.
        + now apply (indexed_same e (a_h A1) o p).
      - intros x. rewrite D, C, count_cons. lia.
      - intros x J. rewrite D. apply count_in in J. rewrite C in J. destruct (w =? x) eqn:Q.
        + apply N.eqb_eq in Q. subst x. right. intros X. apply WL in X. congruence.
        + left. apply count_in. lia.
      - eapply empty_in; eauto. }
    assert (G2 : grow (a_h A1) (a_h A2)) by (apply (edit_grow A1 (w :: R) a v o p); auto).
    exists w, A2. split; [|split; [|split; [|split; [|split; [|split]]]]]; auto.
    + rewrite (bind_ok _ _ _ _ _ (set_onto_cs A1 a v o _ F1 D)). reflexivity.
    + now apply edit_room.
    + apply (grow_keeps huge e A R []); auto. intros x u F P. destruct (M3 x u F P) as (u1 & F' & P' & U').
      destruct (G2 x u1 F' P') as (u2 & F2 & P2 & U2). exists u2. split; auto. split; auto. eapply up_trans; eauto.
    + intros x u F P. destruct (M3 x u F P) as (u1 & F' & P' & U').
      destruct (G2 x u1 F' P') as (u2 & F2 & P2 & U2). exists u2. split; auto. split; auto. eapply up_trans; eauto.
    + exists (mkOb OT_VECTOR true 1 (BVec [])). split; auto. unfold A2. rewrite edit_other by auto. auto.
    + intros x LX NA _ X.
      assert (forall y z, rch (a_h A2) y z -> z = w -> y = w \/ rch (a_h A) y a) as Z.
      { intros y z H. induction H as [z|y b z (u & F & J) H IH]; intros ZW; auto.
        destruct (IH ZW) as [->|IH'].
        - subst z. destruct (N.eq_dec y a) as [->|YA]; [right; constructor|]. unfold A2 in F. rewrite edit_other in F by auto.
          rewrite H1 in F. cbn in F. destruct (w =? y) eqn:Q; [apply N.eqb_eq in Q; subst; now left|].
          exfalso. destruct (kid_live _ _ _ _ _ _ _ _ I F J) as (q & Q1 & _). congruence.
        - subst z. right. destruct (N.eq_dec y a) as [->|YA]; [constructor|]. unfold A2 in F. rewrite edit_other in F by auto.
          rewrite H1 in F. cbn in F. destruct (w =? y) eqn:Q; [inversion F; subst u; easy|].
          apply rch_step with b; auto. exists u. auto. }
      destruct (Z x w X eq_refl) as [->|Y]; [|auto]. destruct LX as (u & LX). congruence.
Qed.

(** The entities the library names in restrictions and literals. *)
Definition std (h : obs) : Prop :=
  (exists v i, lookup h (e_thing e) = Some v /\ o_d v = BEnt i) /\
  (exists v i, lookup h (e_literal e) = Some v /\ o_d v = BEnt i) /\
  (exists v i, lookup h (e_lang_string e) = Some v /\ o_d v = BEnt i).
Lemma prims_at A R x : Inv A R [] -> std (a_h A) -> live (a_h A) x -> clean huge (cs A) x ->
  prims huge e x (cs A) = Ok (pl (S (List.length (a_h A))) (a_h A) x) (cs A).
Proof. intros I (S1 & S2 & S3) L C. eapply prims_ok; eauto. Qed.

Lemma add_annot_ok A R a v o x : Inv A R [] -> std (a_h A) -> lookup (a_h A) a = Some v -> o_d v = BOnto o ->
  live (a_h A) x -> clean huge (cs A) x -> ~ rch (a_h A) x a -> (forall w, n_annot o = Some w -> ~ rch (a_h A) x w) ->
  ok A R 1 (add_annot huge fresh e a x) (fun _ A' => Inv A' R []).
Proof.
  intros I SD E D LX CL N1 N2. unfold add_annot. eapply ok_pure; [eapply prims_at; eauto|].
  set (ps := pl (S (List.length (a_h A))) (a_h A) x).
  destruct (onto_kids A R a v o I E D) as [KO IX].
  set (p := with_axioms (n_axioms o) (fold_left add_primitive ps (n_refs o)) o). set (A1 := edit A a v (BOnto p)).
  assert (PE : pointers_of (BOnto p) = pointers_of (BOnto o)) by reflexivity.
  assert (I1 : Inv A1 R []).
  { apply (edit_inv A R R a v (BOnto p) I E).
    - right. exists o, p. split; auto. split; auto. split.
      + unfold ProofHeap.kids_ok in KO |- *. rewrite D in KO. exact KO.
      + apply indexed_iff. intros q y. destruct (proj1 (indexed_iff e _ o) IX q y) as (n & Q). exists n.
        cbn [p with_axioms n_refs]. rewrite entry_primitives. exact Q.
    - intros y. now rewrite D, PE.
    - intros y J. left. now rewrite D.
    - eapply empty_in; eauto. }
  assert (G1 : grow (a_h A) (a_h A1)) by (apply (edit_grow A R a v o p); auto; easy).
  assert (RC : forall y z, rch (a_h A1) y z -> rch (a_h A) y z).
  { intros y z H. induction H as [y|y b z (u & F & J) H IH]; [constructor|]. apply rch_step with b; auto.
    destruct (N.eq_dec y a) as [->|X].
    - unfold A1 in F. rewrite (edit_at A a v _ E) in F. inversion F; subst u. exists v. split; auto.
      pose proof (live_all _ _ _ _ _ _ I E) as P. rewrite kids_live in J by exact P. rewrite kids_live, D by exact P. exact J.
    - unfold A1 in F. rewrite edit_other in F by auto. exists u. auto. }
  intros k K. rewrite (bind_ok _ _ _ _ _ (set_onto_cs A a v o _ E D)). fold p. fold A1.
  assert (K1 : Room A1 (0 + (1 + k))) by (apply edit_room; auto).
  destruct (annot_vec_ok A1 R a (edit_ob v (BOnto p)) p I1 (edit_at A a v _ E) eq_refl (1 + k) K1) as (w & A2 & E2 & K2 & V2 & I2 & G2 & T2 & N3).
  rewrite (bind_ok _ _ _ _ _ E2).
  assert (L1 : live (a_h A1) x) by (apply (grow_live huge e A R); auto).
  destruct (vector_add_ok huge e A2 R w x I2 T2) with (k := k) as (u & A3 & E3 & K3 & V3 & I3); auto.
  - apply (grow_live huge e A1 R); auto.
  - apply N3; auto. cbn. intros w0 X. specialize (N2 w0 X). auto.
  - exists u, A3. split; auto. split; auto. split; auto. eapply keeps_trans; [|eapply keeps_trans; [exact V2|exact V3]].
    apply (grow_keeps huge e A R []); auto.
Qed.

Lemma add_import_ok A R a v o i : Inv A R [] -> lookup (a_h A) a = Some v -> o_d v = BOnto o -> is_type (a_h A) i OT_IRI ->
  ok A R 1 (add_import huge a i) (fun _ A' => Inv A' R []).
Proof.
  intros I E D TI. unfold add_import. intros k K.
  destruct (retain_ok huge e A R i I (type_live _ _ _ TI) k K) as (z & A1 & E1 & K1 & V1 & -> & I1 & G1 & S1).
  rewrite (bind_ok _ _ _ _ _ E1). destruct (proj1 S1 a v E) as (v1 & F1 & (T1 & B1 & D1)). rewrite D in D1.
  rewrite (bind_ok _ _ _ _ _ (onto_cs huge A1 a v1 o F1 D1)), (set_onto_cs A1 a v1 o _ F1 D1).
  set (p := with_imports (n_imports o ++ [i]) o). destruct (onto_kids A1 (i :: R) a v1 o I1 F1 D1) as [KO IX].
  assert (C : forall x, count x (pointers_of (BOnto p)) = (count x (pointers_of (BOnto o)) + if N.eqb i x then 1 else 0)%nat).
  { intros x. rewrite !onto_count. unfold axs. cbn [p with_imports n_iri n_version n_imports n_annot n_axioms].
    rewrite count_app, count_cons, count_nil. lia. }
  exists tt, (edit A1 a v1 (BOnto p)). split; auto. split; [now apply edit_room|]. split.
  - eapply keeps_trans; [exact V1|]. apply (keeps_incl _ (i :: R)); [intros x; now right|].
    apply (edit_keeps A1 (i :: R) a v1 o p); auto. intros x J. apply count_in. apply count_in in J. rewrite C. lia.
  - apply (edit_inv A1 (i :: R) R a v1 (BOnto p) I1 F1).
    + right. exists o, p. split; auto. split; auto. split.
      * unfold ProofHeap.kids_ok in KO |- *. rewrite D1 in KO. exact KO.
      * now apply (indexed_same e (a_h A1) o p).
    + intros x. rewrite D1, C, count_cons. lia.
    + intros x J. rewrite D1. apply count_in in J. rewrite C in J. destruct (i =? x) eqn:Q.
      * apply N.eqb_eq in Q. subst x. right. apply (iri_not_onto A1 (i :: R) i a v1 o); auto.
        apply (grow_type huge e A R); auto.
      * left. apply count_in. lia.
    + eapply empty_in; eauto.
Qed.

Lemma pl_sim h h' : sim h h' -> forall n x p, (count p (pl n h x) <= count p (pl n h' x))%nat.
Proof.
  intros [S1 _] n x p. apply pl_fuller. intros b _ v E. destruct (S1 b v E) as (w & F & (T & B & D)). exists w.
  auto 8.
Qed.

Lemma add_axiom_ok A R a v o x : Inv A R [] -> std (a_h A) -> lookup (a_h A) a = Some v -> o_d v = BOnto o ->
  live (a_h A) x -> clean huge (cs A) x -> ~ rch (a_h A) x a ->
  ok A R 1 (add_axiom huge e a x) (fun _ A' => Inv A' R []).
Proof.
  intros I SD E D (vx & EX) CL N1. unfold add_axiom. pose proof (fit_at huge e A R I) as FT.
  eapply ok_pure; [apply (bit_cs huge A a v E (FT a v E))|].
  set (ps := if o_b v then [] else pl (S (List.length (a_h A))) (a_h A) x).
  eapply (ok_pure huge A R 1 _ _ ps).
  { unfold ps. destruct (o_b v); [reflexivity|]. eapply prims_at; eauto. exists vx; auto. }
  eapply ok_pure; [apply (type_cs huge A x vx EX (FT x vx EX))|].
  intros k K. assert (LX : live (a_h A) x) by (exists vx; auto).
  destruct (retain_ok huge e A R x I LX k K) as (z & A1 & E1 & K1 & V1 & -> & I1 & G1 & S1).
  rewrite (bind_ok _ _ _ _ _ E1). destruct (proj1 S1 a v E) as (v1 & F1 & (T1 & B1 & D1)). rewrite D in D1.
  rewrite (set_onto_cs A1 a v1 o _ F1 D1).
  set (t := o_t vx).
  set (p := with_axioms (change_axioms t (fun l => l ++ [x]) (n_axioms o)) (fold_left (add_ref x) ps (n_refs o)) o).
  destruct (onto_kids A1 (x :: R) a v1 o I1 F1 D1) as [KO IX].
  assert (AX : forall y, count y (axs p) = (count y (axs o) + if N.eqb x y then 1 else 0)%nat).
  { intros y. unfold axs. cbn [p with_axioms n_axioms]. pose proof (count_change t (fun l => l ++ [x]) (n_axioms o) y) as H.
    cbn beta in H. rewrite count_app, count_cons, count_nil in H. lia. }
  assert (C : forall y, count y (pointers_of (BOnto p)) = (count y (pointers_of (BOnto o)) + if N.eqb x y then 1 else 0)%nat).
  { intros y. rewrite !onto_count, AX. cbn [p with_axioms n_iri n_version n_imports n_annot]. lia. }
  exists tt, (edit A1 a v1 (BOnto p)). split; auto. split; [now apply edit_room|]. split.
  - eapply keeps_trans; [exact V1|]. apply (keeps_incl _ (x :: R)); [intros y; now right|].
    apply (edit_keeps A1 (x :: R) a v1 o p); auto. intros y J. apply count_in. apply count_in in J. rewrite C. lia.
  - apply (edit_inv A1 (x :: R) R a v1 (BOnto p) I1 F1).
    + right. exists o, p. split; auto. split; auto. split.
      * unfold ProofHeap.kids_ok in KO |- *. rewrite D1 in KO. destruct KO as (Q1 & Q2 & Q3 & Q4 & Q5). cbn.
        repeat split; auto; [now apply change_nodup|].
        assert (TX : is_type (a_h A1) x t) by (apply (grow_type huge e A R); auto; exists vx; auto).
        intros u l y J JY. apply change_in in J as [J|[-> ->]]; [eauto|]. apply in_app_iff in JY as [JY|[<-|[]]]; auto.
        destruct (tindex_in (n_axioms o) t) as [Z|Z]; [rewrite Z in JY; easy|eauto].
      * apply indexed_iff. intros q y. destruct (proj1 (indexed_iff e _ o) IX q y) as (n & Q). rewrite AX.
        cbn [p with_axioms n_refs]. rewrite entry_adds. destruct (x =? y) eqn:XY; [|exists n; lia]. apply N.eqb_eq in XY. subst y.
        set (M := S (List.length (a_h A))). set (M1 := S (List.length (a_h A1))).
        assert (count q ps <= count q (pl M (a_h A1) x))%nat.
        { unfold ps. destruct (o_b v); [rewrite count_nil; lia|]. now apply pl_sim. }
        assert (LX1 : live (a_h A1) x) by (apply (grow_live huge e A R); auto).
        pose proof (pl_all huge e A1 (x :: R) x M q I1 LX1). pose proof (pl_all huge e A1 (x :: R) x n q I1 LX1). fold M1 in H0, H1.
        exists M1. nia.
    + intros y. rewrite D1, C, count_cons. lia.
    + intros y J. rewrite D1. apply count_in in J. rewrite C in J. destruct (x =? y) eqn:Q.
      * apply N.eqb_eq in Q. subst y. right. intros H. apply N1. apply (sim_rch _ _ _ _ S1); auto.
        intros c w F. apply (live_all _ _ _ _ _ _ I F).
      * left. apply count_in. lia.
    + eapply empty_in; eauto.
Qed.

Lemma axs_live A R a v o y : Inv A R [] -> lookup (a_h A) a = Some v -> o_d v = BOnto o -> In y (axs o) -> live (a_h A) y.
Proof.
  intros I E D J. destruct (kid_live _ _ _ _ _ _ _ _ I E (axs_kid v o y (live_all _ _ _ _ _ _ I E) D J)) as (w & F & _). exists w. auto.
Qed.

Lemma has_axiom_ok A R a v o x : Inv A R [] -> std (a_h A) -> lookup (a_h A) a = Some v -> o_d v = BOnto o ->
  live (a_h A) x -> clean huge (cs A) x -> ok A R 0 (has_axiom huge e a x) (fun _ A' => A' = A).
Proof.
  intros I SD E D (vx & EX) CL. unfold has_axiom. pose proof (fit_at huge e A R I) as FT.
  destruct (onto_kids A R a v o I E D) as [KO IX]. assert (LX : live (a_h A) x) by (exists vx; auto).
  eapply ok_pure; [apply (onto_cs huge A a v o E D)|]. eapply ok_pure; [eapply prims_at; eauto|].
  eapply ok_pure; [apply (type_cs huge A x vx EX (FT x vx EX))|].
  set (l := best_index o (pl (S (List.length (a_h A))) (a_h A) x) (o_t vx)).
  destruct (find_at_ok huge e A R I x LX l) as (r & Q & _).
  { apply Forall_forall. intros y J. apply (axs_live A R a v o y I E D). apply (best_index_in e _ _ _ _ _ IX J). }
  eapply ok_pure; [exact Q|]. apply (ok_ret huge e); auto.
Qed.

(** * Calls that remove something *)

Definition cut {X} (A : ast) (R : list N) (P : N -> Prop) (c : N) (m : act X) : Prop :=
  forall k, Room A (c + k) -> exists x A', m (cs A) = Ok x (cs A') /\ Room A' k /\ shr P (a_h A) (a_h A') /\ Inv A' R [].

(** Releasing a reference taken out of an ontology or a vector. *)
Lemma drop_ok A R a v d y k : Inv A (y :: R) [] -> In (e_empty e) R -> lookup (a_h A) a = Some v -> o_d v = d -> use (a_h A) R a -> Room A k ->
  exists A', release huge (Some y) (cs A) = Ok tt (cs A') /\ Room A' k /\ shrink (a_h A) (a_h A') /\ Inv A' R [] /\
    keeps R (a_h A) (a_h A') /\ exists v', lookup (a_h A') a = Some v' /\ o_d v' = d /\ o_b v' = o_b v /\ o_t v' = o_t v.
Proof.
  intros I EM E D U K. destruct (release_ok huge e A R (y :: R) y I (fun _ => eq_refl) EM k K) as ([] & A' & E1 & K1 & V1 & I1 & S1).
  exists A'. split; auto. split; auto. split; auto. split; auto. split; auto.
  destruct (keeps_live _ _ _ _ V1 U) as (v' & F). exists v'. split; auto.
  destruct (S1 a v' F) as (v0 & F0 & (T1 & B1 & D1) & _). rewrite E in F0. inversion F0; subst v0. split; [congruence|]. split; auto.
Qed.

Lemma use_edit A R a v d x : use (a_h A) R x -> x = a \/ ~ rch (a_h A) a x -> use (a_h (edit A a v d)) R x.
Proof. intros (r & J & H) C. exists r. split; auto. now apply rch_edit. Qed.

Lemma remove_import_ok A R a v o i : Inv A R [] -> lookup (a_h A) a = Some v -> o_d v = BOnto o -> use (a_h A) R a ->
  is_type (a_h A) i OT_IRI -> cut A R (fun x => x = a) 0 (remove_import huge a i).
Proof.
  intros I E D U TI k K. destruct (onto_kids A R a v o I E D) as [KO IX]. unfold remove_import.
  pose proof (live_all _ _ _ _ _ _ I E) as P.
  rewrite (bind_ok _ _ _ _ _ (onto_cs huge A a v o E D)).
  destruct (find_at_ok huge e A R I i (type_live _ _ _ TI) (n_imports o)) as (r & Q & X).
  { apply Forall_forall. intros y J. destruct (kid_edge huge e A R I a v y E) as [_ L]; auto.
    rewrite D. cbn. rewrite !in_app_iff. auto. }
  rewrite (bind_ok _ _ _ _ _ Q). destruct r as [n|].
  - destruct X as (y & N1 & TW).
    assert (y = i) as ->.
    { destruct (iri_of_type _ _ _ _ _ _ I TI) as (u & ns & rem & F & DU).
      assert (LC : lookup (s_heap (cs A)) i = Some (ProofHeap.cell_of huge u)) by (rewrite lookup_cs, F; reflexivity).
      assert (DC : c_body (ProofHeap.cell_of huge u) = BIri ns rem) by exact DU.
      inversion TW as [|? ? t (c & L1 & L2) _|? ? l m (c & L1 & L2) _|? ? c d fs gs L1 _ _ L2]; auto; rewrite LC in L1; inversion L1; subst; congruence. }
    set (p := with_imports (remove_at n (n_imports o)) o).
    assert (C : forall x, (count x (pointers_of (BOnto p)) + (if N.eqb i x then 1 else 0) = count x (pointers_of (BOnto o)))%nat).
    { intros x. rewrite !onto_count. unfold axs. cbn [p with_imports n_iri n_version n_imports n_annot n_axioms].
      pose proof (count_remove_at n (n_imports o) i x N1). lia. }
    rewrite (bind_ok _ _ _ _ _ (set_onto_cs A a v o _ E D)). fold p.
    assert (I1 : Inv (edit A a v (BOnto p)) (i :: R) []).
    { apply (edit_inv A R (i :: R) a v (BOnto p) I E).
      - right. exists o, p. split; auto. split; auto. split.
        + unfold ProofHeap.kids_ok in KO |- *. rewrite D in KO. exact KO.
        + now apply (indexed_same e (a_h A) o p).
      - intros x. rewrite D, count_cons. specialize (C x). lia.
      - intros x J. left. rewrite D. apply count_in. apply count_in in J. specialize (C x). lia.
      - right. eapply empty_in; eauto. }
    destruct (drop_ok _ R a (edit_ob v (BOnto p)) _ i k I1 (empty_in _ _ _ _ _ I) (edit_at A a v _ E) eq_refl) as (A2 & E2 & K2 & S2 & I2 & _).
    { apply use_edit; auto. }
    { now apply edit_room. }
    rewrite (bind_ok _ _ _ _ _ E2). exists true, A2. split; [reflexivity|]. split; auto. split; auto.
    eapply shr_trans; [|apply shr_shrink; exact S2]. apply shr_edit; auto. rewrite D. constructor.
  - exists false, A. split; [reflexivity|]. split; auto. split; auto. apply shr_refl.
Qed.

Lemma remove_axiom_ok A R a v o x : Inv A R [] -> std (a_h A) -> lookup (a_h A) a = Some v -> o_d v = BOnto o -> use (a_h A) R a ->
  live (a_h A) x -> clean huge (cs A) x -> (forall y, In y (axs o) -> twins huge (cs A) x y -> y = x) ->
  cut A R (fun x => x = a) 0 (remove_axiom huge e a x).
Proof.
  intros I SD E D U (vx & EX) CL TW k K. unfold remove_axiom. pose proof (fit_at huge e A R I) as FT.
  destruct (onto_kids A R a v o I E D) as [KO IX]. assert (LX : live (a_h A) x) by (exists vx; auto).
  rewrite (bind_ok _ _ _ _ _ (onto_cs huge A a v o E D)).
  rewrite (bind_ok _ _ _ _ _ (prims_at A R x I SD LX CL)).
  rewrite (bind_ok _ _ _ _ _ (type_cs huge A x vx EX (FT x vx EX))).
  set (M := S (List.length (a_h A))). set (ps := pl M (a_h A) x). set (t := o_t vx).
  destruct (find_at_ok huge e A R I x LX (rev (best_index o ps t))) as (r & Q & X).
  { apply Forall_forall. intros y J. apply (axs_live A R a v o y I E D). apply (best_index_in e _ _ ps t _ IX). now apply in_rev. }
  rewrite (bind_ok _ _ _ _ _ Q). destruct r as [n|].
  - destruct X as (y & N1 & TY).
    assert (JX : In x (axs o)).
    { apply nth_in, in_rev in N1. apply (best_index_in e _ _ ps t _ IX) in N1. rewrite <- (TW y N1 TY). auto. }
    assert (JT : In x (tindex (n_axioms o) t)).
    { unfold ProofHeap.kids_ok in KO. rewrite D in KO. destruct KO as (_ & _ & _ & ND & TK). unfold axs in JX.
      apply in_flat_map in JX as ([u l] & J1 & J2). cbn in J2. destruct (TK u l x J1 J2) as (vx' & EX' & T').
      rewrite EX in EX'. inversion EX'; subst vx'. subst u. unfold t. now rewrite (tindex_of _ _ _ ND J1). }
    set (p := with_axioms (change_axioms t (remove_last x) (n_axioms o)) (fold_left (remove_ref x) ps (n_refs o)) o).
    assert (AX : forall y, (count y (axs p) + (if N.eqb x y then 1 else 0) = count y (axs o))%nat).
    { intros z. unfold axs. cbn [p with_axioms n_axioms]. pose proof (count_change t (remove_last x) (n_axioms o) z) as H.
      rewrite count_remove_last in H. destruct (x =? z) eqn:XZ; [|lia]. apply N.eqb_eq in XZ. subst z.
      apply count_in in JT. lia. }
    assert (C : forall y, (count y (pointers_of (BOnto p)) + (if N.eqb x y then 1 else 0) = count y (pointers_of (BOnto o)))%nat).
    { intros z. rewrite !onto_count. specialize (AX z). cbn [p with_axioms n_iri n_version n_imports n_annot]. fold p. lia. }
    rewrite (bind_ok _ _ _ _ _ (set_onto_cs A a v o _ E D)). fold p.
    assert (I1 : Inv (edit A a v (BOnto p)) (x :: R) []).
    { apply (edit_inv A R (x :: R) a v (BOnto p) I E).
      - right. exists o, p. split; auto. split; auto. split.
        + unfold ProofHeap.kids_ok in KO |- *. rewrite D in KO. destruct KO as (Q1 & Q2 & Q3 & Q4 & Q5). cbn.
          repeat split; auto; [now apply change_nodup|].
          intros u l z J JZ. apply change_in in J as [J|[-> ->]]; [eauto|].
          assert (JZ' : In z (tindex (n_axioms o) t)).
          { apply count_in. apply count_in in JZ. rewrite count_remove_last in JZ. lia. }
          destruct (tindex_in (n_axioms o) t) as [Z|Z]; [rewrite Z in JZ'; easy|eauto].
        + apply indexed_iff. intros q z. destruct (proj1 (indexed_iff e _ o) IX q z) as (m & Z). specialize (AX z).
          cbn [p with_axioms n_refs]. rewrite entry_removes. fold p. destruct (x =? z) eqn:XZ; [|exists m; nia].
          apply N.eqb_eq in XZ. subst z. exists M. pose proof (pl_all huge e A R x m q I LX) as Y. fold M in Y.
          fold ps. fold ps in Y. assert (axs o <> []) by (destruct (axs o); easy).
          assert (count x (axs o) = S (count x (axs p))) by lia. nia.
      - intros z. rewrite D, count_cons. specialize (C z). lia.
      - intros z J. left. rewrite D. apply count_in. apply count_in in J. specialize (C z). lia.
      - right. eapply empty_in; eauto. }
    destruct (drop_ok _ R a (edit_ob v (BOnto p)) _ x k I1 (empty_in _ _ _ _ _ I) (edit_at A a v _ E) eq_refl) as (A2 & E2 & K2 & S2 & I2 & _).
    { apply use_edit; auto. }
    { now apply edit_room. }
    rewrite (bind_ok _ _ _ _ _ E2). exists true, A2. split; [reflexivity|]. split; auto. split; auto.
    eapply shr_trans; [|apply shr_shrink; exact S2]. apply shr_edit; auto. rewrite D. constructor.
  - exists false, A. split; [reflexivity|]. split; auto. split; auto. apply shr_refl.
Qed.

(** The only pointer to an object. *)
Lemma indeg_one A R b u c w y : Inv A R [] -> indeg y (a_h A) = 1%nat -> lookup (a_h A) b = Some u -> lookup (a_h A) c = Some w ->
  In y (kids u) -> In y (kids w) -> b = c /\ count y (kids u) = 1%nat.
Proof.
  intros I D E F J L. pose proof (indeg_drop (a_h A) b u y E) as H. pose proof (proj2 (count_in _ _) J).
  destruct (N.eq_dec b c) as [X|X]; [split; [auto|lia]|]. exfalso.
  assert (G : lookup (drop (a_h A) b) c = Some w).
  { rewrite lookup_drop by apply I. destruct (b =? c) eqn:Q; [lia|auto]. }
  pose proof (indeg_pos _ _ _ _ G L). lia.
Qed.

Lemma remove_annot_ok A R a v o x : Inv A R [] -> lookup (a_h A) a = Some v -> o_d v = BOnto o -> use (a_h A) R a ->
  live (a_h A) x ->
  (forall w u l, n_annot o = Some w -> lookup (a_h A) w = Some u -> o_d u = BVec l ->
     indeg w (a_h A) = 1%nat /\ forall y, In y l -> twins huge (cs A) x y -> y = x) ->
  cut A R (fun b => b = a \/ n_annot o = Some b) 0 (remove_annot huge a x).
Proof.
  intros I E D U LX H k K. destruct (onto_kids A R a v o I E D) as [KO IX]. unfold remove_annot.
  pose proof (live_all _ _ _ _ _ _ I E) as P. assert (EM := empty_in _ _ _ _ _ I).
  rewrite (bind_ok _ _ _ _ _ (onto_cs huge A a v o E D)). destruct (n_annot o) as [w|] eqn:AN.
  2:{ exists false, A. split; [reflexivity|]. split; auto. split; auto. apply shr_refl. }
  assert (TV : is_type (a_h A) w OT_VECTOR) by (unfold ProofHeap.kids_ok in KO; rewrite D in KO; apply KO; auto).
  destruct (vec_of_type _ _ _ _ _ _ I TV) as (u & l & EW & DW). destruct (H w u l eq_refl EW DW) as [ONE TWN].
  pose proof (live_all _ _ _ _ _ _ I EW) as PW.
  assert (JW : In w (kids v)) by (rewrite kids_live, D by auto; cbn; rewrite AN, !in_app_iff; cbn; tauto).
  assert (WA : edge (a_h A) w a) by (exists v; auto).
  unfold vector_remove. unfold bind at 1. rewrite (bind_ok _ _ _ _ _ (items_cs huge A w u l EW DW)).
  destruct (find_at_ok huge e A R I x LX l) as (r & Q & X).
  { apply Forall_forall. intros y J. destruct (kid_edge huge e A R I w u y EW) as [_ L]; auto. now rewrite DW. }
  rewrite (bind_ok _ _ _ _ _ Q). destruct r as [n|].
  2:{ exists false, A. split; [reflexivity|]. split; auto. split; auto. apply shr_refl. }
  destruct X as (y & N1 & TY). rewrite (TWN y (nth_in _ _ _ N1) TY) in N1.
  rewrite (bind_ok _ _ _ _ _ (bit_cs huge A w u EW (fit_at huge e A R I w u EW))).
  rewrite (bind_ok _ _ _ _ _ (read_cs huge A w u EW)). cbn [ProofHeap.cell_of c_hdr].
  set (m := if o_b u then remove_at n l else swap_remove_at n l).
  assert (C : forall z, (count z m + (if N.eqb x z then 1 else 0) = count z l)%nat).
  { intros z. unfold m. destruct (o_b u); [now apply count_remove_at|now apply count_swap_remove_at]. }
  rewrite (bind_ok _ _ _ _ _ (write_cs huge A w u (edit_ob u (BVec m)) EW)).
  change (set_h A (store (a_h A) w (edit_ob u (BVec m)))) with (edit A w u (BVec m)). set (A1 := edit A w u (BVec m)).
  assert (NWA : w <> a) by (intros ->; congruence).
  assert (I1 : Inv A1 (x :: R) []).
  { apply (edit_inv A R (x :: R) w u (BVec m) I EW).
    - left. exists l, m. split; auto. split; auto. intros b ub ob z LB PB DB JZ CT.
      (* nothing but the ontology points to the vector *)
      assert (L0 : forall c uc, lookup (a_h A) c = Some uc -> In w (kids uc) -> c = a).
      { intros c uc F J. now destruct (indeg_one A R c uc a v w I ONE F E J JW). }
      apply clos_rt_rt1n in CT. inversion CT as [|z1 ? (uz & Z1 & Z2 & Z3) CT']; subst.
      + pose proof (axs_kid ub ob z PB DB JZ) as JB. pose proof (L0 b ub LB JB) as ->. rewrite E in LB. inversion LB; subst ub.
        assert (ob = o) by congruence. subst ob.
        destruct (indeg_one A R a v a v z I ONE E E JW JW) as [_ ONE']. rewrite kids_live, D, onto_count, AN in ONE' by auto.
        cbn [opt_list] in ONE'. rewrite count_self in ONE'. apply count_in in JZ. lia.
      + assert (z1 = a) as ->. { apply (L0 z1 uz Z1). rewrite kids_live; auto. apply (live_all _ _ _ _ _ _ I Z1). }
        apply (Z2 o). congruence.
    - intros z. rewrite DW, count_cons. cbn [pointers_of]. specialize (C z). lia.
    - intros z J. left. rewrite DW. cbn [pointers_of] in *. apply count_in. apply count_in in J. specialize (C z). lia.
    - now right. }
  assert (U1 : use (a_h A1) R a).
  { apply use_edit; auto. right. intros X. now apply (ProofHeapFun.no_cycle (a_h A) (i_acyclic _ _ _ _ _ I) a w). }
  assert (E1 : lookup (a_h A1) a = Some v) by (unfold A1; rewrite edit_other; auto).
  destruct (drop_ok A1 R a v _ x k I1 EM E1 D U1) as (A2 & R2 & K2 & S2 & I2 & V2 & v2 & E2 & D2 & _).
  { now apply edit_room. }
  rewrite (bind_ok _ _ _ _ _ R2). unfold ret at 1. cbn [negb].
  assert (W2 : exists u2, lookup (a_h A2) w = Some u2 /\ o_d u2 = BVec m).
  { assert (live (a_h A2) w) as (u2 & F2).
    { destruct (kid_edge huge e A2 R I2 a v2 w E2) as [_ L]; auto. rewrite D2. cbn. rewrite AN, !in_app_iff. cbn. tauto. }
    exists u2. split; auto. destruct (S2 w u2 F2) as (u1 & F1 & (_ & _ & DU) & _). unfold A1 in F1.
    rewrite (edit_at A w u _ EW) in F1. inversion F1; subst u1. exact DU. }
  destruct W2 as (u2 & W2 & DU2). rewrite (bind_ok _ _ _ _ _ (items_cs huge A2 w u2 m W2 DU2)).
  assert (SH2 : shr (fun b => b = a \/ Some w = Some b) (a_h A) (a_h A2)).
  { eapply shr_trans; [|apply shr_shrink; exact S2]. apply shr_edit; auto. rewrite DW. constructor. }
  destruct (Nat.eqb (List.length m) 0) eqn:LM.
  2:{ exists true, A2. split; [reflexivity|]. auto. }
  rewrite (bind_ok _ _ _ _ _ (set_onto_cs A2 a v2 o _ E2 D2)). set (p := with_annot None o). set (A3 := edit A2 a v2 (BOnto p)).
  assert (C3 : forall z, (count z (pointers_of (BOnto p)) + (if N.eqb w z then 1 else 0) = count z (pointers_of (BOnto o)))%nat).
  { intros z. rewrite !onto_count. unfold axs. cbn [p with_annot n_iri n_version n_imports n_annot n_axioms]. rewrite AN.
    cbn [opt_list]. rewrite count_cons, count_nil. lia. }
  destruct (onto_kids A2 R a v2 o I2 E2 D2) as [KO2 IX2].
  assert (I3 : Inv A3 (w :: R) []).
  { apply (edit_inv A2 R (w :: R) a v2 (BOnto p) I2 E2).
    - right. exists o, p. split; auto. split; auto. split.
      + unfold ProofHeap.kids_ok in KO2 |- *. rewrite D2 in KO2. destruct KO2 as (Q1 & Q2 & Q3 & Q4). cbn. repeat split; auto; [discriminate|apply Q4|apply Q4].
      + now apply (indexed_same e (a_h A2) o p).
    - intros z. rewrite D2, count_cons. specialize (C3 z). lia.
    - intros z J. left. rewrite D2. apply count_in. apply count_in in J. specialize (C3 z). lia.
    - now right. }
  destruct (drop_ok A3 R a (edit_ob v2 (BOnto p)) _ w k I3 EM (edit_at A2 a v2 _ E2) eq_refl) as (A4 & R4 & K4 & S4 & I4 & _).
  { apply use_edit; auto. eapply keeps_use; eauto. }
  { now apply edit_room. }
  rewrite (bind_ok _ _ _ _ _ R4). exists true, A4. split; [reflexivity|]. split; auto. split; auto.
  eapply shr_trans; [exact SH2|]. eapply shr_trans; [|apply shr_shrink; exact S4]. apply shr_edit; auto. rewrite D2. constructor.
Qed.

(** cowl_ontology_set_iri and cowl_ontology_set_version *)
Lemma set_member_ok get put A R a v o i : Inv A R [] -> lookup (a_h A) a = Some v -> o_d v = BOnto o -> use (a_h A) R a ->
  (forall p q x, (count x (pointers_of (BOnto (put p q))) + count x (opt_list (get q)) = count x (pointers_of (BOnto q)) + count x (opt_list p))%nat) ->
  (forall p q, get (put p q) = p) -> (forall p q, n_axioms (put p q) = n_axioms q /\ n_refs (put p q) = n_refs q) ->
  (forall h u p q, o_d u = BOnto q -> kids_ok h u -> (forall j, p = Some j -> is_type h j OT_IRI) -> kids_ok h (edit_ob u (BOnto (put p q)))) ->
  (forall h u q j, o_d u = BOnto q -> kids_ok h u -> get q = Some j -> is_type h j OT_IRI) ->
  (forall j, i = Some j -> is_type (a_h A) j OT_IRI /\ (get o = Some j -> (2 <= count j R + indeg j (a_h A))%nat)) ->
  cut A R (fun x => x = a) 1 (set_member huge get put a i).
Proof.
  intros I E D U PC GP PX PK GK IH k K. destruct (onto_kids A R a v o I E D) as [KO IX].
  pose proof (live_all _ _ _ _ _ _ I E) as P. assert (EM := empty_in _ _ _ _ _ I). unfold set_member.
  rewrite (bind_ok _ _ _ _ _ (onto_cs huge A a v o E D)), (bind_ok _ _ _ _ _ (set_onto_cs A a v o _ E D)).
  set (p := put None o). set (A1 := edit A a v (BOnto p)).
  assert (C1 : forall x, (count x (pointers_of (BOnto p)) + count x (opt_list (get o)) = count x (pointers_of (BOnto o)))%nat).
  { intros x. unfold p. rewrite PC. cbn [opt_list]. rewrite count_nil. lia. }
  assert (I1 : Inv A1 (opt_list (get o) ++ R) []).
  { apply (edit_inv A R _ a v (BOnto p) I E).
    - right. exists o, p. split; auto. split; auto. split.
      + apply PK; auto. discriminate.
      + apply (indexed_same e (a_h A) o p); auto; apply PX.
    - intros x. rewrite D, count_app. specialize (C1 x). lia.
    - intros x J. left. rewrite D. apply count_in. apply count_in in J. specialize (C1 x). lia.
    - apply in_or_app. now right. }
  assert (U1 : use (a_h A1) R a) by (apply use_edit; auto).
  assert (K1 : Room A1 (1 + k)) by (apply edit_room; auto).
  assert (E1 : lookup (a_h A1) a = Some (edit_ob v (BOnto p))) by (apply edit_at; auto).
  assert (SH1 : shr (fun x => x = a) (a_h A) (a_h A1)) by (apply shr_edit; auto; rewrite D; constructor).
  assert (exists A2, release huge (get o) (cs A1) = Ok tt (cs A2) /\ Room A2 (1 + k) /\ shrink (a_h A1) (a_h A2) /\ Inv A2 R [] /\
    keeps R (a_h A1) (a_h A2) /\ exists v2, lookup (a_h A2) a = Some v2 /\ o_d v2 = BOnto p) as (A2 & R2 & K2 & S2 & I2 & V2 & v2 & E2 & D2).
  { destruct (get o) as [j|].
    - destruct (drop_ok A1 R a (edit_ob v (BOnto p)) _ j (1 + k) I1 EM E1 eq_refl U1 K1) as (A2 & R2 & K2 & S2 & I2 & V2 & v2 & E2 & D2 & _).
      exists A2. repeat (split; [assumption|]). exists v2. auto.
    - exists A1. split; [reflexivity|]. split; auto. split; [intros x w F; exists w; repeat split; auto; lia|]. split; auto.
      split; [eapply keeps_refl; eauto|]. exists (edit_ob v (BOnto p)). auto. }
  rewrite (bind_ok _ _ _ _ _ R2). destruct i as [i|].
  2:{ exists tt, A2. split; [reflexivity|]. split; [intros b w F; specialize (K2 b w F); lia|]. split; auto. eapply shr_trans; [exact SH1|]. now apply shr_shrink. }
  destruct (IH i eq_refl) as [TI TWO].
  (* the IRI survives the release of the old one *)
  assert (UI : use (a_h A1) R i).
  { destruct (get o) as [j|] eqn:GO.
    - destruct (N.eq_dec i j) as [<-|NE].
      + specialize (TWO eq_refl).
        assert (1 <= count i R + indeg i (a_h A1))%nat as ONE.
        { pose proof (indeg_store (a_h A) a v (edit_ob v (BOnto p)) i E) as H. rewrite (kids_live v), (kids_live (edit_ob v (BOnto p))) in H by auto.
          change (store (a_h A) a (edit_ob v (BOnto p))) with (a_h A1) in H. rewrite D in H. cbn [edit_ob o_d] in H. specialize (C1 i).
          cbn [opt_list] in C1. rewrite count_self, count_nil in C1. lia. }
        destruct (count i R) eqn:CI; [|apply use_in, count_in; lia].
        destruct (indeg_edge (a_h A1) i (i_keys _ _ _ _ _ I1)) as (b & B); [lia|].
        assert (LB : live (a_h A1) b) by (destruct B as (w & B & _); exists w; auto).
        destruct (no_garbage huge e A1 _ b I1 LB) as (r & [<-|JR] & RB).
        * exfalso. apply (ProofHeapFun.no_cycle (a_h A1) (i_acyclic _ _ _ _ _ I1) b i); auto.
        * apply (use_edge _ R b i); [exists r; auto|exact B].
      + destruct (no_garbage huge e A R i I (type_live _ _ _ TI)) as (r & JR & RI).
        assert (rch (a_h A1) r i \/ rch (a_h A) j i) as [X|X].
        { clear - RI E D C1 P GO. induction RI as [x|x b y (u & F & J) H IH]; [left; constructor|].
          destruct IH as [IH|IH]; [|now right]. destruct (N.eq_dec x a) as [->|X].
          - rewrite E in F. inversion F; subst u. rewrite kids_live, D in J by auto. apply count_in in J. specialize (C1 b). cbn [opt_list] in C1.
            rewrite count_cons, count_nil in C1. destruct (j =? b) eqn:Q; [apply N.eqb_eq in Q; subst; now right|].
            left. apply rch_step with b; auto. exists (edit_ob v (BOnto p)). split; [now apply edit_at|].
            rewrite kids_live by auto. apply count_in. cbn [edit_ob o_d]. lia.
          - left. apply rch_step with b; auto. exists u. unfold A1. now rewrite edit_other. }
        * exists r. auto.
        * exfalso. assert (TJ : is_type (a_h A) j OT_IRI) by exact (GK (a_h A) v o j D KO GO).
          destruct (iri_rch A R j i I TJ X) as [Y|(y & Y1 & Y2)]; [congruence|]. destruct TI as (z & Z1 & Z2). congruence.
    - destruct (no_garbage huge e A1 _ i I1) as (r & JR & RI); [|exists r; auto].
      destruct TI as (u & F & TU). destruct (N.eq_dec i a) as [->|X]; [exists (edit_ob v (BOnto p)); auto|].
      exists u. unfold A1. now rewrite edit_other. }
  assert (LI : live (a_h A2) i) by (eapply keeps_live; eauto).
  assert (TI2 : is_type (a_h A2) i OT_IRI).
  { apply (keeps_type R (a_h A1)); auto. destruct TI as (u & F & TU). exists u. split; auto. unfold A1.
    rewrite edit_other; auto. intros ->. pose proof (onto_type A R a v o I E D). congruence. }
  destruct (retain_ok huge e A2 R i I2 LI k K2) as (z & A3 & R3 & K3 & V3 & -> & I3 & G3 & S3).
  rewrite (bind_ok _ _ _ _ _ R3). destruct (proj1 S3 a v2 E2) as (v3 & E3 & (T3 & B3 & D3)). rewrite D2 in D3.
  rewrite (set_onto_cs A3 a v3 p _ E3 D3). destruct (onto_kids A3 (i :: R) a v3 p I3 E3 D3) as [KO3 IX3].
  set (q := put (Some i) p).
  assert (C3 : forall x, (count x (pointers_of (BOnto q)) = count x (pointers_of (BOnto p)) + if N.eqb i x then 1 else 0)%nat).
  { intros x. pose proof (PC (Some i) p x) as H. fold q in H. assert (GE : get p = None) by apply GP. rewrite GE in H. cbn [opt_list] in H.
    rewrite count_cons, !count_nil in H. lia. }
  assert (TI3 : is_type (a_h A3) i OT_IRI) by (apply (grow_type huge e A2 R); auto).
  exists tt, (edit A3 a v3 (BOnto q)). split; auto. split; [now apply edit_room|]. split.
  - eapply shr_trans; [exact SH1|]. eapply shr_trans; [apply shr_shrink; exact S2|]. eapply shr_trans; [apply shr_sim; exact S3|].
    apply shr_edit; auto. rewrite D3. constructor.
  - apply (edit_inv A3 (i :: R) R a v3 (BOnto q) I3 E3).
    + right. exists p, q. split; auto. split; auto. split.
      * apply PK; auto. intros j J. inversion J; subst. auto.
      * apply (indexed_same e (a_h A3) p q); auto; apply PX.
    + intros x. rewrite D3, C3, count_cons. lia.
    + intros x J. rewrite D3. apply count_in in J. rewrite C3 in J. destruct (i =? x) eqn:Q.
      * apply N.eqb_eq in Q. subst x. right. apply (iri_not_onto A3 (i :: R) i a v3 p); auto.
      * left. apply count_in. lia.
    + exact EM.
Qed.

Lemma set_iri_ok A R a v o i : Inv A R [] -> lookup (a_h A) a = Some v -> o_d v = BOnto o -> use (a_h A) R a ->
  (forall j, i = Some j -> is_type (a_h A) j OT_IRI /\ (n_iri o = Some j -> (2 <= count j R + indeg j (a_h A))%nat)) ->
  cut A R (fun x => x = a) 1 (set_iri huge a i).
Proof.
  intros I E D U H. apply (set_member_ok n_iri with_iri A R a v o i); auto.
  - intros p q x. rewrite !onto_count. unfold axs. cbn [with_iri n_iri n_version n_imports n_annot n_axioms]. lia.
  - intros h u p q DU KO X. unfold ProofHeap.kids_ok in *. rewrite DU in KO. cbn. tauto.
  - intros h u q j DU KO X. unfold ProofHeap.kids_ok in *. rewrite DU in KO. destruct KO as (K1 & K2 & _). auto.
Qed.
Lemma set_version_ok A R a v o i : Inv A R [] -> lookup (a_h A) a = Some v -> o_d v = BOnto o -> use (a_h A) R a ->
  (forall j, i = Some j -> is_type (a_h A) j OT_IRI /\ (n_version o = Some j -> (2 <= count j R + indeg j (a_h A))%nat)) ->
  cut A R (fun x => x = a) 1 (set_version huge a i).
Proof.
  intros I E D U H. apply (set_member_ok n_version with_version A R a v o i); auto.
  - intros p q x. rewrite !onto_count. unfold axs. cbn [with_version n_iri n_version n_imports n_annot n_axioms]. lia.
  - intros h u p q DU KO X. unfold ProofHeap.kids_ok in *. rewrite DU in KO. cbn. tauto.
  - intros h u q j DU KO X. unfold ProofHeap.kids_ok in *. rewrite DU in KO. destruct KO as (K1 & K2 & _). auto.
Qed.

End Onto.
