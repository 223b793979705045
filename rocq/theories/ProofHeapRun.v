(** Actions on memory in terms of the invariant; release. *)

From Coq Require Import NArith List Bool Arith Lia.
From Coq Require Import ZifyBool ZifyNat ZifyN.
From Verif Require Import Bytes ModelTypes ModelObject ModelHeader SpecHeader ModelText ModelHeap SpecHeap.
From Verif Require Import ProofObject ProofHeader ProofHeap.
Import ListNotations.
Local Open Scope N_scope.

Section Run.
Variable huge : bool.
Variable fresh : N -> heap -> N.
Hypothesis fresh_ok : allocator fresh.
Variable e : env.

Local Notation Inv := (ProofHeap.Inv huge e).
Local Notation cs := (ProofHeap.cs huge).
Local Notation cell_of := (ProofHeap.cell_of huge).
Local Notation fitv := (ProofHeap.fitv huge).
Local Notation Room := (ProofHeap.Room huge).
Local Notation kids_ok := (ProofHeap.kids_ok e).

(** * Persistence *)

Definition up (v w : ob) : Prop :=
  o_t w = o_t v /\
  (o_b w = o_b v \/ o_b w = true /\ (o_t v = OT_STRING \/ o_t v = OT_VECTOR)) /\
  (o_d w = o_d v \/ (exists l l', o_d v = BVec l /\ o_d w = BVec (l ++ l')) \/
   (exists o p, o_d v = BOnto o /\ o_d w = BOnto p /\ incl (pointers_of (o_d v)) (pointers_of (o_d w)))).

Lemma up_refl v : up v v.
Proof. repeat split; auto. Qed.
Lemma up_trans u v w : up u v -> up v w -> up u w.
Proof.
  intros (A1 & A2 & A3) (B1 & B2 & B3). split; [congruence|]. split.
  - destruct B2 as [B2|[B2 B2']].
    + rewrite B2. auto.
    + right. split; auto. rewrite <- A1. auto.
  - destruct A3 as [A3|[(l & l1 & A3 & A4)|(o & p & A3 & A4 & A5)]].
    + rewrite <- A3. auto.
    + right. left. destruct B3 as [B3|[(m & l2 & B3 & B4)|(o & p & B3 & B4 & B5)]].
      * exists l, l1. split; congruence.
      * rewrite A4 in B3. inversion B3; subst m. exists l, (l1 ++ l2). split; auto. now rewrite app_assoc.
      * congruence.
    + right. right. destruct B3 as [B3|[(m & l2 & B3 & B4)|(o' & p' & B3 & B4 & B5)]].
      * exists o, p. rewrite B3. auto.
      * congruence.
      * exists o, p'. split; [auto|]. split; auto. eapply incl_tran; eauto.
Qed.
Lemma up_alike v w : alike v w -> up v w.
Proof. intros (A & B & C). repeat split; auto. Qed.
Lemma up_kids v w x : up v w -> 0 < o_n w -> In x (kids v) -> In x (kids w).
Proof.
  intros (_ & _ & D) P I. rewrite kids_live by auto. unfold kids in I. destruct (o_n v =? 0); [easy|].
  destruct D as [->|[(l & l' & E & ->)|(o & p & E1 & E2 & D)]]; auto. rewrite E in I. cbn in *. apply in_or_app. auto.
Qed.
Lemma up_txt v w t : up v w -> o_d v = BStr t -> o_d w = BStr t.
Proof. intros (_ & _ & [->|[(l & l' & E & _)|(o & p & E & _)]]) F; congruence. Qed.

Inductive rch (h : obs) : N -> N -> Prop :=
| rch_refl a : rch h a a
| rch_step r b x : edge h b r -> rch h b x -> rch h r x.
Definition use (h : obs) (R : list N) (x : N) : Prop := exists r, In r R /\ rch h r x.

Lemma rch_trans h a b c : rch h a b -> rch h b c -> rch h a c.
Proof. induction 1; auto. intros. econstructor; eauto. Qed.
Lemma rch_end h a b c : rch h a b -> edge h c b -> rch h a c.
Proof. intros H E. apply (rch_trans _ _ b); auto. econstructor; eauto. constructor. Qed.
Lemma rch_inv h a x : rch h a x -> a = x \/ exists b, rch h a b /\ edge h x b.
Proof.
  induction 1 as [a|r b x E H [<-|(c & C & D)]]; auto.
  - right. exists r. split; auto. constructor.
  - right. exists c. split; auto. econstructor; eauto.
Qed.
Lemma use_in h R x : In x R -> use h R x.
Proof. intros I. exists x. split; auto. constructor. Qed.
Lemma use_incl h R R' x : incl R R' -> use h R x -> use h R' x.
Proof. intros I (r & J & H). exists r. auto. Qed.
Lemma use_edge h R x y : use h R x -> edge h y x -> use h R y.
Proof. intros (r & J & H) E. exists r. split; auto. eapply rch_end; eauto. Qed.

Lemma use_live A R W x : Inv A R W -> use (a_h A) R x -> exists v, lookup (a_h A) x = Some v /\ 0 < o_n v.
Proof.
  intros I (r & J & H). apply rch_inv in H as [->|(b & H & v & E & K)].
  - apply (held_live huge e A R W x I J).
  - apply (kid_live huge e A R W b v x I E K).
Qed.

Definition keeps (R : list N) (h h' : obs) : Prop := forall x, use h R x ->
  exists v w, lookup h x = Some v /\ lookup h' x = Some w /\ 0 < o_n w /\ up v w.

Lemma keeps_rch h h' r x : rch h r x ->
  (forall y, rch h r y -> exists v w, lookup h y = Some v /\ lookup h' y = Some w /\ 0 < o_n w /\ up v w) ->
  rch h' r x.
Proof.
  induction 1 as [|r b x E H IH]; intros K; [constructor|].
  destruct (K r ltac:(constructor)) as (v & w & F & G & P & U). econstructor.
  - destruct E as (v' & F' & I). rewrite F in F'. inversion F'; subst v'. exists w. split; auto. eapply up_kids; eauto.
  - apply IH. intros y Y. apply K. econstructor; eauto.
Qed.
Lemma keeps_use R h h' x : keeps R h h' -> use h R x -> use h' R x.
Proof.
  intros K (r & J & H). exists r. split; auto. apply (keeps_rch h h'); auto. intros y Y. apply K. exists r. auto.
Qed.
Lemma keeps_trans R h h1 h2 : keeps R h h1 -> keeps R h1 h2 -> keeps R h h2.
Proof.
  intros K L x U. destruct (K x U) as (v & w & F & G & P & V).
  destruct (L x (keeps_use _ _ _ _ K U)) as (w' & u & F' & G' & P' & V').
  rewrite G in F'. inversion F'; subst w'. exists v, u. repeat split; auto; apply (up_trans v w u); auto.
Qed.
Lemma keeps_incl R R' h h' : incl R R' -> keeps R' h h' -> keeps R h h'.
Proof. intros I K x U. apply K. eapply use_incl; eauto. Qed.

Definition grow (h h' : obs) : Prop := forall x v, lookup h x = Some v -> 0 < o_n v ->
  exists w, lookup h' x = Some w /\ 0 < o_n w /\ up v w.
Lemma grow_keeps A R W h' : Inv A R W -> grow (a_h A) h' -> keeps R (a_h A) h'.
Proof.
  intros I G x U. destruct (use_live _ _ _ _ I U) as (v & E & P). destruct (G x v E P) as (w & F & Q & V).
  exists v, w. auto.
Qed.
Lemma keeps_refl A R W : Inv A R W -> keeps R (a_h A) (a_h A).
Proof. intros I. apply (grow_keeps A R W); auto. intros x v E P. exists v. repeat split; auto. Qed.

Lemma grow_store h a v w : lookup h a = Some v -> 0 < o_n w -> up v w -> grow h (store h a w).
Proof.
  intros E P U x u F Q. rewrite lookup_store, E. destruct (a =? x) eqn:X.
  - apply N.eqb_eq in X. subst x. rewrite E in F. inversion F; subst u. eauto.
  - exists u. repeat split; auto.
Qed.
Lemma grow_cons h a v : lookup h a = None -> grow h ((a, v) :: h).
Proof.
  intros E x u F Q. cbn. destruct (a =? x) eqn:X.
  - apply N.eqb_eq in X. congruence.
  - exists u. repeat split; auto.
Qed.

(** * The invariant depends on counts only *)

Lemma inv_perm A R R' W W' :
  (forall x, count x R + count x (rels W) = count x R' + count x (rels W'))%nat -> fins W = fins W' ->
  In (e_empty e) R' -> Inv A R W -> Inv A R' W'.
Proof.
  intros C F EM [I1 I2 I3 I4 I5 I6 I7 I8 I9 I10 I11 I12]. constructor; auto.
  - intros a v E. rewrite <- C. auto.
  - intros a E. rewrite <- C. auto.
  - now rewrite <- F.
  - destruct I11 as (v & H1 & H2 & H3 & H4 & _). exists v. auto.
Qed.

Lemma inv_rel A R R' a : (forall x, count x R' = count x (a :: R)) -> In (e_empty e) R ->
  Inv A R' [] -> Inv A R [Rel a].
Proof.
  intros C EM. apply inv_perm; auto. intros x. rewrite C, !count_cons. cbn [rels flat_map app]. rewrite count_cons, !count_nil. lia.
Qed.

Lemma live_all A R a v : Inv A R [] -> lookup (a_h A) a = Some v -> 0 < o_n v.
Proof.
  intros I E. destruct (N.eq_dec (o_n v) 0) as [Z|Z]; [|lia].
  exfalso. apply (proj2 (i_fins _ _ _ _ _ I) a). eauto.
Qed.

(** * Reading and writing *)

Lemma read_cs A a v : lookup (a_h A) a = Some v -> read a (cs A) = Ok (cell_of v) (cs A).
Proof. intros E. unfold read. rewrite lookup_cs, E. reflexivity. Qed.
Lemma write_cs A a v w : lookup (a_h A) a = Some v ->
  write a (cell_of w) (cs A) = Ok tt (cs (set_h A (store (a_h A) a w))).
Proof.
  intros E. unfold write. rewrite lookup_cs, E. cbn [option_map]. f_equal.
  change (s_heap (cs A)) with (amap cell_of (a_h A)). rewrite store_amap. apply with_heap_cs.
Qed.
Lemma free_cs A a v : lookup (a_h A) a = Some v -> free a (cs A) = Ok tt (cs (set_h A (drop (a_h A) a))).
Proof.
  intros E. unfold free. rewrite lookup_cs, E. cbn [option_map]. f_equal.
  change (s_heap (cs A)) with (amap cell_of (a_h A)). rewrite drop_amap. apply with_heap_cs.
Qed.

Lemma bind_ok {X Y} (m : act X) (f : X -> act Y) s x s' : m s = Ok x s' -> bind m f s = f x s'.
Proof. intros E. unfold bind. now rewrite E. Qed.

Lemma text_cs A a v t : lookup (a_h A) a = Some v -> o_d v = BStr t -> text_at a (cs A) = Ok t (cs A).
Proof. intros E D. unfold text_at. rewrite (bind_ok _ _ _ _ _ (read_cs A a v E)). cbn. now rewrite D. Qed.
Lemma txt_cs A a t : txt (a_h A) a = Some t -> text_at a (cs A) = Ok t (cs A).
Proof.
  unfold txt. destruct (lookup (a_h A) a) as [v|] eqn:E; [|discriminate].
  destruct (o_d v) eqn:D; try discriminate. intros X. inversion X; subst. eapply text_cs; eauto.
Qed.
Lemma iri_cs A a v ns rem : lookup (a_h A) a = Some v -> o_d v = BIri ns rem -> iri_at a (cs A) = Ok (ns, rem) (cs A).
Proof. intros E D. unfold iri_at. rewrite (bind_ok _ _ _ _ _ (read_cs A a v E)). cbn. now rewrite D. Qed.
Lemma ent_cs A a v i : lookup (a_h A) a = Some v -> o_d v = BEnt i -> ent_iri_at a (cs A) = Ok i (cs A).
Proof. intros E D. unfold ent_iri_at. rewrite (bind_ok _ _ _ _ _ (read_cs A a v E)). cbn. now rewrite D. Qed.
Lemma anon_cs A a v i : lookup (a_h A) a = Some v -> o_d v = BAnon i -> anon_id_at a (cs A) = Ok i (cs A).
Proof. intros E D. unfold anon_id_at. rewrite (bind_ok _ _ _ _ _ (read_cs A a v E)). cbn. now rewrite D. Qed.
Lemma items_cs A a v l : lookup (a_h A) a = Some v -> o_d v = BVec l -> items_at a (cs A) = Ok l (cs A).
Proof. intros E D. unfold items_at. rewrite (bind_ok _ _ _ _ _ (read_cs A a v E)). cbn. now rewrite D. Qed.
Lemma fields_cs A a v l : lookup (a_h A) a = Some v -> o_d v = BComp l -> fields_at a (cs A) = Ok l (cs A).
Proof. intros E D. unfold fields_at. rewrite (bind_ok _ _ _ _ _ (read_cs A a v E)). cbn. now rewrite D. Qed.
Lemma onto_cs A a v o : lookup (a_h A) a = Some v -> o_d v = BOnto o -> onto_at a (cs A) = Ok o (cs A).
Proof. intros E D. unfold onto_at. rewrite (bind_ok _ _ _ _ _ (read_cs A a v E)). cbn. now rewrite D. Qed.
Lemma bit_cs A a v : lookup (a_h A) a = Some v -> fitv v -> get_bit huge a (cs A) = Ok (o_b v) (cs A).
Proof. intros E F. unfold get_bit. rewrite (bind_ok _ _ _ _ _ (read_cs A a v E)). unfold ret. now rewrite bit_cell. Qed.
Lemma type_cs A a v : lookup (a_h A) a = Some v -> fitv v -> get_type_at huge a (cs A) = Ok (Some (o_t v)) (cs A).
Proof. intros E F. unfold get_type_at. rewrite (bind_ok _ _ _ _ _ (read_cs A a v E)). unfold ret. now rewrite type_cell. Qed.

Lemma incr_cs A a v : lookup (a_h A) a = Some v -> o_n v < max_refs huge ->
  incr_ref huge a (cs A) = Ok tt (cs (set_h A (store (a_h A) a (with_n v (o_n v + 1))))).
Proof.
  intros E F. unfold incr_ref. rewrite (bind_ok _ _ _ _ _ (read_cs A a v E)).
  rewrite incr_cell by auto. now apply write_cs with v.
Qed.
Lemma decr_cs A a v : lookup (a_h A) a = Some v -> fitv v -> 0 < o_n v ->
  decr_ref huge a (cs A) = Ok (o_n v - 1) (cs (set_h A (store (a_h A) a (with_n v (o_n v - 1))))).
Proof.
  intros E F P. unfold decr_ref. rewrite (bind_ok _ _ _ _ _ (read_cs A a v E)).
  rewrite decr_cell by auto. rewrite (bind_ok _ _ _ _ _ (write_cs A a v _ E)).
  erewrite bind_ok; [|apply read_cs; cbn [set_h a_h]; rewrite lookup_store, N.eqb_refl, E; reflexivity].
  unfold ret. rewrite ref_cell; [reflexivity|]. unfold fitv, ProofHeap.fitv in *. cbn. lia.
Qed.
Lemma set_bit_cs A a v : lookup (a_h A) a = Some v -> fitv v ->
  set_bit huge a (cs A) = Ok tt (cs (set_h A (store (a_h A) a (mkOb (o_t v) true (o_n v) (o_d v))))).
Proof.
  intros E F. unfold set_bit. rewrite (bind_ok _ _ _ _ _ (read_cs A a v E)).
  rewrite set_cell by auto. now apply write_cs with v.
Qed.

(** * Searching an instance table *)

Definition key_eqb (k k' : key) : bool :=
  match k, k' with
  | KeyS t, KeyS t' | KeyA t, KeyA t' => bytes_eqb t t'
  | KeyI n t, KeyI n' t' => (n =? n') && bytes_eqb t t'
  | KeyE t i, KeyE t' i' => (i =? i') && otype_eqb t t'
  | _, _ => false
  end.
Lemma key_eqb_eq k k' : key_eqb k k' = true <-> k = k'.
Proof.
  destruct k, k'; cbn; try (split; [discriminate|congruence]).
  - rewrite bytes_eqb_eq. split; congruence.
  - rewrite andb_true_iff, bytes_eqb_eq, N.eqb_eq. split; [intros []; congruence|intros H; inversion H; auto].
  - rewrite andb_true_iff, otype_eqb_eq, N.eqb_eq. split; [intros []; congruence|intros H; inversion H; auto].
  - rewrite bytes_eqb_eq. split; congruence.
Qed.

Lemma find_key_cs A eq k T l :
  (forall b, In b l -> exists v k', lookup (a_h A) b = Some v /\ ident (a_h A) v = Some (T, k') /\
     eq b (cs A) = Ok (key_eqb k' k) (cs A)) ->
  exists r, find_key eq l (cs A) = Ok r (cs A) /\
    match r with
    | Some b => In b l /\ exists v, lookup (a_h A) b = Some v /\ ident (a_h A) v = Some (T, k)
    | None => forall b v, In b l -> lookup (a_h A) b = Some v -> ident (a_h A) v <> Some (T, k)
    end.
Proof.
  induction l as [|b l IH]; intros H; cbn [find_key].
  - exists None. split; auto; contradiction.
  - destruct (H b (or_introl eq_refl)) as (v & k' & E & D & X). rewrite (bind_ok _ _ _ _ _ X).
    destruct (key_eqb k' k) eqn:K.
    + apply key_eqb_eq in K. subst k'. exists (Some b). split; [reflexivity|]. split; [now left|]. eauto.
    + destruct IH as (r & F & G). { intros c I. apply H. now right. }
      exists r. split; auto. destruct r as [c|].
      * destruct G as [G1 G2]. split; auto. now right.
      * intros c w [<-|I] L; [|eauto]. rewrite E in L. inversion L; subst w. rewrite D. intros Y. inversion Y; subst k'.
        rewrite (proj2 (key_eqb_eq k k) eq_refl) in K. discriminate.
Qed.

(** The comparison functions compare keys. *)
Definition cmp (A : ast) (T : table_id) (k : key) (eq : N -> act bool) : Prop :=
  forall b v k', lookup (a_h A) b = Some v -> fitv v -> shape (o_t v) (o_b v) (o_d v) -> ident (a_h A) v = Some (T, k') ->
    eq b (cs A) = Ok (key_eqb k' k) (cs A).

Lemma cmp_str A t : cmp A TStr (KeyS t) (str_eq t).
Proof.
  intros b v k' E F S D. unfold ident in D. destruct (o_d v) eqn:O; try discriminate.
  - destruct (o_b v); inversion D; subst. unfold str_eq. rewrite (bind_ok _ _ _ _ _ (text_cs A b v _ E O)). reflexivity.
  - destruct (txt _ _); discriminate.
  - destruct (txt _ _); discriminate.
Qed.
Lemma cmp_iri A ns rem t : txt (a_h A) rem = Some t -> cmp A TIri (KeyI ns t) (iri_eq ns rem).
Proof.
  intros X b v k' E F S D. unfold ident in D. destruct (o_d v) eqn:O; try discriminate.
  - destruct (o_b v); discriminate.
  - destruct (txt _ rem0) as [u|] eqn:U; inversion D; subst. unfold iri_eq.
    rewrite (bind_ok _ _ _ _ _ (iri_cs A b v _ _ E O)). cbn [fst snd key_eqb].
    destruct (ns0 =? ns); [|reflexivity]. rewrite (bind_ok _ _ _ _ _ (txt_cs A _ _ U)).
    rewrite (bind_ok _ _ _ _ _ (txt_cs A _ _ X)). reflexivity.
  - destruct (txt _ id); discriminate.
Qed.
Lemma cmp_ent A t i : cmp A TEnt (KeyE t i) (ent_eq huge t i).
Proof.
  intros b v k' E F S D. unfold ident in D. destruct (o_d v) eqn:O; try discriminate.
  - destruct (o_b v); discriminate.
  - destruct (txt _ _); discriminate.
  - inversion D; subst. unfold ent_eq. rewrite (bind_ok _ _ _ _ _ (ent_cs A b v _ E O)). cbn [key_eqb].
    destruct (iri =? i); [|reflexivity]. rewrite (bind_ok _ _ _ _ _ (type_cs A b v E F)). reflexivity.
  - destruct (txt _ _); discriminate.
Qed.
Lemma cmp_anon A t : cmp A TAno (KeyA t) (anon_eq t).
Proof.
  intros b v k' E F S D. unfold ident in D. destruct (o_d v) eqn:O; try discriminate.
  - destruct (o_b v); discriminate.
  - destruct (txt _ _); discriminate.
  - destruct (txt _ id) as [u|] eqn:U; inversion D; subst. unfold anon_eq.
    rewrite (bind_ok _ _ _ _ _ (anon_cs A b v _ E O)), (bind_ok _ _ _ _ _ (txt_cs A _ _ U)). reflexivity.
Qed.

Lemma find_cs A R W T k eq : Inv A R W -> cmp A T k eq ->
  exists r, table_find T eq (cs A) = Ok r (cs A) /\
    match r with
    | Some b => exists v, lookup (a_h A) b = Some v /\ 0 < o_n v /\ ident (a_h A) v = Some (T, k)
    | None => forall b v, lookup (a_h A) b = Some v -> 0 < o_n v -> ident (a_h A) v <> Some (T, k)
    end.
Proof.
  intros I C. unfold table_find. rewrite table_cs.
  destruct (find_key_cs A eq k T (atab T A)) as (r & E & F).
  { intros b J. apply (i_tab _ _ _ _ _ I) in J as (v & k' & E & P & D). exists v, k'. repeat split; auto.
    destruct (i_fit _ _ _ _ _ I b v E). apply (C b v k'); auto. }
  exists r. split; auto. destruct r as [b|].
  - destruct F as [J (v & L & D)]. apply (i_tab _ _ _ _ _ I) in J as (v' & k' & L' & P & _).
    exists v. rewrite L in L'. inversion L'; subst. auto.
  - intros b v L P D. apply (F b v); auto. apply (i_tab _ _ _ _ _ I). eauto.
Qed.

(** * Destroying an object *)

Lemma in_remove_iff x a (l : list N) : In x (List.remove N.eq_dec a l) <-> In x l /\ x <> a.
Proof.
  split.
  - intros H. apply in_remove in H. auto.
  - intros [H1 H2]. apply in_in_remove; auto.
Qed.
Lemma nodup_remove a (l : list N) : NoDup l -> NoDup (List.remove N.eq_dec a l).
Proof.
  induction 1; cbn; [constructor|]. destruct (N.eq_dec a x); auto. constructor; auto.
  intros H1. apply in_remove in H1. tauto.
Qed.

(** A state in which [a] has just lost its last reference. *)
Definition dying (A : ast) (a : N) (v : ob) : ast := set_h A (store (a_h A) a (with_n v 0)).
Definition unlisted (A : ast) (a : N) (A' : ast) : Prop :=
  a_h A' = a_h A /\ (forall T, NoDup (atab T A')) /\ (forall T b, In b (atab T A') <-> In b (atab T A) /\ b <> a).

Lemma table_remove_cs A R W a v T k eq : Inv A R (Rel a :: W) -> lookup (a_h A) a = Some v -> o_n v = 1 ->
  ident (a_h A) v = Some (T, k) -> cmp (dying A a v) T k eq ->
  exists A', table_remove T eq (cs (dying A a v)) = Ok tt (cs A') /\ unlisted (dying A a v) a A'.
Proof.
  intros I E N1 D C. assert (S : sim (a_h A) (a_h (dying A a v))) by now apply sim_store.
  assert (TT : forall U, atab U (dying A a v) = atab U A) by (intros; apply atab_set_h).
  unfold table_remove.
  destruct (find_key_cs (dying A a v) eq k T (atab T (dying A a v))) as (r & F & G).
  { intros b J. rewrite TT in J. apply (i_tab _ _ _ _ _ I) in J as (w & k' & L & P & D').
    destruct (proj1 S b w L) as (w' & L' & K). exists w', k'. rewrite (sim_ident _ _ _ _ S K).
    repeat split; auto. destruct (i_fit _ _ _ _ _ I b w L) as [F1 F2]. apply (C b w' k'); auto.
    - cbn in L'. rewrite lookup_store, E in L'. destruct (a =? b); inversion L'; subst; unfold fitv, ProofHeap.fitv; cbn; [lia|].
      rewrite L in L'. inversion L'; subst. auto.
    - destruct K as (-> & -> & ->). auto.
    - now rewrite (sim_ident _ _ _ _ S K). }
  rewrite <- table_cs with (huge := huge) in F.
  change (table_find T eq (cs (dying A a v)) = Ok r (cs (dying A a v))) in F.
  rewrite (bind_ok _ _ _ _ _ F). assert (J : In a (atab T A)).
  { apply (i_tab _ _ _ _ _ I). exists v, k. repeat split; auto. lia. }
  destruct r as [b|].
  - assert (b = a) as ->.
    { destruct G as [J' (w & L & D')]. rewrite TT in J'. apply (i_tab _ _ _ _ _ I) in J' as (w0 & k0 & L0 & P0 & D0).
      destruct (proj2 S b w L) as (w1 & L1 & K1). rewrite (sim_ident _ _ _ _ S K1) in D'.
      rewrite L0 in L1. inversion L1; subst w1.
      apply (i_uniq _ _ _ _ _ I b a w0 v (T, k)); auto. lia. }
    unfold table_del. rewrite table_cs, set_table_cs. eexists. split; [reflexivity|].
    split; [apply a_h_set_atab|]. rewrite TT. split.
    + intros U. destruct T, U; cbn; try apply (nodup_remove a _ (i_nodup _ _ _ _ _ I TStr));
        try apply (nodup_remove a _ (i_nodup _ _ _ _ _ I TIri)); try apply (nodup_remove a _ (i_nodup _ _ _ _ _ I TEnt));
        try apply (nodup_remove a _ (i_nodup _ _ _ _ _ I TAno));
        [apply (i_nodup _ _ _ _ _ I TIri)|apply (i_nodup _ _ _ _ _ I TEnt)|apply (i_nodup _ _ _ _ _ I TAno)
        |apply (i_nodup _ _ _ _ _ I TStr)|apply (i_nodup _ _ _ _ _ I TEnt)|apply (i_nodup _ _ _ _ _ I TAno)
        |apply (i_nodup _ _ _ _ _ I TStr)|apply (i_nodup _ _ _ _ _ I TIri)|apply (i_nodup _ _ _ _ _ I TAno)
        |apply (i_nodup _ _ _ _ _ I TStr)|apply (i_nodup _ _ _ _ _ I TIri)|apply (i_nodup _ _ _ _ _ I TEnt)].
    + intros U b. assert (T = U \/ T <> U) as [<-|X] by (destruct T, U; auto; right; discriminate).
      * rewrite atab_set_same, TT. apply in_remove_iff.
      * rewrite atab_set_other, TT by auto. split; [|tauto]. intros H. split; auto. intros ->.
        apply (i_tab _ _ _ _ _ I) in H as (w & k' & L & _ & D'). rewrite E in L. inversion L; subst w. congruence.
  - exfalso. destruct (proj1 S a v E) as (w & L & K). apply (G a w); auto.
    now rewrite (sim_ident _ _ _ _ S K).
Qed.

Lemma unlisted_none A R W a v : Inv A R (Rel a :: W) -> lookup (a_h A) a = Some v ->
  ident (a_h A) v = None -> unlisted (dying A a v) a (dying A a v).
Proof.
  intros I E D. split; auto. assert (TT : forall U, atab U (dying A a v) = atab U A) by (intros; apply atab_set_h).
  split; intros T; rewrite TT; [apply (i_nodup _ _ _ _ _ I T)|].
  intros b. split; [|tauto]. intros H. split; auto. intros ->.
  apply (i_tab _ _ _ _ _ I) in H as (w & k' & L & _ & D'). rewrite E in L. inversion L; subst w. congruence.
Qed.

Lemma pointers_obj n ks us s : List.length ks = n -> pointers n (map Obj ks ++ map UInt us) s = Ok ks s.
Proof.
  revert n. induction ks as [|k ks IH]; intros n <-; cbn; [reflexivity|].
  now rewrite (bind_ok _ _ _ _ _ (IH _ eq_refl)).
Qed.
Lemma pointers_of_comp ks us : pointers_of (BComp (map Obj ks ++ map UInt us)) = ks.
Proof.
  cbn. rewrite flat_map_app. assert (flat_map (fun f => match f with Obj a => [a] | UInt _ => [] end) (map UInt us) = []) as ->.
  { induction us; cbn; auto. }
  rewrite app_nil_r. induction ks; cbn; auto. f_equal; auto.
Qed.

Lemma dispose_cs A R W a v : Inv A R (Rel a :: W) -> lookup (a_h A) a = Some v -> o_n v = 1 ->
  exists A', dispose huge a (cs (dying A a v)) = Ok (map Rel (pointers_of (o_d v)) ++ [Fin a]) (cs A') /\
    unlisted (dying A a v) a A'.
Proof.
  intros I E N1. set (B := dying A a v).
  assert (L : lookup (a_h B) a = Some (with_n v 0)).
  { cbn. now rewrite lookup_store, N.eqb_refl, E. }
  assert (S : sim (a_h A) (a_h B)) by now apply sim_store.
  assert (F : fitv (with_n v 0)) by (unfold fitv, ProofHeap.fitv; cbn; lia).
  assert (K := i_kids _ _ _ _ _ I a v E ltac:(lia)).
  destruct (i_fit _ _ _ _ _ I a v E) as [_ SH].
  unfold dispose. rewrite (bind_ok _ _ _ _ _ (type_cs B a _ L F)). cbn [with_n o_t].
  assert (BC := bit_cs B a _ L F). cbn [with_n o_b] in BC.
  inversion SH as [b t HT HB HD|b l HT HB HD|b ns rem HT HB HD|b i HT HB HD|b x y HT HB HD|t b i TE HT HB HD|t b ks us CT LN LC HT HB HD|b o HT HB HD].
  - rewrite (bind_ok _ _ _ _ _ BC), <- HB. assert (TX : text_at a (cs B) = Ok t (cs B)) by (eapply text_cs; [exact L|cbn; auto]).
    assert (exists A', (if b then u <- text_at a ;; table_remove TStr (str_eq u) else ret tt)%act (cs B) = Ok tt (cs A') /\ unlisted B a A') as (A' & X & U).
    { destruct b.
      - rewrite (bind_ok _ _ _ _ _ TX). apply (table_remove_cs A R W a v TStr (KeyS t)); auto.
        + unfold ident. now rewrite <- HD, <- HB.
        + apply cmp_str.
      - exists B. split; [reflexivity|]. apply (unlisted_none A R W a v); auto. unfold ident. now rewrite <- HD, <- HB. }
    rewrite (bind_ok _ _ _ _ _ X). exists A'. split; auto.
    assert (TX' : text_at a (cs A') = Ok t (cs A')).
    { eapply text_cs; [destruct U as [-> _]; exact L|cbn; auto]. }
    rewrite (bind_ok _ _ _ _ _ TX'). reflexivity.
  - rewrite (bind_ok _ _ _ _ _ (items_cs B a _ l L (eq_sym HD))). exists B. split; [reflexivity|].
    apply (unlisted_none A R W a v); auto. unfold ident. now rewrite <- HD.
  - unfold kids_ok, ProofHeap.kids_ok in K. rewrite <- HD in K. destruct K as (_ & _ & (u & LU & TU)).
    assert (exists t, o_d u = BStr t) as (t & DU).
    { destruct (i_fit _ _ _ _ _ I rem u LU) as [_ SU]. inversion SU; subst; try congruence; eauto.
      - rewrite TU in *. discriminate.
      - exfalso. rewrite TU in *. cbn in *. congruence. }
    assert (X : txt (a_h A) rem = Some t) by (unfold txt; now rewrite LU, DU).
    rewrite (bind_ok _ _ _ _ _ (iri_cs B a _ ns rem L (eq_sym HD))). cbn [fst snd].
    destruct (table_remove_cs A R W a v TIri (KeyI ns t) (iri_eq ns rem)) as (A' & Y & U); auto.
    + unfold ident. now rewrite <- HD, X.
    + apply cmp_iri. now rewrite (sim_txt _ _ _ S).
    + fold B in Y. rewrite (bind_ok _ _ _ _ _ Y). exists A'. split; auto.
  - unfold kids_ok, ProofHeap.kids_ok in K. rewrite <- HD in K. destruct K as (u & LU & TU).
    assert (exists t, o_d u = BStr t) as (t & DU).
    { destruct (i_fit _ _ _ _ _ I i u LU) as [_ SU]. inversion SU; subst; try congruence; eauto.
      - rewrite TU in *. discriminate.
      - exfalso. rewrite TU in *. cbn in *. congruence. }
    assert (X : txt (a_h A) i = Some t) by (unfold txt; now rewrite LU, DU).
    assert (X' : txt (a_h B) i = Some t) by now rewrite (sim_txt _ _ _ S).
    rewrite (bind_ok _ _ _ _ _ (anon_cs B a _ i L (eq_sym HD))), (bind_ok _ _ _ _ _ (txt_cs B _ _ X')).
    destruct (table_remove_cs A R W a v TAno (KeyA t) (anon_eq t)) as (A' & Y & U); auto.
    + unfold ident. now rewrite <- HD, X.
    + apply cmp_anon.
    + fold B in Y. rewrite (bind_ok _ _ _ _ _ Y). exists A'. split; auto.
  - rewrite (bind_ok _ _ _ _ _ (fields_cs B a _ _ L (eq_sym HD))). exists B. split; [reflexivity|].
    apply (unlisted_none A R W a v); auto. unfold ident. now rewrite <- HD.
  - destruct (table_remove_cs A R W a v TEnt (KeyE (o_t v) i) (ent_eq huge (o_t v) i)) as (A' & Y & U); auto.
    + unfold ident. now rewrite <- HD.
    + apply cmp_ent.
    + fold B in Y. exists A'. split; auto.
      assert (Z : (i <- ent_iri_at a ;; table_remove TEnt (ent_eq huge (o_t v) i) ;; ret [Rel i; Fin a])%act (cs B) =
                Ok (map Rel (pointers_of (BEnt i)) ++ [Fin a]) (cs A')).
      { rewrite (bind_ok _ _ _ _ _ (ent_cs B a _ i L (eq_sym HD))), (bind_ok _ _ _ _ _ Y). reflexivity. }
      subst t. destruct (o_t v); try discriminate TE; exact Z.
  - exists B. split.
    + rewrite pointers_of_comp.
      assert (Z : (b0 <- get_bit huge a ;; f <- fields_at a ;; l <- pointers (type_field_count (o_t v) + (if b0 then 1 else 0)) f ;; ret (map Rel l ++ [Fin a]))%act (cs B) =
                Ok (map Rel ks ++ [Fin a]) (cs B)).
      { rewrite (bind_ok _ _ _ _ _ BC), (bind_ok _ _ _ _ _ (fields_cs B a _ _ L (eq_sym HD))).
        rewrite (bind_ok _ _ _ _ _ (pointers_obj _ ks us _ ltac:(subst; exact LN))). reflexivity. }
      subst t. destruct (o_t v); try (exfalso; apply CT; reflexivity); exact Z.
    + apply (unlisted_none A R W a v); auto. unfold ident. now rewrite <- HD.
  - rewrite (bind_ok _ _ _ _ _ (onto_cs B a _ o L (eq_sym HD))). exists B. split; [reflexivity|].
    apply (unlisted_none A R W a v); auto. unfold ident. now rewrite <- HD.
Qed.

(** * Release *)

Lemma die_keeps A R W a v A' : Inv A R (Rel a :: W) -> lookup (a_h A) a = Some v -> o_n v = 1 ->
  a_h A' = store (a_h A) a (with_n v 0) -> keeps R (a_h A) (a_h A').
Proof.
  intros I E N1 EA x U. destruct (use_live _ _ _ _ I U) as (w & F & P).
  assert (x <> a) as X.
  { intros ->. pose proof (i_ref _ _ _ _ _ I a v E) as C. change (rels (Rel a :: W)) with (a :: rels W) in C.
    rewrite count_self in C. destruct U as (r & J & H). apply rch_inv in H as [->|(b & H & u & L & K)].
    - apply count_in in J. lia.
    - apply (indeg_pos _ _ _ _ L) in K. lia. }
  exists w, w. rewrite EA, lookup_store. destruct (a =? x) eqn:Y; [lia|]. repeat split; auto.
Qed.

Definition wt (v : ob) : nat := (N.to_nat (o_n v) + 1)%nat.
Lemma weight_cs h : (forall a v, In (a, v) h -> fitv v) -> weight huge (amap cell_of h) = total wt h.
Proof.
  induction h as [|[a v] h IH]; intros F; [reflexivity|].
  cbn [amap map weight fold_right total fst snd]. rewrite ref_cell by (apply (F a); cbn; auto).
  unfold wt at 1. f_equal. apply IH. intros b w I. apply (F b). cbn; auto.
Qed.

Definition shrink (h h' : obs) : Prop := forall x w, lookup h' x = Some w ->
  exists v, lookup h x = Some v /\ alike v w /\ o_n w <= o_n v.
Lemma shrink_trans h h1 h2 : shrink h h1 -> shrink h1 h2 -> shrink h h2.
Proof.
  intros A B x w E. destruct (B x w E) as (u & F & (K1 & K2 & K3) & L). destruct (A x u F) as (v & G & (M1 & M2 & M3) & O).
  exists v. repeat split; auto; try congruence. lia.
Qed.
Lemma shrink_store h a v n : lookup h a = Some v -> n <= o_n v -> shrink h (store h a (with_n v n)).
Proof.
  intros E L x w F. rewrite lookup_store, E in F. destruct (a =? x) eqn:X.
  - apply N.eqb_eq in X. subst x. inversion F; subst. exists v. repeat split; auto.
  - exists w. repeat split; auto. lia.
Qed.

Lemma loop_cs fuel : forall A R W, Inv A R W -> (total wt (a_h A) <= fuel)%nat ->
  exists A', release_loop huge fuel W (cs A) = Ok tt (cs A') /\ Inv A' R [] /\ keeps R (a_h A) (a_h A') /\
    shrink (a_h A) (a_h A').
Proof.
  induction fuel as [|fuel IH]; intros A R W I T.
  - destruct W as [|w W].
    + exists A. split; [reflexivity|]. split; [exact I|]. split; [eapply keeps_refl; eauto|].
      intros x v E. exists v. repeat split; auto. lia.
    + exfalso. assert (exists a v, lookup (a_h A) a = Some v) as (a & v & E).
      { destruct w as [a|a].
        - destruct (rel_live _ _ _ _ _ a I) as (v & E & _); cbn; eauto.
        - destruct (proj1 (proj2 (i_fins _ _ _ _ _ I) a)) as (v & E & _); cbn; eauto. }
      apply total_lookup with (f := wt) in E. unfold wt in *. lia.
  - destruct W as [|w W]; cbn [release_loop].
    { exists A. split; [reflexivity|]. split; [exact I|]. split; [eapply keeps_refl; eauto|].
      intros x v E. exists v. repeat split; auto. lia. }
    destruct w as [a|a].
    + destruct (rel_live _ _ _ _ _ a I) as (v & E & P); [cbn; auto|].
      destruct (i_fit _ _ _ _ _ I a v E) as [F _].
      rewrite (bind_ok _ _ _ _ _ (decr_cs A a v E F P)).
      assert (TS : forall n, (total wt (store (a_h A) a (with_n v n)) + wt v = total wt (a_h A) + wt (with_n v n))%nat).
      { intros n. apply total_store. auto. }
      destruct (o_n v - 1 =? 0) eqn:Z.
      * assert (o_n v = 1) as N1 by lia. replace (o_n v - 1) with 0 by lia.
        destruct (dispose_cs A R W a v I E N1) as (A1 & X & U). unfold dying in X. rewrite (bind_ok _ _ _ _ _ X).
        destruct U as (U1 & U2 & U3). cbn [dying set_h a_h] in U1.
        assert (I1 : Inv A1 R ((map Rel (pointers_of (o_d v)) ++ [Fin a]) ++ W)).
        { apply (inv_die _ _ A R W a v A1); auto. }
        destruct (IH A1 R _ I1) as (A' & Y & I' & K & SH).
        { rewrite U1. specialize (TS 0). unfold wt in *. cbn in TS. lia. }
        exists A'. split; [exact Y|]. split; [exact I'|]. split.
        -- apply (keeps_trans _ _ (a_h A1)); auto. apply (die_keeps A R W a v); auto.
        -- apply (shrink_trans _ (a_h A1)); auto. rewrite U1. apply shrink_store; auto. lia.
      * assert (I1 := inv_decr _ _ A R W a v I E ltac:(lia)).
        destruct (IH _ R W I1) as (A' & Y & I' & K & SH).
        { cbn [set_h a_h]. specialize (TS (o_n v - 1)). unfold wt in *. cbn in TS. lia. }
        exists A'. split; [exact Y|]. split; [exact I'|]. split.
        -- refine (keeps_trans _ _ _ _ _ K). apply (grow_keeps A R (Rel a :: W)); auto.
           apply (grow_store _ _ v); auto. { cbn. lia. } apply up_alike. repeat split.
        -- refine (shrink_trans _ _ _ _ SH). apply shrink_store; auto. lia.
    + destruct (inv_free _ _ A R W a I) as (v & E & Z & I1).
      rewrite (bind_ok _ _ _ _ _ (free_cs A a v E)).
      destruct (IH _ R W I1) as (A' & Y & I' & K & SH).
      { cbn [set_h a_h]. pose proof (total_drop wt (a_h A) a v E). unfold wt in *. lia. }
      exists A'. split; [exact Y|]. split; [exact I'|]. split.
      * refine (keeps_trans _ _ _ _ _ K). apply (grow_keeps A R (Fin a :: W)); auto.
        intros x u F P. exists u. cbn. rewrite lookup_drop by apply I. destruct (a =? x) eqn:X.
        { apply N.eqb_eq in X. subst. rewrite E in F. inversion F; subst. lia. }
        repeat split; auto.
      * refine (shrink_trans _ _ _ _ SH). intros x w F. cbn in F. rewrite lookup_drop in F by apply I.
        destruct (a =? x); [discriminate|]. exists w. repeat split; auto. lia.
Qed.

End Run.
