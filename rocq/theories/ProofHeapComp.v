(** Composite objects, vectors and literals keep the memory invariant. *)

From Coq Require Import NArith List Bool Arith Lia.
From Coq Require Import ZifyBool ZifyNat ZifyN.
From Verif Require Import Bytes ModelTypes ModelObject ModelHeader SpecHeader ModelText ModelHeap SpecHeap.
From Verif Require Import ProofObject ProofHeader ProofHeap ProofHeapRun ProofHeapFun ProofHeapName.
Import ListNotations.
Local Open Scope N_scope.

Section Comp.
Variable huge : bool.
Variable fresh : N -> heap -> N.
Hypothesis fresh_ok : allocator fresh.
Variable e : env.

Local Notation Inv := (ProofHeap.Inv huge e).
Local Notation cs := (ProofHeap.cs huge).
Local Notation Room := (ProofHeap.Room huge).
Local Notation ok := (ProofHeapFun.ok huge).

Lemma inv_count A R R' : (forall x, count x R = count x R') -> Inv A R [] -> Inv A R' [].
Proof.
  intros C I. refine (inv_perm huge e A R R' [] [] _ eq_refl _ I); [intros x; now rewrite C|].
  apply count_in. rewrite <- C. apply count_in. eapply empty_in; eauto.
Qed.
Lemma ok_incl {X} A R R' c (m : act X) Q : incl R R' -> ok A R' c m Q -> ok A R c m Q.
Proof. apply ok_frame. Qed.

(** * Retaining several objects *)

Lemma retain_list_at l : forall A R, Inv A R [] -> Forall (live (a_h A)) l ->
  ok A R (N.of_nat (List.length l)) (mapm (retain huge) (map Some l))
     (fun r A' => r = l /\ Inv A' (l ++ R) [] /\ grow (a_h A) (a_h A') /\ sim (a_h A) (a_h A')).
Proof.
  induction l as [|a l IH]; intros A R I F; cbn [map mapm].
  - apply (ok_ret huge e); auto. split; auto. split; auto. split; [intros x v E P; exists v; repeat split; auto|]. split; intros x v E; exists v; repeat split; auto.
  - inversion F as [|? ? L1 L2]; subst.
    apply (ok_weak huge A R _ (1 + (N.of_nat (List.length l) + 0))); [cbn [List.length]; lia|].
    apply (ok_bind huge A R 1 _ _ _ _ _ (retain_ok huge e A R a I L1)). intros x A1 (-> & I1 & G1 & S1) K1.
    assert (F1 : Forall (live (a_h A1)) l).
    { apply Forall_forall. intros y J. apply (grow_live huge e A R); auto. rewrite Forall_forall in L2. auto. }
    apply (ok_bind1 huge A1 R (a :: R) _ _ _ _ _ _ (IH A1 (a :: R) I1 F1)); [intros z; now right|].
    intros r A2 (-> & I2 & G2 & S2) K2. assert (I3 : Inv A2 ((a :: l) ++ R) []).
    { revert I2. apply inv_count. intros x. cbn [app]. rewrite count_cons, !count_app, count_cons. lia. }
    apply (ok_frame huge A2 R ((a :: l) ++ R)); [intros z J; apply in_or_app; auto|].
    apply (ok_ret huge e); auto. split; auto. split; auto. split; [|eapply sim_trans; eauto].
    intros y v E P. destruct (G1 y v E P) as (w & E1 & P1 & U1). destruct (G2 y w E1 P1) as (u & E2 & P2 & U2).
    exists u. split; auto. split; auto. eapply up_trans; eauto.
Qed.
Lemma retain_list_ok l : forall A R, Inv A R [] -> Forall (live (a_h A)) l ->
  ok A R (N.of_nat (List.length l)) (mapm (retain huge) (map Some l))
     (fun r A' => r = l /\ Inv A' (l ++ R) [] /\ grow (a_h A) (a_h A')).
Proof.
  intros A R I F. eapply ok_post; [apply (retain_list_at l A R I F)|]. intros r A' (X & Y & Z & _) _. auto.
Qed.

(** * Composite objects *)

(** The objects in both heaps have the same data. *)
Definition same (h h' : obs) : Prop := forall x v w, lookup h x = Some v -> lookup h' x = Some w -> o_d w = o_d v.
Lemma same_sim h h' : sim h h' -> same h h'.
Proof. intros [S _] x v w E F. destruct (S x v E) as (u & G & (_ & _ & D)). rewrite F in G. inversion G; subst. auto. Qed.
Lemma same_cons h h' a v : same h h' -> lookup h a = None -> same h ((a, v) :: h').
Proof.
  intros S L x u w E F. cbn in F. destruct (a =? x) eqn:Q; [|eapply S; eauto]. apply N.eqb_eq in Q. subst. congruence.
Qed.
Lemma sim_none h h' a : sim h h' -> lookup h' a = None -> lookup h a = None.
Proof. intros [S _] L. destruct (lookup h a) as [v|] eqn:E; auto. destruct (S a v E) as (w & F & _). congruence. Qed.
(** A new object of this type with these fields first. *)
Definition built (h h' : obs) (a : N) (t : otype) (ks : list N) : Prop :=
  same h h' /\ lookup h a = None /\
  exists v o us, lookup h' a = Some v /\ o_t v = t /\ o_d v = BComp (map Obj (ks ++ o) ++ map UInt us).
Lemma built_sim h h1 h' a t ks : sim h h1 -> built h1 h' a t ks -> built h h' a t ks.
Proof.
  intros S (B1 & B2 & B3). split; [|split; [eapply sim_none; eauto|auto]].
  intros x v w E F. destruct S as [S _]. destruct (S x v E) as (u & G & (_ & _ & D)). rewrite (B1 x u w G F). auto.
Qed.

Lemma alloc_comp_at A R t (b : bool) ks us : Inv A (ks ++ R) [] -> In (e_empty e) R -> ctor_of t <> None ->
  List.length ks = (type_field_count t + if b then 1 else 0)%nat -> List.length us = (if type_is_card t then 1 else 0)%nat ->
  ok A R 0 (alloc huge fresh t b (BComp (map Obj ks ++ map UInt us))) (fun a A' => Inv A' (a :: R) [] /\ forall qs o, ks = qs ++ o -> built (a_h A) (a_h A') a t qs).
Proof.
  intros I EM C L LU. eapply ok_post.
  - apply (alloc_at huge fresh fresh_ok e A (ks ++ R) R); auto.
    + constructor; auto.
    + unfold kids_ok. cbn [o_d o_t]. destruct ks as [|a ks]; [now destruct us|]. cbn. intros ->. now elim C.
    + intros x. now rewrite pointers_of_comp, count_app.
    + discriminate.
  - intros a A' (I' & (M1 & M2 & M3) & H') _. split; auto. intros qs o ->. split; [|split; auto].
    + rewrite H'. apply same_cons; auto. intros x v w E F. congruence.
    + exists (mkOb t b 1 (BComp (map Obj (qs ++ o) ++ map UInt us))), o, us. auto.
Qed.
Lemma alloc_comp A R t (b : bool) ks us : Inv A (ks ++ R) [] -> In (e_empty e) R -> ctor_of t <> None ->
  List.length ks = (type_field_count t + if b then 1 else 0)%nat -> List.length us = (if type_is_card t then 1 else 0)%nat ->
  ok A R 0 (alloc huge fresh t b (BComp (map Obj ks ++ map UInt us))) (fun a A' => Inv A' (a :: R) []).
Proof.
  intros. eapply ok_post; [apply (alloc_comp_at A R t b ks us); auto|]. intros a A' (X & _) _. auto.
Qed.

(** The types with optional last field: required fields of the constructor. *)
Definition arity (t : otype) : option nat :=
  match ctor_of t with
  | Some (CPlain n) | Some (CAnnot n) | Some (CUInt n) | Some (CQuant n) => Some n
  | Some CHasKey => Some 3%nat
  | None => None
  end.
Lemma arity_fields t n : arity t = Some n -> type_field_count t = n /\ ctor_of t <> None.
Proof. destruct t; cbn; intros H; inversion H; subst; split; auto; discriminate. Qed.

Definition opt_live (h : obs) (o : option N) : Prop := match o with Some a => live h a | None => True end.

Lemma get_impl_at A R t ks opt n : Inv A R [] -> arity t = Some n -> type_is_card t = false -> List.length ks = n ->
  Forall (live (a_h A)) ks -> opt_live (a_h A) opt ->
  ok A R (N.of_nat n + 1) (get_impl huge fresh t (map Some ks) opt) (fun a A' => Inv A' (a :: R) [] /\ built (a_h A) (a_h A') a t ks).
Proof.
  intros I AR CD LN F O. destruct (arity_fields t n AR) as [FC CT].
  assert (EM : In (e_empty e) R) by (eapply empty_in; eauto). unfold get_impl.
  rewrite <- LN. apply (ok_bind huge A R _ 1 _ _ _ _ (retain_list_at ks A R I F)). intros r A1 (-> & I1 & G1 & S1) K1.
  destruct opt as [o|].
  - assert (LO : live (a_h A1) o) by (apply (grow_live huge e A R); auto).
    apply (ok_weak huge A1 R 1 (1 + 0)); [lia|].
    apply (ok_bind1 huge A1 R (ks ++ R) 1 _ _ _ _ _ (retain_ok huge e A1 (ks ++ R) o I1 LO)); [intros z J; apply in_or_app; auto|].
    intros x A2 (-> & I2 & _ & S2) K2.
    replace (map Obj ks ++ [Obj o]) with (map Obj (ks ++ [o]) ++ map UInt []) by (cbn; now rewrite app_nil_r, map_app).
    eapply ok_post; [apply alloc_comp_at; auto|].
    + revert I2. apply inv_count. intros x. rewrite count_cons, !count_app, count_cons, count_nil. lia.
    + rewrite app_length. cbn. lia.
    + now rewrite CD.
    + intros a A3 (I3 & B3) _. split; auto. eapply built_sim; [exact S1|]. eapply built_sim; [exact S2|]. now apply (B3 ks [o]).
  - apply (ok_weak huge A1 R 1 0); [lia|].
    replace (map Obj ks) with (map Obj ks ++ map UInt []) by (cbn; now rewrite app_nil_r).
    eapply ok_post; [apply alloc_comp_at; auto; [lia|now rewrite CD]|].
    intros a A2 (I2 & B2) _. split; auto. eapply built_sim; [exact S1|]. apply (B2 ks []). now rewrite app_nil_r.
Qed.
Lemma get_impl_ok A R t ks opt n : Inv A R [] -> arity t = Some n -> type_is_card t = false -> List.length ks = n ->
  Forall (live (a_h A)) ks -> opt_live (a_h A) opt ->
  ok A R (N.of_nat n + 1) (get_impl huge fresh t (map Some ks) opt) (fun a A' => Inv A' (a :: R) []).
Proof.
  intros. eapply ok_post; [apply (get_impl_at A R t ks opt n); auto|]. intros a A' (X & _) _. auto.
Qed.

Lemma get_impl_annot_at A R t ks annot n : Inv A R [] -> arity t = Some n -> type_is_card t = false -> List.length ks = n ->
  Forall (live (a_h A)) ks -> match annot with Some v => is_type (a_h A) v OT_VECTOR | None => True end ->
  ok A R (N.of_nat n + 1) (get_impl_annot huge fresh t (map Some ks) annot) (fun a A' => Inv A' (a :: R) [] /\ built (a_h A) (a_h A') a t ks).
Proof.
  intros I AR CD LN F O. unfold get_impl_annot. destruct annot as [v|]; [|apply get_impl_at; cbn; auto].
  destruct (vec_of_type _ _ _ _ _ _ I O) as (u & l & E & D).
  eapply ok_pure; [apply (items_cs huge A v u l E D)|]. apply get_impl_at; auto.
  destruct (Nat.eqb (List.length l) 0); cbn; auto. exists u. auto.
Qed.
Lemma get_impl_annot_ok A R t ks annot n : Inv A R [] -> arity t = Some n -> type_is_card t = false -> List.length ks = n ->
  Forall (live (a_h A)) ks -> match annot with Some v => is_type (a_h A) v OT_VECTOR | None => True end ->
  ok A R (N.of_nat n + 1) (get_impl_annot huge fresh t (map Some ks) annot) (fun a A' => Inv A' (a :: R) []).
Proof.
  intros. eapply ok_post; [apply (get_impl_annot_at A R t ks annot n); auto|]. intros a A' (X & _) _. auto.
Qed.

Lemma get_impl_uint_at A R t ks val opt n : Inv A R [] -> arity t = Some n -> type_is_card t = true -> List.length ks = n ->
  Forall (live (a_h A)) ks -> opt_live (a_h A) opt ->
  ok A R (N.of_nat n + 1) (get_impl_uint huge fresh t (map Some ks) val opt) (fun a A' => Inv A' (a :: R) [] /\ built (a_h A) (a_h A') a t ks).
Proof.
  intros I AR CD LN F O. destruct (arity_fields t n AR) as [FC CT].
  assert (EM : In (e_empty e) R) by (eapply empty_in; eauto). unfold get_impl_uint.
  rewrite <- LN. apply (ok_bind huge A R _ 1 _ _ _ _ (retain_list_at ks A R I F)). intros r A1 (-> & I1 & G1 & S1) K1.
  destruct opt as [o|].
  - assert (LO : live (a_h A1) o) by (apply (grow_live huge e A R); auto).
    apply (ok_weak huge A1 R 1 (1 + 0)); [lia|].
    apply (ok_bind1 huge A1 R (ks ++ R) 1 _ _ _ _ _ (retain_ok huge e A1 (ks ++ R) o I1 LO)); [intros z J; apply in_or_app; auto|].
    intros x A2 (-> & I2 & _ & S2) K2.
    replace (map Obj ks ++ [Obj o; UInt val]) with (map Obj (ks ++ [o]) ++ map UInt [val]) by (cbn; now rewrite map_app, <- app_assoc).
    eapply ok_post; [apply alloc_comp_at; auto|].
    + revert I2. apply inv_count. intros x. rewrite count_cons, !count_app, count_cons, count_nil. lia.
    + rewrite app_length. cbn. lia.
    + now rewrite CD.
    + intros a A3 (I3 & B3) _. split; auto. eapply built_sim; [exact S1|]. eapply built_sim; [exact S2|]. now apply (B3 ks [o]).
  - apply (ok_weak huge A1 R 1 0); [lia|].
    replace (map Obj ks ++ [UInt val]) with (map Obj ks ++ map UInt [val]) by reflexivity.
    eapply ok_post; [apply alloc_comp_at; auto; [lia|now rewrite CD]|].
    intros a A2 (I2 & B2) _. split; auto. eapply built_sim; [exact S1|]. apply (B2 ks []). now rewrite app_nil_r.
Qed.
Lemma get_impl_uint_ok A R t ks val opt n : Inv A R [] -> arity t = Some n -> type_is_card t = true -> List.length ks = n ->
  Forall (live (a_h A)) ks -> opt_live (a_h A) opt ->
  ok A R (N.of_nat n + 1) (get_impl_uint huge fresh t (map Some ks) val opt) (fun a A' => Inv A' (a :: R) []).
Proof.
  intros. eapply ok_post; [apply (get_impl_uint_at A R t ks val opt n); auto|]. intros a A' (X & _) _. auto.
Qed.

(** * Vectors *)

Lemma vector_at A R l : Inv A R [] -> Forall (live (a_h A)) l ->
  ok A R (N.of_nat (List.length l)) (vector huge fresh (map Some l))
     (fun a A' => Inv A' (a :: R) [] /\ is_type (a_h A') a OT_VECTOR /\ grow (a_h A) (a_h A') /\
        same (a_h A) (a_h A') /\ lookup (a_h A) a = None /\ exists v, lookup (a_h A') a = Some v /\ o_d v = BVec l).
Proof.
  intros I F. unfold vector. apply (ok_weak huge A R _ (N.of_nat (List.length l) + 0)); [lia|].
  apply (ok_bind huge A R _ _ _ _ _ _ (retain_list_at l A R I F)). intros r A1 (-> & I1 & G1 & S1) K1.
  eapply ok_post.
  - apply (alloc_at huge fresh fresh_ok e A1 (l ++ R) R); auto.
    + constructor.
    + easy.
    + intros x. now rewrite count_app.
    + eapply empty_in; eauto.
    + discriminate.
  - intros a A' (I' & (M1 & M2 & M3) & H') _. split; auto. split; [eexists; split; eauto|]. split; [|split; [|split]].
    2:{ rewrite H'. apply same_cons; [now apply same_sim|]. eapply sim_none; eauto. }
    2:{ eapply sim_none; eauto. }
    2:{ eexists. split; [exact M2|reflexivity]. }
    intros y v E P. destruct (G1 y v E P) as (w & E1 & P1 & U1). destruct (M3 y w E1 P1) as (u & E2 & P2 & U2).
    exists u. split; auto. split; auto. eapply up_trans; eauto.
Qed.
Lemma vector_ok A R l : Inv A R [] -> Forall (live (a_h A)) l ->
  ok A R (N.of_nat (List.length l)) (vector huge fresh (map Some l))
     (fun a A' => Inv A' (a :: R) [] /\ is_type (a_h A') a OT_VECTOR /\ grow (a_h A) (a_h A')).
Proof.
  intros. eapply ok_post; [apply (vector_at A R l); auto|]. intros a A' (X & Y & Z & _) _. auto.
Qed.

Lemma alloc_bit A t d :
  (a <- alloc huge fresh t false d ;; set_bit huge a ;; ret a)%act (cs A) = alloc huge fresh t true d (cs A).
Proof.
  set (v := mkOb t false 1 d). set (w := mkOb t true 1 d).
  rewrite (bind_ok _ _ _ _ _ (alloc_cs huge fresh A t false d)). rewrite (alloc_cs huge fresh A t true d).
  fold v w. assert (M : 1 <= max_refs huge) by (destruct huge; cbn; lia).
  assert (L : lookup (a_h (snd (new huge fresh A v))) (fst (new huge fresh A v)) = Some v).
  { cbn. now rewrite N.eqb_refl. }
  rewrite (bind_ok _ _ _ _ _ (set_bit_cs huge _ _ v L M)). cbn [v o_t o_n o_d]. fold w.
  assert (set_h (snd (new huge fresh A v)) (store (a_h (snd (new huge fresh A v))) (fst (new huge fresh A v)) w) = snd (new huge fresh A w)) as ->.
  { unfold new, set_h. cbn [fst snd a_h a_s a_i a_e a_a a_n store]. rewrite N.eqb_refl. reflexivity. }
  reflexivity.
Qed.

Lemma vector_ordered_at A R : Inv A R [] ->
  ok A R 0 (vector_ordered_empty huge fresh) (fun a A' => Inv A' (a :: R) [] /\ made A A' a (mkOb OT_VECTOR true 1 (BVec [])) /\
    a_h A' = (a, mkOb OT_VECTOR true 1 (BVec [])) :: a_h A).
Proof.
  intros I k K. pose proof (alloc_bit A OT_VECTOR (BVec [])) as AB.
  destruct (alloc_at huge fresh fresh_ok e A R R OT_VECTOR true (BVec [])) with (k := k) as (a & A' & E & K' & V & I' & M' & H'); auto.
  - constructor.
  - easy.
  - eapply empty_in; eauto.
  - discriminate.
  - exists a, A'. split; [|auto].
    unfold vector_ordered_empty, vector, vector_set_ordered. cbn [mapm nonnull]. rewrite <- AB in E. rewrite <- E.
    unfold bind, ret. destruct (alloc huge fresh OT_VECTOR false (BVec []) (cs A)); auto.
Qed.
Lemma vector_ordered_ok A R : Inv A R [] ->
  ok A R 0 (vector_ordered_empty huge fresh) (fun a A' => Inv A' (a :: R) [] /\ made A A' a (mkOb OT_VECTOR true 1 (BVec []))).
Proof. intros I. eapply ok_post; [apply (vector_ordered_at A R I)|]. intros a A' (X & Y & _) _. auto. Qed.

Lemma set_ordered_at A R v : Inv A R [] -> is_type (a_h A) v OT_VECTOR ->
  ok A R 0 (vector_set_ordered huge (Some v)) (fun _ A' => Inv A' R [] /\ same (a_h A) (a_h A')).
Proof.
  intros I TY k K. destruct (vec_of_type _ _ _ _ _ _ I TY) as (u & l & E & D).
  destruct (i_fit _ _ _ _ _ I v u E) as [F SH]. pose proof (live_all _ _ _ _ _ _ I E) as P.
  destruct TY as (u' & E' & T). rewrite E in E'. inversion E'; subst u'.
  set (w := mkOb (o_t u) true (o_n u) (o_d u)). set (A' := set_h A (store (a_h A) v w)).
  assert (KD : kids w = kids u) by reflexivity.
  assert (IU : ident (a_h A) u = None) by (unfold ident; now rewrite D).
  assert (IW : ident (a_h A) w = None) by (unfold ident, w; cbn; now rewrite D).
  assert (G : grow (a_h A) (a_h A')).
  { apply (grow_store _ _ u); auto. split; [reflexivity|]. split; [right; auto|left; reflexivity]. }
  exists tt, A'. split; [|split; [|split]].
  - unfold vector_set_ordered. cbn [nonnull]. rewrite (bind_ok (ret v) _ _ v (cs A) eq_refl).
    apply (set_bit_cs huge A v u E F).
  - intros b x Z. cbn in Z. rewrite lookup_store, E in Z. destruct (v =? b) eqn:W.
    + inversion Z; subst x. apply (K v u E).
    + apply (K b x Z).
  - apply (grow_keeps huge e A R []); auto.
  - split; [|intros x y z Z1 Z2; unfold A' in Z2; cbn [set_h a_h] in Z2; rewrite lookup_store, E in Z2; destruct (v =? x) eqn:W;
      [apply N.eqb_eq in W; subst x; rewrite E in Z1; inversion Z1; inversion Z2; subst; reflexivity|congruence]].
    apply (inv_up huge e A R [] v u w R A'); auto.
    + left. split; auto. intros (fs & Z). congruence.
    + unfold w; cbn. rewrite T, D. constructor.
    + unfold w; cbn. intros _ Z. congruence.
    + intros U. unfold A'. rewrite atab_set_h. apply (i_nodup _ _ _ _ _ I).
    + intros U b Z. unfold A'. rewrite atab_set_h. tauto.
    + intros U. unfold A'. rewrite atab_set_h, IW. split.
      * intros J. apply (i_tab _ _ _ _ _ I) in J as (u' & k1 & U1 & U2 & U3). rewrite E in U1. inversion U1; subst. congruence.
      * intros (k1 & Z). discriminate.
    + intros x b y Z1 Z2. congruence.
    + intros x. pose proof (indeg_store (a_h A) v u w x E) as H. rewrite KD in H. cbn [set_h a_h A']. unfold A'. cbn [set_h a_h]. lia.
    + intros b. apply (acc_sub (edge (a_h A))); [|apply (i_acyclic _ _ _ _ _ I)].
      intros c d (y & Z & J). unfold A' in Z. cbn [set_h a_h] in Z. rewrite lookup_store, E in Z. destruct (v =? d) eqn:W.
      * apply N.eqb_eq in W. subst d. inversion Z; subst y. exists u. rewrite KD in J. auto.
      * exists y. auto.
    + intros ->. destruct (i_empty _ _ _ _ _ I) as (y & Z & _ & _ & DY & _). rewrite E in Z. inversion Z; subst. congruence.
    + eapply empty_in; eauto.
Qed.
Lemma set_ordered_ok A R v : Inv A R [] -> is_type (a_h A) v OT_VECTOR ->
  ok A R 0 (vector_set_ordered huge (Some v)) (fun _ A' => Inv A' R []).
Proof. intros I TY. eapply ok_post; [apply (set_ordered_at A R v I TY)|]. now intros x A' (H & _) _. Qed.

(** Appending an object that does not reach the vector. *)
Lemma acc_push h v u w x l : lookup h v = Some u -> 0 < o_n u -> 0 < o_n w -> o_d u = BVec l -> o_d w = BVec (l ++ [x]) ->
  (forall a, Acc (edge h) a) -> ~ rch h x v -> forall a, Acc (edge (store h v w)) a.
Proof.
  intros E PU PW DU DW AC NR.
  assert (ED : forall b a, edge (store h v w) b a -> edge h b a \/ (b = x /\ a = v)).
  { intros b a (y & Z & J). rewrite lookup_store, E in Z. destruct (v =? a) eqn:W.
    - apply N.eqb_eq in W. subst a. inversion Z; subst y. rewrite kids_live, DW in J by auto. cbn [pointers_of] in J.
      apply in_app_or in J as [J|[<-|[]]]; auto. left. exists u. split; auto. rewrite kids_live, DU by auto. auto.
    - left. exists y. auto. }
  assert (C1 : forall a, ~ rch h a v -> Acc (edge (store h v w)) a).
  { intros a. induction (AC a) as [a _ IH]. intros N0. constructor. intros b J. apply ED in J as [J|[-> ->]].
    - apply IH; auto. intros H. apply N0. econstructor; eauto.
    - exfalso. apply N0. constructor. }
  intros a. induction (AC a) as [a _ IH]. constructor. intros b J. apply ED in J as [J|[-> ->]]; auto.
Qed.

Lemma push_item_ok A R R' v x : Inv A R' [] -> (forall y, count y R' = count y (x :: R)) -> In (e_empty e) R ->
  is_type (a_h A) v OT_VECTOR -> ~ rch (a_h A) x v ->
  ok A R 0 (push_item v x) (fun _ A' => Inv A' R []).
Proof.
  intros I C EM TY NR k K. destruct (vec_of_type _ _ _ _ _ _ I TY) as (u & l & E & D).
  destruct (i_fit _ _ _ _ _ I v u E) as [F SH]. pose proof (live_all _ _ _ _ _ _ I E) as P.
  destruct TY as (u' & E' & T). rewrite E in E'. inversion E'; subst u'.
  set (w := mkOb (o_t u) (o_b u) (o_n u) (BVec (l ++ [x]))). set (A' := set_h A (store (a_h A) v w)).
  assert (KD : forall y, count y (kids w) = (count y (kids u) + if N.eqb x y then 1 else 0)%nat).
  { intros y. rewrite kids_live by auto. rewrite (kids_live u), D by auto. cbn [w o_d pointers_of].
    rewrite count_app, count_cons, count_nil. lia. }
  assert (IU : ident (a_h A) u = None) by (unfold ident; now rewrite D).
  assert (IW : ident (a_h A) w = None) by reflexivity.
  assert (G : grow (a_h A) (a_h A')).
  { apply (grow_store _ _ u); auto. split; [reflexivity|]. split; [left; reflexivity|right; left; exists l, [x]; auto]. }
  exists tt, A'. split; [|split; [|split]].
  - unfold push_item. rewrite (bind_ok _ _ _ _ _ (read_cs huge A v u E)). cbn [ProofHeap.cell_of c_body c_hdr]. rewrite D.
    apply (write_cs huge A v u w E).
  - intros b y Z. cbn in Z. rewrite lookup_store, E in Z. destruct (v =? b) eqn:W.
    + inversion Z; subst y. apply (K v u E).
    + apply (K b y Z).
  - apply (keeps_incl _ R'); [|apply (grow_keeps huge e A R' []); auto].
    intros y J. apply count_in. rewrite C. apply count_in in J. rewrite count_cons. lia.
  - apply (inv_up huge e A R' [] v u w R A'); auto.
    + right. left. exists l, [x]. auto.
    + unfold w; cbn. rewrite T. constructor.
    + unfold w; cbn. intros _ Z. congruence.
    + intros U. unfold A'. rewrite atab_set_h. apply (i_nodup _ _ _ _ _ I).
    + intros U b Z. unfold A'. rewrite atab_set_h. tauto.
    + intros U. unfold A'. rewrite atab_set_h, IW. split.
      * intros J. apply (i_tab _ _ _ _ _ I) in J as (u' & k1 & U1 & U2 & U3). rewrite E in U1. inversion U1; subst. congruence.
      * intros (k1 & Z). discriminate.
    + intros y b z Z1 Z2. congruence.
    + intros y. pose proof (indeg_store (a_h A) v u w y E) as H. rewrite KD in H. unfold A'. cbn [set_h a_h].
      rewrite C, count_cons. lia.
    + unfold A'. cbn [set_h a_h]. apply (acc_push (a_h A) v u w x l); auto. apply (i_acyclic _ _ _ _ _ I).
    + intros ->. destruct (i_empty _ _ _ _ _ I) as (y & Z & _ & _ & DY & _). rewrite E in Z. inversion Z; subst. congruence.
Qed.

Lemma sim_edge h h' b a : sim h h' -> (forall x v, lookup h x = Some v -> 0 < o_n v) -> edge h' b a -> edge h b a.
Proof.
  intros [_ S] PL (w & E & J). destruct (S a w E) as (v & F & (_ & _ & D)). exists v. split; auto.
  unfold kids in J. destruct (o_n w =? 0); [easy|]. rewrite kids_live by eauto. now rewrite <- D.
Qed.

Lemma sim_rch h h' x y : sim h h' -> (forall x v, lookup h x = Some v -> 0 < o_n v) -> rch h' x y -> rch h x y.
Proof.
  intros S PL H. induction H as [|r b z E H IH]; [constructor|]. apply rch_step with b; auto. eapply sim_edge; eauto.
Qed.

Lemma vector_add_ok A R v x : Inv A R [] -> is_type (a_h A) v OT_VECTOR -> live (a_h A) x -> ~ rch (a_h A) x v ->
  ok A R 1 (vector_add huge (Some v) (Some x)) (fun _ A' => Inv A' R []).
Proof.
  intros I TY L NR. unfold vector_add. cbn [nonnull]. eapply ok_pure; [reflexivity|].
  apply (ok_weak huge A R 1 (1 + 0)); [lia|].
  apply (ok_bind huge A R 1 _ _ _ _ _ (retain_ok huge e A R x I L)). intros y A1 (-> & I1 & G1 & S1) K1.
  apply (push_item_ok A1 R (x :: R)); auto.
  - eapply empty_in; eauto.
  - apply (grow_type huge e A R); auto.
  - intros H. apply NR. apply (sim_rch _ _ _ _ S1); auto. intros c w F. apply (live_all _ _ _ _ _ _ I F).
Qed.
Lemma vector_push_ok A R R' v x : Inv A R' [] -> (forall y, count y R' = count y (x :: R)) -> In (e_empty e) R ->
  is_type (a_h A) v OT_VECTOR -> ~ rch (a_h A) x v ->
  ok A R 0 (vector_push (Some v) (Some x)) (fun _ A' => Inv A' R []).
Proof.
  intros I C EM TY NR. unfold vector_push. cbn [nonnull]. eapply ok_pure; [reflexivity|]. eapply ok_pure; [reflexivity|].
  eapply push_item_ok; eauto.
Qed.

(** * Constructors built from these *)

Lemma nary_ok A R t items : Inv A R [] -> arity t = Some 1%nat -> type_is_card t = false -> Forall (live (a_h A)) items ->
  ok A R (N.of_nat (List.length items) + 2) (nary_get_impl huge fresh t items) (fun a A' => Inv A' (a :: R) []).
Proof.
  intros I AR CD F. unfold nary_get_impl. apply (ok_weak huge A R _ (N.of_nat (List.length items) + (2 + (0 + 0)))); [lia|].
  apply (ok_bind huge A R _ _ _ _ _ _ (vector_ok A R items I F)). intros v A1 (I1 & T1 & _) K1.
  apply (ok_bind1 huge A1 R (v :: R) (N.of_nat 1 + 1) _ _ _ _ _
    (get_impl_ok A1 (v :: R) t [v] None 1 I1 AR CD eq_refl (Forall_cons _ (type_live _ _ _ T1) (Forall_nil _)) Logic.I)); [intros z; now right|].
  intros o A2 I2 K2. assert (EM : In (e_empty e) R) by (eapply empty_in; eauto).
  apply (ok_bind1 huge A2 R (o :: R) 0 _ _ _ _ _ (release1_ok huge e A2 R [o] v I2 EM)); [intros z; now right|].
  intros _ A3 (I3 & _) K3. apply (ok_frame huge A3 R (o :: R)); [intros z; now right|]. apply (ok_ret huge e); auto.
Qed.

Lemma opt_vec_ok A R o : Inv A R [] -> opt_live (a_h A) o ->
  ok A R 1 (match o with Some _ => retain huge o | None => vector huge fresh [] end)
     (fun a A' => Inv A' (a :: R) [] /\ live (a_h A') a /\ grow (a_h A) (a_h A')).
Proof.
  intros I O. destruct o as [o|].
  - eapply ok_post; [apply (retain_ok huge e A R o I O)|]. intros x A' (-> & I' & G & _) _. split; auto. split; auto.
    apply (grow_live huge e A R); auto.
  - apply (ok_weak huge A R 1 0); [lia|]. eapply ok_post; [apply (vector_ok A R [] I (Forall_nil _))|].
    intros x A' (I' & T & G) _. split; auto. split; auto. eapply type_live; eauto.
Qed.

Lemma has_key_ok A R c o d annot : Inv A R [] -> live (a_h A) c -> opt_live (a_h A) o -> opt_live (a_h A) d ->
  match annot with Some v => is_type (a_h A) v OT_VECTOR | None => True end ->
  ok A R 6 (has_key huge fresh (Some c) o d annot) (fun a A' => Inv A' (a :: R) []).
Proof.
  intros I LC LO LD AN. unfold has_key. apply (ok_weak huge A R 6 (1 + (1 + (4 + (0 + (0 + 0)))))); [lia|].
  assert (EM : In (e_empty e) R) by (eapply empty_in; eauto).
  apply (ok_bind huge A R 1 _ _ _ _ _ (opt_vec_ok A R o I LO)). intros o' A1 (I1 & L1 & G1) K1.
  assert (LD1 : opt_live (a_h A1) d) by (destruct d; cbn in *; auto; apply (grow_live huge e A R); auto).
  apply (ok_bind1 huge A1 R (o' :: R) 1 _ _ _ _ _ (opt_vec_ok A1 (o' :: R) d I1 LD1)); [intros z; now right|].
  intros d' A2 (I2 & L2 & G2) K2.
  assert (LC2 : live (a_h A2) c) by (apply (grow_live huge e A1 (o' :: R)); auto; apply (grow_live huge e A R); auto).
  assert (LO2 : live (a_h A2) o') by (apply (grow_live huge e A1 (o' :: R)); auto).
  assert (AN2 : match annot with Some v => is_type (a_h A2) v OT_VECTOR | None => True end).
  { destruct annot; auto. apply (grow_type huge e A1 (o' :: R)); auto. apply (grow_type huge e A R); auto. }
  assert (FF : Forall (live (a_h A2)) [c; o'; d']) by (repeat constructor; auto).
  apply (ok_bind1 huge A2 R (d' :: o' :: R) (N.of_nat 3 + 1) _ _ _ _ _
    (get_impl_annot_ok A2 (d' :: o' :: R) OT_A_HAS_KEY [c; o'; d'] annot 3 I2 eq_refl eq_refl eq_refl FF AN2)).
  { intros z J. now right; right. }
  intros r A3 I3 K3.
  assert (I3' : Inv A3 ([r] ++ o' :: d' :: R) []).
  { revert I3. apply inv_count. intros x. cbn [app]. rewrite !count_cons. lia. }
  apply (ok_bind1 huge A3 R (r :: d' :: R) 0 _ _ _ _ _ (release1_ok huge e A3 (d' :: R) [r] o' I3' (or_intror EM))).
  { intros z J. now right; right. }
  intros _ A4 (I4 & _) K4.
  apply (ok_bind1 huge A4 R (r :: R) 0 _ _ _ _ _ (release1_ok huge e A4 R [r] d' I4 EM)); [intros z; now right|].
  intros _ A5 (I5 & _) K5. apply (ok_frame huge A5 R (r :: R)); [intros z; now right|]. apply (ok_ret huge e); auto.
Qed.

Lemma chain_ok A R sub super annot : Inv A R [] -> is_type (a_h A) sub OT_VECTOR -> live (a_h A) super ->
  match annot with Some v => is_type (a_h A) v OT_VECTOR | None => True end ->
  ok A R 3 (chain_axiom huge fresh (Some sub) (Some super) annot) (fun a A' => Inv A' (a :: R) []).
Proof.
  intros I TS LS AN. unfold chain_axiom. apply (ok_weak huge A R 3 (0 + (N.of_nat 2 + 1))); [lia|].
  apply (ok_bind huge A R 0 _ _ _ _ _ (set_ordered_ok A R sub I TS)). intros _ A1 I1 K1.
  assert (G1 := keeps_grow huge e A R _ I K1).
  change [Some sub; Some super] with (map Some [sub; super]).
  apply get_impl_annot_ok; auto.
  - repeat constructor; apply (grow_live huge e A R); auto. eapply type_live; eauto.
  - destruct annot; auto. apply (grow_type huge e A R); auto.
Qed.

Lemma required_map (P : N -> Prop) fs : Forall (required P) fs -> exists ks, fs = map Some ks /\ Forall P ks.
Proof.
  induction 1 as [|[a|] fs H F (ks & -> & G)]; [exists []; auto|exists (a :: ks); auto|contradiction].
Qed.

(** What a constructor needs. *)
Definition good (h : obs) (t : otype) (fs : list (option N)) (opt : option N) : Prop :=
  match ctor_of t with
  | Some (CPlain n) => List.length fs = n /\ Forall (required (live h)) fs
  | Some (CAnnot n) => List.length fs = n /\ Forall (required (live h)) fs /\
      match opt with Some v => is_type h v OT_VECTOR | None => True end
  | Some (CUInt n) => List.length fs = n /\ Forall (required (live h)) fs /\ opt_live h opt
  | Some (CQuant n) => List.length fs = n /\ Forall (required (live h)) fs /\ opt_live h opt
  | Some CHasKey => exists c o d, fs = [Some c; o; d] /\ live h c /\ opt_live h o /\ opt_live h d /\
      match opt with Some v => is_type h v OT_VECTOR | None => True end
  | None => False
  end.

Lemma construct_ok A R t fs opt val : Inv A R [] -> good (a_h A) t fs opt ->
  ok A R (N.of_nat (List.length fs) + 4) (construct huge fresh e t fs opt val) (fun a A' => Inv A' (a :: R) []).
Proof.
  intros I. assert (CD : type_is_card t = match ctor_of t with Some (CUInt _) => true | _ => false end) by (destruct t; reflexivity).
  unfold good, construct. assert (AR : forall n, arity t = Some n -> arity t = Some n) by auto.
  unfold arity in AR at 1. destruct (ctor_of t) as [[n|n|n|n|]|] eqn:CT; [..|contradiction].
  - intros (L & F). apply required_map in F as (ks & -> & F). rewrite map_length in *.
    apply (ok_weak huge A R _ (N.of_nat n + 1)); [lia|]. apply get_impl_ok; auto. exact Logic.I.
  - intros (L & F & O). apply required_map in F as (ks & -> & F). rewrite map_length in *.
    apply (ok_weak huge A R _ (N.of_nat n + 1)); [lia|]. apply get_impl_annot_ok; auto.
  - intros (L & F & O). apply required_map in F as (ks & -> & F). rewrite map_length in *.
    apply (ok_weak huge A R _ (N.of_nat n + 1)); [lia|]. apply get_impl_uint_ok; auto.
  - intros (L & F & O). apply required_map in F as (ks & -> & F). rewrite map_length in *.
    assert (n = 1%nat) as -> by (revert CT; destruct t; cbn; congruence).
    destruct ks as [|p [|? ?]]; try discriminate. cbn [map]. unfold quant.
    apply (ok_weak huge A R _ (N.of_nat 1 + 1)); [cbn; lia|].
    change [Some p] with (map Some [p]). apply get_impl_ok; auto.
    destruct opt as [f|]; cbn; auto. destruct (f =? _); cbn; auto.
  - intros (c & o & d & -> & LC & LO & LD & AN). apply (ok_weak huge A R _ 6); [cbn; lia|]. apply has_key_ok; auto.
Qed.

Lemma construct_at A R t fs opt val : Inv A R [] -> good (a_h A) t fs opt -> ctor_of t <> Some CHasKey ->
  ok A R (N.of_nat (List.length fs) + 4) (construct huge fresh e t fs opt val) (fun a A' => Inv A' (a :: R) [] /\ exists ks, fs = map Some ks /\ built (a_h A) (a_h A') a t ks).
Proof.
  intros I. assert (CD : type_is_card t = match ctor_of t with Some (CUInt _) => true | _ => false end) by (destruct t; reflexivity).
  unfold good, construct. assert (AR : forall n, arity t = Some n -> arity t = Some n) by auto.
  unfold arity in AR at 1. destruct (ctor_of t) as [[n|n|n|n|]|] eqn:CT; [..|contradiction].
  all: intros G NK; try (now elim NK); revert G; clear NK.
  all: assert (PST : forall ks c (m : act N), ok A R c m (fun a A' => Inv A' (a :: R) [] /\ built (a_h A) (a_h A') a t ks) ->
    ok A R c m (fun a A' => Inv A' (a :: R) [] /\ exists k0, map Some ks = map Some k0 /\ built (a_h A) (a_h A') a t k0))
    by (intros ks c m H; eapply ok_post; [exact H|]; intros a A' (X & Y) _; split; auto; exists ks; auto).
  - intros (L & F). apply required_map in F as (ks & -> & F). rewrite map_length in *.
    apply (ok_weak huge A R _ (N.of_nat n + 1)); [lia|]. apply PST, get_impl_at; auto. exact Logic.I.
  - intros (L & F & O). apply required_map in F as (ks & -> & F). rewrite map_length in *.
    apply (ok_weak huge A R _ (N.of_nat n + 1)); [lia|]. apply PST, get_impl_annot_at; auto.
  - intros (L & F & O). apply required_map in F as (ks & -> & F). rewrite map_length in *.
    apply (ok_weak huge A R _ (N.of_nat n + 1)); [lia|]. apply PST, get_impl_uint_at; auto.
  - intros (L & F & O). apply required_map in F as (ks & -> & F). rewrite map_length in *.
    assert (n = 1%nat) as -> by (revert CT; destruct t; cbn; congruence).
    destruct ks as [|p [|? ?]]; try discriminate. cbn [map]. unfold quant.
    apply (ok_weak huge A R _ (N.of_nat 1 + 1)); [cbn; lia|].
    change [Some p] with (map Some [p]). apply (PST [p]), get_impl_at; auto.
    destruct opt as [f|]; cbn; auto. destruct (f =? _); cbn; auto.
Qed.

(** * Literals *)

Lemma literal_alloc_at A R v d b : Inv A R [] -> is_type (a_h A) v OT_STRING -> live (a_h A) d ->
  ok A R 2 (literal_alloc huge fresh (Some v) (Some d) b) (fun a A' => Inv A' (a :: R) [] /\ same (a_h A) (a_h A') /\ lookup (a_h A) a = None /\ lookup (a_h A') a = Some (mkOb OT_LITERAL b 1 (BComp [Obj v; Obj d]))).
Proof.
  intros I TV LD. intros k K. assert (LV : live (a_h A) v) by (destruct TV as (v0 & V0 & _); exists v0; auto).
  assert (FF : Forall (live (a_h A)) [v; d]) by (repeat constructor; auto).
  destruct (retain_list_at [v; d] A R I FF k K) as (r & A1 & E1 & K1 & V1 & -> & I1 & G1 & S1).
  destruct (alloc_at huge fresh fresh_ok e A1 ([v; d] ++ R) R OT_LITERAL b (BComp [Obj v; Obj d])) with (k := k)
    as (a & A2 & E2 & K2 & V2 & I2 & (M1 & M2 & _) & H2); auto.
  - constructor.
  - intros _. apply (grow_type huge e A R); auto.
  - intros x. cbn [pointers_of flat_map app]. rewrite !count_cons, count_nil. lia.
  - eapply empty_in; eauto.
  - discriminate.
  - exists a, A2. split; [|split; auto; split; [eapply keeps_trans; eauto|split; auto; split; [|split; [eapply sim_none; eauto|auto]]]].
    2:{ rewrite H2. apply same_cons; [now apply same_sim|]. eapply sim_none; eauto. }
    unfold literal_alloc, get_impl. change [Some v; Some d] with (map Some [v; d]).
    unfold bind at 1 2. rewrite E1. cbn [map]. destruct b.
    + rewrite <- E2, <- alloc_bit. reflexivity.
    + rewrite E2. reflexivity.
Qed.
Lemma literal_alloc_ok A R v d b : Inv A R [] -> is_type (a_h A) v OT_STRING -> live (a_h A) d ->
  ok A R 2 (literal_alloc huge fresh (Some v) (Some d) b) (fun a A' => Inv A' (a :: R) []).
Proof.
  intros. eapply ok_post; [apply (literal_alloc_at A R v d b); auto|]. intros a A' (X & _) _. auto.
Qed.

Lemma string_alloc_ok A R v : Inv A R [] -> is_type (a_h A) v OT_STRING -> live (a_h A) (e_string e) ->
  ok A R 2 (literal_string_alloc huge fresh e (Some v)) (fun a A' => Inv A' (a :: R) []).
Proof. intros. apply literal_alloc_ok; auto. Qed.

Lemma intern_lang_ok A R l t : Inv A R [] -> txt (a_h A) l = Some t ->
  ok A R 1 (intern_lang huge fresh e l) (fun a A' => Inv A' (a :: R) [] /\ live (a_h A') a).
Proof.
  intros I X. unfold intern_lang. eapply ok_pure; [apply (txt_cs huge A l t X)|]. destruct (is_lower t).
  - apply (ok_weak huge A R 1 (0 + 1)); [lia|].
    apply (ok_bind huge A R 0 _ _ _ _ _ (string_intern_ok huge e A R l t I X)).
    intros r A1 (b & -> & I1 & X1 & _) K1. eapply ok_post; [apply (retain_ok huge e A1 R b I1 (txt_live _ _ _ X1))|].
    intros x A2 (-> & I2 & G2 & _) _. split; auto. apply (grow_live huge e A1 R); auto. eapply txt_live; eauto.
  - eapply ok_post; [apply (string_opt_ok huge fresh fresh_ok e A R (to_lower t) true I)|].
    intros x A' (I' & X' & _) _. split; auto. eapply txt_live; eauto.
Qed.

Lemma lang_alloc_ok A R v l t : Inv A R [] -> is_type (a_h A) v OT_STRING -> txt (a_h A) l = Some t -> live (a_h A) (e_string e) ->
  ok A R 3 (lit_lang_alloc huge fresh e (Some v) l) (fun a A' => Inv A' (a :: R) []).
Proof.
  intros I LV X LS. unfold lit_lang_alloc. eapply ok_pure; [apply (txt_cs huge A l t X)|].
  destruct (Nat.eqb (List.length t) 0).
  - apply (ok_weak huge A R 3 2); [lia|]. apply string_alloc_ok; auto.
  - apply (ok_weak huge A R 3 (1 + (2 + (0 + 0)))); [lia|].
    apply (ok_bind huge A R 1 _ _ _ _ _ (intern_lang_ok A R l t I X)). intros i A1 (I1 & L1) K1.
    assert (LV1 : is_type (a_h A1) v OT_STRING) by (apply (grow_type huge e A R); auto; apply (keeps_grow huge e A R); auto).
    apply (ok_bind1 huge A1 R (i :: R) 2 _ _ _ _ _ (literal_alloc_ok A1 (i :: R) v i true I1 LV1 L1)); [intros z; now right|].
    intros a A2 I2 K2. assert (EM : In (e_empty e) R) by (eapply empty_in; eauto).
    apply (ok_bind1 huge A2 R (a :: R) 0 _ _ _ _ _ (release1_ok huge e A2 R [a] i I2 EM)); [intros z; now right|].
    intros _ A3 (I3 & _) K3. apply (ok_frame huge A3 R (a :: R)); [intros z; now right|]. apply (ok_ret huge e); auto.
Qed.

Lemma parse_lang_alloc_ok A R v t : Inv A R [] -> txt (a_h A) v = Some t -> snd (parse_lang t) <> None ->
  ok A R 4 (lit_parse_lang_alloc huge fresh e v) (fun a A' => Inv A' (a :: R) []).
Proof.
  intros I X NN. unfold lit_parse_lang_alloc, parse_lang_at.
  assert (EM : In (e_empty e) R) by (eapply empty_in; eauto).
  apply (ok_weak huge A R 4 (2 + (2 + (0 + (0 + 0))))); [lia|].
  apply (ok_bind huge A R 2 _ _ _ (fun p A' => exists w l, p = (w, Some l) /\ Inv A' (w :: l :: R) [] /\ is_type (a_h A') w OT_STRING)).
  - eapply ok_pure; [apply (txt_cs huge A v t X)|]. destruct (parse_lang t) as [u [lang|]]; [|now elim NN].
    apply (ok_weak huge A R 2 (1 + (1 + 0))); [lia|].
    apply (ok_bind huge A R 1 _ _ _ _ _ (string_opt_ok huge fresh fresh_ok e A R u false I)). intros w A1 (I1 & X1 & _) K1.
    apply (ok_bind1 huge A1 R (w :: R) 1 _ _ _ _ _ (string_opt_ok huge fresh fresh_ok e A1 (w :: R) lang true I1)); [intros z; now right|].
    intros l A2 (I2 & X2 & _) K2.
    assert (I2' : Inv A2 (w :: l :: R) []) by (revert I2; apply inv_count; intros x; rewrite !count_cons; lia).
    apply (ok_frame huge A2 R (w :: l :: R)); [intros z J; now right; right|]. apply (ok_ret huge e); auto.
    exists w, l. split; auto. split; auto. apply (keeps_type (w :: R) (a_h A1)); auto; [apply use_in; now left|].
    apply (type_of_str _ _ _ _ _ _ _ I1 X1).
  - intros p A1 (w & l & -> & I1 & W1) K1. cbn [fst snd].
    destruct (held_live huge e A1 _ _ l I1) as (l0 & L1 & _); [right; now left|].
    apply (ok_bind1 huge A1 R (w :: l :: R) 2 _ _ _ _ _
      (literal_alloc_ok A1 (w :: l :: R) w l true I1 W1 (ex_intro _ l0 L1))).
    { intros z J. now right; right. }
    intros a A2 I2 K2.
    apply (ok_bind1 huge A2 R (a :: l :: R) 0 _ _ _ _ _ (release1_ok huge e A2 (l :: R) [a] w I2 (or_intror EM))).
    { intros z J. now right; right. }
    intros _ A3 (I3 & _) K3.
    apply (ok_bind1 huge A3 R (a :: R) 0 _ _ _ _ _ (release1_ok huge e A3 R [a] l I3 EM)); [intros z; now right|].
    intros _ A4 (I4 & _) K4. apply (ok_frame huge A4 R (a :: R)); [intros z; now right|]. apply (ok_ret huge e); auto.
Qed.

Lemma ok_some A R c (m : act N) : ok A R c m (fun a A' => Inv A' (a :: R) []) ->
  ok A R c (a <- m ;; ret (Some a))%act (fun r A' => exists a, r = Some a /\ Inv A' (a :: R) []).
Proof. intros H. eapply ok_map; [exact H|]. intros x A' I' _. eauto. Qed.

Lemma literal_ok A R v d t : Inv A R [] -> txt (a_h A) v = Some t -> live (a_h A) (e_string e) -> opt_live (a_h A) d ->
  (forall x, d = Some x -> x = e_lang_string e \/ x = e_plain_literal e -> snd (parse_lang t) <> None) ->
  ok A R 4 (literal huge fresh e (Some v) d) (fun r A' => exists a, r = Some a /\ Inv A' (a :: R) []).
Proof.
  intros I X LS O PL. assert (LV := type_of_str _ _ _ _ _ _ _ I X). unfold literal. destruct d as [d|].
  - destruct O as (u & E). destruct (i_fit _ _ _ _ _ I d u E) as [F SH].
    eapply ok_pure; [apply (type_cs huge A d u E F)|]. apply ok_some.
    assert (PP : ok A R 4 (if (d =? e_lang_string e) || (d =? e_plain_literal e) then lit_parse_lang_alloc huge fresh e v
                       else literal_alloc huge fresh (Some v) (Some d) false) (fun a A' => Inv A' (a :: R) [])).
    { destruct ((d =? e_lang_string e) || (d =? e_plain_literal e)) eqn:B.
      - apply (parse_lang_alloc_ok A R v t); auto. apply (PL d); auto. lia.
      - apply (ok_weak huge A R 4 2); [lia|]. apply literal_alloc_ok; auto. exists u. auto. }
    destruct (o_t u) eqn:T; try exact PP.
    assert (TY : is_type (a_h A) d OT_STRING) by (exists u; auto).
    destruct (str_of_type _ _ _ _ _ _ I TY) as (l & XL).
    apply (ok_weak huge A R 4 3); [lia|]. apply (lang_alloc_ok A R v d l); auto.
  - apply (ok_weak huge A R 4 2); [lia|]. apply ok_some. apply string_alloc_ok; auto.
Qed.

Lemma lit_plain_ok A R t : Inv A R [] -> live (a_h A) (e_string e) ->
  ok A R 3 (lit_plain huge fresh e t) (fun a A' => Inv A' (a :: R) []).
Proof.
  intros I LS. assert (EM : In (e_empty e) R) by (eapply empty_in; eauto). unfold lit_plain.
  apply (ok_weak huge A R 3 (1 + (2 + (0 + 0)))); [lia|].
  apply (ok_bind huge A R 1 _ _ _ _ _ (string_opt_ok huge fresh fresh_ok e A R t false I)). intros v A1 (I1 & X1 & _) K1.
  assert (LS1 : live (a_h A1) (e_string e)) by (apply (grow_live huge e A R); auto; apply (keeps_grow huge e A R); auto).
  apply (ok_bind1 huge A1 R (v :: R) 2 _ _ _ _ _ (string_alloc_ok A1 (v :: R) v I1 (type_of_str _ _ _ _ _ _ _ I1 X1) LS1)); [intros z; now right|].
  intros a A2 I2 K2.
  apply (ok_bind1 huge A2 R (a :: R) 0 _ _ _ _ _ (release1_ok huge e A2 R [a] v I2 EM)); [intros z; now right|].
  intros _ A3 (I3 & _) K3. apply (ok_frame huge A3 R (a :: R)); [intros z; now right|]. apply (ok_ret huge e); auto.
Qed.
Lemma lit_typed_ok A R t d : Inv A R [] -> live (a_h A) d ->
  ok A R 3 (lit_typed huge fresh e t (Some d)) (fun a A' => Inv A' (a :: R) []).
Proof.
  intros I LD. assert (EM : In (e_empty e) R) by (eapply empty_in; eauto). unfold lit_typed.
  apply (ok_weak huge A R 3 (1 + (2 + (0 + 0)))); [lia|].
  apply (ok_bind huge A R 1 _ _ _ _ _ (string_opt_ok huge fresh fresh_ok e A R t false I)). intros v A1 (I1 & X1 & _) K1.
  assert (LD1 : live (a_h A1) d) by (apply (grow_live huge e A R); auto; apply (keeps_grow huge e A R); auto).
  apply (ok_bind1 huge A1 R (v :: R) 2 _ _ _ _ _ (literal_alloc_ok A1 (v :: R) v d false I1 (type_of_str _ _ _ _ _ _ _ I1 X1) LD1)); [intros z; now right|].
  intros a A2 I2 K2.
  apply (ok_bind1 huge A2 R (a :: R) 0 _ _ _ _ _ (release1_ok huge e A2 R [a] v I2 EM)); [intros z; now right|].
  intros _ A3 (I3 & _) K3. apply (ok_frame huge A3 R (a :: R)); [intros z; now right|]. apply (ok_ret huge e); auto.
Qed.
Lemma lit_lang_ok A R t l : Inv A R [] -> live (a_h A) (e_string e) ->
  ok A R 5 (lit_lang huge fresh e t l) (fun a A' => Inv A' (a :: R) []).
Proof.
  intros I LS. assert (EM : In (e_empty e) R) by (eapply empty_in; eauto). unfold lit_lang.
  apply (ok_weak huge A R 5 (1 + (1 + (3 + (0 + (0 + 0)))))); [lia|].
  apply (ok_bind huge A R 1 _ _ _ _ _ (string_opt_ok huge fresh fresh_ok e A R t false I)). intros v A1 (I1 & X1 & _) K1.
  assert (LS1 : live (a_h A1) (e_string e)) by (apply (grow_live huge e A R); auto; apply (keeps_grow huge e A R); auto).
  apply (ok_bind1 huge A1 R (v :: R) 1 _ _ _ _ _ (string_opt_ok huge fresh fresh_ok e A1 (v :: R) l true I1)); [intros z; now right|].
  intros i A2 (I2 & X2 & _) K2. assert (G2 := keeps_grow huge e A1 (v :: R) _ I1 K2).
  assert (LV2 : is_type (a_h A2) v OT_STRING) by (apply (grow_type huge e A1 (v :: R)); auto; eapply type_of_str; eauto).
  assert (LS2 : live (a_h A2) (e_string e)) by (apply (grow_live huge e A1 (v :: R)); auto).
  apply (ok_bind1 huge A2 R (i :: v :: R) 3 _ _ _ _ _ (lang_alloc_ok A2 (i :: v :: R) v i l I2 LV2 X2 LS2)).
  { intros z J. now right; right. }
  intros a A3 I3 K3.
  assert (I3' : Inv A3 ([a] ++ v :: i :: R) []) by (revert I3; apply inv_count; intros x; cbn [app]; rewrite !count_cons; lia).
  apply (ok_bind1 huge A3 R (a :: i :: R) 0 _ _ _ _ _ (release1_ok huge e A3 (i :: R) [a] v I3' (or_intror EM))).
  { intros z J. now right; right. }
  intros _ A4 (I4 & _) K4.
  apply (ok_bind1 huge A4 R (a :: R) 0 _ _ _ _ _ (release1_ok huge e A4 R [a] i I4 EM)); [intros z; now right|].
  intros _ A5 (I5 & _) K5. apply (ok_frame huge A5 R (a :: R)); [intros z; now right|]. apply (ok_ret huge e); auto.
Qed.

End Comp.
