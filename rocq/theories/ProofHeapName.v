(** Strings, IRIs, entities and anonymous individuals keep the memory invariant. *)

From Coq Require Import NArith List Bool Arith Lia.
From Coq Require Import ZifyBool ZifyNat ZifyN.
From Verif Require Import Bytes ModelTypes ModelObject ModelHeader SpecHeader ModelText ModelHeap SpecHeap.
From Verif Require Import ProofObject ProofHeader ProofHeap ProofHeapRun ProofHeapFun.
Import ListNotations.
Local Open Scope N_scope.

Section Name.
Variable huge : bool.
Variable fresh : N -> heap -> N.
Hypothesis fresh_ok : allocator fresh.
Variable e : env.

Local Notation Inv := (ProofHeap.Inv huge e).
Local Notation cs := (ProofHeap.cs huge).
Local Notation Room := (ProofHeap.Room huge).
Local Notation ns_ok := (ProofHeap.ns_ok e).
Local Notation ok := (ProofHeapFun.ok huge).

(** * Persistence, again *)

Lemma ok_bind1 {X Y} A R R1 c c' (m : act X) (f : X -> act Y) P Q :
  ok A R1 c m P -> incl R R1 ->
  (forall x A', P x A' -> keeps R1 (a_h A) (a_h A') -> ok A' R c' (f x) Q) ->
  ok A R (c + c') (bind m f) Q.
Proof.
  intros H I G k K. destruct (H (c' + k)) as (x & A' & E & K' & V & F); [now rewrite N.add_assoc|].
  destruct (G x A' F V k K') as (y & A2 & E2 & K2 & V2 & F2). exists y, A2. rewrite (bind_ok _ _ _ _ _ E).
  repeat split; auto. apply (keeps_trans _ _ (a_h A')); auto. eapply keeps_incl; eauto.
Qed.

Lemma keeps_grow A R h' : Inv A R [] -> keeps R (a_h A) h' -> grow (a_h A) h'.
Proof.
  intros I K x v E _. destruct (K x) as (v' & w & F & G & P & U).
  - apply (no_garbage huge e A R x I). exists v. auto.
  - exists w. rewrite E in F. inversion F; subst. auto.
Qed.
Lemma grow_live A R h' x : Inv A R [] -> grow (a_h A) h' -> live (a_h A) x -> live h' x.
Proof.
  intros I G (v & E). destruct (G x v E (live_all _ _ _ _ _ _ I E)) as (w & F & _). exists w. auto.
Qed.
Lemma grow_txt A R h' x t : Inv A R [] -> grow (a_h A) h' -> txt (a_h A) x = Some t -> txt h' x = Some t.
Proof.
  intros I G. unfold txt. destruct (lookup (a_h A) x) as [v|] eqn:E; [|discriminate].
  destruct (G x v E (live_all _ _ _ _ _ _ I E)) as (w & F & _ & U). rewrite F.
  destruct (o_d v) eqn:D; try discriminate. intros X. inversion X; subst. now rewrite (up_txt v w t U D).
Qed.
Lemma grow_type A R h' x t : Inv A R [] -> grow (a_h A) h' -> is_type (a_h A) x t -> is_type h' x t.
Proof.
  intros I G (v & E & T). destruct (G x v E (live_all _ _ _ _ _ _ I E)) as (w & F & _ & (U & _)).
  exists w. split; congruence.
Qed.
Lemma grow_ns A R h' x : Inv A R [] -> grow (a_h A) h' -> ns_ok (a_h A) x -> ns_ok h' x.
Proof.
  intros I G [E|(v & E & T & B)]; [now left|]. right.
  destruct (G x v E (live_all _ _ _ _ _ _ I E)) as (w & F & _ & (U & V & _)).
  exists w. split; auto. split; [congruence|]. destruct V as [V|[V _]]; congruence.
Qed.
Lemma grow_iri A R h' a n m : Inv A R [] -> grow (a_h A) h' -> iri_txt (a_h A) a n m -> iri_txt h' a n m.
Proof.
  intros I G (v & ns & rem & E & D & N1 & N2). destruct (G a v E (live_all _ _ _ _ _ _ I E)) as (w & F & _ & U).
  exists w, ns, rem. split; auto. split; [|split].
  - rewrite (up_data v w U); auto. now rewrite D.
  - eapply grow_txt; eauto.
  - eapply grow_txt; eauto.
Qed.
Lemma txt_live h x t : txt h x = Some t -> live h x.
Proof. unfold txt, live. destruct (lookup h x); [eauto|discriminate]. Qed.
Lemma type_live h x t : is_type h x t -> live h x.
Proof. intros (v & E & _). exists v. auto. Qed.

Lemma sim_trans h h1 h2 : sim h h1 -> sim h1 h2 -> sim h h2.
Proof.
  intros [A1 A2] [B1 B2]. split.
  - intros a v E. destruct (A1 a v E) as (w & F & (K1 & K2 & K3)). destruct (B1 a w F) as (u & G & (L1 & L2 & L3)).
    exists u. repeat split; auto; congruence.
  - intros a v E. destruct (B2 a v E) as (w & F & (K1 & K2 & K3)). destruct (A2 a w F) as (u & G & (L1 & L2 & L3)).
    exists u. repeat split; auto; congruence.
Qed.

(** Keys. *)
Lemma ident_str h v t : ident h v = Some (TStr, KeyS t) -> o_d v = BStr t /\ o_b v = true.
Proof.
  unfold ident. destruct (o_d v); try discriminate.
  - destruct (o_b v); [|discriminate]. intros X; inversion X; auto.
  - destruct (txt h rem); discriminate.
  - destruct (txt h id); discriminate.
Qed.
Lemma ident_iri h v ns t : ident h v = Some (TIri, KeyI ns t) -> exists rem, o_d v = BIri ns rem /\ txt h rem = Some t.
Proof.
  unfold ident. destruct (o_d v); try discriminate.
  - destruct (o_b v); discriminate.
  - destruct (txt h rem) eqn:E; [|discriminate]. intros X; inversion X; subst. eauto.
  - destruct (txt h id); discriminate.
Qed.
Lemma ident_ent h v t i : ident h v = Some (TEnt, KeyE t i) -> o_d v = BEnt i /\ o_t v = t.
Proof.
  unfold ident. destruct (o_d v); try discriminate.
  - destruct (o_b v); discriminate.
  - destruct (txt h rem); discriminate.
  - intros X; inversion X; auto.
  - destruct (txt h id); discriminate.
Qed.
Lemma ident_anon h v t : ident h v = Some (TAno, KeyA t) -> exists i, o_d v = BAnon i /\ txt h i = Some t.
Proof.
  unfold ident. destruct (o_d v); try discriminate.
  - destruct (o_b v); discriminate.
  - destruct (txt h rem); discriminate.
  - destruct (txt h id) eqn:E; [|discriminate]. intros X; inversion X; subst. eauto.
Qed.
Lemma interned_ns A R a v t : Inv A R [] -> lookup (a_h A) a = Some v -> ident (a_h A) v = Some (TStr, KeyS t) ->
  txt (a_h A) a = Some t /\ ns_ok (a_h A) a.
Proof.
  intros I E D. apply ident_str in D as [D B]. assert (X : txt (a_h A) a = Some t) by (unfold txt; now rewrite E, D).
  split; auto. right. exists v. repeat split; auto. destruct (type_of_str _ _ _ _ _ _ _ I X) as (v' & E' & T).
  congruence.
Qed.

(** * Strings *)

Lemma string_get_ok A R t : Inv A R [] ->
  ok A R 0 (string_get huge fresh t)
     (fun a A' => Inv A' (a :: R) [] /\ txt (a_h A') a = Some t /\ lookup (a_h A) a = None).
Proof.
  intros I. eapply ok_post.
  - apply (alloc_ok huge fresh fresh_ok e A R R); auto.
    + constructor.
    + easy.
    + eapply empty_in; eauto.
    + discriminate.
  - intros a A' (I' & F1 & F2 & F3) _. split; auto. split; auto. unfold txt. now rewrite F2.
Qed.

Lemma get_intern_eq A t :
  (a <- string_get huge fresh t ;; set_bit huge a ;; table_add TStr a ;; ret a)%act (cs A) =
  (a <- alloc huge fresh OT_STRING true (BStr t) ;; table_add TStr a ;; ret a)%act (cs A).
Proof.
  set (v := mkOb OT_STRING false 1 (BStr t)). set (w := mkOb OT_STRING true 1 (BStr t)).
  unfold string_get. rewrite (bind_ok _ _ _ _ _ (alloc_cs huge fresh A OT_STRING false (BStr t))).
  rewrite (bind_ok _ _ _ _ _ (alloc_cs huge fresh A OT_STRING true (BStr t))).
  fold v w. assert (M : 1 <= max_refs huge) by (destruct huge; cbn; lia).
  assert (L : lookup (a_h (snd (new huge fresh A v))) (fst (new huge fresh A v)) = Some v).
  { cbn. now rewrite N.eqb_refl. }
  rewrite (bind_ok _ _ _ _ _ (set_bit_cs huge _ _ v L M)). cbn [v o_t o_n o_d]. fold w.
  assert (set_h (snd (new huge fresh A v)) (store (a_h (snd (new huge fresh A v))) (fst (new huge fresh A v)) w) = snd (new huge fresh A w)) as ->.
  { unfold new, set_h. cbn [fst snd a_h a_s a_i a_e a_a a_n store]. rewrite N.eqb_refl. reflexivity. }
  reflexivity.
Qed.

Lemma string_get_intern_ok A R t : Inv A R [] -> t <> [] ->
  ok A R 1 (string_get_intern huge fresh t)
     (fun a A' => Inv A' (a :: R) [] /\ txt (a_h A') a = Some t /\ ns_ok (a_h A') a).
Proof.
  intros I NE. unfold string_get_intern.
  destruct (find_cs huge e A R [] TStr (KeyS t) (str_eq t) I (cmp_str _ A t)) as (r & F & H).
  eapply ok_pure; [exact F|]. destruct r as [k|].
  - destruct H as (v & E & P & D). destruct (interned_ns A R k v t I E D) as [X N0].
    eapply ok_post; [apply (retain_ok huge e A R k I); eapply txt_live; eauto|].
    intros x A' (-> & I' & G & _) _. split; auto. split; [apply (grow_txt A R)|apply (grow_ns A R)]; auto.
  - apply (ok_weak huge A R 1 0); [lia|]. intros k K.
    destruct (alloc_tab_ok huge fresh fresh_ok e (fun a => a) A R R OT_STRING true (BStr t) TStr (KeyS t) I) with (k := k)
      as (x & A' & E & K' & V & a & -> & I' & (M1 & M2 & M3)); auto.
    + constructor.
    + now intros _.
    + eapply empty_in; eauto.
    + exists a, A'. rewrite get_intern_eq. split; auto. split; auto. split; auto. split; auto. split.
      * unfold txt. now rewrite M2.
      * right. eexists. split; [exact M2|]. auto.
Qed.

Lemma empty_txt A R W : Inv A R W -> txt (a_h A) (e_empty e) = Some [].
Proof. intros I. destruct (i_empty _ _ _ _ _ I) as (v & E & _ & _ & D & _). unfold txt. now rewrite E, D. Qed.

Lemma string_empty_ok A R : Inv A R [] ->
  ok A R 1 (string_empty huge e)
     (fun a A' => a = e_empty e /\ Inv A' (a :: R) [] /\ txt (a_h A') a = Some [] /\ ns_ok (a_h A') a).
Proof.
  intros I. eapply ok_post; [apply (retain_ok huge e A R (e_empty e) I); eapply txt_live, empty_txt, I|].
  intros x A' (-> & I' & G & _) _. split; auto. split; auto. split; [eapply empty_txt, I'|now left].
Qed.

Lemma len0 (t : bytes) : Nat.eqb (List.length t) 0 = true -> t = [].
Proof. destruct t; [auto|discriminate]. Qed.
Lemma len1 (t : bytes) : Nat.eqb (List.length t) 0 = false -> t <> [].
Proof. destruct t; [discriminate|congruence]. Qed.

Lemma string_opt_ok A R t b : Inv A R [] ->
  ok A R 1 (string_opt huge fresh e t b)
     (fun a A' => Inv A' (a :: R) [] /\ txt (a_h A') a = Some t /\ (b = true -> ns_ok (a_h A') a)).
Proof.
  intros I. unfold string_opt. destruct (Nat.eqb (List.length t) 0) eqn:L.
  - apply len0 in L. subst t. eapply ok_post; [apply (string_empty_ok A R I)|].
    intros x A' (-> & I' & X & N0) _. auto.
  - apply len1 in L. destruct b.
    + eapply ok_post; [apply (string_get_intern_ok A R t I L)|]. intros x A' (I' & X & N0) _. auto.
    + apply (ok_weak huge A R 1 0); [lia|]. eapply ok_post; [apply (string_get_ok A R t I)|].
      intros x A' (I' & X & N0) _. split; auto. split; auto. discriminate.
Qed.
Lemma cowl_string_ok A R t : Inv A R [] ->
  ok A R 1 (cowl_string huge fresh e t) (fun a A' => Inv A' (a :: R) [] /\ txt (a_h A') a = Some t).
Proof.
  intros I. pose proof (string_opt_ok A R t false I) as H. unfold string_opt in H. unfold cowl_string.
  eapply ok_post; [exact H|]. intros x A' (I' & X & _) _. auto.
Qed.

(** A string becomes the interned one. *)
Lemma intern_new_ok A R a v t : Inv A R [] -> lookup (a_h A) a = Some v -> o_t v = OT_STRING -> o_d v = BStr t -> o_b v = false -> t <> [] ->
  (forall b w, lookup (a_h A) b = Some w -> 0 < o_n w -> ident (a_h A) w <> Some (TStr, KeyS t)) ->
  ok A R 0 (table_add TStr a ;; set_bit huge a ;; ret (Some a))%act
     (fun r A' => r = Some a /\ Inv A' R [] /\ txt (a_h A') a = Some t /\ ns_ok (a_h A') a /\
        a_h A' = store (a_h A) a (mkOb (o_t v) true (o_n v) (o_d v))).
Proof.
  intros I E T D B L H. assert (X : txt (a_h A) a = Some t) by (unfold txt; now rewrite E, D).
  destruct (i_fit _ _ _ _ _ I a v E) as [F _].
  intros k K. set (w := mkOb (o_t v) true (o_n v) (o_d v)).
    set (B1 := set_atab TStr (a :: atab TStr A) A). set (A' := set_h B1 (store (a_h B1) a w)).
    pose proof (live_all _ _ _ _ _ _ I E) as P.
    assert (AH : a_h A' = store (a_h A) a w) by (cbn; reflexivity).
    assert (KA : lookup (a_h A') a = Some w) by (rewrite AH, lookup_store, N.eqb_refl, E; auto).
    assert (KD : kids w = kids v) by (unfold kids, w; cbn; reflexivity).
    assert (IW : ident (a_h A) w = Some (TStr, KeyS t)) by (unfold ident, w; cbn; now rewrite D).
    assert (G : grow (a_h A) (a_h A')).
    { rewrite AH. apply (grow_store _ _ v); auto. split; [reflexivity|]. split; [right; auto|left; reflexivity]. }
    assert (ND : ~ In a (atab TStr A)).
    { intros J. apply (i_tab _ _ _ _ _ I) in J as (u & k1 & U1 & U2 & U3). rewrite E in U1. inversion U1; subst u.
      unfold ident in U3. rewrite D, B in U3. discriminate. }
    exists (Some a), A'. split; [|split; [|split]].
    + unfold bind at 1, table_add. rewrite table_cs, set_table_cs.
      assert (L1 : lookup (a_h B1) a = Some v) by exact E.
      rewrite (bind_ok _ _ _ _ _ (set_bit_cs huge B1 a v L1 F)). reflexivity.
    + intros b u Z. rewrite AH, lookup_store, E in Z. destruct (a =? b) eqn:W.
      * inversion Z; subst u. apply (K a v E).
      * apply (K b u Z).
    + apply (grow_keeps huge e A R []); auto.
    + split; auto. split; [|split; [|split]].
      * apply (inv_up huge e A R [] a v w R A'); auto.
        -- left. split; auto. intros (fs & Z). congruence.
        -- unfold w; cbn. rewrite T, D. constructor.
        -- unfold w; cbn. intros _ Z. congruence.
        -- intros U. unfold A', B1. rewrite atab_set_h. apply add_nodup; [apply (i_nodup _ _ _ _ _ I)|auto].
        -- intros U b Z. unfold A', B1. rewrite atab_set_h, add_in. split; auto. intros [J|[? _]]; [auto|easy].
        -- intros U. unfold A', B1. rewrite atab_set_h, add_in, IW. split.
           ++ intros [J|[_ <-]]; eauto. apply (i_tab _ _ _ _ _ I) in J as (u & k1 & U1 & U2 & U3).
              rewrite E in U1. inversion U1; subst u. unfold ident in U3. rewrite D, B in U3. discriminate.
           ++ intros (k1 & Z). inversion Z. auto.
        -- intros x b u Z1 Z2 Z3 Z4 Z5. rewrite IW in Z2. inversion Z2; subst x. exact (H b u Z3 Z4 Z5).
        -- intros x. pose proof (indeg_store (a_h A) a v w x E). rewrite KD in H0. rewrite AH. lia.
        -- intros b. apply (acc_sub (edge (a_h A))); [|apply (i_acyclic _ _ _ _ _ I)].
           intros c d (u & Z & J). rewrite AH, lookup_store, E in Z. destruct (a =? d) eqn:W.
           ++ apply N.eqb_eq in W. subst d. inversion Z; subst u. exists v. rewrite KD in J. auto.
           ++ exists u. auto.
        -- intros ->. rewrite (empty_txt _ _ _ I) in X. congruence.
        -- eapply empty_in; eauto.
      * unfold txt. rewrite KA. cbn. now rewrite D.
      * right. exists w. auto.
      * exact AH.
Qed.

Lemma string_intern_ok A R a t : Inv A R [] -> txt (a_h A) a = Some t ->
  ok A R 0 (string_intern huge e (Some a))
     (fun r A' => exists b, r = Some b /\ Inv A' R [] /\ txt (a_h A') b = Some t /\ ns_ok (a_h A') b /\
        (forall x, live (a_h A') x -> live (a_h A) x)).
Proof.
  intros I X. destruct (type_of_str _ _ _ _ _ _ _ I X) as (v & E & T).
  assert (D : o_d v = BStr t). { unfold txt in X. rewrite E in X. destruct (o_d v); congruence. }
  destruct (i_fit _ _ _ _ _ I a v E) as [F _]. unfold string_intern.
  eapply ok_pure; [apply (bit_cs huge A a v E F)|]. destruct (o_b v) eqn:B.
  { apply (ok_ret huge e); auto. exists a. split; auto. split; auto. split; auto. split; auto. right. eauto. }
  eapply ok_pure; [apply (txt_cs huge A a t X)|]. destruct (Nat.eqb (List.length t) 0) eqn:L.
  { apply len0 in L. subst t. apply (ok_ret huge e); auto. exists (e_empty e).
    split; auto. split; auto. split; [eapply empty_txt; eauto|]. split; [now left|auto]. }
  apply len1 in L.
  destruct (find_cs huge e A R [] TStr (KeyS t) (str_eq t) I (cmp_str _ A t)) as (r & Y & H).
  eapply ok_pure; [exact Y|]. destruct r as [k|].
  - destruct H as (w & E' & P & D'). destruct (interned_ns A R k w t I E' D') as [X' N0].
    apply (ok_ret huge e); auto. exists k. repeat (split; auto).
  - eapply ok_post; [apply (intern_new_ok A R a v t); auto|]. intros r A' (-> & I' & X' & N' & AH) _.
    exists a. repeat (split; auto). intros x (u & U). rewrite AH, lookup_store, E in U. destruct (a =? x) eqn:W; [|exists u; auto].
    apply N.eqb_eq in W. subst x. exists v. auto.
Qed.

(** * IRIs *)

Lemma get_ns_rem_ok A R t n : Inv A R [] ->
  ok A R 2 (get_ns_rem huge fresh e t n)
     (fun p A' => Inv A' (fst p :: snd p :: R) [] /\ txt (a_h A') (fst p) = Some (fst (string_get_ns_rem t n)) /\
        txt (a_h A') (snd p) = Some (snd (string_get_ns_rem t n))).
Proof.
  intros I. unfold get_ns_rem, string_get_ns_rem. destruct (Nat.ltb n (List.length t)) eqn:L.
  - apply (ok_bind huge A R 1 1 _ _ _ _ (string_opt_ok A R (skipn n t) false I)).
    intros r A1 (I1 & X1 & _) _. apply (ok_frame huge A1 R (r :: R)); [intros z; now right|].
    apply (ok_bind huge A1 (r :: R) 1 0 _ _ _ _ (string_opt_ok A1 (r :: R) (firstn n t) true I1)).
    intros l A2 (I2 & X2 & _) K2. apply (ok_frame huge A2 _ (l :: r :: R)); [intros z; now right|].
    apply (ok_ret huge e); auto. cbn. split; auto. split; auto.
    eapply keeps_txt; eauto. apply use_in. now left.
  - apply (ok_bind huge A R 1 1 _ _ _ _ (string_empty_ok A R I)).
    intros r A1 (-> & I1 & X1 & _) _. apply (ok_frame huge A1 R (e_empty e :: R)); [intros z; now right|].
    apply (ok_bind huge A1 (e_empty e :: R) 1 0 _ _ _ _ (string_opt_ok A1 (e_empty e :: R) (firstn n t) true I1)).
    intros l A2 (I2 & X2 & _) K2. apply (ok_frame huge A2 _ (l :: e_empty e :: R)); [intros z; now right|].
    apply (ok_ret huge e); auto. cbn. split; auto. split.
    + rewrite X2. f_equal. apply firstn_all2. apply Nat.ltb_ge in L. exact L.
    + eapply keeps_txt; eauto. apply use_in. now left.
Qed.

Lemma iri_unvalidated_ok A R ns rem n m : Inv A R [] -> txt (a_h A) ns = Some n -> txt (a_h A) rem = Some m ->
  ok A R 3 (iri_unvalidated huge fresh e (Some ns) (Some rem))
     (fun r A' => exists a, r = Some a /\ Inv A' (a :: R) [] /\ iri_txt (a_h A') a n m /\
        (iri_txt (a_h A) a n m \/
         exists v ns', lookup (a_h A) a = None /\ lookup (a_h A') a = Some v /\ o_d v = BIri ns' rem)).
Proof.
  intros I XN XR. unfold iri_unvalidated. apply (ok_weak huge A R 3 (0 + 3)); [lia|].
  apply (ok_bind huge A R 0 3 _ _ _ _ (string_intern_ok A R ns n I XN)).
  intros i0 A1 (i & -> & I1 & X1 & N1 & LB) K1. cbn [nonnull].
  assert (G1 := keeps_grow A R _ I K1).
  assert (X2 : txt (a_h A1) rem = Some m) by (apply (grow_txt A R); auto).
  eapply ok_pure; [reflexivity|].
  destruct (find_cs huge e A1 R [] TIri (KeyI i m) (iri_eq i rem) I1 (cmp_iri _ A1 i rem m X2)) as (r & Y & H).
  eapply ok_pure; [exact Y|]. destruct r as [k|].
  - destruct H as (v & E & P & D). apply ident_iri in D as (rem' & D & X3).
    apply (ok_weak huge A1 R 3 1); [lia|]. intros q Q.
    destruct (retain_ok huge e A1 R k I1 (ex_intro _ v E) q Q) as (x & A2 & E2 & Q2 & K2 & (-> & I2 & G2 & _)).
    exists (Some k), A2. split.
    { revert E2. unfold retain. cbn [nonnull]. unfold bind, ret. destruct (incr_ref huge k (cs A1)); [|discriminate].
      intros Z. now inversion Z. }
    split; auto. split; auto. exists k. split; auto. split; auto.
    assert (IT : iri_txt (a_h A1) k n m) by (exists v, i, rem'; auto).
    split; [apply (grow_iri A1 R); auto|]. left.
    (* interning does not create IRIs *)
    destruct (LB k (ex_intro _ v E)) as (u & EU). destruct (K1 k) as (u' & w & F1 & F2 & _ & U).
    { apply (no_garbage huge e A R k I). exists u. auto. }
    rewrite EU in F1. inversion F1; subst u'. rewrite E in F2. inversion F2; subst w.
    assert (DU : o_d u = BIri i rem') by (destruct U as (_ & _ & [U|[(l & l' & _ & U)|(o & p & _ & U & _)]]); congruence).
    pose proof (i_kids _ _ _ _ _ I k u EU (live_all _ _ _ _ _ _ I EU)) as KO. unfold ProofHeap.kids_ok in KO.
    rewrite DU in KO. destruct KO as (_ & T1 & T2).
    destruct (str_of_type _ _ _ _ _ _ I T1) as (n' & Z1). destruct (str_of_type _ _ _ _ _ _ I T2) as (m' & Z2).
    exists u, i, rem'. split; auto. split; auto.
    pose proof (grow_txt _ _ _ _ _ I G1 Z1). pose proof (grow_txt _ _ _ _ _ I G1 Z2).
    split; congruence.
  - apply (ok_weak huge A1 R 3 (1 + (1 + 0))); [lia|].
    apply (ok_bind huge A1 R 1 _ _ _ _ _ (retain_ok huge e A1 R i I1 (txt_live _ _ _ X1))).
    intros x A2 (-> & I2 & G2 & S2) K2.
    assert (LR : live (a_h A2) rem) by (apply (grow_live A1 R); auto; eapply txt_live; eauto).
    apply (ok_bind1 A2 R (i :: R) 1 _ _ _ _ _ (retain_ok huge e A2 (i :: R) rem I2 LR)); [intros z; now right|].
    intros x A3 (-> & I3 & G3 & S3) K3.
    assert (XI : txt (a_h A3) i = Some n).
    { apply (grow_txt A2 (i :: R)); auto. apply (grow_txt A1 R); auto. }
    assert (XM : txt (a_h A3) rem = Some m).
    { apply (grow_txt A2 (i :: R)); auto. apply (grow_txt A1 R); auto. }
    assert (NI : ns_ok (a_h A3) i).
    { apply (grow_ns A2 (i :: R)); auto. apply (grow_ns A1 R); auto. }
    assert (S : sim (a_h A1) (a_h A3)) by (eapply sim_trans; eauto).
    eapply ok_post.
    + apply (alloc_tab_ok huge fresh fresh_ok e (@Some N) A3 (rem :: i :: R) R OT_IRI false (BIri i rem) TIri (KeyI i m)); auto.
      * constructor.
      * split; auto. split; eapply type_of_str; eauto.
      * unfold ident. cbn. now rewrite XM.
      * intros c w EW PW DW. destruct (proj2 S c w EW) as (w0 & EW0 & AL). rewrite (sim_ident _ _ _ _ S AL) in DW.
        exact (H c w0 EW0 (live_all _ _ _ _ _ _ I1 EW0) DW).
      * intros z. cbn [pointers_of]. rewrite !count_cons, count_nil. lia.
      * eapply empty_in; eauto.
    + intros r A4 (a & -> & I4 & M1 & M2 & M3) K4. exists a. split; auto. split; auto. split.
      * exists (mkOb OT_IRI false 1 (BIri i rem)), i, rem. split; auto. split; auto.
        split; apply (grow_txt A3 (rem :: i :: R)); auto.
      * right. exists (mkOb OT_IRI false 1 (BIri i rem)), i. split; auto.
        destruct (lookup (a_h A) a) as [u|] eqn:EU; auto. exfalso.
        destruct (grow_live A R (a_h A1) a I G1 (ex_intro _ u EU)) as (w & EW).
        destruct (proj1 S a w EW) as (w' & EW' & _). congruence.
Qed.

Ltac sub := let z := fresh "z" in let H := fresh "H" in intros z H; cbn in *; tauto.

Lemma release1_ok A R L p : Inv A (L ++ p :: R) [] -> In (e_empty e) R ->
  ok A (L ++ R) 0 (release huge (Some p)) (fun _ A' => Inv A' (L ++ R) [] /\ shrink (a_h A) (a_h A')).
Proof.
  intros I EM. apply (release_ok huge e A (L ++ R) (L ++ p :: R) p); auto.
  - intros x. rewrite count_app, count_cons, count_cons, count_app. lia.
  - apply in_or_app. auto.
Qed.

(** Both parts of an IRI are released after it has been made. *)
Lemma iri_parts_ok A R p q n m : Inv A (p :: q :: R) [] -> In (e_empty e) R ->
  txt (a_h A) p = Some n -> txt (a_h A) q = Some m ->
  ok A R 3 (iri <- iri_unvalidated huge fresh e (Some p) (Some q) ;; release huge (Some p) ;; release huge (Some q) ;; ret iri)%act
     (fun r A' => exists a, r = Some a /\ Inv A' (a :: R) [] /\ iri_txt (a_h A') a n m).
Proof.
  intros I EM XP XQ. apply (ok_weak huge A R 3 (3 + (0 + (0 + 0)))); [lia|].
  apply (ok_bind1 A R (p :: q :: R) 3 _ _ _ _ _ (iri_unvalidated_ok A (p :: q :: R) p q n m I XP XQ)); [sub|].
  intros r A1 (a & -> & I1 & IT & _) _.
  apply (ok_bind1 A1 R (a :: q :: R) 0 _ _ _ _ _ (release1_ok A1 (q :: R) [a] p I1 (or_intror EM))); [sub|].
  intros _ A2 (I2 & _) K2.
  assert (IT2 : iri_txt (a_h A2) a n m).
  { apply (keeps_iri (a :: q :: R) (a_h A1)); auto; [apply use_in; now left|]. intros v E. apply (live_all _ _ _ _ _ _ I1 E). }
  apply (ok_bind1 A2 R (a :: R) 0 _ _ _ _ _ (release1_ok A2 R [a] q I2 EM)); [sub|].
  intros _ A3 (I3 & _) K3.
  apply (ok_frame huge A3 R (a :: R)); [sub|]. apply (ok_ret huge e); auto. exists a. split; auto. split; auto.
  apply (keeps_iri (a :: R) (a_h A2)); auto; [apply use_in; now left|]. intros v E. apply (live_all _ _ _ _ _ _ I2 E).
Qed.

Lemma cowl_iri_ok A R p q n m : Inv A R [] -> txt (a_h A) p = Some n -> txt (a_h A) q = Some m ->
  ok A R 5 (cowl_iri huge fresh e (Some p) (Some q))
     (fun r A' => exists a, r = Some a /\ Inv A' (a :: R) [] /\
        iri_txt (a_h A') a (fst (iri_of_parts n m)) (snd (iri_of_parts n m))).
Proof.
  intros I XP XQ. unfold cowl_iri.
  eapply ok_pure; [apply (txt_cs huge A p n XP)|]. eapply ok_pure; [apply (txt_cs huge A q m XQ)|].
  cbv zeta. apply (ok_weak huge A R 5 (2 + 3)); [lia|].
  apply (ok_bind huge A R 2 3 _ _ (fun pq A' => Inv A' (fst pq :: snd pq :: R) [] /\
    txt (a_h A') (fst pq) = Some (fst (iri_of_parts n m)) /\ txt (a_h A') (snd pq) = Some (snd (iri_of_parts n m)))).
  - unfold iri_of_parts. destruct (Nat.ltb 0 (xml_ns_length m)) eqn:B1; [|destruct (Nat.ltb (xml_ns_length n) (List.length n)) eqn:B2].
    + apply (ok_weak huge A R 2 (1 + (1 + 0))); [lia|].
      apply (ok_bind huge A R 1 _ _ _ _ _ (cowl_string_ok A R _ I)). intros x A1 (I1 & X1) _.
      apply (ok_bind1 A1 R (x :: R) 1 _ _ _ _ _ (string_opt_ok A1 (x :: R) _ false I1)); [sub|].
      intros y A2 (I2 & X2 & _) K2.
      apply (ok_frame huge A2 R (x :: y :: R)); [sub|].
      assert (I2' : Inv A2 (x :: y :: R) []).
      { revert I2. apply inv_perm; auto; [intros z; rewrite !count_cons; lia|]. right; right. eapply empty_in; eauto. }
      apply (ok_ret huge e); auto. cbn [fst snd]. split; auto. split; auto.
      apply (keeps_txt (x :: R) (a_h A1)); auto. apply use_in. now left.
    + apply (ok_weak huge A R 2 (1 + (1 + 0))); [lia|].
      apply (ok_bind huge A R 1 _ _ _ _ _ (string_opt_ok A R _ true I)). intros x A1 (I1 & X1 & _) _.
      apply (ok_bind1 A1 R (x :: R) 1 _ _ _ _ _ (cowl_string_ok A1 (x :: R) _ I1)); [sub|].
      intros y A2 (I2 & X2) K2.
      apply (ok_frame huge A2 R (x :: y :: R)); [sub|].
      assert (I2' : Inv A2 (x :: y :: R) []).
      { revert I2. apply inv_perm; auto; [intros z; rewrite !count_cons; lia|]. right; right. eapply empty_in; eauto. }
      apply (ok_ret huge e); auto. cbn [fst snd]. split; auto. split; auto.
      apply (keeps_txt (x :: R) (a_h A1)); auto. apply use_in. now left.
    + apply (ok_weak huge A R 2 (1 + (1 + 0))); [lia|].
      apply (ok_bind huge A R 1 _ _ _ _ _ (retain_ok huge e A R p I (txt_live _ _ _ XP))).
      intros x A1 (-> & I1 & G1 & _) _.
      assert (L1 : live (a_h A1) q) by (apply (grow_live A R); auto; eapply txt_live; eauto).
      apply (ok_bind1 A1 R (p :: R) 1 _ _ _ _ _ (retain_ok huge e A1 (p :: R) q I1 L1)); [sub|].
      intros x A2 (-> & I2 & G2 & _) K2.
      apply (ok_frame huge A2 R (p :: q :: R)); [sub|].
      assert (I2' : Inv A2 (p :: q :: R) []).
      { revert I2. apply inv_perm; auto; [intros z; rewrite !count_cons; lia|]. right; right. eapply empty_in; eauto. }
      apply (ok_ret huge e); auto. cbn [fst snd]. split; auto.
      split; apply (grow_txt A1 (p :: R)); auto; apply (grow_txt A R); auto.
  - intros [x y] A1 (I1 & X1 & Y1) _. cbn [fst snd] in *. apply iri_parts_ok; auto. eapply empty_in; eauto.
Qed.

Lemma iri_of_string_ok A R t : Inv A R [] ->
  ok A R 5 (iri_of_string huge fresh e t)
     (fun r A' => match iri_from_string t with
                  | None => r = None /\ Inv A' R []
                  | Some (n, m) => exists a, r = Some a /\ Inv A' (a :: R) [] /\ iri_txt (a_h A') a n m
                  end).
Proof.
  intros I. unfold iri_of_string, iri_from_string. destruct (Nat.leb (ustring_size t) 1).
  - apply (ok_weak huge A R 5 0); [lia|]. apply (ok_ret huge e); auto.
  - apply (ok_weak huge A R 5 (2 + 3)); [lia|].
    apply (ok_bind huge A R 2 3 _ _ _ _ (get_ns_rem_ok A R t (xml_ns_length t) I)).
    intros [x y] A1 (I1 & X1 & Y1) _. cbn [fst snd] in *.
    destruct (string_get_ns_rem t (xml_ns_length t)) as [n m]. apply iri_parts_ok; auto. eapply empty_in; eauto.
Qed.

(** * Entities *)

Definition ent_is (h : obs) (a : N) (t : otype) (i : N) : Prop :=
  exists v, lookup h a = Some v /\ o_t v = t /\ o_d v = BEnt i.
Lemma grow_ent A R h' a t i : Inv A R [] -> grow (a_h A) h' -> ent_is (a_h A) a t i -> ent_is h' a t i.
Proof.
  intros I G (v & E & T & D). destruct (G a v E (live_all _ _ _ _ _ _ I E)) as (w & F & _ & U).
  exists w. split; auto. split; [destruct U; congruence|]. rewrite (up_data v w U); auto. now rewrite D.
Qed.
Lemma keeps_ent R h h' a t i : keeps R h h' -> use h R a -> ent_is h a t i -> ent_is h' a t i.
Proof.
  intros K U0 (v & E & T & D). destruct (K a U0) as (v' & w & F & G & _ & U). rewrite E in F. inversion F; subst v'.
  exists w. split; auto. split; [destruct U; congruence|]. rewrite (up_data v w U); auto. now rewrite D.
Qed.

Lemma retain_some {A R k} : forall Q c, ok A R c (retain huge (Some k)) Q ->
  ok A R c (incr_ref huge k ;; ret (Some k))%act (fun r A' => r = Some k /\ Q k A').
Proof.
  intros Q c H q K. destruct (H q K) as (x & A' & E & K' & V & F). exists (Some k), A'.
  unfold retain in E. cbn [nonnull] in E. unfold bind, ret in *. destruct (incr_ref huge k (cs A)); [|discriminate].
  inversion E; subst. auto.
Qed.
Lemma retain_it {A R k} : forall Q c, ok A R c (retain huge (Some k)) Q -> ok A R c (incr_ref huge k ;; ret k)%act Q.
Proof.
  intros Q c H q K. destruct (H q K) as (x & A' & E & K' & V & F). exists x, A'.
  unfold retain in E. cbn [nonnull] in E. unfold bind, ret in *. destruct (incr_ref huge k (cs A)); [|discriminate].
  inversion E; subst. auto.
Qed.

Lemma entity_get_ok A R t i : Inv A R [] -> type_is_entity t = true -> is_type (a_h A) i OT_IRI ->
  ok A R 2 (entity_get huge fresh t (Some i))
     (fun r A' => exists a, r = Some a /\ Inv A' (a :: R) [] /\ ent_is (a_h A') a t i).
Proof.
  intros I TE TI. unfold entity_get.
  destruct (find_cs huge e A R [] TEnt (KeyE t i) (ent_eq huge t i) I (cmp_ent _ A t i)) as (r & F & H).
  eapply ok_pure; [exact F|]. destruct r as [k|].
  - destruct H as (v & E & P & D). apply ident_ent in D as [D T].
    apply (ok_weak huge A R 2 1); [lia|].
    eapply ok_post; [apply retain_some, (retain_ok huge e A R k I (ex_intro _ v E))|].
    intros x A' (-> & _ & I' & G & _) _. exists k. split; auto. split; auto.
    apply (grow_ent A R); auto. exists v. auto.
  - apply (ok_weak huge A R 2 (1 + 0)); [lia|].
    apply (ok_bind huge A R 1 _ _ _ _ _ (retain_ok huge e A R i I (type_live _ _ _ TI))).
    intros x A1 (-> & I1 & G1 & S1) K1.
    eapply ok_post.
    + apply (alloc_tab_ok huge fresh fresh_ok e (@Some N) A1 (i :: R) R t false (BEnt i) TEnt (KeyE t i)); auto.
      * now constructor.
      * unfold ProofHeap.kids_ok; cbn. apply (grow_type A R); auto.
      * intros c w EW PW DW. destruct (proj2 S1 c w EW) as (w0 & EW0 & AL). rewrite (sim_ident _ _ _ _ S1 AL) in DW.
        exact (H c w0 EW0 (live_all _ _ _ _ _ _ I EW0) DW).
      * intros z. cbn [pointers_of]. rewrite !count_cons, count_nil. lia.
      * eapply empty_in; eauto.
    + intros r A4 (a & -> & I4 & M1 & M2 & M3) K4. exists a. split; auto. split; auto.
      eexists. split; [exact M2|]. auto.
Qed.

Lemma iri_txt_type A R W a n m : Inv A R W -> iri_txt (a_h A) a n m -> is_type (a_h A) a OT_IRI.
Proof.
  intros I (v & ns & rem & E & D & _). exists v. split; auto. destruct (i_fit _ _ _ _ _ I a v E) as [_ S].
  rewrite D in S. inversion S; auto.
Qed.

Lemma entity_of_string_ok A R t u : Inv A R [] -> type_is_entity t = true ->
  ok A R 7 (entity_of_string huge fresh e t u)
     (fun r A' => match iri_from_string u with
                  | None => r = None /\ Inv A' R []
                  | Some (n, m) => exists a i, r = Some a /\ Inv A' (a :: R) [] /\ ent_is (a_h A') a t i /\ iri_txt (a_h A') i n m
                  end).
Proof.
  intros I TE. unfold entity_of_string. apply (ok_weak huge A R 7 (5 + 2)); [lia|].
  apply (ok_bind huge A R 5 2 _ _ _ _ (iri_of_string_ok A R u I)). intros r A1 H K1.
  destruct (iri_from_string u) as [[n m]|].
  - destruct H as (i & -> & I1 & IT). apply (ok_weak huge A1 R 2 (2 + (0 + 0))); [lia|].
    apply (ok_bind1 A1 R (i :: R) 2 _ _ _ _ _ (entity_get_ok A1 (i :: R) t i I1 TE (iri_txt_type _ _ _ _ _ _ I1 IT))); [sub|].
    intros r A2 (a & -> & I2 & EI) K2.
    assert (IT2 : iri_txt (a_h A2) i n m) by (apply (grow_iri A1 (i :: R)); auto; apply keeps_grow with (i :: R); auto).
    assert (EM : In (e_empty e) R) by (eapply empty_in; eauto).
    apply (ok_bind1 A2 R (a :: R) 0 _ _ _ _ _ (release1_ok A2 R [a] i I2 EM)); [sub|].
    intros _ A3 (I3 & _) K3. apply (ok_frame huge A3 R (a :: R)); [sub|]. apply (ok_ret huge e); auto.
    exists a, i. split; auto. split; auto.
    assert (UA : use (a_h A2) (a :: R) a) by (apply use_in; now left). split.
    + eapply keeps_ent; eauto.
    + apply (keeps_iri (a :: R) (a_h A2)); auto.
      * apply (use_edge _ _ a); auto. destruct EI as (v & E & _ & D). exists v. split; auto.
        rewrite kids_live by (apply (live_all _ _ _ _ _ _ I2 E)). rewrite D. now left.
      * intros v E. apply (live_all _ _ _ _ _ _ I2 E).
  - destruct H as (-> & I1). apply (ok_weak huge A1 R 2 0); [lia|]. apply (ok_ret huge e); auto.
Qed.

(** * Anonymous individuals *)

Definition anon_is (h : obs) (a : N) (t : bytes) : Prop :=
  exists v i, lookup h a = Some v /\ o_d v = BAnon i /\ txt h i = Some t.
Lemma grow_anon A R h' a t : Inv A R [] -> grow (a_h A) h' -> anon_is (a_h A) a t -> anon_is h' a t.
Proof.
  intros I G (v & i & E & D & X). destruct (G a v E (live_all _ _ _ _ _ _ I E)) as (w & F & _ & U).
  exists w, i. split; auto. split.
  - rewrite (up_data v w U); auto. now rewrite D.
  - apply (grow_txt A R); auto.
Qed.
Lemma keeps_anon A R R1 h' a t : Inv A R [] -> keeps R1 (a_h A) h' -> use (a_h A) R1 a -> anon_is (a_h A) a t -> anon_is h' a t.
Proof.
  intros I K U0 (v & i & E & D & X). destruct (K a U0) as (v' & w & F & G & _ & U). rewrite E in F. inversion F; subst v'.
  exists w, i. split; auto. split; [rewrite (up_data v w U); auto; now rewrite D|].
  apply (keeps_txt R1 (a_h A)); auto. apply (use_edge _ _ a); auto. exists v. split; auto.
  rewrite kids_live by (apply (live_all _ _ _ _ _ _ I E)). rewrite D. now left.
Qed.

Lemma anon_alloc_ok A R id t : Inv A R [] -> txt (a_h A) id = Some t ->
  (forall b v, lookup (a_h A) b = Some v -> 0 < o_n v -> ident (a_h A) v <> Some (TAno, KeyA t)) ->
  ok A R 1 (anon_alloc huge fresh id) (fun a A' => Inv A' (a :: R) [] /\ anon_is (a_h A') a t).
Proof.
  intros I X H. unfold anon_alloc. apply (ok_weak huge A R 1 (1 + 0)); [lia|].
  apply (ok_bind huge A R 1 _ _ _ _ _ (retain_ok huge e A R id I (txt_live _ _ _ X))).
  intros x A1 (-> & I1 & G1 & S1) K1.
  assert (X1 : txt (a_h A1) id = Some t) by (apply (grow_txt A R); auto).
  eapply ok_post.
  + apply (alloc_tab_ok huge fresh fresh_ok e (fun a => a) A1 (id :: R) R OT_I_ANONYMOUS false (BAnon id) TAno (KeyA t)); auto.
    * constructor.
    * unfold ProofHeap.kids_ok; cbn. eapply type_of_str; eauto.
    * unfold ident. cbn. now rewrite X1.
    * intros c w EW PW DW. destruct (proj2 S1 c w EW) as (w0 & EW0 & AL). rewrite (sim_ident _ _ _ _ S1 AL) in DW.
      exact (H c w0 EW0 (live_all _ _ _ _ _ _ I EW0) DW).
    * intros z. cbn [pointers_of]. rewrite !count_cons, count_nil. lia.
    * eapply empty_in; eauto.
  + intros r A4 (a & -> & I4 & M1 & M2 & M3) K4. split; auto. exists (mkOb OT_I_ANONYMOUS false 1 (BAnon id)), id.
    split; auto. split; auto. apply (grow_txt A1 (id :: R)); auto.
Qed.

Lemma found_anon A R k v t : Inv A R [] -> lookup (a_h A) k = Some v -> ident (a_h A) v = Some (TAno, KeyA t) ->
  ok A R 1 (retain huge (Some k)) (fun a A' => Inv A' (a :: R) [] /\ anon_is (a_h A') a t).
Proof.
  intros I E D. apply ident_anon in D as (i & D & X).
  eapply ok_post; [apply (retain_ok huge e A R k I (ex_intro _ v E))|].
  intros x A' (-> & I' & G & _) _. split; auto. apply (grow_anon A R); auto. exists v, i. auto.
Qed.

Lemma anon_of_id_ok A R id t : Inv A R [] -> txt (a_h A) id = Some t ->
  ok A R 1 (anon_of_id huge fresh id) (fun a A' => Inv A' (a :: R) [] /\ anon_is (a_h A') a t).
Proof.
  intros I X. unfold anon_of_id. eapply ok_pure; [apply (txt_cs huge A id t X)|].
  destruct (find_cs huge e A R [] TAno (KeyA t) (anon_eq t) I (cmp_anon _ A t)) as (r & F & H).
  eapply ok_pure; [exact F|]. destruct r as [k|].
  - destruct H as (v & E & P & D). apply retain_it. eapply found_anon; eauto.
  - apply anon_alloc_ok; auto.
Qed.

(** A new identifier, the individual, then the identifier is released. *)
Lemma anon_new_ok A R t m : Inv A R [] ->
  (forall b v, lookup (a_h A) b = Some v -> 0 < o_n v -> ident (a_h A) v <> Some (TAno, KeyA t)) ->
  ok A R 1 m (fun a A' => Inv A' (a :: R) [] /\ txt (a_h A') a = Some t /\
                (forall b v, lookup (a_h A') b = Some v -> 0 < o_n v -> ident (a_h A') v <> Some (TAno, KeyA t))) ->
  ok A R 2 (id <- m ;; a <- anon_alloc huge fresh id ;; release huge (Some id) ;; ret a)%act
     (fun a A' => Inv A' (a :: R) [] /\ anon_is (a_h A') a t).
Proof.
  intros I H M. apply (ok_weak huge A R 2 (1 + (1 + (0 + 0)))); [lia|].
  apply (ok_bind huge A R 1 _ _ _ _ _ M). intros id A1 (I1 & X1 & H1) K1.
  apply (ok_bind1 A1 R (id :: R) 1 _ _ _ _ _ (anon_alloc_ok A1 (id :: R) id t I1 X1 H1)); [sub|].
  intros a A2 (I2 & AI) K2. assert (EM : In (e_empty e) R) by (eapply empty_in; eauto).
  apply (ok_bind1 A2 R (a :: R) 0 _ _ _ _ _ (release1_ok A2 R [a] id I2 EM)); [sub|].
  intros _ A3 (I3 & _) K3. apply (ok_frame huge A3 R (a :: R)); [sub|]. apply (ok_ret huge e); auto.
  split; auto. apply (keeps_anon A2 (a :: id :: R) (a :: R)); auto. apply use_in. now left.
Qed.

Definition no_anon (h : obs) (u : bytes) : Prop :=
  forall b v, lookup h b = Some v -> 0 < o_n v -> ident h v <> Some (TAno, KeyA u).

(** Making a string makes no anonymous individual. *)
Lemma string_get_anon A R t u : Inv A R [] -> no_anon (a_h A) u ->
  ok A R 0 (string_get huge fresh t) (fun a A' => Inv A' (a :: R) [] /\ txt (a_h A') a = Some t /\ no_anon (a_h A') u).
Proof.
  intros I H k K. destruct (string_get_ok A R t I k K) as (x & A' & E & K' & V & I' & X & NL).
  exists x, A'. split; auto. split; auto. split; auto. split; auto. split; auto.
  pose proof (alloc_cs huge fresh A OT_STRING false (BStr t)) as AC. cbv zeta in AC. unfold string_get in E. rewrite E in AC.
  inversion AC as [[EX EH ES EI EE EA EN]]. 
  assert (LK : forall b v, lookup (a_h A') b = Some v -> b <> x -> exists w, lookup (a_h A) b = Some w).
  { intros b v L NB. assert (lookup (s_heap (cs A')) b = Some (ProofHeap.cell_of huge v)) as L1 by (rewrite lookup_cs, L; auto).
    cbn [ProofHeap.cs s_heap] in L1. rewrite EH in L1. cbn in L1. rewrite <- EX in L1. destruct (x =? b) eqn:Y; [lia|].
    rewrite lookup_amap in L1. destruct (lookup (a_h A) b); [eauto|discriminate]. }
  intros b v L P D. destruct (N.eq_dec b x) as [->|NB].
  - apply ident_anon in D as (i & D & _). unfold txt in X. rewrite L, D in X. discriminate.
  - destruct (LK b v L NB) as (w & LW). assert (G := keeps_grow A R _ I V).
    pose proof (live_all _ _ _ _ _ _ I LW) as PW. destruct (G b w LW PW) as (v' & L' & _ & U). rewrite L in L'. inversion L'; subst v'.
    apply ident_anon in D as (i & D & XI). assert (DW : o_d w = BAnon i) by (destruct U as (_ & _ & [U|[(l & l' & _ & U)|(o & p & _ & U & _)]]); congruence).
    pose proof (i_kids _ _ _ _ _ I b w LW PW) as KO. unfold ProofHeap.kids_ok in KO. rewrite DW in KO.
    destruct (str_of_type _ _ _ _ _ _ I KO) as (u' & Z). apply (H b w LW PW). unfold ident. rewrite DW, Z.
    pose proof (grow_txt _ _ _ _ _ I G Z). congruence.
Qed.
Lemma cowl_string_anon A R t u : Inv A R [] -> no_anon (a_h A) u ->
  ok A R 1 (cowl_string huge fresh e t) (fun a A' => Inv A' (a :: R) [] /\ txt (a_h A') a = Some t /\ no_anon (a_h A') u).
Proof.
  intros I H. unfold cowl_string. destruct (Nat.eqb (List.length t) 0) eqn:L.
  - apply len0 in L. subst t. eapply ok_post.
    + apply (retain_ok huge e A R (e_empty e) I). eapply txt_live, empty_txt, I.
    + intros x A' (-> & I' & G & S) _. split; auto. split; [eapply empty_txt; eauto|].
      intros b v E P D. destruct (proj2 S b v E) as (w & F & AL). rewrite (sim_ident _ _ _ _ S AL) in D.
      exact (H b w F (live_all _ _ _ _ _ _ I F) D).
  - apply (ok_weak huge A R 1 0); [lia|]. apply string_get_anon; auto.
Qed.

Lemma anon_of_string_ok A R t : Inv A R [] ->
  ok A R 2 (anon_of_string huge fresh t) (fun a A' => Inv A' (a :: R) [] /\ anon_is (a_h A') a t).
Proof.
  intros I. unfold anon_of_string.
  destruct (find_cs huge e A R [] TAno (KeyA t) (anon_eq t) I (cmp_anon _ A t)) as (r & F & H).
  eapply ok_pure; [exact F|]. destruct r as [k|].
  - destruct H as (v & E & P & D). apply retain_it. apply (ok_weak huge A R 2 1); [lia|]. eapply found_anon; eauto.
  - apply anon_new_ok; auto. apply (ok_weak huge A R 1 0); [lia|]. apply string_get_anon; auto.
Qed.

Lemma anon_generate_ok A R ids : Inv A R [] ->
  ok A R 2 (anon_generate huge fresh e ids) (fun r A' =>
     match r with
     | Some a => Inv A' (a :: R) [] /\ exists t, In t ids /\ anon_is (a_h A') a t
     | None => Inv A' R []
     end).
Proof.
  intros I. induction ids as [|t ids IH]; cbn [anon_generate].
  - apply (ok_weak huge A R 2 0); [lia|]. apply (ok_ret huge e); auto.
  - destruct (find_cs huge e A R [] TAno (KeyA t) (anon_eq t) I (cmp_anon _ A t)) as (r & F & H).
    eapply ok_pure; [exact F|]. destruct r as [k|].
    + eapply ok_post; [exact IH|]. intros [a|] A'; [|auto]. intros (I' & u & J & AI) _. split; auto. exists u. split; auto. now right.
    + intros k K. destruct (anon_new_ok A R t (cowl_string huge fresh e t) I H (cowl_string_anon A R t t I H) k K)
        as (a & A' & E & K' & V & I' & AI).
      exists (Some a), A'. split.
      { unfold bind, ret in E |- *. destruct (cowl_string huge fresh e t (cs A)); [|discriminate].
        destruct (anon_alloc huge fresh x s); [|discriminate]. destruct (release huge (Some x) s0); [|discriminate].
        inversion E; subst. reflexivity. }
      split; auto. split; auto. split; auto. exists t. split; auto. now left.
Qed.

Lemma anon_ind_ok A R id ids : Inv A R [] ->
  match id with Some i => is_type (a_h A) i OT_STRING | None => True end ->
  ok A R 2 (anon_ind huge fresh e id ids) (fun r A' =>
     match r with
     | Some a => Inv A' (a :: R) [] /\ exists t, anon_is (a_h A') a t /\
         match id with Some i => txt (a_h A) i = Some t | None => In t ids end
     | None => Inv A' R [] /\ id = None
     end).
Proof.
  intros I H. unfold anon_ind. destruct id as [i|].
  - destruct (str_of_type _ _ _ _ _ _ I H) as (t & X). apply (ok_weak huge A R 2 1); [lia|].
    eapply ok_map; [apply (anon_of_id_ok A R i t I X)|]. intros x A' (I' & AI) _. split; auto. exists t. auto.
  - eapply ok_post; [apply (anon_generate_ok A R ids I)|]. intros [a|] A'; [|auto].
    intros (I' & t & J & AI) _. split; auto. exists t. auto.
Qed.

(** * cowl_string_release_copying_raw *)

Lemma store_store {V} (h : list (N * V)) a v w : store (store h a v) a w = store h a w.
Proof.
  induction h as [|[b u] h IH]; cbn; auto. destruct (b =? a) eqn:E; cbn; rewrite E; auto. now rewrite IH.
Qed.
Lemma drop_store {V} (h : list (N * V)) a v : drop (store h a v) a = drop h a.
Proof.
  induction h as [|[b u] h IH]; cbn; auto. destruct (b =? a) eqn:E; cbn; rewrite E; auto. now rewrite IH.
Qed.

Lemma copying_raw_ok A R R' a : Inv A R' [] -> (forall x, count x R' = count x (a :: R)) -> In (e_empty e) R ->
  is_type (a_h A) a OT_STRING ->
  ok A R 0 (release_copying_raw huge (Some a)) (fun r A' => r = txt (a_h A) a /\ Inv A' R [] /\ shrink (a_h A) (a_h A')).
Proof.
  intros I0 C EM TY k K. assert (I := inv_rel _ _ A R R' a C EM I0).
  destruct (str_of_type _ _ _ _ _ _ I TY) as (t & X).
  assert (exists v, lookup (a_h A) a = Some v /\ o_d v = BStr t /\ o_t v = OT_STRING) as (v & E & D & T).
  { destruct TY as (v & E & T). exists v. split; auto. split; auto. unfold txt in X. rewrite E in X. destruct (o_d v); congruence. }
  destruct (i_fit _ _ _ _ _ I a v E) as [F _]. pose proof (live_all _ _ _ _ _ _ I0 E) as P.
  unfold release_copying_raw. rewrite (bind_ok _ _ _ _ _ (decr_cs huge A a v E F P)). rewrite X.
  set (B := set_h A (store (a_h A) a (with_n v (o_n v - 1)))).
  assert (LB : lookup (a_h B) a = Some (with_n v (o_n v - 1))) by (cbn; rewrite lookup_store, N.eqb_refl, E; auto).
  rewrite (bind_ok _ _ _ _ _ (text_cs huge B a _ t LB D)).
  destruct (o_n v - 1 =? 0) eqn:Z.
  - assert (N1 : o_n v = 1) by lia. assert (BD : B = dying A a v) by (unfold B, dying; now rewrite N1).
    replace (with_n v (o_n v - 1)) with (with_n v 0) in LB by (f_equal; lia).
    set (w := mkOb OT_STRING (o_b v) 0 (BStr [])). set (Bw := set_h B (store (a_h B) a w)).
    rewrite (bind_ok _ _ _ _ _ (read_cs huge B a _ LB)).
    assert (CW : mkCell (c_hdr (ProofHeap.cell_of huge (with_n v 0))) (BStr []) = ProofHeap.cell_of huge w).
    { unfold ProofHeap.cell_of, with_n, w. cbn. now rewrite T. }
    rewrite CW. rewrite (bind_ok _ _ _ _ _ (write_cs huge B a _ w LB)). fold Bw.
    assert (LW : lookup (a_h Bw) a = Some w) by (cbn; rewrite lookup_store, N.eqb_refl, lookup_store, N.eqb_refl, E; auto).
    assert (FW : ProofHeap.fitv huge w) by (unfold ProofHeap.fitv; cbn; lia).
    rewrite (bind_ok _ _ _ _ _ (bit_cs huge Bw a w LW FW)). cbn [w o_b].
    assert (TT : forall U, atab U Bw = atab U A) by (intros U; unfold Bw, B; now rewrite !atab_set_h).
    assert (exists A', (if o_b v then table_remove TStr (str_eq []) else ret tt) (cs Bw) = Ok tt (cs A') /\
      unlisted Bw a A') as (A1 & Y & U1 & U2 & U3).
    { assert (IB : ident (a_h A) v = if o_b v then Some (TStr, KeyS t) else None) by (unfold ident; now rewrite D).
      destruct (o_b v) eqn:OB.
      - assert (In a (atab TStr A)) as J. { apply (i_tab _ _ _ _ _ I). exists v, (KeyS t). auto. }
        destruct (find_key_cs huge Bw (str_eq []) (KeyS []) TStr (atab TStr Bw)) as (r & F1 & G1).
        { intros b JB. rewrite TT in JB. destruct (N.eq_dec b a) as [->|NB].
          - exists w, (KeyS []). split; auto. assert (IW : ident (a_h Bw) w = Some (TStr, KeyS [])) by reflexivity. split; auto.
            apply (cmp_str huge Bw [] a w (KeyS [])); auto. constructor.
          - apply (i_tab _ _ _ _ _ I) in JB as (u & k' & L & PU & DU). exists u.
            assert (exists t', k' = KeyS t') as (t' & ->).
            { unfold ident in DU. destruct (o_d u); try discriminate.
              - destruct (o_b u); [|discriminate]. inversion DU. eauto.
              - destruct (txt (a_h A) rem); discriminate.
              - destruct (txt (a_h A) id); discriminate. }
            apply ident_str in DU as [DU BU].
            assert (L' : lookup (a_h Bw) b = Some u).
            { cbn. rewrite lookup_store. destruct (a =? b) eqn:Q; [lia|]. rewrite lookup_store, Q. auto. }
            exists (KeyS t'). split; auto. assert (IU : ident (a_h Bw) u = Some (TStr, KeyS t')) by (unfold ident; now rewrite DU, BU).
            split; auto. destruct (i_fit _ _ _ _ _ I b u L). apply (cmp_str huge Bw [] b u (KeyS t')); auto. }
        rewrite <- table_cs with (huge := huge) in F1. change (table_find TStr (str_eq []) (cs Bw) = Ok r (cs Bw)) in F1.
        unfold table_remove. rewrite (bind_ok _ _ _ _ _ F1). destruct r as [b|].
        + assert (b = a) as ->.
          { destruct (N.eq_dec b a) as [|NB]; auto. exfalso. destruct G1 as [JB (u & LU & IU)]. rewrite TT in JB.
            apply (i_tab _ _ _ _ _ I) in JB as (u' & k' & L & PU & DU).
            assert (L' : lookup (a_h Bw) b = Some u').
            { cbn. rewrite lookup_store. destruct (a =? b) eqn:Q; [lia|]. rewrite lookup_store, Q. auto. }
            rewrite LU in L'. inversion L'; subst u'. apply ident_str in IU as [DU' BU'].
            pose proof (i_kids _ _ _ _ _ I b u L PU) as KO. unfold ProofHeap.kids_ok in KO. rewrite DU' in KO. now apply KO. }
          unfold table_del. rewrite table_cs, set_table_cs. eexists. split; [reflexivity|].
          split; [apply a_h_set_atab|]. rewrite TT. split.
          * intros V. assert (TStr = V \/ TStr <> V) as [<-|Q] by (destruct V; auto; right; discriminate).
            -- rewrite atab_set_same. apply nodup_remove, (i_nodup _ _ _ _ _ I).
            -- rewrite atab_set_other, TT by auto. apply (i_nodup _ _ _ _ _ I).
          * intros V b. assert (TStr = V \/ TStr <> V) as [<-|Q] by (destruct V; auto; right; discriminate).
            -- rewrite atab_set_same, TT. apply in_remove_iff.
            -- rewrite atab_set_other, TT by auto. split; [|tauto]. intros HJ. split; auto. intros ->.
               apply (i_tab _ _ _ _ _ I) in HJ as (u & k' & L & _ & D'). rewrite E in L. inversion L; subst u. congruence.
        + exfalso. apply (G1 a w); auto.
      - exists Bw. split; [reflexivity|]. split; auto. split; intros V; rewrite TT; [apply (i_nodup _ _ _ _ _ I)|].
        intros b. split; [|tauto]. intros HJ. split; auto. intros ->.
        apply (i_tab _ _ _ _ _ I) in HJ as (u & k' & L & _ & D'). rewrite E in L. inversion L; subst u. congruence. }
    rewrite (bind_ok _ _ _ _ _ Y).
    assert (L1 : lookup (a_h A1) a = Some w) by now rewrite U1.
    rewrite (bind_ok _ _ _ _ _ (free_cs huge A1 a w L1)).
    set (A2 := set_h A1 (store (a_h A) a (with_n v 0))).
    assert (I2 : Inv A2 R ((map Rel (pointers_of (o_d v)) ++ [Fin a]) ++ [])).
    { apply (inv_die _ _ A R [] a v A2); auto.
    }
    rewrite D in I2. cbn [pointers_of map app] in I2. destruct (inv_free _ _ A2 R [] a I2) as (v2 & E2 & Z2 & I3).
    assert (EQ : set_h A1 (drop (a_h A1) a) = set_h A2 (drop (a_h A2) a)).
    { unfold A2. cbn [set_h a_h a_s a_i a_e a_a a_n]. unfold set_h. cbn [a_h a_s a_i a_e a_a a_n]. f_equal.
      rewrite U1. unfold Bw, B. cbn [set_h a_h]. now rewrite !drop_store. }
    rewrite EQ. exists (Some t), (set_h A2 (drop (a_h A2) a)). split; [reflexivity|].
    assert (SH : shrink (a_h A) (drop (a_h A2) a)).
    { intros x u L. unfold A2 in L. cbn [set_h a_h] in L. rewrite drop_store in L. rewrite lookup_drop in L by apply I.
      destruct (a =? x); [discriminate|]. exists u. repeat split; auto. lia. }
    split; [|split; [|split; [auto|split]]]; auto.
    + intros b u L. destruct (SH b u L) as (u0 & L0 & _ & LE). specialize (K b u0 L0). lia.
    + apply (keeps_trans _ _ (a_h A2)).
      * apply (die_keeps huge e A R [] a v); auto.
      * apply (grow_keeps huge e A2 R [Fin a]); auto. intros x u L Q. exists u. cbn [set_h a_h]. rewrite lookup_drop by apply I2.
        destruct (a =? x) eqn:W; [|split; auto; split; auto; apply up_refl]. apply N.eqb_eq in W. subst x. rewrite E2 in L. inversion L; subst. lia.
  - exists (Some t), B. split; [reflexivity|].
    assert (SH : shrink (a_h A) (a_h B)) by (apply shrink_store; auto; lia).
    split; [|split; [|split; [auto|split]]]; auto.
    + intros b u L. destruct (SH b u L) as (u0 & L0 & _ & LE). specialize (K b u0 L0). lia.
    + apply (grow_keeps huge e A R [Rel a]); auto. apply (grow_store _ _ v); auto; [cbn; lia|]. apply up_alike. repeat split.
    + apply (inv_decr _ _ A R [] a v I E). lia.
Qed.

End Name.
