(** The functions that create objects keep the memory invariant. *)

From Coq Require Import NArith List Bool Arith Lia Relations Wellfounded.
From Coq Require Import ZifyBool ZifyNat ZifyN.
From Verif Require Import Bytes ModelTypes ModelObject ModelHeader SpecHeader ModelText ModelHeap SpecHeap.
From Verif Require Import ProofObject ProofHeader ProofHeap ProofHeapRun.
Import ListNotations.
Local Open Scope N_scope.

(** * Finite acyclic graphs *)

Section Garbage.
Variable h : obs.
Hypothesis acyclic : forall a, Acc (edge h) a.

Lemma rch_clos a b : rch h a b -> a = b \/ clos_trans N (edge h) b a.
Proof.
  induction 1 as [|r b x E H [<-|IH]]; auto; right.
  - now apply t_step.
  - apply t_trans with b; auto. now apply t_step.
Qed.
Lemma no_cycle a b : edge h b a -> rch h b a -> False.
Proof.
  intros E H. assert (clos_trans N (edge h) a a) as C.
  { apply rch_clos in H as [->|H]; [now apply t_step|]. apply t_trans with b; auto. now apply t_step. }
  clear E H. revert C. induction (Acc_clos_trans N (edge h) a (acyclic a)) as [x _ IH]. intros C. exact (IH x C C).
Qed.

(** Following pointers backwards ends. *)
Lemma backwards x : Acc (fun y x => edge h x y) x.
Proof.
  assert (forall n p l, NoDup (p :: l) -> incl (p :: l) (x :: map fst h) ->
    (forall y, In y l -> exists c, edge h c p /\ rch h c y) ->
    (List.length (x :: map fst h) < n + List.length (p :: l))%nat -> Acc (fun y x => edge h x y) p) as C.
  { induction n as [|n IH]; intros p l D I RR L.
    - apply NoDup_incl_length in I; auto. lia.
    - constructor. intros q E. apply (IH q (p :: l)).
      + constructor; auto. intros [->|J].
        * exact (no_cycle q q E (rch_refl _ q)).
        * destruct (RR q J) as (c & F & G). apply (no_cycle q p E). econstructor; eauto.
      + intros y [<-|J]; auto. right. destruct E as (v & F & _). apply lookup_in in F.
        change q with (fst (q, v)). now apply in_map.
      + intros y [<-|J].
        * exists p. split; auto. constructor.
        * destruct (RR y J) as (c & F & G). exists p. split; auto. econstructor; eauto.
      + cbn in *. lia. }
  apply (C (List.length (x :: map fst h)) x []).
  - constructor; auto. constructor.
  - intros y [<-|[]]. now left.
  - easy.
  - cbn. lia.
Qed.
End Garbage.

Section Fun.
Variable huge : bool.
Variable fresh : N -> heap -> N.
Hypothesis fresh_ok : allocator fresh.
Variable e : env.

Local Notation Inv := (ProofHeap.Inv huge e).
Local Notation cs := (ProofHeap.cs huge).
Local Notation cell_of := (ProofHeap.cell_of huge).
Local Notation fitv := (ProofHeap.fitv huge).
Local Notation Room := (ProofHeap.Room huge).
Local Notation kids_ok := (ProofHeap.kids_ok e).
Local Notation ns_ok := (ProofHeap.ns_ok e).

Definition live (h : obs) (x : N) : Prop := exists v, lookup h x = Some v.

(** Every object can be reached from the references held. *)
Lemma no_garbage A R x : Inv A R [] -> live (a_h A) x -> use (a_h A) R x.
Proof.
  intros I. induction (backwards (a_h A) (i_acyclic _ _ _ _ _ I) x) as [x _ IH]. intros (v & E).
  destruct (in_dec N.eq_dec x R) as [J|J]; [now apply use_in|].
  pose proof (live_all _ _ _ _ _ _ I E) as P. rewrite (i_ref _ _ _ _ _ I x v E) in P. cbn [rels flat_map] in P.
  assert (count x R = 0)%nat as Z. { destruct (count x R) eqn:C; auto. exfalso. apply J, count_in. lia. }
  rewrite Z, count_nil in P. destruct (indeg_edge (a_h A) x (i_keys _ _ _ _ _ I)) as (z & w & F & K); [lia|].
  apply (use_edge _ _ z); [apply IH|]; exists w; auto.
Qed.

(** * Running a function *)

Definition ok {X} (A : ast) (R : list N) (c : N) (m : act X) (Q : X -> ast -> Prop) : Prop :=
  forall k, Room A (c + k) -> exists x A', m (cs A) = Ok x (cs A') /\ Room A' k /\ keeps R (a_h A) (a_h A') /\ Q x A'.

Lemma ok_ret {X} A R (x : X) (Q : X -> ast -> Prop) : Inv A R [] -> Q x A -> ok A R 0 (ret x) Q.
Proof. intros I H k K. exists x, A. repeat split; auto. eapply keeps_refl; eauto. Qed.
Lemma ok_weak {X} A R c c' (m : act X) Q : c' <= c -> ok A R c' m Q -> ok A R c m Q.
Proof.
  intros L H k K. destruct (H (c - c' + k)) as (x & A' & E & K' & V & F).
  - replace (c' + (c - c' + k)) with (c + k) by lia. auto.
  - exists x, A'. repeat split; auto. intros a v G. specialize (K' a v G). lia.
Qed.
Lemma ok_bind {X Y} A R c c' (m : act X) (f : X -> act Y) P Q :
  ok A R c m P ->
  (forall x A', P x A' -> keeps R (a_h A) (a_h A') -> ok A' R c' (f x) Q) ->
  ok A R (c + c') (bind m f) Q.
Proof.
  intros H G k K. destruct (H (c' + k)) as (x & A' & E & K' & V & F); [now rewrite N.add_assoc|].
  destruct (G x A' F V k K') as (y & A2 & E2 & K2 & V2 & F2). exists y, A2. rewrite (bind_ok _ _ _ _ _ E).
  repeat split; auto. eapply keeps_trans; eauto.
Qed.
Lemma ok_frame {X} A R R' c (m : act X) Q : incl R R' -> ok A R' c m Q -> ok A R c m Q.
Proof.
  intros I H k K. destruct (H k K) as (x & A' & E & K' & V & F). exists x, A'. repeat split; auto.
  eapply keeps_incl; eauto.
Qed.
Lemma ok_post {X} A R c (m : act X) (P Q : X -> ast -> Prop) :
  ok A R c m P -> (forall x A', P x A' -> keeps R (a_h A) (a_h A') -> Q x A') -> ok A R c m Q.
Proof. intros H G k K. destruct (H k K) as (x & A' & E & K' & V & F). exists x, A'. repeat split; auto. Qed.
Lemma ok_pure {X Y} A R c (m : act X) (f : X -> act Y) x Q :
  m (cs A) = Ok x (cs A) -> ok A R c (f x) Q -> ok A R c (bind m f) Q.
Proof. intros E H k K. destruct (H k K) as (y & A' & F & G). exists y, A'. rewrite (bind_ok _ _ _ _ _ E). auto. Qed.

(** * Facts that persist *)

Lemma keeps_live R h h' x : keeps R h h' -> use h R x -> live h' x.
Proof. intros K U. destruct (K x U) as (v & w & _ & F & _). exists w. auto. Qed.
Lemma keeps_type R h h' x t : keeps R h h' -> use h R x -> is_type h x t -> is_type h' x t.
Proof.
  intros K U (u & E & T). destruct (K x U) as (v & w & F & G & _ & (B & _)). rewrite E in F. inversion F; subst v.
  exists w. split; congruence.
Qed.
Lemma keeps_txt R h h' x t : keeps R h h' -> use h R x -> txt h x = Some t -> txt h' x = Some t.
Proof.
  intros K U. destruct (K x U) as (v & w & F & G & _ & B). unfold txt. rewrite F, G.
  destruct (o_d v) eqn:D; try discriminate. intros X. inversion X; subst. now rewrite (up_txt v w t B D).
Qed.
Lemma keeps_ns R h h' x : keeps R h h' -> use h R x -> ns_ok h x -> ns_ok h' x.
Proof.
  intros K U [E|(u & E & T & B)]; [now left|]. right. destruct (K x U) as (v & w & F & G & _ & (C & D & _)).
  rewrite E in F. inversion F; subst v. exists w. split; auto. split; [congruence|].
  destruct D as [D|[D _]]; congruence.
Qed.
Definition fixed (b : body) : Prop := match b with BVec _ | BOnto _ => False | _ => True end.
Lemma up_data v w : up v w -> fixed (o_d v) -> o_d w = o_d v.
Proof. intros (_ & _ & [H|[(l & l' & H & _)|(o & p & H & _)]]) N0; auto; rewrite H in N0; destruct N0. Qed.

(** Strings, IRIs and the others, with their texts. *)
Definition iri_txt (h : obs) (a : N) (n m : bytes) : Prop :=
  exists v ns rem, lookup h a = Some v /\ o_d v = BIri ns rem /\ txt h ns = Some n /\ txt h rem = Some m.

Lemma keeps_iri R h h' a n m : keeps R h h' -> use h R a -> (forall v, lookup h a = Some v -> 0 < o_n v) ->
  iri_txt h a n m -> iri_txt h' a n m.
Proof.
  intros K U PL (v & ns & rem & E & D & N1 & N2). destruct (K a U) as (v' & w & F & G & _ & B).
  rewrite E in F. inversion F; subst v'. exists w, ns, rem. split; auto.
  assert (KD : kids v = [ns; rem]) by (rewrite kids_live, D by auto; reflexivity).
  split; [|split].
  - rewrite (up_data v w B); auto. now rewrite D.
  - apply (keeps_txt R h); auto. apply (use_edge _ _ a); auto. exists v. rewrite KD. cbn; auto.
  - apply (keeps_txt R h); auto. apply (use_edge _ _ a); auto. exists v. rewrite KD. cbn; auto.
Qed.

(** The contents determine the type. *)
Lemma type_of_str A R W a t : Inv A R W -> txt (a_h A) a = Some t -> is_type (a_h A) a OT_STRING.
Proof.
  intros I. unfold txt. destruct (lookup (a_h A) a) as [v|] eqn:E; [|discriminate].
  destruct (o_d v) eqn:D; try discriminate. intros _. exists v. split; auto.
  destruct (i_fit _ _ _ _ _ I a v E) as [_ S]. rewrite D in S. inversion S; auto.
Qed.
Lemma str_of_type A R W a : Inv A R W -> is_type (a_h A) a OT_STRING -> exists t, txt (a_h A) a = Some t.
Proof.
  intros I (v & E & T). destruct (i_fit _ _ _ _ _ I a v E) as [_ S]. unfold txt. rewrite E. rewrite T in S.
  inversion S; subst; eauto; try discriminate. cbn in *. congruence.
Qed.
Lemma iri_of_type A R W a : Inv A R W -> is_type (a_h A) a OT_IRI -> exists v ns rem, lookup (a_h A) a = Some v /\ o_d v = BIri ns rem.
Proof.
  intros I (v & E & T). destruct (i_fit _ _ _ _ _ I a v E) as [_ S]. rewrite T in S.
  inversion S; subst; eauto; try discriminate. cbn in *. congruence.
Qed.
Lemma onto_of_type A R W a : Inv A R W -> is_type (a_h A) a OT_ONTOLOGY -> exists v o, lookup (a_h A) a = Some v /\ o_d v = BOnto o.
Proof.
  intros I (v & E & T). destruct (i_fit _ _ _ _ _ I a v E) as [_ S]. rewrite T in S.
  inversion S; subst; eauto; try discriminate. cbn in *. congruence.
Qed.
Lemma vec_of_type A R W a : Inv A R W -> is_type (a_h A) a OT_VECTOR -> exists v l, lookup (a_h A) a = Some v /\ o_d v = BVec l.
Proof.
  intros I (v & E & T). destruct (i_fit _ _ _ _ _ I a v E) as [_ S]. rewrite T in S.
  inversion S; subst; eauto; try discriminate. cbn in *. congruence.
Qed.

(** * Retain, release, allocation *)

Lemma retain_ok A R a : Inv A R [] -> live (a_h A) a ->
  ok A R 1 (retain huge (Some a)) (fun x A' => x = a /\ Inv A' (a :: R) [] /\ grow (a_h A) (a_h A') /\ sim (a_h A) (a_h A')).
Proof.
  intros I (v & E) k K. pose proof (live_all _ _ _ _ _ _ I E) as P. pose proof (K a v E) as M.
  exists a, (set_h A (store (a_h A) a (with_n v (o_n v + 1)))).
  assert (G : grow (a_h A) (store (a_h A) a (with_n v (o_n v + 1)))).
  { apply (grow_store _ _ v); auto; [cbn; lia|]. apply up_alike. repeat split. }
  split; [|split; [|split; [|split; [|split; [|split]]]]]; auto.
  - unfold retain. cbn [nonnull]. rewrite (bind_ok (ret a) _ _ a (cs A) eq_refl).
    rewrite (bind_ok _ _ _ _ _ (incr_cs huge A a v E ltac:(lia))). reflexivity.
  - intros b w F. cbn in F. rewrite lookup_store, E in F. destruct (a =? b).
    + inversion F; subst. cbn. lia.
    + specialize (K b w F). lia.
  - apply (grow_keeps huge e A R []); auto.
  - apply inv_retain; auto. lia.
  - now apply sim_store.
Qed.
Lemma ok_map {X Y} A R c (m : act X) (f : X -> Y) (P : X -> ast -> Prop) (Q : Y -> ast -> Prop) : ok A R c m P ->
  (forall x A', P x A' -> keeps R (a_h A) (a_h A') -> Q (f x) A') -> ok A R c (x <- m ;; ret (f x))%act Q.
Proof.
  intros H G k K. destruct (H k K) as (x & A' & E & K' & V & F). exists (f x), A'. rewrite (bind_ok _ _ _ _ _ E).
  split; [reflexivity|]. auto.
Qed.

Lemma release_ok A R R' a : Inv A R' [] -> (forall x, count x R' = count x (a :: R)) -> In (e_empty e) R ->
  ok A R 0 (release huge (Some a)) (fun _ A' => Inv A' R [] /\ shrink (a_h A) (a_h A')).
Proof.
  intros I C EM k K. assert (I1 := inv_rel _ _ A R R' a C EM I).
  destruct (loop_cs huge e (S (weight huge (s_heap (cs A)))) A R [Rel a] I1) as (A' & E & I' & V & S).
  { change (s_heap (cs A)) with (amap cell_of (a_h A)). rewrite weight_cs; [lia|].
    intros b v J. apply in_lookup in J; [|apply I]. apply (i_fit _ _ _ _ _ I b v J). }
  exists tt, A'. split; [exact E|]. split; [|split; [|split]]; auto.
  intros b w F. destruct (S b w F) as (v & G & _ & L). specialize (K b v G). lia.
Qed.
Lemma release_none A R : Inv A R [] -> ok A R 0 (release huge None) (fun _ A' => A' = A).
Proof. intros I k K. exists tt, A. repeat split; auto. eapply keeps_refl; eauto. Qed.

Lemma room_one A R k : Inv A R [] -> Room A k -> 1 + k <= max_refs huge.
Proof.
  intros I K. destruct (i_empty _ _ _ _ _ I) as (v & E & _). pose proof (live_all _ _ _ _ _ _ I E).
  specialize (K _ _ E). lia.
Qed.

(** The state after an allocation. *)
Definition new (A : ast) (v : ob) : N * ast :=
  let a := fresh (a_n A) (amap cell_of (a_h A)) in
  (a, mkA ((a, v) :: a_h A) (a_s A) (a_i A) (a_e A) (a_a A) (a_n A + 1)).
Lemma alloc_cs A t b d : let v := mkOb t b 1 d in
  alloc huge fresh t b d (cs A) = Ok (fst (new A v)) (cs (snd (new A v))).
Proof.
  cbn. unfold alloc. cbn. rewrite init_cell. reflexivity.
Qed.
Lemma new_free A v : lookup (a_h A) (fst (new A v)) = None.
Proof.
  cbn. pose proof (fresh_ok (a_n A) (amap cell_of (a_h A))) as H. rewrite lookup_amap in H.
  destruct (lookup (a_h A) _); [discriminate|auto].
Qed.
Lemma new_tab A v T : atab T (snd (new A v)) = atab T A.
Proof. destruct T; reflexivity. Qed.

Lemma room_cons A A' a v k : a_h A' = (a, v) :: a_h A -> o_n v + k <= max_refs huge -> Room A k -> Room A' k.
Proof.
  intros E L K b w F. rewrite E in F. cbn in F. destruct (a =? b).
  - inversion F; subst. auto.
  - eauto.
Qed.

(** What is known about a new object. *)
Definition made (A A' : ast) (a : N) (v : ob) : Prop :=
  lookup (a_h A) a = None /\ lookup (a_h A') a = Some v /\ grow (a_h A) (a_h A').

Lemma alloc_at A R R0 t b d : Inv A R [] -> shape t b d -> kids_ok (a_h A) (mkOb t b 1 d) ->
  ident (a_h A) (mkOb t b 1 d) = None -> (forall x, count x R = count x (pointers_of d) + count x R0)%nat ->
  In (e_empty e) R0 -> (forall o, d = BOnto o -> n_refs o = []) ->
  ok A R0 0 (alloc huge fresh t b d) (fun a A' => Inv A' (a :: R0) [] /\ made A A' a (mkOb t b 1 d) /\ a_h A' = (a, mkOb t b 1 d) :: a_h A).
Proof.
  intros I S KO ID C EM NR k K. set (v := mkOb t b 1 d). exists (fst (new A v)), (snd (new A v)).
  pose proof (new_free A v) as NF. pose proof (room_one A R k I K) as M.
  assert (G : grow (a_h A) (a_h (snd (new A v)))) by (apply grow_cons; auto).
  split; [apply alloc_cs|]. split; [eapply room_cons; [reflexivity|exact M|exact K]|]. split; [|split].
  - apply (keeps_incl _ R). { intros x J. apply count_in. apply count_in in J. rewrite C. lia. }
    apply (grow_keeps huge e A R []); auto.
  - apply (inv_alloc huge e A R _ [] (fst (new A v)) v); auto.
    + intros x. rewrite C, count_cons. cbn [v o_d]. lia.
    + intros T. rewrite new_tab. apply (i_nodup _ _ _ _ _ I).
    + intros T y. rewrite new_tab. split; auto. intros [H|[-> (k0 & H)]]; auto. fold v in ID. congruence.
    + intros x y w H. fold v in ID. congruence.
    + lia.
    + now left.
    + now right.
  - repeat split; auto. cbn. now rewrite N.eqb_refl.
Qed.
Lemma alloc_ok A R R0 t b d : Inv A R [] -> shape t b d -> kids_ok (a_h A) (mkOb t b 1 d) ->
  ident (a_h A) (mkOb t b 1 d) = None -> (forall x, count x R = count x (pointers_of d) + count x R0)%nat ->
  In (e_empty e) R0 -> (forall o, d = BOnto o -> n_refs o = []) ->
  ok A R0 0 (alloc huge fresh t b d) (fun a A' => Inv A' (a :: R0) [] /\ made A A' a (mkOb t b 1 d)).
Proof.
  intros I S KO ID C EM NR. eapply ok_post; [apply (alloc_at A R R0); auto|]. intros a A' (X & Y & _) _. auto.
Qed.

Lemma add_nodup A T a U : NoDup (atab U A) -> (T = U -> ~ In a (atab T A)) -> NoDup (atab U (set_atab T (a :: atab T A) A)).
Proof.
  intros D H. assert (T = U \/ T <> U) as [<-|X] by (destruct T, U; auto; right; discriminate).
  - rewrite atab_set_same. constructor; auto.
  - rewrite atab_set_other; auto.
Qed.
Lemma add_in A T a U b : In b (atab U (set_atab T (a :: atab T A) A)) <-> In b (atab U A) \/ (b = a /\ T = U).
Proof.
  assert (T = U \/ T <> U) as [<-|X] by (destruct T, U; auto; right; discriminate).
  - rewrite atab_set_same. cbn. intuition.
  - rewrite atab_set_other by auto. intuition.
Qed.

Lemma alloc_tab_at {Y} (f : N -> Y) A R R0 t b d T k0 : Inv A R [] -> shape t b d -> kids_ok (a_h A) (mkOb t b 1 d) ->
  ident (a_h A) (mkOb t b 1 d) = Some (T, k0) ->
  (forall c v, lookup (a_h A) c = Some v -> 0 < o_n v -> ident (a_h A) v <> Some (T, k0)) ->
  (forall x, count x R = count x (pointers_of d) + count x R0)%nat ->
  In (e_empty e) R0 ->
  ok A R0 0 (a <- alloc huge fresh t b d ;; table_add T a ;; ret (f a))%act
     (fun y A' => exists a, y = f a /\ Inv A' (a :: R0) [] /\ made A A' a (mkOb t b 1 d) /\ a_h A' = (a, mkOb t b 1 d) :: a_h A).
Proof.
  intros I S KO ID UN C EM k K. set (v := mkOb t b 1 d). set (a := fst (new A v)). set (B := snd (new A v)).
  exists (f a), (set_atab T (a :: atab T B) B).
  pose proof (new_free A v) as NF. pose proof (room_one A R k I K) as M.
  assert (BH : a_h (set_atab T (a :: atab T B) B) = (a, v) :: a_h A) by now rewrite a_h_set_atab.
  assert (G : grow (a_h A) ((a, v) :: a_h A)) by (apply grow_cons; auto).
  split.
  { rewrite (bind_ok _ _ _ _ _ (alloc_cs A t b d)). fold v a B. unfold table_add, bind, ret.
    rewrite table_cs, set_table_cs. reflexivity. }
  split; [eapply room_cons; [exact BH|exact M|exact K]|]. split; [|exists a; split; [reflexivity|split; [|split; [|exact BH]]]].
  - rewrite BH. apply (keeps_incl _ R). { intros x J. apply count_in. apply count_in in J. rewrite C. lia. }
    apply (grow_keeps huge e A R []); auto.
  - assert (NI : forall U, ~ In a (atab U A)).
    { intros U J. apply (i_tab _ _ _ _ _ I) in J as (w & k1 & F & _). fold a in NF. congruence. }
    apply (inv_alloc huge e A R _ [] a v); auto.
    + intros x. rewrite C, count_cons. cbn [v o_d]. lia.
    + intros U. apply add_nodup.
      * unfold B. rewrite new_tab. apply (i_nodup _ _ _ _ _ I).
      * intros <-. unfold B. rewrite new_tab. apply NI.
    + intros U y. rewrite add_in. unfold B. rewrite new_tab. fold v in ID. rewrite ID.
      split; intros [H|[-> H]]; auto; right; split; auto.
      * subst. eauto.
      * destruct H as (k1 & H). congruence.
    + intros x y w H1 H2 H3 H4. fold v in ID. apply (UN y w); auto. congruence.
    + lia.
    + now left.
    + now right.
    + intros o D. cbn in D. subst d. discriminate ID.
  - unfold made. rewrite BH. repeat split; auto. cbn. now rewrite N.eqb_refl.
Qed.

Lemma alloc_tab_ok {Y} (f : N -> Y) A R R0 t b d T k0 : Inv A R [] -> shape t b d -> kids_ok (a_h A) (mkOb t b 1 d) ->
  ident (a_h A) (mkOb t b 1 d) = Some (T, k0) ->
  (forall c v, lookup (a_h A) c = Some v -> 0 < o_n v -> ident (a_h A) v <> Some (T, k0)) ->
  (forall x, count x R = count x (pointers_of d) + count x R0)%nat ->
  In (e_empty e) R0 ->
  ok A R0 0 (a <- alloc huge fresh t b d ;; table_add T a ;; ret (f a))%act
     (fun y A' => exists a, y = f a /\ Inv A' (a :: R0) [] /\ made A A' a (mkOb t b 1 d)).
Proof.
  intros. eapply ok_post; [apply (alloc_tab_at f A R R0 t b d T k0); auto|]. intros y A' (a0 & E0 & X0 & Y0 & _) _. eauto.
Qed.

End Fun.
