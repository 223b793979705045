(** What the constructors leave in memory, and what the getters make of it. *)

From Coq Require Import String NArith List Bool Arith Lia.
From Coq Require Import ZifyBool ZifyNat ZifyN.
From Coq Require Import List.
From Verif Require Import Bytes ModelTypes ModelObject ModelHeader SpecHeader ModelText ModelHeap SpecHeap ModelGet SpecGet.
From Verif Require Import ProofObject ProofHeader ProofHeap ProofHeapRun ProofHeapFun ProofHeapName ProofHeapComp ProofHeapSeen ProofHeapOnto ProofHeapTop ProofHeapLib ProofHeapEnd ProofHeapSame.
Import ListNotations.
Local Open Scope N_scope.

(** Objects stay as they are; only counts change. *)
Definition old (h h' : obs) : Prop := forall x v, lookup h x = Some v -> exists w, lookup h' x = Some w /\ alike v w.
Lemma old_refl h : old h h.
Proof. intros x v E. exists v. repeat split; auto. Qed.
Lemma old_trans h h1 h2 : old h h1 -> old h1 h2 -> old h h2.
Proof.
  intros P Q x v E. destruct (P x v E) as (w & F & A1 & A2 & A3). destruct (Q x w F) as (u & G & B1 & B2 & B3).
  exists u. split; auto. repeat split; congruence.
Qed.
Lemma sim_old h h' : sim h h' -> old h h'.
Proof. intros [S _]. exact S. Qed.

(** A composite object with these fields. *)
Definition comp (h : obs) (a : N) (t : otype) (b : bool) (ks us : list N) : Prop :=
  exists v, lookup h a = Some v /\ o_t v = t /\ o_b v = b /\ o_d v = BComp (map Obj ks ++ map UInt us).
(** A vector with these items. *)
Definition vecis (h : obs) (a : N) (l : list N) : Prop := exists v, lookup h a = Some v /\ o_d v = BVec l.
Lemma old_vecis h h' a l : old h h' -> vecis h a l -> vecis h' a l.
Proof. intros O (v & E & D). destruct (O a v E) as (w & F & _ & _ & D'). exists w. split; auto. congruence. Qed.
Lemma old_comp h h' a t b ks us : old h h' -> comp h a t b ks us -> comp h' a t b ks us.
Proof. intros O (v & E & T & B & D). destruct (O a v E) as (w & F & T' & B' & D'). exists w. repeat split; congruence. Qed.
Lemma shrink_vecis h h' a l : shrink h h' -> live h' a -> vecis h a l -> vecis h' a l.
Proof.
  intros S (w & F) (v & E & D). destruct (S a w F) as (v' & E' & (_ & _ & D') & _). exists w. split; auto. congruence.
Qed.
Lemma shrink_comp h h' a t b ks us : shrink h h' -> live h' a -> comp h a t b ks us -> comp h' a t b ks us.
Proof.
  intros S (w & F) (v & E & T & B & D). destruct (S a w F) as (v' & E' & (T' & B' & D') & _).
  rewrite E in E'. inversion E'; subst v'. exists w. repeat split; congruence.
Qed.

Definition olist (o : option N) : list N := match o with Some x => [x] | None => [] end.
Definition isome (o : option N) : bool := match o with Some _ => true | None => false end.
(** The annotations that are stored: an empty vector is left out. *)
Definition stored (h : obs) (annot o : option N) : Prop :=
  match annot with
  | None => o = None
  | Some v => exists l, vecis h v l /\ o = match l with [] => None | _ => Some v end
  end.
Lemma old_stored h h' a o : old h h' -> stored h' a o -> (forall v, a = Some v -> exists l, vecis h v l) -> stored h a o.
Proof.
  intros O S P. destruct a as [v|]; auto. destruct S as (l & V & ->). destruct (P v eq_refl) as (l' & V').
  exists l. split; auto. apply (old_vecis _ _ _ _ O) in V' as V2. destruct V as (u & E & D), V2 as (u' & E' & D').
  rewrite E in E'. inversion E'; subst. rewrite D in D'. inversion D'. subst. auto.
Qed.
(** The vector of properties that is stored: a new empty one for NULL. *)
Definition keyed (h : obs) (o : option N) (x : N) : Prop :=
  match o with Some y => x = y | None => vecis h x [] end.

Lemma items_vecis huge A a l : has_items (cs huge A) a l <-> vecis (a_h A) a l.
Proof.
  unfold has_items, vecis. split.
  - intros (c & E & B). apply lk in E as (v & E & ->). exists v. auto.
  - intros (v & E & B). exists (cell_of huge v). split; [apply lk; eauto|auto].
Qed.

Section Made.
Variable huge : bool.
Variable fresh : N -> heap -> N.
Hypothesis fresh_ok : allocator fresh.
Variable e : env.

Local Notation Inv := (ProofHeap.Inv huge e).
Local Notation cs := (ProofHeap.cs huge).
Local Notation Room := (ProofHeap.Room huge).
Local Notation ok := (ProofHeapFun.ok huge).
Local Notation new := (ProofHeapFun.new huge fresh).

Lemma alloc_is A R R0 t b d : Inv A R [] -> shape t b d -> kids_ok e (a_h A) (mkOb t b 1 d) ->
  ident (a_h A) (mkOb t b 1 d) = None -> (forall x, count x R = count x (pointers_of d) + count x R0)%nat ->
  In (e_empty e) R0 -> (forall o, d = BOnto o -> n_refs o = []) ->
  ok A R0 0 (alloc huge fresh t b d)
    (fun a A' => Inv A' (a :: R0) [] /\ lookup (a_h A') a = Some (mkOb t b 1 d) /\ old (a_h A) (a_h A')).
Proof.
  intros I S KO ID C EM NR k K. set (v := mkOb t b 1 d). exists (fst (new A v)), (snd (new A v)).
  pose proof (new_free huge fresh fresh_ok A v) as NF. pose proof (room_one huge e A R k I K) as M.
  assert (G : grow (a_h A) (a_h (snd (new A v)))) by (apply grow_cons; auto).
  split; [apply alloc_cs|]. split; [eapply room_cons; [reflexivity|exact M|exact K]|]. split; [|split; [|split]].
  - apply (keeps_incl _ R). { intros x J. apply count_in. apply count_in in J. rewrite C. lia. }
    apply (grow_keeps huge e A R []); auto.
  - apply (inv_alloc huge e A R _ [] (fst (new A v)) v); auto.
    + intros x. rewrite C, count_cons. cbn [v o_d]. lia.
    + intros T. rewrite new_tab. apply (i_nodup _ _ _ _ _ I).
    + intros T y. rewrite new_tab. split; auto. intros [H|[-> (k0 & H)]]; auto. fold v in ID. congruence.
    + intros x y w H. fold v in ID. congruence.
    + lia.
    + now left.
    + now right.
  - cbn. now rewrite N.eqb_refl.
  - intros x u E. exists u. split; [|repeat split]. cbn. destruct (N.eqb_spec (fresh (a_n A) (amap (cell_of huge) (a_h A))) x) as [<-|]; auto.
    cbn in NF. congruence.
Qed.

Lemma retain_list_is l : forall A R, Inv A R [] -> Forall (live (a_h A)) l ->
  ok A R (N.of_nat (List.length l)) (mapm (retain huge) (map Some l))
     (fun r A' => r = l /\ Inv A' (l ++ R) [] /\ grow (a_h A) (a_h A') /\ old (a_h A) (a_h A')).
Proof.
  induction l as [|a l IH]; intros A R I F; cbn [map mapm].
  - apply (ok_ret huge e); auto. split; auto. split; auto. split; [|apply old_refl]. intros x v E P. exists v. repeat split; auto.
  - inversion F as [|? ? L1 L2]; subst.
    apply (ok_weak huge A R _ (1 + (N.of_nat (List.length l) + 0))); [cbn [List.length]; lia|].
    apply (ok_bind huge A R 1 _ _ _ _ _ (retain_ok huge e A R a I L1)). intros x A1 (-> & I1 & G1 & S1) K1.
    assert (F1 : Forall (live (a_h A1)) l).
    { apply Forall_forall. intros y J. apply (grow_live huge e A R); auto. rewrite Forall_forall in L2. auto. }
    apply (ok_bind1 huge A1 R (a :: R) _ _ _ _ _ _ (IH A1 (a :: R) I1 F1)); [intros z; now right|].
    intros r A2 (-> & I2 & G2 & O2) K2. assert (I3 : Inv A2 ((a :: l) ++ R) []).
    { revert I2. apply inv_count. intros x. cbn [app]. rewrite count_cons, !count_app, count_cons. lia. }
    apply (ok_frame huge A2 R ((a :: l) ++ R)); [intros z J; apply in_or_app; auto|].
    apply (ok_ret huge e); auto. split; auto. split; auto. split; [|eapply old_trans; [apply sim_old|]; eauto].
    intros y v E P. destruct (G1 y v E P) as (w & E1 & P1 & U1). destruct (G2 y w E1 P1) as (u & E2 & P2 & U2).
    exists u. split; auto. split; auto. eapply up_trans; eauto.
Qed.

Lemma alloc_comp_is A R t (b : bool) ks us : Inv A (ks ++ R) [] -> In (e_empty e) R -> ctor_of t <> None ->
  List.length ks = (type_field_count t + if b then 1 else 0)%nat -> List.length us = (if type_is_card t then 1 else 0)%nat ->
  ok A R 0 (alloc huge fresh t b (BComp (map Obj ks ++ map UInt us)))
    (fun a A' => Inv A' (a :: R) [] /\ comp (a_h A') a t b ks us /\ old (a_h A) (a_h A')).
Proof.
  intros I EM C L LU. eapply ok_post.
  - apply (alloc_is A (ks ++ R) R); auto.
    + constructor; auto.
    + unfold kids_ok. cbn [o_d o_t]. destruct ks as [|a ks]; [now destruct us|]. cbn. intros ->. now elim C.
    + intros x. now rewrite pointers_of_comp, count_app.
    + discriminate.
  - intros a A' (I' & E & O) _. split; auto. split; auto. eexists. split; [exact E|]. auto.
Qed.

Lemma get_impl_is A R t ks opt n : Inv A R [] -> arity t = Some n -> type_is_card t = false -> List.length ks = n ->
  Forall (live (a_h A)) ks -> opt_live (a_h A) opt ->
  ok A R (N.of_nat n + 1) (get_impl huge fresh t (map Some ks) opt)
    (fun a A' => Inv A' (a :: R) [] /\ comp (a_h A') a t (isome opt) (ks ++ olist opt) [] /\ old (a_h A) (a_h A')).
Proof.
  intros I AR CD LN F O. destruct (arity_fields t n AR) as [FC CT].
  assert (EM : In (e_empty e) R) by (eapply empty_in; eauto). unfold get_impl.
  rewrite <- LN. apply (ok_bind huge A R _ 1 _ _ _ _ (retain_list_is ks A R I F)). intros r A1 (-> & I1 & G1 & O1) K1.
  destruct opt as [o|]; cbn [olist isome].
  - assert (LO : live (a_h A1) o) by (apply (grow_live huge e A R); auto).
    apply (ok_weak huge A1 R 1 (1 + 0)); [lia|].
    apply (ok_bind1 huge A1 R (ks ++ R) 1 _ _ _ _ _ (retain_ok huge e A1 (ks ++ R) o I1 LO)); [intros z J; apply in_or_app; auto|].
    intros x A2 (-> & I2 & _ & S2) K2.
    replace (map Obj ks ++ [Obj o]) with (map Obj (ks ++ [o]) ++ map UInt []) by (cbn; now rewrite app_nil_r, map_app).
    eapply ok_post; [apply (alloc_comp_is A2 R t true (ks ++ [o]) []); auto|].
    + revert I2. apply inv_count. intros x. rewrite count_cons, !count_app, count_cons, count_nil. lia.
    + rewrite app_length. cbn. lia.
    + now rewrite CD.
    + intros a A' (H1 & H2 & H3) _. split; auto. split; auto. eapply old_trans; [exact O1|]. eapply old_trans; [apply sim_old, S2|auto].
  - apply (ok_weak huge A1 R 1 0); [lia|]. rewrite app_nil_r.
    replace (map Obj ks) with (map Obj ks ++ map UInt []) by (cbn; now rewrite app_nil_r).
    eapply ok_post; [apply (alloc_comp_is A1 R t false ks []); auto; [lia|now rewrite CD]|].
    intros a A' (H1 & H2 & H3) _. split; auto. split; auto. eapply old_trans; eauto.
Qed.

Lemma get_impl_annot_is A R t ks annot n : Inv A R [] -> arity t = Some n -> type_is_card t = false -> List.length ks = n ->
  Forall (live (a_h A)) ks -> match annot with Some v => is_type (a_h A) v OT_VECTOR | None => True end ->
  ok A R (N.of_nat n + 1) (get_impl_annot huge fresh t (map Some ks) annot)
    (fun a A' => Inv A' (a :: R) [] /\ old (a_h A) (a_h A') /\
       exists o, stored (a_h A) annot o /\ comp (a_h A') a t (isome o) (ks ++ olist o) []).
Proof.
  intros I AR CD LN F O. unfold get_impl_annot. destruct annot as [v|].
  - destruct (vec_of_type _ _ _ _ _ _ I O) as (u & l & E & D).
    eapply ok_pure; [apply (items_cs huge A v u l E D)|].
    eapply ok_post; [apply (get_impl_is A R t ks (if Nat.eqb (List.length l) 0 then None else Some v) n); auto|].
    + destruct (Nat.eqb (List.length l) 0); cbn; auto. exists u. auto.
    + intros a A' (H1 & H2 & H3) _. split; auto. split; auto. eexists. split; [|exact H2]. exists l. split; [exists u; auto|].
      destruct l; auto.
  - eapply ok_post; [apply (get_impl_is A R t ks None n); cbn; auto|]. intros a A' (H1 & H2 & H3) _. split; auto. split; auto.
    exists None. split; [reflexivity|auto].
Qed.

Lemma get_impl_uint_is A R t ks val opt n : Inv A R [] -> arity t = Some n -> type_is_card t = true -> List.length ks = n ->
  Forall (live (a_h A)) ks -> opt_live (a_h A) opt ->
  ok A R (N.of_nat n + 1) (get_impl_uint huge fresh t (map Some ks) val opt)
    (fun a A' => Inv A' (a :: R) [] /\ comp (a_h A') a t (isome opt) (ks ++ olist opt) [val] /\ old (a_h A) (a_h A')).
Proof.
  intros I AR CD LN F O. destruct (arity_fields t n AR) as [FC CT].
  assert (EM : In (e_empty e) R) by (eapply empty_in; eauto). unfold get_impl_uint.
  rewrite <- LN. apply (ok_bind huge A R _ 1 _ _ _ _ (retain_list_is ks A R I F)). intros r A1 (-> & I1 & G1 & O1) K1.
  destruct opt as [o|]; cbn [olist isome].
  - assert (LO : live (a_h A1) o) by (apply (grow_live huge e A R); auto).
    apply (ok_weak huge A1 R 1 (1 + 0)); [lia|].
    apply (ok_bind1 huge A1 R (ks ++ R) 1 _ _ _ _ _ (retain_ok huge e A1 (ks ++ R) o I1 LO)); [intros z J; apply in_or_app; auto|].
    intros x A2 (-> & I2 & _ & S2) K2.
    replace (map Obj ks ++ [Obj o; UInt val]) with (map Obj (ks ++ [o]) ++ map UInt [val]) by (cbn; now rewrite map_app, <- app_assoc).
    eapply ok_post; [apply (alloc_comp_is A2 R t true (ks ++ [o]) [val]); auto|].
    + revert I2. apply inv_count. intros x. rewrite count_cons, !count_app, count_cons, count_nil. lia.
    + rewrite app_length. cbn. lia.
    + now rewrite CD.
    + intros a A' (H1 & H2 & H3) _. split; auto. split; auto. eapply old_trans; [exact O1|]. eapply old_trans; [apply sim_old, S2|auto].
  - apply (ok_weak huge A1 R 1 0); [lia|]. rewrite app_nil_r.
    replace (map Obj ks ++ [UInt val]) with (map Obj ks ++ map UInt [val]) by reflexivity.
    eapply ok_post; [apply (alloc_comp_is A1 R t false ks [val]); auto; [lia|now rewrite CD]|].
    intros a A' (H1 & H2 & H3) _. split; auto. split; auto. eapply old_trans; eauto.
Qed.

Lemma vector_is A R l : Inv A R [] -> Forall (live (a_h A)) l ->
  ok A R (N.of_nat (List.length l)) (vector huge fresh (map Some l))
     (fun a A' => Inv A' (a :: R) [] /\ is_type (a_h A') a OT_VECTOR /\ grow (a_h A) (a_h A') /\
        old (a_h A) (a_h A') /\ vecis (a_h A') a l).
Proof.
  intros I F. unfold vector. apply (ok_weak huge A R _ (N.of_nat (List.length l) + 0)); [lia|].
  apply (ok_bind huge A R _ _ _ _ _ _ (retain_list_is l A R I F)). intros r A1 (-> & I1 & G1 & O1) K1.
  eapply ok_post.
  - apply (alloc_is A1 (l ++ R) R); auto.
    + constructor.
    + easy.
    + intros x. now rewrite count_app.
    + eapply empty_in; eauto.
    + discriminate.
  - intros a A' (I' & M2 & M3) _. split; auto. split; [eexists; split; eauto|]. split; [|split; [eapply old_trans; eauto|eexists; split; eauto]].
    intros y v E P. destruct (G1 y v E P) as (w & E1 & P1 & U1). destruct (M3 y w E1) as (u & E2 & U2).
    exists u. split; auto. split; [apply (live_all _ _ _ _ _ _ I' E2)|]. eapply up_trans; eauto. now apply up_alike.
Qed.

Lemma comp_kid A R a t b ks us x : Inv A R [] -> comp (a_h A) a t b ks us -> In x ks -> live (a_h A) x.
Proof.
  intros I (w & E & _ & _ & D) J. destruct (kid_live huge e A R [] a w x I E) as (u & F & _); [|exists u; auto].
  rewrite kids_live, D by apply (live_all _ _ _ _ _ _ I E). now rewrite pointers_of_comp.
Qed.

Lemma nary_is A R t items : Inv A R [] -> arity t = Some 1%nat -> type_is_card t = false -> Forall (live (a_h A)) items ->
  ok A R (N.of_nat (List.length items) + 2) (nary_get_impl huge fresh t items)
    (fun a A' => Inv A' (a :: R) [] /\ exists v, comp (a_h A') a t false [v] [] /\ vecis (a_h A') v items).
Proof.
  intros I AR CD F. unfold nary_get_impl. apply (ok_weak huge A R _ (N.of_nat (List.length items) + (2 + (0 + 0)))); [lia|].
  apply (ok_bind huge A R _ _ _ _ _ _ (vector_is A R items I F)). intros v A1 (I1 & T1 & _ & _ & V1) K1.
  apply (ok_bind1 huge A1 R (v :: R) (N.of_nat 1 + 1) _ _ _ _ _
    (get_impl_is A1 (v :: R) t [v] None 1 I1 AR CD eq_refl (Forall_cons _ (type_live _ _ _ T1) (Forall_nil _)) Logic.I)); [intros z; now right|].
  intros o A2 (I2 & C2 & O2) K2. assert (EM : In (e_empty e) R) by (eapply empty_in; eauto).
  apply (ok_bind1 huge A2 R (o :: R) 0 _ _ _ _ _ (release1_ok huge e A2 R [o] v I2 EM)); [intros z; now right|].
  intros _ A3 (I3 & S3) K3. apply (ok_frame huge A3 R (o :: R)); [intros z; now right|]. apply (ok_ret huge e); auto.
  assert (LO : live (a_h A3) o) by (destruct (held_live huge e A3 (o :: R) [] o I3) as (w & ? & _); [now left|exists w; auto]).
  split; auto. exists v. assert (C3 := shrink_comp _ _ _ _ _ _ _ S3 LO C2). split; auto.
  apply (shrink_vecis (a_h A2)); auto; [|eapply old_vecis; eauto].
  apply (comp_kid A3 (o :: R) o t false [v] []); cbn; auto.
Qed.

Lemma opt_vec_is A R o : Inv A R [] -> opt_live (a_h A) o ->
  ok A R 1 (match o with Some _ => retain huge o | None => vector huge fresh [] end)
     (fun a A' => Inv A' (a :: R) [] /\ live (a_h A') a /\ grow (a_h A) (a_h A') /\ old (a_h A) (a_h A') /\ keyed (a_h A') o a).
Proof.
  intros I O. destruct o as [o|].
  - eapply ok_post; [apply (retain_ok huge e A R o I O)|]. intros x A' (-> & I' & G & S) _. split; auto. split; auto.
    + apply (grow_live huge e A R); auto.
    + split; auto. split; [now apply sim_old|reflexivity].
  - apply (ok_weak huge A R 1 0); [lia|]. eapply ok_post; [apply (vector_is A R [] I (Forall_nil _))|].
    intros x A' (I' & T & G & O1 & V) _. split; auto. split; [eapply type_live; eauto|]. auto.
Qed.
Lemma old_keyed h h' o x : old h h' -> keyed h o x -> keyed h' o x.
Proof. destruct o; auto. apply old_vecis. Qed.
Lemma shrink_keyed h h' o x : shrink h h' -> live h' x -> keyed h o x -> keyed h' o x.
Proof. destruct o; auto. apply shrink_vecis. Qed.

Lemma has_key_is A R c o d annot : Inv A R [] -> live (a_h A) c -> opt_live (a_h A) o -> opt_live (a_h A) d ->
  match annot with Some v => is_type (a_h A) v OT_VECTOR | None => True end ->
  ok A R 6 (has_key huge fresh (Some c) o d annot)
    (fun a A' => Inv A' (a :: R) [] /\ exists o' d' x, stored (a_h A) annot x /\
       comp (a_h A') a OT_A_HAS_KEY (isome x) ([c; o'; d'] ++ olist x) [] /\ keyed (a_h A') o o' /\ keyed (a_h A') d d').
Proof.
  intros I LC LO LD AN. unfold has_key. apply (ok_weak huge A R 6 (1 + (1 + (4 + (0 + (0 + 0)))))); [lia|].
  assert (EM : In (e_empty e) R) by (eapply empty_in; eauto).
  apply (ok_bind huge A R 1 _ _ _ _ _ (opt_vec_is A R o I LO)). intros o' A1 (I1 & L1 & G1 & O1 & Y1) K1.
  assert (LD1 : opt_live (a_h A1) d) by (destruct d; cbn in *; auto; apply (grow_live huge e A R); auto).
  apply (ok_bind1 huge A1 R (o' :: R) 1 _ _ _ _ _ (opt_vec_is A1 (o' :: R) d I1 LD1)); [intros z; now right|].
  intros d' A2 (I2 & L2 & G2 & O2 & Y2) K2.
  assert (LC2 : live (a_h A2) c) by (apply (grow_live huge e A1 (o' :: R)); auto; apply (grow_live huge e A R); auto).
  assert (LO2 : live (a_h A2) o') by (apply (grow_live huge e A1 (o' :: R)); auto).
  assert (AN2 : match annot with Some v => is_type (a_h A2) v OT_VECTOR | None => True end).
  { destruct annot; auto. apply (grow_type huge e A1 (o' :: R)); auto. apply (grow_type huge e A R); auto. }
  assert (FF : Forall (live (a_h A2)) [c; o'; d']) by (repeat constructor; auto).
  apply (ok_bind1 huge A2 R (d' :: o' :: R) (N.of_nat 3 + 1) _ _ _ _ _
    (get_impl_annot_is A2 (d' :: o' :: R) OT_A_HAS_KEY [c; o'; d'] annot 3 I2 eq_refl eq_refl eq_refl FF AN2)).
  { intros z J. now right; right. }
  intros r A3 (I3 & O3 & x & SX & CX) K3.
  assert (I3' : Inv A3 ([r] ++ o' :: d' :: R) []).
  { revert I3. apply inv_count. intros z. cbn [app]. rewrite !count_cons. lia. }
  apply (ok_bind1 huge A3 R (r :: d' :: R) 0 _ _ _ _ _ (release1_ok huge e A3 (d' :: R) [r] o' I3' (or_intror EM))).
  { intros z J. now right; right. }
  intros _ A4 (I4 & S4) K4.
  apply (ok_bind1 huge A4 R (r :: R) 0 _ _ _ _ _ (release1_ok huge e A4 R [r] d' I4 EM)); [intros z; now right|].
  intros _ A5 (I5 & S5) K5. apply (ok_frame huge A5 R (r :: R)); [intros z; now right|]. apply (ok_ret huge e); auto.
  split; auto. exists o', d', x. assert (S := shrink_trans _ _ _ S4 S5).
  assert (LR : live (a_h A5) r) by (destruct (held_live huge e A5 (r :: R) [] r I5) as (w & ? & _); [now left|exists w; auto]).
  assert (C5 := shrink_comp _ _ _ _ _ _ _ S LR CX).
  assert (KL : forall z, In z [c; o'; d'] -> live (a_h A5) z).
  { intros z J. apply (comp_kid A5 (r :: R) r _ _ _ _ z I5 C5). apply in_or_app. auto. }
  split; [|split; [auto|split]].
  - apply (old_stored _ (a_h A2)); auto; [eapply old_trans; eauto|]. intros v ->.
    destruct (vec_of_type _ _ _ _ _ _ I AN) as (u & l & E & D). exists l, u. auto.
  - apply (shrink_keyed (a_h A3)); auto; [apply KL; cbn; auto|]. eapply old_keyed; eauto. eapply old_keyed; eauto.
  - apply (shrink_keyed (a_h A3)); auto; [apply KL; cbn; auto|]. eapply old_keyed; eauto.
Qed.

Lemma ordered_is A R v : Inv A R [] -> is_type (a_h A) v OT_VECTOR ->
  ok A R 0 (vector_set_ordered huge (Some v)) (fun _ A' => Inv A' R [] /\ forall l, vecis (a_h A) v l -> vecis (a_h A') v l).
Proof.
  intros I TY k K. destruct (set_ordered_ok huge e A R v I TY k K) as (x & A' & E & K' & V & I').
  exists x, A'. split; auto. split; auto. split; auto. split; auto. intros l (u & F & D).
  destruct (i_fit _ _ _ _ _ I v u F) as [F1 _].
  assert (EX : vector_set_ordered huge (Some v) (cs A) = Ok tt (cs (set_h A (store (a_h A) v (mkOb (o_t u) true (o_n u) (o_d u)))))).
  { unfold vector_set_ordered. cbn [nonnull]. rewrite (bind_ok (ret v) _ _ v (cs A) eq_refl). apply (set_bit_cs huge A v u F F1). }
  rewrite E in EX. inversion EX as [[EX1 EX2]]. apply (items_vecis huge). unfold has_items.
  exists (cell_of huge (mkOb (o_t u) true (o_n u) (o_d u))). split; [|exact D].
  assert (Z : s_heap (cs A') = s_heap (cs (set_h A (store (a_h A) v (mkOb (o_t u) true (o_n u) (o_d u)))))) by exact EX2.
  rewrite Z, lookup_cs. cbn [set_h a_h]. rewrite lookup_store, F, N.eqb_refl. reflexivity.
Qed.
Lemma chain_is A R sub super annot : Inv A R [] -> is_type (a_h A) sub OT_VECTOR -> live (a_h A) super ->
  match annot with Some v => is_type (a_h A) v OT_VECTOR | None => True end ->
  ok A R 3 (chain_axiom huge fresh (Some sub) (Some super) annot)
    (fun a A' => Inv A' (a :: R) [] /\ (forall l, vecis (a_h A) sub l -> vecis (a_h A') sub l) /\
       exists x, comp (a_h A') a OT_A_SUB_OBJ_PROP (isome x) ([sub; super] ++ olist x) []).
Proof.
  intros I TS LS AN. unfold chain_axiom. apply (ok_weak huge A R 3 (0 + (N.of_nat 2 + 1))); [lia|].
  apply (ok_bind huge A R 0 _ _ _ _ _ (ordered_is A R sub I TS)). intros _ A1 (I1 & V1) K1.
  assert (G1 := keeps_grow huge e A R _ I K1).
  change [Some sub; Some super] with (map Some [sub; super]).
  eapply ok_post; [apply (get_impl_annot_is A1 R OT_A_SUB_OBJ_PROP [sub; super] annot 2); auto|].
  - repeat constructor; apply (grow_live huge e A R); auto. eapply type_live; eauto.
  - destruct annot; auto. apply (grow_type huge e A R); auto.
  - intros a A' (H1 & O1 & x & _ & H2) _. split; auto. split; [intros l V; eapply old_vecis; eauto|]. exists x. auto.
Qed.

(** What a constructor leaves in memory. *)
Definition built (h h' : obs) (a : N) (t : otype) (fs : list (option N)) (opt : option N) (val : N) : Prop :=
  match ctor_of t with
  | Some (CPlain n) => exists ks, fs = map Some ks /\ comp h' a t false ks []
  | Some (CAnnot n) => exists ks x, fs = map Some ks /\ stored h opt x /\ comp h' a t (isome x) (ks ++ olist x) []
  | Some (CUInt n) => exists ks, fs = map Some ks /\ comp h' a t (isome opt) (ks ++ olist opt) [val]
  | Some (CQuant n) => exists p x, fs = [Some p] /\ comp h' a t (isome x) ([p] ++ olist x) [] /\
      x = match opt with Some f => if f =? (if type_between OT_CE_OBJ_SOME OT_CE_OBJ_ALL t then e_thing e else e_literal e) then None else opt | None => None end
  | Some CHasKey => exists c o d o' d' x, fs = [Some c; o; d] /\ stored h opt x /\
      comp h' a t (isome x) ([c; o'; d'] ++ olist x) [] /\ keyed h' o o' /\ keyed h' d d'
  | None => False
  end.

Lemma construct_is A R t fs opt val : Inv A R [] -> good (a_h A) t fs opt ->
  ok A R (N.of_nat (List.length fs) + 4) (construct huge fresh e t fs opt val)
    (fun a A' => Inv A' (a :: R) [] /\ built (a_h A) (a_h A') a t fs opt val).
Proof.
  intros I. unfold good, construct, built. assert (AR : forall n, arity t = Some n -> arity t = Some n) by auto.
  unfold arity in AR at 1. destruct (ctor_of t) as [[n|n|n|n|]|] eqn:CT; [..|contradiction].
  - assert (CD : type_is_card t = false) by (revert CT; destruct t; cbn; congruence). intros (L & F). apply required_map in F as (ks & -> & F). rewrite map_length in *.
    apply (ok_weak huge A R _ (N.of_nat n + 1)); [lia|].
    eapply ok_post; [apply (get_impl_is A R t ks None n); auto; exact Logic.I|]. intros a A' (H1 & H2 & _) _. split; auto.
    exists ks. split; auto. cbn [olist isome] in H2. now rewrite app_nil_r in H2.
  - assert (CD : type_is_card t = false) by (revert CT; destruct t; cbn; congruence). intros (L & F & O). apply required_map in F as (ks & -> & F). rewrite map_length in *.
    apply (ok_weak huge A R _ (N.of_nat n + 1)); [lia|].
    eapply ok_post; [apply (get_impl_annot_is A R t ks opt n); auto|]. intros a A' (H1 & _ & x & H2 & H3) _. split; auto.
    exists ks, x. auto.
  - assert (CD : type_is_card t = true) by (revert CT; destruct t; cbn; congruence). intros (L & F & O). apply required_map in F as (ks & -> & F). rewrite map_length in *.
    apply (ok_weak huge A R _ (N.of_nat n + 1)); [lia|].
    eapply ok_post; [apply (get_impl_uint_is A R t ks val opt n); auto|]. intros a A' (H1 & H2 & _) _. split; auto. exists ks. auto.
  - assert (CD : type_is_card t = false) by (revert CT; destruct t; cbn; congruence). intros (L & F & O). apply required_map in F as (ks & -> & F). rewrite map_length in *.
    assert (n = 1%nat) as -> by (revert CT; destruct t; cbn; congruence).
    destruct ks as [|p [|? ?]]; try discriminate. cbn [map]. unfold quant.
    apply (ok_weak huge A R _ (N.of_nat 1 + 1)); [cbn; lia|].
    change [Some p] with (map Some [p]) at 1.
    match goal with |- context [get_impl _ _ _ _ ?y] => set (x := y) end.
    eapply ok_post; [apply (get_impl_is A R t [p] x 1); auto|].
    + unfold x. destruct opt as [f|]; cbn; auto. destruct (f =? _); cbn; auto.
    + intros a A' (H1 & H2 & _) _. split; auto. exists p, x. auto.
  - intros (c & o & d & -> & LC & LO & LD & AN). apply (ok_weak huge A R _ 6); [cbn; lia|].
    assert (t = OT_A_HAS_KEY) as -> by (revert CT; destruct t; cbn; congruence).
    eapply ok_post; [apply (has_key_is A R c o d opt); auto|]. intros a A' (H1 & o' & d' & x & H2 & H3 & H4 & H5) _. split; auto.
    exists c, o, d, o', d', x. auto.
Qed.

End Made.

(** * The getters *)

Section Read.
Variable huge : bool.
Variable e : env.
Local Notation Inv := (ProofHeap.Inv huge e).
Local Notation cs := (ProofHeap.cs huge).

Lemma nth_comp ks us i x : nth_error ks i = Some x -> nth_error (map Obj ks ++ map UInt us) i = Some (Obj x).
Proof.
  intros H. assert (L : (i < List.length ks)%nat) by (apply nth_error_Some; congruence).
  rewrite nth_error_app1 by now rewrite map_length. now apply map_nth_error.
Qed.
Lemma field_comp A a t b ks us i x : comp (a_h A) a t b ks us -> nth_error ks i = Some x -> get_field a i (cs A) = Ok x (cs A).
Proof.
  intros (v & E & _ & _ & D) H. unfold get_field. rewrite (bind_ok _ _ _ _ _ (fields_cs huge A a v _ E D)).
  now rewrite (nth_comp _ _ _ _ H).
Qed.
Lemma has_opt_comp A R a t b ks us : Inv A R [] -> comp (a_h A) a t b ks us -> has_opt_field huge a (cs A) = Ok b (cs A).
Proof.
  intros I (v & E & _ & B & _). unfold has_opt_field. destruct (i_fit _ _ _ _ _ I a v E) as [F _].
  rewrite (bit_cs huge A a v E F). now rewrite B.
Qed.
Lemma count_comp A R a t b ks us : Inv A R [] -> comp (a_h A) a t b ks us ->
  get_field_count huge a (cs A) = Ok (type_field_count t) (cs A).
Proof.
  intros I (v & E & T & _). unfold get_field_count. destruct (i_fit _ _ _ _ _ I a v E) as [F _].
  rewrite (bind_ok _ _ _ _ _ (type_cs huge A a v E F)). now rewrite T.
Qed.
Lemma opt_comp A R a t ks o us : Inv A R [] -> comp (a_h A) a t (isome o) (ks ++ olist o) us ->
  List.length ks = type_field_count t -> get_opt_field huge a (cs A) = Ok o (cs A).
Proof.
  intros I C L. unfold get_opt_field. rewrite (bind_ok _ _ _ _ _ (has_opt_comp _ _ _ _ _ _ _ I C)).
  destruct o as [x|]; cbn [isome olist] in *; [|reflexivity].
  rewrite (bind_ok _ _ _ _ _ (count_comp _ _ _ _ _ _ _ I C)).
  rewrite (bind_ok _ _ _ x _ (field_comp A a t true _ us (type_field_count t) x C ltac:(rewrite <- L, nth_error_app2, Nat.sub_diag by auto; reflexivity))).
  reflexivity.
Qed.
Lemma uint_comp A R a t ks o n : Inv A R [] -> comp (a_h A) a t (isome o) (ks ++ olist o) [n] ->
  List.length ks = type_field_count t -> get_uint_field huge a (cs A) = Ok n (cs A).
Proof.
  intros I C L. unfold get_uint_field. rewrite (bind_ok _ _ _ _ _ (count_comp _ _ _ _ _ _ _ I C)).
  rewrite (bind_ok _ _ _ _ _ (has_opt_comp _ _ _ _ _ _ _ I C)). destruct C as (v & E & _ & _ & D).
  rewrite (bind_ok _ _ _ _ _ (fields_cs huge A a v _ E D)).
  assert (X : (type_field_count t + (if isome o then 1 else 0) = List.length (map Obj (ks ++ olist o)))%nat).
  { rewrite map_length, app_length. destruct o; cbn; lia. }
  rewrite X, nth_error_app2, Nat.sub_diag by auto. reflexivity.
Qed.
Lemma annot_comp A R a t ks o us : Inv A R [] -> comp (a_h A) a t (isome o) (ks ++ olist o) us ->
  List.length ks = type_field_count t -> takes_annotations t = true -> get_annot huge a (cs A) = Ok o (cs A).
Proof.
  intros I C L TA. unfold get_annot. pose proof C as (v & E & T & _). destruct (i_fit _ _ _ _ _ I a v E) as [F _].
  rewrite (bind_ok _ _ _ _ _ (type_cs huge A a v E F)). rewrite T. unfold takes_annotations in TA. rewrite TA.
  eapply opt_comp; eauto.
Qed.
Lemma type_comp A R a t b ks us : Inv A R [] -> comp (a_h A) a t b ks us -> has_type huge (cs A) a t.
Proof. intros I (v & E & T & _). apply (type_iff huge e A R []); auto. exists v. auto. Qed.
End Read.

(** * The tables of getters and parameters *)

Definition str_in (x : string) (l : list string) : bool := existsb (String.eqb x) l.
Lemma str_in_in x l : In x l -> str_in x l = true.
Proof. intros H. apply existsb_exists. exists x. split; auto. apply String.eqb_refl. Qed.
Lemma in_str_in x l : str_in x l = true -> In x l.
Proof. intros H. apply existsb_exists in H as (y & J & E). apply String.eqb_eq in E. now subst. Qed.

Definition agree (t : otype) (gp : string * string) : bool :=
  if str_in (snd gp) (passed t) && str_in (fst gp) (map fst (getters t)) then
    match getter_index (getters t) (fst gp) with
    | Some i => match nth_error (passed t) i with Some p => String.eqb p (snd gp) | None => false end
    | None => false
    end
  else true.
Lemma agree_all t : forallb (agree t) same_thing = true.
Proof. destruct t; vm_compute; reflexivity. Qed.
Lemma getter_param t g p : In (g, p) same_thing -> In p (passed t) -> In g (map fst (getters t)) ->
  exists i, getter_index (getters t) g = Some i /\ nth_error (passed t) i = Some p.
Proof.
  intros J P G. pose proof (proj1 (forallb_forall _ _) (agree_all t) _ J) as H. unfold agree in H. cbn [fst snd] in H.
  rewrite (str_in_in _ _ P), (str_in_in _ _ G) in H. cbn [andb] in H.
  destruct (getter_index (getters t) g) as [i|]; [|discriminate]. exists i. split; auto.
  destruct (nth_error (passed t) i) as [q|]; [|discriminate]. apply String.eqb_eq in H. now subst.
Qed.
Definition has_getter (t : otype) (p : string) : bool :=
  existsb (fun gp => String.eqb (snd gp) p && str_in (fst gp) (map fst (getters t))) same_thing.
Lemma has_getters t : forallb (has_getter t) (passed t) = true.
Proof. destruct t; vm_compute; reflexivity. Qed.
Lemma param_getter t p : In p (passed t) -> exists g, In (g, p) same_thing /\ In g (map fst (getters t)).
Proof.
  intros J. pose proof (proj1 (forallb_forall _ _) (has_getters t) _ J) as H. apply existsb_exists in H as ([g q] & K & E).
  cbn [fst snd] in E. apply andb_true_iff in E as [E1 E2]. apply String.eqb_eq in E1. subst. exists g. split; auto. now apply in_str_in.
Qed.
Definition has_param (t : otype) (g : string) : bool :=
  existsb (fun gp => String.eqb (fst gp) g && str_in (snd gp) (passed t)) same_thing.
Lemma has_params t : forallb (has_param t) (map fst (getters t)) = true.
Proof. destruct t; vm_compute; reflexivity. Qed.
Lemma getter_has_param t g : In g (map fst (getters t)) -> exists p, In (g, p) same_thing /\ In p (passed t).
Proof.
  intros J. pose proof (proj1 (forallb_forall _ _) (has_params t) _ J) as H. apply existsb_exists in H as ([h q] & K & E).
  cbn [fst snd] in E. apply andb_true_iff in E as [E1 E2]. apply String.eqb_eq in E1. subst. exists q. split; auto. now apply in_str_in.
Qed.

Definition default_filler (e : env) (t : otype) : option N :=
  match t with
  | OT_CE_OBJ_SOME | OT_CE_OBJ_ALL => Some (e_thing e)
  | OT_CE_DATA_SOME | OT_CE_DATA_ALL => Some (e_literal e)
  | _ => None
  end.
(** The sizes of constructors and the kinds of optional parameters. *)
Lemma annot_ctor t : takes_annotations t = true -> (exists n, ctor_of t = Some (CAnnot n)) \/ ctor_of t = Some CHasKey.
Proof. destruct t; cbn; intros H; try discriminate; eauto. Qed.
Lemma card_ctor t : is_cardinality t = true -> exists n, ctor_of t = Some (CUInt n).
Proof. destruct t; cbn; intros H; try discriminate; eauto. Qed.
Lemma quant_ctor e t d : default_filler e t = Some d -> (exists n, ctor_of t = Some (CQuant n)) /\
  d = if type_between OT_CE_OBJ_SOME OT_CE_OBJ_ALL t then e_thing e else e_literal e.
Proof. destruct t; cbn; intros H; inversion H; subst; split; eauto. Qed.
Lemma ctor_arity t c : ctor_of t = Some c -> arity t = Some (type_field_count t) /\ List.length (passed t) = type_field_count t.
Proof. destruct t; cbn; intros H; inversion H; subst; auto. Qed.

Section Top.
Variable huge : bool.
Variable fresh : N -> heap -> N.
Hypothesis fresh_ok : allocator fresh.
Local Notation Inv := (ProofHeap.Inv huge).
Local Notation cs := (ProofHeap.cs huge).

Section Call.
Variables (e : env) (vs : list vocab) (lib own : list N) (s : state).
Hypothesis H : history huge fresh e vs lib s own.

Lemma good_allowed A t fs opt val : s = cs A -> Inv e A (lib ++ own) [] ->
  allowed huge e lib own s (KConstruct t fs opt val) -> good (a_h A) t fs opt.
Proof.
  intros -> I AL. cbn [allowed] in AL. unfold good.
  assert (UL : forall a, usable (lib ++ own) (cs A) a -> live (a_h A) a) by (intros a; apply (usable_live huge e A); auto).
  assert (RQ : forall l, Forall (required (usable (lib ++ own) (cs A))) l -> Forall (required (live (a_h A))) l).
  { intros l. apply Forall_impl. intros [a|]; cbn; auto. }
  assert (OL : forall o, optional (usable (lib ++ own) (cs A)) o -> opt_live (a_h A) o).
  { intros [a|]; cbn; auto. }
  assert (OV : forall o, optional (fun a => usable (lib ++ own) (cs A) a /\ has_type huge (cs A) a OT_VECTOR) o ->
    match o with Some v => is_type (a_h A) v OT_VECTOR | None => True end).
  { intros [a|]; cbn; auto. intros [_ T]. apply (type_iff huge e A (lib ++ own) []) in T; auto. }
  destruct (ctor_of t) as [[n|n|n|n|]|]; auto.
  - destruct AL as (L & F). auto.
  - destruct AL as (L & F & O). split; auto. split; auto. apply (OV opt O).
  - destruct AL as (L & F & O). auto.
  - destruct AL as (L & F & O). auto.
  - destruct AL as (c & o & d & -> & LC & LO & LD & AN). exists c, o, d. repeat (split; auto). apply (OV opt AN).
Qed.

Lemma construct_top t fs opt val : let k := KConstruct t fs opt val in
  allowed huge e lib own s k -> room huge (lib ++ own) s k ->
  exists A A' a, s = cs A /\ exec huge fresh e k s = Ok (Some a) (cs A') /\ Inv e A' (a :: lib ++ own) [] /\
    good (a_h A) t fs opt /\ built e (a_h A) (a_h A') a t fs opt val.
Proof.
  intros k AL RM.
  destruct (run huge fresh fresh_ok e vs lib own s H k (N.of_nat (List.length fs) + 4)
    (fun r A' => exists a A, r = Some a /\ s = cs A /\ Inv e A' (a :: lib ++ own) [] /\ good (a_h A) t fs opt /\
       built e (a_h A) (a_h A') a t fs opt val) AL Logic.I RM)
    as (A & A' & r & E & I & EX & HH & U & K & a & A0 & -> & E0 & I' & G & B).
  - cbn [k size]. lia.
  - intros A E I. pose proof (good_allowed A t fs opt val E I AL) as G. cbn [exec k]. unfold some.
    eapply ok_map; [apply (construct_is huge fresh fresh_ok e A (lib ++ own) t fs opt val I G)|].
    intros a A' (I' & B) _. exists a, A. auto 10.
  - exists A0, A', a. auto.
Qed.

Lemma fields_top t (arg : string -> option N) opt val : let k := KConstruct t (map arg (passed t)) opt val in
  allowed huge e lib own s k -> room huge (lib ++ own) s k ->
  exists a s', exec huge fresh e k s = Ok (Some a) s' /\ has_type huge s' a t /\
  (forall g p x, In (g, p) same_thing -> In p (passed t) -> In g (map fst (getters t)) -> arg p = Some x ->
     run_getter t g a s' = Ok x s') /\
  (forall g p, In (g, p) same_thing -> In p (passed t) -> In g (map fst (getters t)) -> arg p = None ->
     exists v, run_getter t g a s' = Ok v s' /\ has_items s' v []) /\
  (takes_annotations t = true ->
     (opt = None -> get_annot huge a s' = Ok None s') /\
     (forall v l, opt = Some v -> has_items s v l -> get_annot huge a s' = Ok (match l with [] => None | _ => Some v end) s')) /\
  (is_cardinality t = true -> get_uint_field huge a s' = Ok val s' /\ get_opt_field huge a s' = Ok opt s') /\
  (forall d, default_filler e t = Some d ->
     obj_quant_filler huge (mkEnv (e_empty e) d (e_literal e) (e_lang_string e) (e_plain_literal e) (e_string e)) a s' =
     Ok (match opt with Some f => f | None => d end) s').
Proof.
  intros k AL RM. destruct (construct_top t _ opt val AL RM) as (A & A' & a & E & EX & I & G & B).
  exists a, (cs A'). split; auto. unfold built, good in *.
  assert (IX : forall g p ks b us, In (g, p) same_thing -> In p (passed t) -> In g (map fst (getters t)) ->
    comp (a_h A') a t b ks us -> (forall i, (i < List.length (passed t))%nat -> nth_error ks i <> None) ->
    exists i x, nth_error (passed t) i = Some p /\ nth_error ks i = Some x /\ run_getter t g a (cs A') = Ok x (cs A')).
  { intros g p ks b us J1 J2 J3 C N0. destruct (getter_param t g p J1 J2 J3) as (i & GI & PI).
    assert (L : (i < List.length (passed t))%nat) by (apply nth_error_Some; congruence).
    destruct (nth_error ks i) as [x|] eqn:K; [|exfalso; eapply N0; eauto].
    exists i, x. split; auto. split; auto. unfold run_getter. rewrite GI. eapply field_comp; eauto. }
  assert (MP : forall ks, map arg (passed t) = map Some ks -> List.length ks = List.length (passed t)).
  { intros ks Z. apply (f_equal (@List.length _)) in Z. now rewrite !map_length in Z. }
  assert (MA : forall ks l i p x, map arg (passed t) = map Some ks -> nth_error (passed t) i = Some p ->
    nth_error (ks ++ l) i = Some x -> arg p = Some x).
  { intros ks l i p x Z P X. rewrite nth_error_app1 in X.
    - apply (map_nth_error Some) in X. rewrite <- Z in X. apply (map_nth_error arg) in P. congruence.
    - rewrite (MP ks Z). apply nth_error_Some. congruence. }
  assert (NN : forall ks l i, map arg (passed t) = map Some ks -> (i < List.length (passed t))%nat -> nth_error (ks ++ l) i <> None).
  { intros ks l i Z L. apply nth_error_Some. rewrite app_length, (MP ks Z). lia. }
  assert (AN : forall v l x, opt = Some v -> has_items s v l -> stored (a_h A) opt x -> x = match l with [] => None | _ => Some v end).
  { intros v l x -> HI (l' & V & ->). rewrite E in HI. apply items_vecis in HI.
    destruct V as (u & F & D), HI as (u' & F' & D'). rewrite F in F'. inversion F'; subst. rewrite D in D'. inversion D'. auto. }
  assert (FIN : forall ks x us, map arg (passed t) = map Some ks -> ctor_of t <> None ->
    comp (a_h A') a t (isome x) (ks ++ olist x) us ->
    has_type huge (cs A') a t /\
    (forall g p x, In (g, p) same_thing -> In p (passed t) -> In g (map fst (getters t)) -> arg p = Some x ->
       run_getter t g a (cs A') = Ok x (cs A')) /\
    (forall p, In p (passed t) -> arg p <> None)).
  { intros ks x us Z CT C. split; [eapply type_comp; eauto|]. split.
    - intros g p y J1 J2 J3 AR. destruct (IX g p _ _ _ J1 J2 J3 C (fun i => NN ks _ i Z)) as (i & z & P & X & RG).
      rewrite RG. pose proof (MA _ _ _ _ _ Z P X). congruence.
    - intros p J. apply (in_map arg) in J. rewrite Z in J. apply in_map_iff in J as (y & <- & _). discriminate. }
  destruct (ctor_of t) as [[n|n|n|n|]|] eqn:CT; [..|contradiction].
  - destruct B as (ks & Z & C). rewrite <- (app_nil_r ks) in C. change ([]) with (olist None) in C at 1. change false with (isome None) in C.
    destruct (FIN ks None [] Z ltac:(congruence) C) as (F1 & F2 & F3). split; auto. split; auto. split; [|split; [|split]].
    + intros g p J1 J2 J3 Q. exfalso. eapply F3; eauto.
    + intros Q. apply annot_ctor in Q as [(m & Q)|Q]; congruence.
    + intros Q. apply card_ctor in Q as (m & Q); congruence.
    + intros d Q. apply quant_ctor in Q as [(m & Q) _]; congruence.
  - destruct B as (ks & x & Z & SX & C). destruct (ctor_arity t _ CT) as [_ LP].
    destruct (FIN ks x [] Z ltac:(congruence) C) as (F1 & F2 & F3). split; auto. split; auto. split; [|split; [|split]].
    + intros g p J1 J2 J3 Q. exfalso. eapply F3; eauto.
    + intros Q. assert (GA : get_annot huge a (cs A') = Ok x (cs A')).
      { eapply annot_comp; eauto. now rewrite (MP ks Z). }
      split; [intros ->; cbn in SX; now subst|]. intros v l V HI. rewrite GA. now rewrite (AN v l x).
    + intros Q. apply card_ctor in Q as (m & Q); congruence.
    + intros d Q. apply quant_ctor in Q as [(m & Q) _]; congruence.
  - destruct B as (ks & Z & C). destruct (ctor_arity t _ CT) as [_ LP].
    destruct (FIN ks opt [val] Z ltac:(congruence) C) as (F1 & F2 & F3). split; auto. split; auto. split; [|split; [|split]].
    + intros g p J1 J2 J3 Q. exfalso. eapply F3; eauto.
    + intros Q. apply annot_ctor in Q as [(m & Q)|Q]; congruence.
    + intros Q. split; [eapply uint_comp|eapply opt_comp]; eauto; now rewrite (MP ks Z).
    + intros d Q. apply quant_ctor in Q as [(m & Q) _]; congruence.
  - destruct B as (p0 & x & Z & C & XE). destruct (ctor_arity t _ CT) as [_ LP].
    destruct (FIN [p0] x [] Z ltac:(congruence) C) as (F1 & F2 & F3). split; auto. split; auto. split; [|split; [|split]].
    + intros g p J1 J2 J3 Q. exfalso. eapply F3; eauto.
    + intros Q. apply annot_ctor in Q as [(m & Q)|Q]; congruence.
    + intros Q. apply card_ctor in Q as (m & Q); congruence.
    + intros d Q. apply quant_ctor in Q as [_ Q]. rewrite <- Q in XE. unfold obj_quant_filler.
      rewrite (bind_ok _ _ _ x _ (opt_comp huge e A' _ a t [p0] x [] I C ltac:(now rewrite <- LP, <- (MP [p0] Z)))). cbn [e_thing].
      destruct opt as [f|]; [|now subst]. destruct (N.eqb_spec f d); subst; auto.
  - destruct B as (c & o & d & o' & d' & x & Z & SX & C & K1 & K2).
    assert (t = OT_A_HAS_KEY) as -> by (revert CT; destruct t; cbn; congruence).
    cbn [passed map] in Z. injection Z as Z1 Z2 Z3.
    assert (N3 : forall i, (i < List.length (passed OT_A_HAS_KEY))%nat -> nth_error ([c; o'; d'] ++ olist x) i <> None).
    { intros i L. apply nth_error_Some. rewrite app_length. cbn in *. lia. }
    split; [eapply type_comp; eauto|]. split; [|split; [|split; [|split]]].
    + intros g p y J1 J2 J3 AR. destruct (IX g p _ _ _ J1 J2 J3 C N3) as (i & z & P & X & RG). rewrite RG.
      destruct i as [|[|[|i]]]; cbn in P, X; inversion P; inversion X; subst.
      * congruence.
      * rewrite AR in K1. cbn in K1. congruence.
      * rewrite AR in K2. cbn in K2. congruence.
      * destruct i; discriminate.
    + intros g p J1 J2 J3 AR. destruct (IX g p _ _ _ J1 J2 J3 C N3) as (i & z & P & X & RG). exists z. split; auto.
      apply items_vecis. destruct i as [|[|[|i]]]; cbn in P, X; inversion P; inversion X; subst.
      * congruence.
      * rewrite AR in K1. auto.
      * rewrite AR in K2. auto.
      * destruct i; discriminate.
    + intros Q. assert (GA : get_annot huge a (cs A') = Ok x (cs A')) by (eapply annot_comp; eauto).
      split; [intros ->; cbn in SX; now subst|]. intros v l V HI. rewrite GA. now rewrite (AN v l x).
    + discriminate.
    + discriminate.
Qed.

Lemma params_top t (arg : string -> option N) opt val : let k := KConstruct t (map arg (passed t)) opt val in
  allowed huge e lib own s k -> room huge (lib ++ own) s k ->
  exists a s', exec huge fresh e k s = Ok (Some a) s' /\ has_type huge s' a t /\
  forall g p x, In (g, p) same_thing -> In p (passed t) -> In g (map fst (getters t)) -> arg p = Some x ->
     run_getter t g a s' = Ok x s'.
Proof. intros k AL RM. destruct (fields_top t arg opt val AL RM) as (a & s' & EX & T & F & _). exists a, s'. auto. Qed.
Lemma null_top t (arg : string -> option N) opt val : let k := KConstruct t (map arg (passed t)) opt val in
  allowed huge e lib own s k -> room huge (lib ++ own) s k ->
  exists a s', exec huge fresh e k s = Ok (Some a) s' /\
  forall g p, In (g, p) same_thing -> In p (passed t) -> In g (map fst (getters t)) -> arg p = None ->
     exists v, run_getter t g a s' = Ok v s' /\ has_items s' v [].
Proof. intros k AL RM. destruct (fields_top t arg opt val AL RM) as (a & s' & EX & T & _ & F & _). exists a, s'. auto. Qed.

Lemma ctor_cases t fs opt val : allowed huge e lib own s (KConstruct t fs opt val) ->
  exists arg, fs = map arg (passed t).
Proof.
  intros AL. cbn [allowed] in AL. assert (L : List.length fs = List.length (passed t)).
  { destruct (ctor_of t) as [c|] eqn:C; [|contradiction]. destruct (ctor_arity t c C) as [AR LP]. rewrite LP. unfold arity in AR. rewrite C in AR.
    destruct c; inversion AR; try (destruct AL as [-> _]; auto).
    destruct AL as (? & ? & ? & -> & _). auto. }
  assert (ND : NoDup (passed t)).
  { clear. destruct t; cbn; repeat constructor; cbn; intuition discriminate. }
  clear AL. revert fs L. induction ND as [|p ps NI ND IH]; intros fs L; destruct fs as [|f fs]; try discriminate.
  - exists (fun _ => None). reflexivity.
  - destruct (IH fs) as (arg & E); [now injection L|]. exists (fun q => if String.eqb q p then f else arg q). cbn [map].
    rewrite String.eqb_refl. f_equal. rewrite E. apply map_ext_in. intros q J. destruct (String.eqb_spec q p); auto. now subst.
Qed.

Lemma annot_top t fs opt val : let k := KConstruct t fs opt val in takes_annotations t = true ->
  allowed huge e lib own s k -> room huge (lib ++ own) s k ->
  exists a s', exec huge fresh e k s = Ok (Some a) s' /\
     (opt = None -> get_annot huge a s' = Ok None s') /\
     (forall v l, opt = Some v -> has_items s v l -> get_annot huge a s' = Ok (match l with [] => None | _ => Some v end) s').
Proof.
  intros k TA AL RM. destruct (ctor_cases t fs opt val AL) as (arg & ->).
  destruct (fields_top t arg opt val AL RM) as (a & s' & EX & T & _ & _ & F & _). exists a, s'. split; auto.
Qed.
Lemma card_top t fs opt val : let k := KConstruct t fs opt val in is_cardinality t = true ->
  allowed huge e lib own s k -> room huge (lib ++ own) s k ->
  exists a s', exec huge fresh e k s = Ok (Some a) s' /\
     get_uint_field huge a s' = Ok val s' /\ get_opt_field huge a s' = Ok opt s'.
Proof.
  intros k TA AL RM. destruct (ctor_cases t fs opt val AL) as (arg & ->).
  destruct (fields_top t arg opt val AL RM) as (a & s' & EX & T & _ & _ & _ & F & _). exists a, s'. split; auto.
Qed.
Lemma quantifier_top t fs opt val : let k := KConstruct t fs opt val in
  In t [OT_CE_OBJ_SOME; OT_CE_OBJ_ALL; OT_CE_DATA_SOME; OT_CE_DATA_ALL] ->
  allowed huge e lib own s k -> room huge (lib ++ own) s k ->
  exists a s', exec huge fresh e k s = Ok (Some a) s' /\
     (t = OT_CE_OBJ_SOME \/ t = OT_CE_OBJ_ALL -> obj_quant_filler huge e a s' = Ok (match opt with Some f => f | None => e_thing e end) s') /\
     (t = OT_CE_DATA_SOME \/ t = OT_CE_DATA_ALL -> data_quant_range huge e a s' = Ok (match opt with Some f => f | None => e_literal e end) s').
Proof.
  intros k _ AL RM. destruct (ctor_cases t fs opt val AL) as (arg & ->).
  destruct (fields_top t arg opt val AL RM) as (a & s' & EX & T & _ & _ & _ & _ & F). exists a, s'. split; auto. split.
  - intros Q. apply (F (e_thing e)). destruct Q as [-> | ->]; reflexivity.
  - intros Q. apply (F (e_literal e)). destruct Q as [-> | ->]; reflexivity.
Qed.

Lemma nary_top t items : let k := KNary t items in
  allowed huge e lib own s k -> room huge (lib ++ own) s k ->
  exists a s' v, exec huge fresh e k s = Ok (Some a) s' /\ has_type huge s' a t /\ has_items s' v items /\
    forall g, In g (map fst (getters t)) -> run_getter t g a s' = Ok v s'.
Proof.
  intros k AL RM. pose proof AL as [CT F].
  assert (AR : arity t = Some 1%nat) by (unfold arity; destruct CT as [-> | ->]; auto).
  assert (CD : type_is_card t = false) by (clear -CT; destruct t; try reflexivity; destruct CT as [CT|CT]; discriminate CT).
  destruct (run huge fresh fresh_ok e vs lib own s H k (N.of_nat (List.length items) + 2)
    (fun r A' => exists a, r = Some a /\ Inv e A' (a :: lib ++ own) [] /\
       exists v, comp (a_h A') a t false [v] [] /\ vecis (a_h A') v items) AL Logic.I RM)
    as (A & A' & r & E & I & EX & HH & U & K & a & -> & I' & v & C & V).
  - cbn [k size]. lia.
  - intros A E I. cbn [exec k]. unfold some. eapply ok_map; [apply (nary_is huge fresh fresh_ok e A (lib ++ own) t items I AR CD)|].
    + rewrite Forall_forall in *. intros x J. apply (usable_live huge e A (lib ++ own)); auto. rewrite <- E. apply F; auto.
    + intros a A' (I' & v & B) _. exists a. split; auto. split; auto. exists v. auto.
  - exists a, (cs A'), v. split; auto. split; [eapply type_comp; eauto|]. split; [now apply items_vecis|].
    intros g J. destruct (getter_has_param t g J) as (p & J1 & J2). destruct (getter_param t g p J1 J2 J) as (i & GI & PI).
    unfold run_getter. rewrite GI. eapply field_comp; eauto.
    assert (C1 : exists c, ctor_of t = Some c) by (destruct CT; eauto). destruct C1 as (c & C1).
    destruct (ctor_arity t c C1) as [AR' LP]. assert (i < List.length (passed t))%nat by (apply nth_error_Some; congruence).
    assert (i = 0)%nat by (rewrite AR in AR'; inversion AR'; lia). subst i. reflexivity.
Qed.

Lemma chain_top sub super annot : let k := KChain sub super annot in
  allowed huge e lib own s k -> room huge (lib ++ own) s k ->
  exists a s', exec huge fresh e k s = Ok (Some a) s' /\ has_type huge s' a OT_A_SUB_OBJ_PROP /\
    run_getter OT_A_SUB_OBJ_PROP "get_sub" a s' = Ok sub s' /\ run_getter OT_A_SUB_OBJ_PROP "get_super" a s' = Ok super s' /\
    forall l, has_items s sub l -> has_items s' sub l.
Proof.
  intros k AL RM. pose proof AL as ([US TS] & LU & AN).
  destruct (run huge fresh fresh_ok e vs lib own s H k 3
    (fun r A' => exists a A, r = Some a /\ s = cs A /\ Inv e A' (a :: lib ++ own) [] /\
       (forall l, vecis (a_h A) sub l -> vecis (a_h A') sub l) /\
       exists x, comp (a_h A') a OT_A_SUB_OBJ_PROP (isome x) ([sub; super] ++ olist x) []) AL Logic.I RM)
    as (A & A' & r & E & I & EX & HH & U & K & a & A0 & -> & E0 & I' & VV & x & C).
  - cbn [k size]. lia.
  - intros A E I. cbn [exec k]. unfold some.
    eapply ok_map; [apply (chain_is huge fresh fresh_ok e A (lib ++ own) sub super annot I)|].
    + rewrite E in TS. apply (type_iff huge e A (lib ++ own) []) in TS; auto.
    + apply (usable_live huge e A (lib ++ own)); auto. now rewrite <- E.
    + destruct annot; auto. destruct AN as [_ T]. rewrite E in T. apply (type_iff huge e A (lib ++ own) []) in T; auto.
    + intros a A' (I' & VV & x & B) _. exists a, A. split; auto. split; auto. split; auto. split; auto. exists x. auto.
  - exists a, (cs A'). split; auto. split; [eapply type_comp; eauto|].
    split; [eapply field_comp; eauto|]. split; [eapply field_comp; eauto|].
    intros l. rewrite E0, !items_vecis. apply VV.
Qed.

(** The objects of the vocabularies. *)
Lemma history_init : exists s0, lib_init huge fresh s_zero = Ok (e, vs) s0.
Proof. induction H; eauto. Qed.
End Call.

Lemma find_in l t r a : vocab_find l t r = Some a -> In (t, r, a) l.
Proof.
  induction l as [|[[u q] b] l IH]; [discriminate|]. cbn. destruct (otype_eqb u t && bytes_eqb q r) eqn:B; auto.
  apply andb_true_iff in B as [B1 B2]. apply otype_eqb_eq in B1. apply bytes_eqb_eq in B2. intros X. inversion X; subst. auto.
Qed.
Lemma init_finds e vs s : lib_init huge fresh s_zero = Ok (e, vs) s -> exists v1 v2 v3 v4 v5 v6, vs = [v1; v2; v3; v4; v5; v6] /\
  vocab_find (v_ents v1) OT_CE_CLASS (bs "Thing") = Some (e_thing e) /\
  vocab_find (v_ents v3) OT_DR_DATATYPE (bs "Literal") = Some (e_literal e) /\
  vocab_find (v_ents v2) OT_DR_DATATYPE (bs "langString") = Some (e_lang_string e) /\
  vocab_find (v_ents v2) OT_DR_DATATYPE (bs "PlainLiteral") = Some (e_plain_literal e) /\
  vocab_find (v_ents v6) OT_DR_DATATYPE (bs "string") = Some (e_string e).
Proof.
  unfold lib_init, bind. destruct (string_get huge fresh [] s_zero) as [a s1|]; [|discriminate].
  destruct (mapm _ groups s1) as [ws s2|]; [|discriminate].
  destruct ws as [|v1 [|v2 [|v3 [|v4 [|v5 [|v6 [|? ?]]]]]]]; try discriminate.
  unfold nonnull, ret, fail.
  destruct (vocab_find (v_ents v1) _ _) eqn:F1; [|discriminate]. destruct (vocab_find (v_ents v3) _ _) eqn:F2; [|discriminate].
  destruct (vocab_find (v_ents v2) OT_DR_DATATYPE (bs "langString")) eqn:F3; [|discriminate].
  destruct (vocab_find (v_ents v2) OT_DR_DATATYPE (bs "PlainLiteral")) eqn:F4; [|discriminate].
  destruct (vocab_find (v_ents v6) _ _) eqn:F5; [|discriminate].
  intros X. inversion X; subst. exists v1, v2, v3, v4, v5, v6. auto 10.
Qed.

Lemma vocab_named e vs lib own s : history huge fresh e vs lib s own ->
  entity_named huge s (e_thing e) OT_CE_CLASS owl_ns (bs "Thing") /\
  entity_named huge s (e_literal e) OT_DR_DATATYPE rdfs_ns (bs "Literal") /\
  entity_named huge s (e_lang_string e) OT_DR_DATATYPE rdf_ns (bs "langString") /\
  entity_named huge s (e_plain_literal e) OT_DR_DATATYPE rdf_ns (bs "PlainLiteral") /\
  entity_named huge s (e_string e) OT_DR_DATATYPE xsd_ns (bs "string").
Proof.
  intros H. destruct (history_init e vs lib own s H) as (s0 & E0). apply init_finds in E0 as (v1 & v2 & v3 & v4 & v5 & v6 & EV & F1 & F2 & F3 & F4 & F5).
  destruct (history_inv huge fresh fresh_ok _ _ _ _ _ H) as (A & X & L & -> & EL & I & (B1 & B2 & B3 & B4 & B5 & B6 & B7)).
  assert (K : forall n g v t r a, nth_error groups n = Some g -> nth_error vs n = Some v -> vocab_find (v_ents v) t r = Some a ->
    entity_named huge (cs A) a t (g_ns g) r).
  { intros n g v t r a G V F. apply find_in in F. rewrite <- B1 in G. rewrite <- B2 in V. rewrite nth_error_map in G, V.
    unfold vdesc in *. destruct (nth_error X n) as [[[g' v'] T]|] eqn:NX; [|discriminate G]. cbn in G, V. inversion G; inversion V; subst g' v'.
    assert (J : In (a, DE t (g_ns g) r) L).
    { rewrite B4. right. apply in_flat_map. exists (g, v, T). split; [eapply nth_error_In; eauto|]. cbn [vpairs]. do 2 right.
      apply in_or_app. right. unfold epairs. apply in_map_iff. exists (t, r, a). auto. }
    unfold descs in B5. rewrite Forall_forall in B5. specialize (B5 _ J). cbn in B5. destruct B5 as (i & EI & IT).
    exists i. split; [apply (entity_key_iff huge e A (lib ++ own)); auto|now apply iri_key_iff]. }
  subst vs. split; [exact (K 0%nat owl_group v1 _ _ _ eq_refl eq_refl F1)|]. split; [exact (K 2%nat rdfs_group v3 _ _ _ eq_refl eq_refl F2)|].
  split; [exact (K 1%nat rdf_group v2 _ _ _ eq_refl eq_refl F3)|]. split; [exact (K 1%nat rdf_group v2 _ _ _ eq_refl eq_refl F4)|].
  exact (K 5%nat xsd_group v6 _ _ _ eq_refl eq_refl F5).
Qed.

(** * Later calls *)

(** What the getters see of an object that is not a vector or string. *)
Definition same_view (s s' : state) (a : N) : Prop := forall c, lookup (s_heap s) a = Some c ->
  exists c', lookup (s_heap s') a = Some c' /\ type_of huge c' = type_of huge c /\
    (forall t, type_of huge c = Some t -> ctor_of t <> None -> bit_of huge c' = bit_of huge c /\ c_body c' = c_body c).

Lemma call_view e vs lib own s k r s' a : history huge fresh e vs lib s own ->
  allowed huge e lib own s k -> SpecHeap.no_cycle s k -> room huge (lib ++ own) s k -> exec huge fresh e k s = Ok r s' ->
  In a own -> In a (after k r own) -> same_view s s' a.
Proof.
  intros H AL NC RM EX J1 J2 c E. assert (J : In a (lib ++ after k None own)).
  { apply in_or_app. right. destruct k; cbn [after] in *; auto. }
  destruct (history_inv huge fresh fresh_ok _ _ _ _ _ H) as (A & X & L & -> & EL & I & LB).
  assert (LE : In (e_empty e) lib). { subst lib. destruct LB as (_ & _ & _ & -> & _). now left. }
  assert (LS : In (e_string e) lib) by (subst lib; apply LB).
  destruct (exec_ok huge fresh fresh_ok e lib LE LS A own k I (lib_std e vs X (a_h A) L LB) AL NC 0) as (r' & A' & EX' & _ & V & RS).
  { rewrite N.add_0_r. apply (room_iff huge e A (lib ++ own)); auto. }
  rewrite EX in EX'. inversion EX'; subst r' s'. clear EX'.
  apply lk in E as (v & E & ->).
  destruct (i_fit _ _ _ _ _ I a v E) as [F1 SH].
  assert (Q : exists w, lookup (a_h A') a = Some w /\ o_t w = o_t v /\
    (o_b w = o_b v \/ o_b w = true /\ (o_t v = OT_STRING \/ o_t v = OT_VECTOR)) /\
    (o_d w = o_d v \/ ~ fixed (o_d v))).
  { unfold frame in V. destruct (removes k) eqn:M.
    - assert (I' : ProofHeap.Inv huge e A' (lib ++ own) []).
      { unfold result in RS. rewrite after_removes in RS by auto. now rewrite (removes_none huge fresh e k _ _ _ M EX) in RS. }
      destruct (held_live huge e A' (lib ++ own) [] a I' ltac:(apply in_or_app; now right)) as (w & G & _).
      exists w. split; auto. destruct (V a w G) as (v' & E' & T & B & D). rewrite E in E'. inversion E'; subst v'.
      split; auto. split; auto. destruct D as [D|[_ D]]; auto. right. intros FX. destruct D; destruct FX.
    - destruct (V a (use_in _ _ _ J)) as (v' & w & F & G & P & (U1 & U2 & U3)). rewrite E in F. inversion F; subst v'.
      exists w. split; auto. split; auto. split; auto. destruct U3 as [U3|[(l & l' & U3 & _)|(p & q & U3 & _)]]; auto; right; now rewrite U3. }
  destruct Q as (w & G & U1 & U2 & U3). destruct (i_fit _ _ _ _ _ RS a w G) as [F2 _].
  exists (cell_of huge w). split; [apply lk; eauto|]. split.
  - rewrite !type_cell by auto. now rewrite U1.
  - rewrite !type_cell, !bit_cell by auto. intros t T CT. inversion T; subst t. split.
    + destruct U2 as [U2|[_ [U2|U2]]]; auto; rewrite U2 in CT; contradiction.
    + destruct U3 as [U3|U3]; auto. exfalso. apply U3. clear -SH CT. destruct SH; cbn; auto; now apply CT.
Qed.

Lemma later_in e lib a s own s' own' : later huge fresh e lib a s own s' own' -> In a own'.
Proof. destruct 1; auto. Qed.
Lemma later_view e vs lib a s own s' own' : history huge fresh e vs lib s own -> later huge fresh e lib a s own s' own' ->
  history huge fresh e vs lib s' own' /\ same_view s s' a.
Proof.
  intros H LA. induction LA as [J|s1 own1 k r s2 LA IH AL NC RM EX J].
  - split; auto. intros c E. exists c. auto.
  - destruct IH as [H1 V1]. split; [eapply hist_call; eauto|].
    pose proof (call_view _ _ _ _ _ _ _ _ a H1 AL NC RM EX (later_in _ _ _ _ _ _ _ LA) J) as V2.
    intros c E. destruct (V1 c E) as (c1 & E1 & T1 & D1). destruct (V2 c1 E1) as (c2 & E2 & T2 & D2).
    exists c2. split; auto. split; [congruence|]. intros t T CT. destruct (D1 t T CT) as [B1 Y1].
    destruct (D2 t ltac:(congruence) CT) as [B2 Y2]. split; congruence.
Qed.

Lemma lasting e vs lib a s own s' own' t : history huge fresh e vs lib s own -> later huge fresh e lib a s own s' own' ->
  has_type huge s a t -> ctor_of t <> None ->
  has_type huge s' a t /\
  (forall g x, run_getter t g a s = Ok x s -> run_getter t g a s' = Ok x s') /\
  (forall x, get_annot huge a s = Ok x s -> get_annot huge a s' = Ok x s') /\
  (forall x, get_opt_field huge a s = Ok x s -> get_opt_field huge a s' = Ok x s') /\
  (forall x, get_uint_field huge a s = Ok x s -> get_uint_field huge a s' = Ok x s') /\
  (forall x, obj_quant_filler huge e a s = Ok x s -> obj_quant_filler huge e a s' = Ok x s') /\
  (forall x, data_quant_range huge e a s = Ok x s -> data_quant_range huge e a s' = Ok x s').
Proof.
  intros H LA (c & E & T) CT. destruct (later_view _ _ _ _ _ _ _ _ H LA) as [_ V]. destruct (V c E) as (c' & E' & T' & D).
  destruct (D t T CT) as [B Y]. clear V D. rewrite T in T'.
  assert (FB : forall i x, get_field a i s = Ok x s -> get_field a i s' = Ok x s').
  { unfold get_field, fields_at, read, bind, ret, fail. intros i x. rewrite E, E', Y. destruct (c_body c); cbn; try discriminate.
    destruct (nth_error _ i) as [[|]|]; cbn; congruence. }
  assert (FC : forall x, get_opt_field huge a s = Ok x s -> get_opt_field huge a s' = Ok x s').
  { unfold get_opt_field, has_opt_field, get_bit, get_field_count, get_type_at, get_field, fields_at, read, bind, ret, fail. intros x.
    rewrite !E, !E', B. destruct (bit_of huge c); [|congruence]. rewrite !E, !E', T, T', !E, !E', Y. destruct (c_body c); cbn; try discriminate.
    destruct (nth_error _ _) as [[|]|]; cbn; congruence. }
  split; [exists c'; auto|]. split; [|split; [|split; [|split; [|split]]]]; auto.
  - intros g x. unfold run_getter. destruct (getter_index (getters t) g); [apply FB|discriminate].
  - intros x. unfold get_annot, get_type_at, read, bind, ret. rewrite E, E', T, T'. destruct (type_is_axiom t || otype_eqb t OT_ANNOTATION); [apply FC|congruence].
  - unfold get_uint_field, has_opt_field, get_bit, get_field_count, get_type_at, fields_at, read, bind, ret, fail. intros x.
    rewrite ?E, ?E', ?T, ?T', ?E, ?E', ?B, ?E, ?E', ?Y. destruct (c_body c); cbn; try discriminate. destruct (nth_error _ _) as [[|]|]; cbn; congruence.
  - unfold obj_quant_filler, bind, ret. intros x. destruct (get_opt_field huge a s) as [o s1|] eqn:G; [|discriminate].
    intros Z. assert (s1 = s) as -> by (destruct o; inversion Z; auto). rewrite (FC o eq_refl). destruct o; inversion Z; auto.
  - unfold data_quant_range, bind, ret. intros x. destruct (get_opt_field huge a s) as [o s1|] eqn:G; [|discriminate].
    intros Z. assert (s1 = s) as -> by (destruct o; inversion Z; auto). rewrite (FC o eq_refl). destruct o; inversion Z; auto.
Qed.
End Top.
