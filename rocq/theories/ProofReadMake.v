(** What the calls of the reader return. *)

From Coq Require Import NArith List Bool Arith Lia Permutation.
From Coq Require Import ZifyBool ZifyNat ZifyN.
From Verif Require Import Bytes ModelTypes ModelObject ModelHeader SpecHeader ModelText ModelHeap SpecHeap SpecGet SpecIsolate.
From Verif Require Import ModelReadRules ModelReadOwn SpecRead.
From Verif Require Import ProofObject ProofHeader ProofHeap ProofHeapRun ProofHeapFun ProofHeapName ProofHeapComp ProofHeapTop ProofHeapLib ProofHeapEnd
  ProofHeapSame ProofHeapGet ProofIsolate ProofIsolateTop ProofReadCalls.
Import ListNotations.
Local Open Scope N_scope.

Section Make.
Variable huge : bool.
Variable fresh : N -> heap -> N.
Hypothesis fresh_ok : allocator fresh.
Variables (e : env) (vs : list vocab) (lib : list N).

Local Notation cs := (ProofHeap.cs huge).
Local Notation cell_of := (ProofHeap.cell_of huge).
Local Notation Inv := (ProofHeap.Inv huge).
Local Notation Hist := (ProofReadCalls.Hist huge fresh e vs lib).
Local Notation private := (ProofReadCalls.private huge).

(** The object at one address has a pointer to another one. *)
Definition points (s : state) (d a : N) : Prop := exists c, lookup (s_heap s) d = Some c /\ In a (pointers_of (c_body c)).

Section State.
Variables (s : state) (own : list N).
Hypothesis H : Hist s own.

Lemma plain k : expected huge e s k -> exists o, history huge fresh e vs lib s o /\ Permutation o own /\ room huge (lib ++ o) s k /\
  (allowed huge e lib own s k -> allowed huge e lib o s k).
Proof.
  intros X. pose proof (fits_room huge fresh fresh_ok e vs lib s own H k X) as RM. destruct H as (o & HH & P). exists o. split; [exact HH|].
  split; [exact P|]. split.
  - intros a. specialize (RM a). rewrite (references_perm _ _ s a (Permutation_app_head lib P)). exact RM.
  - apply allowed_perm. now apply Permutation_sym.
Qed.

Lemma make_string t b : expected huge e s (KString t b) ->
  exists a s', exec huge fresh e (KString t b) s = Ok (Some a) s' /\ has_type huge s' a OT_STRING.
Proof.
  intros X. destruct (plain _ X) as (o & HH & P & RM & _).
  destruct (run huge fresh fresh_ok e vs lib o s HH (KString t b) 1 (fun r A' => exists b, r = Some b /\ Inv e A' (b :: lib ++ o) [] /\ txt (a_h A') b = Some t)
    Logic.I Logic.I RM ltac:(cbn; lia))
    as (A & A' & r & E & I & EX & _ & U & K & a & -> & I' & HT).
  { intros A E I. cbn [exec]. unfold some. eapply ok_map; [apply (string_opt_ok huge fresh fresh_ok e A (lib ++ o) t b I)|].
    intros x A' (I' & Z & _) _. exists x. auto. }
  exists a, (cs A'). split; [exact EX|]. apply (type_iff huge e A' (a :: lib ++ o) []); auto. eapply type_of_str; eauto.
Qed.
Lemma make_empty : expected huge e s KEmpty ->
  exists a s', exec huge fresh e KEmpty s = Ok (Some a) s' /\ has_type huge s' a OT_STRING.
Proof.
  intros X. destruct (plain _ X) as (o & HH & P & RM & _).
  destruct (run huge fresh fresh_ok e vs lib o s HH KEmpty 1 (fun r A' => exists b, r = Some b /\ Inv e A' (b :: lib ++ o) [] /\ txt (a_h A') b = Some [])
    Logic.I Logic.I RM ltac:(cbn; lia))
    as (A & A' & r & E & I & EX & _ & U & K & a & -> & I' & HT).
  { intros A E I. cbn [exec]. unfold some. eapply ok_map; [apply (string_empty_ok huge e A (lib ++ o) I)|].
    intros x A' (_ & I' & Z & _) _. exists x. auto. }
  exists a, (cs A'). split; [exact EX|]. apply (type_iff huge e A' (a :: lib ++ o) []); auto. eapply type_of_str; eauto.
Qed.
Lemma make_iri_text t : expected huge e s (KIriText t) ->
  exists r s', exec huge fresh e (KIriText t) s = Ok r s' /\ forall a, r = Some a -> has_type huge s' a OT_IRI.
Proof.
  intros X. destruct (plain _ X) as (o & HH & P & RM & _). pose proof (same_iri_text huge fresh fresh_ok e vs lib o s HH t RM) as Z.
  destruct (iri_from_string t) as [[n m]|].
  - destruct Z as (b & s' & E & K & _). exists (Some b), s'. split; [exact E|]. intros a Q. injection Q as <-.
    apply (iri_type huge fresh fresh_ok e vs lib s' (b :: own)) with n m; [|exact K].
    exact (hist_next huge fresh fresh_ok e vs lib s own H (KIriText t) Logic.I Logic.I (fits_room huge fresh fresh_ok e vs lib s own H _ X) (Some b) s' E).
  - destruct Z as (s' & E). exists None, s'. split; [exact E|]. discriminate.
Qed.
Lemma make_iri p q : expected huge e s (KIri p q) -> allowed huge e lib own s (KIri p q) ->
  exists a s', exec huge fresh e (KIri p q) s = Ok (Some a) s' /\ has_type huge s' a OT_IRI.
Proof.
  intros X AL. destruct (plain _ X) as (o & HH & P & RM & AP). pose proof AL as ((_ & T1) & (_ & T2)).
  destruct (string_text huge fresh fresh_ok e vs lib s own H p T1) as (n & X1).
  destruct (string_text huge fresh fresh_ok e vs lib s own H q T2) as (m & X2).
  destruct (same_iri huge fresh fresh_ok e vs lib o s HH p q n m (AP AL) RM X1 X2) as (b & s' & E & K & _). exists b, s'. split; [exact E|].
  apply (iri_type huge fresh fresh_ok e vs lib s' (b :: own)) with (1 := hist_next huge fresh fresh_ok e vs lib s own H (KIri p q) AL Logic.I
    (fits_room huge fresh fresh_ok e vs lib s own H _ X) (Some b) s' E) in K. exact K.
Qed.
Lemma make_entity t i : expected huge e s (KEntity t i) -> allowed huge e lib own s (KEntity t i) ->
  exists a s', exec huge fresh e (KEntity t i) s = Ok (Some a) s'.
Proof.
  intros X AL. destruct (plain _ X) as (o & HH & P & RM & AP).
  destruct (same_entity huge fresh fresh_ok e vs lib o s HH t i (AP AL) RM) as (b & s' & E & K & _). eauto.
Qed.
(** A new vector. *)
Lemma make_vector : exists v s', exec huge fresh e (KVector []) s = Ok (Some v) s' /\ private s' v.
Proof.
  cbn [exec map]. unfold some, vector. cbn [mapm]. eexists. eexists. split; [reflexivity|].
  unfold ProofReadCalls.private. cbn [s_heap lookup]. rewrite N.eqb_refl. eexists. split; [reflexivity|].
  unfold type_of, ref_of. cbn [c_hdr]. destruct huge; now vm_compute.
Qed.
(** Appending to a private vector. *)
Lemma push_private v x : private s v -> exists c l s', lookup (s_heap s) v = Some c /\ c_body c = BVec l /\
  exec huge fresh e (KVectorPush v x) s = Ok None s' /\ s_heap s' = store (s_heap s) v (mkCell (c_hdr c) (BVec (l ++ [x]))).
Proof.
  intros (c & E & T & R). destruct (vector_items huge fresh fresh_ok e vs lib s own H v c E T) as (l & D).
  exists c, l. eexists. split; [exact E|]. split; [exact D|]. cbn [exec]. unfold none, vector_push, push_item, nonnull, ret, bind, read, write.
  rewrite E, D. rewrite E. split; reflexivity.
Qed.

(** A constructed object points to its arguments: a required one, and an optional vector that is not empty. *)
Lemma make_object t fs opt val : let k := KConstruct t fs opt val in
  expected huge e s k -> allowed huge e lib own s k ->
  exists a s', exec huge fresh e k s = Ok (Some a) s' /\
    (forall n, ctor_of t = Some (CPlain n) -> forall x, In (Some x) fs -> points s' a x) /\
    (forall n, ctor_of t = Some (CAnnot n) -> (forall x, In (Some x) fs -> points s' a x) /\
       forall v x l, opt = Some v -> has_items s v (x :: l) -> points s' a v) /\
    (ctor_of t = Some CHasKey -> (forall x, In (Some x) fs -> points s' a x) /\
       forall v x l, opt = Some v -> has_items s v (x :: l) -> points s' a v).
Proof.
  intros k X AL. destruct (plain _ X) as (o & HH & P & RM & AP).
  destruct (construct_top huge fresh fresh_ok e vs lib o s HH t fs opt val (AP AL) RM) as (A & A' & a & ES & EX & I & G & B).
  exists a, (cs A'). split; [exact EX|].
  assert (C : forall t b ks us x, comp (a_h A') a t b ks us -> In x ks -> points (cs A') a x).
  { intros t0 b ks us x (v & E & _ & _ & D) J. exists (cell_of v). split; [apply lk; eauto|]. cbn [ProofHeap.cell_of c_body]. rewrite D, pointers_of_comp. exact J. }
  assert (SM : forall (ks : list N) x, In (Some x) (map Some ks) -> In x ks).
  { intros ks x J. apply in_map_iff in J as (y & Q & J). congruence. }
  assert (SO : forall v x l y, opt = Some v -> has_items s v (x :: l) -> stored (a_h A) opt y -> y = Some v).
  { intros v x l y -> HI (m & V & ->). rewrite ES in HI. apply items_vecis in HI. destruct V as (u & E & D), HI as (u' & E' & D').
    assert (m = x :: l) as -> by congruence. reflexivity. }
  unfold built in B. split; [|split].
  - intros n CT x J. rewrite CT in B. destruct B as (ks & -> & CM). apply SM in J. eauto.
  - intros n CT. rewrite CT in B. destruct B as (ks & y & -> & S & CM). split.
    + intros x J. apply SM in J. eapply C; [exact CM|]. apply in_or_app. auto.
    + intros v x l Q HI. rewrite (SO v x l y Q HI S) in CM. eapply C; [exact CM|]. apply in_or_app. right. now left.
  - intros CT. rewrite CT in B. destruct B as (c & o1 & d1 & o' & d' & y & -> & S & CM & K1 & K2). split.
    + intros x [J|[J|[J|[]]]].
      * injection J as ->. eapply C; [exact CM|]. cbn. auto.
      * subst o1. cbn in K1. subst o'. eapply C; [exact CM|]. cbn. auto.
      * subst d1. cbn in K2. subst d'. eapply C; [exact CM|]. cbn. auto.
    + intros v x l Q HI. rewrite (SO v x l y Q HI S) in CM. eapply C; [exact CM|]. apply in_or_app. right. now left.
Qed.
Lemma make_chain sub super annot : let k := KChain sub super annot in
  expected huge e s k -> allowed huge e lib own s k ->
  exists a s', exec huge fresh e k s = Ok (Some a) s' /\ points s' a sub /\
    forall v x l, annot = Some v -> has_items s v (x :: l) -> points s' a v.
Proof.
  intros k X AL. destruct (plain _ X) as (o & HH & P & RM & AP). apply AP in AL. pose proof AL as ([US TS] & LU & AN).
  destruct (run huge fresh fresh_ok e vs lib o s HH k 3
    (fun r A' => exists a A A1 x, r = Some a /\ s = cs A /\ grow (a_h A) (a_h A1) /\ Inv e A (lib ++ o) [] /\ stored (a_h A1) annot x /\
       comp (a_h A') a OT_A_SUB_OBJ_PROP (isome x) ([sub; super] ++ olist x) []) AL Logic.I RM)
    as (A & A' & r & E & I & EX & _ & U & K & a & A0 & A1 & y & -> & E0 & G & I0 & ST & (w & EW & _ & _ & DW)).
  - cbn [k size]. lia.
  - intros A E I. cbn [exec k]. unfold some.
    assert (TS' : is_type (a_h A) sub OT_VECTOR) by (rewrite E in TS; apply (type_iff huge e A (lib ++ o) []) in TS; auto).
    assert (LS : live (a_h A) super) by (apply (usable_live huge e A (lib ++ o)); auto; now rewrite <- E).
    assert (AN' : match annot with Some v => is_type (a_h A) v OT_VECTOR | None => True end).
    { destruct annot; auto. destruct AN as [_ T]. rewrite E in T. apply (type_iff huge e A (lib ++ o) []) in T; auto. }
    eapply ok_map with (P := fun a A' => exists A1 x, grow (a_h A) (a_h A1) /\ stored (a_h A1) annot x /\
      comp (a_h A') a OT_A_SUB_OBJ_PROP (isome x) ([sub; super] ++ olist x) []).
    + unfold chain_axiom. apply (ok_weak huge A (lib ++ o) 3 (0 + (N.of_nat 2 + 1))); [lia|].
      apply (ok_bind huge A (lib ++ o) 0 _ _ _ _ _ (ordered_is huge e A (lib ++ o) sub I TS')). intros _ A1 (I1 & V1) K1.
      assert (G1 := keeps_grow huge e A (lib ++ o) _ I K1).
      change [Some sub; Some super] with (map Some [sub; super]).
      eapply ok_post; [apply (get_impl_annot_is huge fresh fresh_ok e A1 (lib ++ o) OT_A_SUB_OBJ_PROP [sub; super] annot 2); auto|].
      * repeat constructor; apply (grow_live huge e A (lib ++ o)); auto. eapply type_live; eauto.
      * destruct annot; auto. apply (grow_type huge e A (lib ++ o)); auto.
      * intros a A' (_ & _ & x & S & C) _. exists A1, x. auto.
    + intros a A' (A1 & x & G & S & C) _. exists a, A, A1, x. auto 10.
  - exists a, (cs A'). split; [exact EX|]. assert (PT : forall x, In x ([sub; super] ++ olist y) -> points (cs A') a x).
    { intros x J. exists (cell_of w). split; [apply lk; eauto|]. cbn [ProofHeap.cell_of c_body]. rewrite DW, pointers_of_comp. exact J. }
    split; [apply PT; now left|]. intros v x l -> HI. rewrite E0 in HI. apply items_vecis in HI. destruct HI as (u & EU & DU).
    destruct (G v u EU) as (u' & EU' & _ & UP); [apply (live_all _ _ _ _ _ _ I0 EU)|].
    destruct ST as (m & (z & EZ & DZ) & ->). rewrite EZ in EU'. injection EU' as <-. apply PT, in_or_app. right.
    destruct UP as (_ & _ & [UP|[(l1 & l2 & D1 & D2)|(p & q & D1 & _)]]).
    + assert (m = x :: l) as -> by congruence. now left.
    + assert (m = l1 ++ l2) as -> by congruence. assert (l1 = x :: l) as -> by congruence. now left.
    + congruence.
Qed.
(** Interning changes nothing but the string. *)
Lemma make_intern p : has_type huge s p OT_STRING -> expected huge e s (KIntern p) ->
  exists m s', string_intern huge e (Some p) s = Ok (Some m) s' /\ exec huge fresh e (KIntern p) s = Ok None s' /\ Hist s' own /\
    has_type huge s' m OT_STRING.
Proof.
  intros T X. destruct (string_text huge fresh fresh_ok e vs lib s own H p T) as (t & TX).
  assert (AL : allowed huge e lib own s (KIntern p)).
  { split; [|exact T]. apply (any_usable huge fresh fresh_ok e vs lib s own H). destruct T as (c & E & _). exists c. exact E. }
  destruct (plain _ X) as (o & HH & P & RM & AP).
  destruct (same_intern huge fresh fresh_ok e vs lib o s HH p t (AP AL) RM TX) as (b & s' & E & (TB & _) & _ & H').
  exists b, s'. split; [exact E|]. split; [cbn [exec]; unfold none, bind; now rewrite E|].
  assert (HS : Hist s' own) by (exists o; auto). split; [exact HS|].
  exact (text_string huge fresh fresh_ok e vs lib s' own HS b t TB).
Qed.
(** The reserved prefixes are strings of the library. *)
Lemma reserved_strings p n : In (p, n) (reserved vs) ->
  In p lib /\ has_type huge s p OT_STRING /\ In n lib /\ has_type huge s n OT_STRING.
Proof.
  destruct H as (o & HH & P). destruct (history_inv huge fresh fresh_ok _ _ _ _ _ HH) as (A & X & L & -> & EL & I & LB).
  destruct LB as (G & V & _ & EQ & D & _). intros J.
  assert (exists v, In v vs /\ p = v_prefix v /\ n = v_ns v) as (v & JV & -> & ->).
  { unfold reserved in J. destruct vs as [|a [|b [|c [|d [|f [|g [|]]]]]]]; try (destruct J; fail).
    cbn in J. destruct J as [J|[J|[J|[J|[]]]]]; injection J as <- <-; eexists; (split; [|split; reflexivity]); cbn; auto 8. }
  rewrite <- V in JV. apply in_map_iff in JV as ([[g v'] T] & <- & JX). cbn [fst snd].
  assert (M : forall q d, In (q, d) (vpairs (g, v', T)) -> In (q, d) L).
  { intros q d Q. rewrite EQ. right. unfold vall. apply in_flat_map. eauto. }
  assert (S : forall q t, In (q, DS t) (vpairs (g, v', T)) -> In q lib /\ has_type huge (cs A) q OT_STRING).
  { intros q t Q. apply M in Q. split; [rewrite EL; change q with (fst (q, DS t)); now apply in_map|].
    unfold descs in D. rewrite Forall_forall in D. specialize (D _ Q). cbn in D.
    apply (type_iff huge e A (lib ++ o) []); auto. eapply type_of_str; eauto. }
  destruct (S (v_prefix v') (g_prefix g)) as (A1 & A2); [cbn; auto|]. destruct (S (v_ns v') (g_ns g)) as (A3 & A4); [cbn; auto|]. auto.
Qed.
End State.
End Make.
