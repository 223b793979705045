(** What holds in every history, and the end of the library. *)

From Coq Require Import NArith List Bool Arith Lia Permutation.
From Coq Require Import ZifyBool ZifyNat ZifyN.
From Verif Require Import Bytes ModelTypes ModelObject ModelHeader SpecHeader ModelText ModelHeap SpecHeap.
From Verif Require Import ProofObject ProofHeader ProofHeap ProofHeapRun ProofHeapFun ProofHeapName ProofHeapComp ProofHeapSeen ProofHeapOnto ProofHeapTop ProofHeapLib.
Import ListNotations.
Local Open Scope N_scope.

Section End_.
Variable huge : bool.
Variable fresh : N -> heap -> N.
Hypothesis fresh_ok : allocator fresh.

Local Notation cs := (ProofHeap.cs huge).
Local Notation cell_of := (ProofHeap.cell_of huge).
Local Notation Inv := (ProofHeap.Inv huge).

(** * Calls *)

Lemma init_ok : exists e vs s, lib_init huge fresh s_zero = Ok (e, vs) s.
Proof. destruct (lib_init_ok huge fresh fresh_ok) as (e & vs & A & X & L & E & _). eauto. Qed.

Section History.
Variables (e : env) (vs : list vocab) (lib own : list N) (s : state).
Hypothesis H : exists A X L, s = cs A /\ lib = map fst L /\ Inv e A (lib ++ own) [] /\ Lb e vs X (a_h A) L.

Lemma up_grown v w : up v w -> grown (o_d v) (o_d w).
Proof.
  intros (_ & _ & [U|[(l & l' & U1 & U2)|(o & p & U1 & U2 & U3)]]).
  - rewrite U. constructor.
  - rewrite U1, U2. constructor.
  - rewrite U1, U2 in *. now constructor.
Qed.
Lemma still_rch A A' R r a : Inv e A' R [] -> still (cs A) (cs A') r a -> rch (a_h A') r a.
Proof.
  intros I' ST. remember (cs A) as s1. remember (cs A') as s2. induction ST as [|r c c' b d E E' J J' ST IH]; [constructor|]. subst s1 s2.
  apply rch_step with b; auto. apply lk in E' as (v & E' & ->). exists v. split; auto.
  rewrite kids_live; auto. apply (live_all _ _ _ _ _ _ I' E').
Qed.
Lemma call_ok_at k : allowed huge e lib own s k -> SpecHeap.no_cycle s k -> room huge (lib ++ own) s k ->
  exists r s', exec huge fresh e k s = Ok r s' /\
  forall a c, usable (lib ++ after k None own) s a ->
    (removes k = true -> exists r, In r (lib ++ own) /\ still s s' r a) -> lookup (s_heap s) a = Some c ->
    exists c', lookup (s_heap s') a = Some c' /\ type_of huge c' = type_of huge c /\
      (grown (c_body c) (c_body c') \/ target s k a /\ edited (c_body c) (c_body c')).
Proof.
  intros AL NC RM. destruct H as (A & X & L & -> & EL & I & LB).
  assert (LE : In (e_empty e) lib). { subst lib. destruct LB as (_ & _ & _ & -> & _). now left. }
  assert (LS : In (e_string e) lib) by (subst lib; apply LB).
  destruct (exec_ok huge fresh fresh_ok e lib LE LS A own k I (lib_std e vs X (a_h A) L LB) AL NC 0) as (r' & A' & EX' & _ & V & RS).
  { rewrite N.add_0_r. apply (room_iff huge e A (lib ++ own)); auto. }
  exists r', (cs A'). split; auto. intros a c (r & J & RE) RV E. apply lk in E as (v & E & ->).
  assert (Q : exists w, lookup (a_h A') a = Some w /\ o_t w = o_t v /\ (grown (o_d v) (o_d w) \/ target (cs A) k a /\ edited (o_d v) (o_d w))).
  { unfold frame in V. destruct (removes k) eqn:M.
    - destruct (RV eq_refl) as (r1 & J1 & ST).
      assert (I' : Inv e A' (lib ++ own) []).
      { unfold result in RS. rewrite after_removes in RS by auto. now rewrite (removes_none huge fresh e k _ _ _ M EX') in RS. }
      destruct (use_live _ _ A' (lib ++ own) [] a I') as (w & F & _).
      { exists r1. split; auto. eapply still_rch; eauto. }
      exists w. split; auto. destruct (V a w F) as (v' & E' & T & _ & D). rewrite E in E'. inversion E'; subst v'. split; auto.
      destruct D as [D|D]; [left; rewrite D; constructor|auto].
    - apply (reach_rch huge e A (lib ++ own)) in RE as (RC & _ & _); auto.
      destruct (V a (ex_intro _ r (conj J RC))) as (v' & w & F & G & P & U). rewrite E in F. inversion F; subst v'.
      exists w. split; auto. split; [apply U|]. left. now apply up_grown. }
  destruct Q as (w & G & T & D). exists (cell_of w). split; [apply lk; eauto|]. split; [|exact D].
  destruct (i_fit _ _ _ _ _ I a v E) as [F1 _]. destruct (i_fit _ _ _ _ _ RS a w G) as [F2 _].
  rewrite !type_cell by auto. now rewrite T.
Qed.

Lemma counts_ok_at a c : lookup (s_heap s) a = Some c -> ref_of huge c = N.of_nat (references (lib ++ own) s a) /\ (0 < references (lib ++ own) s a)%nat.
Proof.
  destruct H as (A & X & L & -> & EL & I & LB). intros E.
  apply lk in E as (v & E & ->). destruct (i_fit _ _ _ _ _ I a v E) as [F _]. rewrite ref_cell by auto.
  pose proof (references_iff huge e A (lib ++ own) a v I E) as N. split; auto. pose proof (live_all _ _ _ _ _ _ I E). lia.
Qed.
Lemma referenced_alive_at a : (0 < references (lib ++ own) s a)%nat -> alive s a.
Proof.
  destruct H as (A & X & L & -> & EL & I & LB). intros N.
  apply alive_live. unfold live. destruct (lookup (a_h A) a) as [v|] eqn:E; eauto.
  pose proof (i_dead _ _ _ _ _ I a E) as D. unfold references in N. rewrite (pointers_to_cs huge e A _ a I) in N. lia.
Qed.
Lemma no_leak_at a : alive s a -> usable (lib ++ own) s a.
Proof.
  destruct H as (A & X & L & -> & EL & I & LB). intros N.
  apply (usable_live huge e A); auto. now apply alive_live in N.
Qed.

(** * Interning *)

Lemma iri_unique_at a b n m : iri_key s a n m -> iri_key s b n m -> a = b.
Proof.
  destruct H as (A & X & L & -> & EL & I & LB).
  assert (C : forall z, iri_key (cs A) z n m -> exists v i r, lookup (a_h A) z = Some v /\ o_d v = BIri i r /\
    txt (a_h A) i = Some n /\ txt (a_h A) r = Some m /\ ns_ok e (a_h A) i /\ ident (a_h A) v = Some (TIri, KeyI i m)).
  { intros z (c & i & r & E & D & T1 & T2). apply lk in E as (v & E & ->). rewrite text_iff in T1, T2. cbn in D.
    exists v, i, r. repeat (split; auto).
    - pose proof (i_kids _ _ _ _ _ I z v E (live_all _ _ _ _ _ _ I E)) as K. unfold kids_ok in K. rewrite D in K. apply K.
    - unfold ident. rewrite D, T2. reflexivity. }
  intros HA HB. destruct (C a HA) as (v & i & r & E & D & T1 & T2 & NS & ID).
  destruct (C b HB) as (w & j & q & F & G & T3 & T4 & NS2 & ID2).
  assert (i = j) as ->.
  { destruct n as [|x n].
    - assert (Z : forall z, txt (a_h A) z = Some [] -> ns_ok e (a_h A) z -> z = e_empty e).
      { intros z T [Z|(u & Z & Z1 & Z2)]; auto. exfalso.
        unfold txt in T. rewrite Z in T. destruct (o_d u) eqn:DU; try discriminate. inversion T; subst.
        pose proof (i_kids _ _ _ _ _ I z u Z (live_all _ _ _ _ _ _ I Z)) as K. unfold kids_ok in K. rewrite DU in K. now apply K. }
      rewrite (Z i T1 NS), (Z j T3 NS2). reflexivity.
    - apply (ns_same huge e A (lib ++ own) i j (x :: n)); auto. discriminate. }
  apply (i_uniq _ _ _ _ _ I a b v w (TIri, KeyI j m)); auto; eapply live_all; eauto.
Qed.
Lemma entity_unique_at a b t i : entity_key huge s a t i -> entity_key huge s b t i -> a = b.
Proof.
  destruct H as (A & X & L & -> & EL & I & LB).
  assert (C : forall z, entity_key huge (cs A) z t i -> exists v, lookup (a_h A) z = Some v /\ ident (a_h A) v = Some (TEnt, KeyE t i)).
  { intros z (c & E & T & D). apply lk in E as (v & E & ->). cbn in D. exists v. split; auto.
    destruct (i_fit _ _ _ _ _ I z v E) as [F _]. rewrite type_cell in T by auto. inversion T; subst t. unfold ident. now rewrite D. }
  intros HA HB. destruct (C a HA) as (v & E & D). destruct (C b HB) as (w & F & G).
  apply (i_uniq _ _ _ _ _ I a b v w (TEnt, KeyE t i)); auto; eapply live_all; eauto.
Qed.
Lemma anon_unique_at a b t : anon_key s a t -> anon_key s b t -> a = b.
Proof.
  destruct H as (A & X & L & -> & EL & I & LB).
  assert (C : forall z, anon_key (cs A) z t -> exists v, lookup (a_h A) z = Some v /\ ident (a_h A) v = Some (TAno, KeyA t)).
  { intros z (c & i & E & D & T). apply lk in E as (v & E & ->). cbn in D. rewrite text_iff in T. exists v. split; auto.
    unfold ident. now rewrite D, T. }
  intros HA HB. destruct (C a HA) as (v & E & D). destruct (C b HB) as (w & F & G).
  apply (i_uniq _ _ _ _ _ I a b v w (TAno, KeyA t)); auto; eapply live_all; eauto.
Qed.
Lemma string_unique_at a b t : interned huge e s a t -> interned huge e s b t -> a = b.
Proof.
  destruct H as (A & X & L & -> & EL & I & LB).
  assert (C : forall z, interned huge e (cs A) z t -> txt (a_h A) z = Some t /\
    (z = e_empty e \/ exists v, lookup (a_h A) z = Some v /\ ident (a_h A) v = Some (TStr, KeyS t) /\ t <> [])).
  { intros z (T & Z). rewrite text_iff in T. split; auto. destruct Z as [->|(c & E & B)]; auto. right.
    apply lk in E as (v & E & ->). destruct (i_fit _ _ _ _ _ I z v E) as [F _]. rewrite bit_cell in B by auto.
    exists v. split; auto. unfold txt in T. rewrite E in T. unfold ident. destruct (o_d v) eqn:D; try discriminate. rewrite B.
    inversion T; subst. split; auto.
    pose proof (i_kids _ _ _ _ _ I z v E (live_all _ _ _ _ _ _ I E)) as K. unfold kids_ok in K. rewrite D in K. auto. }
  intros HA HB. destruct (C a HA) as (T1 & [->|(v & E & D & NE)]), (C b HB) as (T2 & [->|(w & F & G & NE')]); auto.
  - rewrite (empty_txt huge e _ _ _ I) in T1. congruence.
  - rewrite (empty_txt huge e _ _ _ I) in T2. congruence.
  - apply (i_uniq _ _ _ _ _ I a b v w (TStr, KeyS t)); auto; eapply live_all; eauto.
Qed.
End History.

Section Reached.
Variables (e : env) (vs : list vocab) (lib own : list N) (s : state).
Hypothesis H : history huge fresh e vs lib s own.

Lemma call_ok k : allowed huge e lib own s k -> SpecHeap.no_cycle s k -> room huge (lib ++ own) s k ->
  exists r s', exec huge fresh e k s = Ok r s' /\
  forall a c, usable (lib ++ after k None own) s a ->
    (removes k = true -> exists r, In r (lib ++ own) /\ still s s' r a) -> lookup (s_heap s) a = Some c ->
    exists c', lookup (s_heap s') a = Some c' /\ type_of huge c' = type_of huge c /\
      (grown (c_body c) (c_body c') \/ target s k a /\ edited (c_body c) (c_body c')).
Proof. exact (call_ok_at e vs lib own s (history_inv huge fresh fresh_ok _ _ _ _ _ H) k). Qed.
Lemma counts_ok a c : lookup (s_heap s) a = Some c -> ref_of huge c = N.of_nat (references (lib ++ own) s a) /\ (0 < references (lib ++ own) s a)%nat.
Proof. exact (counts_ok_at e vs lib own s (history_inv huge fresh fresh_ok _ _ _ _ _ H) a c). Qed.
Lemma referenced_alive a : (0 < references (lib ++ own) s a)%nat -> alive s a.
Proof. exact (referenced_alive_at e vs lib own s (history_inv huge fresh fresh_ok _ _ _ _ _ H) a). Qed.
Lemma no_leak a : alive s a -> usable (lib ++ own) s a.
Proof. exact (no_leak_at e vs lib own s (history_inv huge fresh fresh_ok _ _ _ _ _ H) a). Qed.
Lemma iri_unique a b n m : iri_key s a n m -> iri_key s b n m -> a = b.
Proof. exact (iri_unique_at e vs lib own s (history_inv huge fresh fresh_ok _ _ _ _ _ H) a b n m). Qed.
Lemma entity_unique a b t i : entity_key huge s a t i -> entity_key huge s b t i -> a = b.
Proof. exact (entity_unique_at e vs lib own s (history_inv huge fresh fresh_ok _ _ _ _ _ H) a b t i). Qed.
Lemma anon_unique a b t : anon_key s a t -> anon_key s b t -> a = b.
Proof. exact (anon_unique_at e vs lib own s (history_inv huge fresh fresh_ok _ _ _ _ _ H) a b t). Qed.
Lemma string_unique a b t : interned huge e s a t -> interned huge e s b t -> a = b.
Proof. exact (string_unique_at e vs lib own s (history_inv huge fresh fresh_ok _ _ _ _ _ H) a b t). Qed.
End Reached.

(** * End *)

(** Frees a list of distinct objects. *)
Definition freed (l : list N) (A A' : ast) : Prop :=
  NoDup (map fst (a_h A')) /\ (forall T, atab T A' = atab T A) /\
  forall x, lookup (a_h A') x = if in_dec N.eq_dec x l then None else lookup (a_h A) x.
Lemma freed_nil A : NoDup (map fst (a_h A)) -> freed [] A A.
Proof. intros N. split; auto. Qed.
Lemma freed_app l m A B C : freed l A B -> freed m B C -> freed (l ++ m) A C.
Proof.
  intros (N1 & T1 & L1) (N2 & T2 & L2). split; auto. split; [intros T; now rewrite T2, T1|].
  intros x. rewrite L2, L1. destruct (in_dec N.eq_dec x m) as [J|J], (in_dec N.eq_dec x l) as [K|K], (in_dec N.eq_dec x (l ++ m)) as [Q|Q]; auto;
    exfalso; rewrite in_app_iff in Q; tauto.
Qed.
Lemma freed_live l A B x : freed l A B -> ~ In x l -> live (a_h A) x -> live (a_h B) x.
Proof. intros (_ & _ & L) J (v & E). exists v. rewrite L. now destruct (in_dec N.eq_dec x l). Qed.
Lemma freed_rem l A B i r : freed l A B -> ~ In i l -> rem_is (a_h A) i r -> rem_is (a_h B) i r.
Proof. intros (_ & _ & L) J (v & ns & E & D). exists v, ns. rewrite L. split; auto. now destruct (in_dec N.eq_dec i l). Qed.

Lemma free_one A a : NoDup (map fst (a_h A)) -> live (a_h A) a -> exists A', free a (cs A) = Ok tt (cs A') /\ freed [a] A A'.
Proof.
  intros N (v & E). exists (set_h A (drop (a_h A) a)). split; [now apply free_cs with v|]. split; [now apply drop_nodup|].
  split; [intros T; apply atab_set_h|]. intros x. cbn [set_h a_h]. rewrite lookup_drop by auto.
  destruct (a =? x) eqn:Q, (in_dec N.eq_dec x [a]) as [J|J]; auto.
  - apply N.eqb_eq in Q. subst. exfalso. apply J. now left.
  - destruct J as [<-|[]]. rewrite N.eqb_refl in Q. discriminate.
Qed.

(** A sequence of actions that free known objects. *)
Definition frees (m : act unit) (l : list N) (A : ast) : Prop := exists A', m (cs A) = Ok tt (cs A') /\ freed l A A'.
Lemma frees_bind m m' l l' A : frees m l A -> (forall A', freed l A A' -> frees m' l' A') -> frees (bind m (fun _ => m')) (l ++ l') A.
Proof.
  intros (B & E & F) G. destruct (G B F) as (C & E' & F'). exists C. split; [now rewrite (bind_ok _ _ _ _ _ E)|].
  eapply freed_app; eauto.
Qed.
Lemma frees_each {X} (f : X -> act unit) (g : X -> list N) (P : X -> ast -> Prop) xs :
  (forall x A, NoDup (map fst (a_h A)) -> P x A -> frees (f x) (g x) A) ->
  (forall x l A B, freed l A B -> (forall z, In z (g x) -> ~ In z l) -> P x A -> P x B) ->
  forall A, NoDup (map fst (a_h A)) -> NoDup (flat_map g xs) -> Forall (fun x => P x A) xs -> frees (each f xs) (flat_map g xs) A.
Proof.
  intros S K. induction xs as [|x xs IH]; intros A N ND F.
  - exists A. split; [reflexivity|]. now apply freed_nil.
  - inversion F as [|? ? F1 F2]; subst. cbn [flat_map] in ND. 
    assert (D : forall z, In z (g x) -> ~ In z (flat_map g xs)).
    { revert ND. clear. generalize (flat_map g xs). intros m. induction (g x) as [|a l IH]; cbn; [easy|]. intros D. inversion D as [|? ? D1 D2]; subst.
      intros z [<-|J]; [|auto]. intros Q. apply D1, in_or_app. auto. }
    assert (ND' : NoDup (flat_map g xs)).
    { revert ND. clear. induction (g x); cbn; auto. intros D. inversion D; auto. }
    cbn [each]. apply frees_bind; [auto|]. intros B FB. apply IH; auto; [apply FB|].
    rewrite Forall_forall in *. intros y J. apply (K y (g x) A B); auto. intros z Z Q. apply (D z); auto. apply in_flat_map. eauto.
Qed.

Definition qfree (q : quad) : list N := [q_rem q; q_iri q].
Definition vfree (x : vdesc) : list N :=
  let '(g, v, T) := x in v_ns v :: v_prefix v :: flat_map qfree T ++ map snd (v_ents v).

Lemma nodup_app_r (l m : list N) : NoDup (l ++ m) -> NoDup m.
Proof. induction l; cbn; auto. intros D. inversion D; auto. Qed.
Lemma nodup_app_l (l m : list N) : NoDup (l ++ m) -> NoDup l.
Proof. induction l; cbn; [constructor|]. intros D. inversion D as [|? ? D1 D2]; subst. constructor; auto. intros J. apply D1, in_or_app. auto. Qed.
Lemma nodup_app_d (l m : list N) : NoDup (l ++ m) -> forall z, In z l -> ~ In z m.
Proof.
  induction l as [|a l IH]; cbn; [easy|]. intros D. inversion D as [|? ? D1 D2]; subst. intros z [<-|J]; [|auto].
  intros Q. apply D1, in_or_app. auto.
Qed.
Lemma each_map {X Y} (f : Y -> act unit) (g : X -> Y) l s : each f (map g l) s = each (fun x => f (g x)) l s.
Proof.
  revert s. induction l as [|x l IH]; intros s; [reflexivity|]. cbn [map each]. unfold bind. destruct (f (g x) s); auto.
Qed.

Lemma vocab_free_ok x A : vok (a_h A) x -> NoDup (map fst (a_h A)) -> NoDup (vfree x) -> Forall (live (a_h A)) (vfree x) ->
  frees (vocab_free (snd (fst x))) (vfree x) A.
Proof.
  destruct x as [[g v] T]. intros (_ & HI & _ & RS) N ND LV. unfold vocab_free. cbn [snd fst vfree] in *.
  inversion LV as [|? ? L1 LV1]; subst. inversion LV1 as [|? ? L2 LV2]; subst.
  inversion ND as [|? ? N1 ND1]; subst. inversion ND1 as [|? ? N2 ND2]; subst.
  apply Forall_app in LV2 as [L3 L4].
  change (v_ns v :: v_prefix v :: flat_map qfree T ++ map snd (v_ents v))
    with ([v_ns v] ++ [v_prefix v] ++ flat_map qfree T ++ map snd (v_ents v)).
  apply frees_bind; [now apply free_one|]. intros B FB.
  apply frees_bind.
  { apply free_one; [apply FB|]. apply (freed_live _ A B _ FB); auto. intros [Q|[]]. apply N1. left. auto. }
  intros C FC. assert (FAC := freed_app _ _ _ _ _ FB FC). cbn [app] in FAC.
  assert (OUT : forall z, In z (flat_map qfree T ++ map snd (v_ents v)) -> ~ In z [v_ns v; v_prefix v]).
  { intros z Z [<-|[<-|[]]]; [apply N1; now right|auto]. }
  apply frees_bind.
  - assert (E : frees (each (fun q => p <- iri_at (q_iri q);; free (snd p);; free (q_iri q))%act T) (flat_map qfree T) C).
    { apply (frees_each _ qfree (fun q A => live (a_h A) (q_rem q) /\ rem_is (a_h A) (q_iri q) (q_rem q) /\ q_rem q <> q_iri q)).
      - intros q D ND' (P1 & (w & ns & E & DW) & P3). unfold frees. rewrite (bind_ok _ _ _ _ _ (iri_cs _ _ _ _ _ _ E DW)). cbn [snd].
        apply (frees_bind (free (q_rem q)) (free (q_iri q)) [q_rem q] [q_iri q]); [now apply free_one|].
        intros D' FD. apply free_one; [apply FD|]. apply (freed_live _ D D' _ FD); [|exists w; auto]. intros [Q|[]]. auto.
      - intros q l D D' FD OUTq (P1 & P2 & P3). split; [|split; auto].
        + apply (freed_live _ D D' _ FD); auto. apply OUTq. now left.
        + apply (freed_rem _ D D' _ _ FD); auto. apply OUTq. right. now left.
      - apply FC.
      - eapply nodup_app_l; eauto.
      - apply nodup_app_l in ND2. unfold rems_ok in RS. rewrite Forall_forall in *. intros q Q.
        assert (QI : forall z, In z (qfree q) -> In z (flat_map qfree T)) by (intros z Z; apply in_flat_map; eauto).
        split; [|split].
        + apply (freed_live _ A C _ FAC); [apply OUT, in_or_app; left; apply QI; now left|]. apply L3, QI. now left.
        + apply (freed_rem _ A C _ _ FAC); [apply OUT, in_or_app; left; apply QI; right; now left|]. apply RS. auto.
        + clear -ND2 Q. induction T as [|p T IH]; [easy|]. cbn in ND2. inversion ND2 as [|? ? M1 M2]; subst. inversion M2 as [|? ? M3 M4]; subst.
          destruct Q as [->|Q]; [|auto]. intros X. apply M1. rewrite X. now left. }
    destruct E as (D & E & FD). exists D. split; auto. rewrite <- HI, each_map. exact E.
  - intros D FD. assert (FAD := freed_app _ _ _ _ _ FAC FD).
    assert (E : frees (each (fun x => free (snd x)) (v_ents v)) (flat_map (fun x => [snd x]) (v_ents v)) D).
    { apply (frees_each _ (fun x => [snd x]) (fun x A => live (a_h A) (snd x))).
      - intros y D1 N' L. now apply free_one.
      - intros y l D1 D2 F12 O L. apply (freed_live _ D1 D2 _ F12); auto. apply O. now left.
      - apply FD.
      - apply nodup_app_r in ND2. rewrite flat_map_concat_map. revert ND2. clear. induction (v_ents v) as [|y l IH]; cbn; auto.
        intros N. inversion N as [|? ? N1 N2]; subst. constructor; auto. rewrite <- flat_map_concat_map. intros J. apply N1.
        apply in_flat_map in J as (z & J & [<-|[]]). now apply in_map.
      - rewrite Forall_forall in *. intros y J. assert (In (snd y) (map snd (v_ents v))) by now apply in_map.
        apply (freed_live _ A D _ FAD); auto. intros Q. apply in_app_or in Q as [Q|Q].
        + revert Q. apply OUT, in_or_app. auto.
        + apply (nodup_app_d _ _ ND2 _ Q). auto. }
    replace (map snd (v_ents v)) with (flat_map (fun x => [snd x]) (v_ents v)); auto.
Qed.

Lemma vfree_in x z : In z (vfree x) <-> In z (map fst (vpairs x)).
Proof.
  destruct x as [[g v] T]. cbn. rewrite map_app, !in_app_iff. unfold epairs. rewrite map_map. cbn.
  assert (In z (flat_map qfree T) <-> In z (map fst (qpairs (g_ns g) T))) as ->; [|reflexivity].
  induction T as [|q T IH]; [reflexivity|]. cbn. rewrite IH. unfold qpairs. tauto.
Qed.
Lemma vfree_length x : List.length (vfree x) = List.length (map fst (vpairs x)).
Proof.
  destruct x as [[g v] T]. cbn [vfree vpairs map fst List.length]. rewrite map_app, !app_length. unfold epairs. rewrite !map_map, !map_length.
  do 3 f_equal. induction T as [|q T IH]; [reflexivity|]. cbn. rewrite IH. unfold qpairs. reflexivity.
Qed.
Lemma vall_free X : (forall z, In z (flat_map vfree X) <-> In z (map fst (vall X))) /\
  List.length (flat_map vfree X) = List.length (map fst (vall X)).
Proof.
  induction X as [|x X [IH1 IH2]]; [now split|]. cbn [vall flat_map]. fold (vall X). split.
  - intros z. rewrite map_app, !in_app_iff, IH1, vfree_in. reflexivity.
  - rewrite map_app, !app_length, IH2, vfree_length. reflexivity.
Qed.
Lemma nodup_same (l m : list N) : NoDup m -> (forall z, In z l <-> In z m) -> List.length l = List.length m -> NoDup l.
Proof. intros N I L. eapply NoDup_incl_NoDup; [exact N|lia|]. intros z Z. now apply I. Qed.

Lemma descs_nodup h L : descs h L -> NoDup (map snd L) -> NoDup (map fst L).
Proof.
  unfold descs. induction L as [|[x d] L IH]; cbn; [constructor|]. intros F N. inversion F as [|? ? F1 F2]; subst. inversion N as [|? ? N1 N2]; subst.
  constructor; auto. intros J. apply N1. apply in_map_iff in J as ([y d'] & <- & J). rewrite Forall_forall in F2. specialize (F2 _ J).
  cbn in *. rewrite (is_desc_fun _ _ _ _ F1 F2). change d' with (snd (y, d')). now apply in_map.
Qed.

Lemma shutdown_at e vs lib s : (exists A X L, s = cs A /\ lib = map fst L /\ Inv e A (lib ++ []) [] /\ Lb e vs X (a_h A) L) ->
  (forall a, alive s a -> In a lib) /\
  exists s', lib_deinit huge e vs s = Ok tt s' /\ s_heap s' = [] /\ forall T, table T s' = [].
Proof.
  intros H. destruct H as (A & X & L & -> & EL & I & LB).
  rewrite app_nil_r in I. assert (ALL : forall a, live (a_h A) a -> In a lib).
  { intros a LA. apply (closed_all huge e A); auto. subst lib. apply LB. }
  split; [intros a LA; apply ALL; now apply alive_live in LA|].
  assert (MS := lib_descs e vs X (a_h A) L LB).
  destruct LB as (_ & VS & VO & LL & D & C & _).
  assert (ND : NoDup lib). { subst lib. apply (descs_nodup (a_h A)); auto. rewrite MS. exact all_nodup. }
  (* the empty string has one reference *)
  assert (DD : descs (a_h A) L) by exact D. unfold descs in DD. rewrite Forall_forall in DD.
  assert (TE : txt (a_h A) (e_empty e) = Some []) by exact (empty_txt huge e _ _ _ I).
  assert (NE : ~ In (e_empty e) (map fst (vall X))).
  { subst L lib. inversion ND; auto. }
  assert (Z : indeg (e_empty e) (a_h A) = O).
  { destruct (indeg (e_empty e) (a_h A)) eqn:Q; auto. exfalso.
    destruct (indeg_edge (a_h A) (e_empty e) (i_keys _ _ _ _ _ I)) as (y & w & E & K); [lia|].
    assert (In y lib) as J by (apply ALL; exists w; auto). rewrite EL in J. apply in_map_iff in J as ([y' d] & <- & J).
    specialize (DD _ J). cbn [fst snd] in *. rewrite kids_live in K by (apply (live_all _ _ _ _ _ _ I E)).
    assert (In d all_descs) as JD by (rewrite <- MS; change d with (snd (y', d)); now apply in_map).
    destruct (descs_texts d JD) as [->|DT].
    - cbn in DD. unfold txt in DD. rewrite E in DD. destruct (o_d w); try discriminate. destruct K.
    - destruct d as [t|n' m|t n' m].
      + cbn in DD. unfold txt in DD. rewrite E in DD. destruct (o_d w); try discriminate. destruct K.
      + destruct DD as (w' & ns & rem & E' & DW & T1 & T2). rewrite E in E'. inversion E'; subst w'. rewrite DW in K.
        destruct DT as [DT1 DT2]. destruct K as [->|[->|[]]]; congruence.
      + destruct DD as (i & (w' & E' & _ & DW) & (u & ns & rem & EU & DU & _)). rewrite E in E'. inversion E'; subst w'. rewrite DW in K.
        destruct K as [->|[]]. unfold txt in TE. rewrite EU, DU in TE. discriminate. }
  destruct (i_empty _ _ _ _ _ I) as (v & E & T & B & DV & J).
  assert (O1 : o_n v = 1).
  { rewrite (i_ref _ _ _ _ _ I _ v E), Z. cbn [rels flat_map]. rewrite count_nil.
    assert (count (e_empty e) lib = 1)%nat by (apply NoDup_count_occ'; auto).
    subst lib. lia. }
  set (A1 := set_atab TIri [] (set_atab TEnt [] (set_atab TAno [] A))).
  assert (H1 : a_h A1 = a_h A) by reflexivity.
  assert (FV : ProofHeap.fitv huge v) by apply (i_fit _ _ _ _ _ I _ v E).
  assert (RL : release huge (Some (e_empty e)) (cs A1) = Ok tt (cs (set_h A1 (drop (store (a_h A) (e_empty e) (with_n v 0)) (e_empty e))))).
  { unfold release.
    assert (exists k, S (weight huge (s_heap (cs A1))) = S (S k)) as (k & ->).
    { change (s_heap (cs A1)) with (amap cell_of (a_h A)). rewrite weight_cs.
      - pose proof (total_lookup wt (a_h A) _ v E). unfold wt in *. exists (total wt (a_h A) - 1)%nat. unfold wt. lia.
      - intros a w Q. apply in_lookup in Q; [|apply I]. apply (i_fit _ _ _ _ _ I _ w Q). }
    cbn [release_loop]. rewrite (bind_ok _ _ _ _ _ (decr_cs huge A1 (e_empty e) v E FV ltac:(lia))).
    rewrite O1. change (1 - 1) with 0. change (0 =? 0) with true. cbv iota.
    set (A2 := set_h A1 (store (a_h A1) (e_empty e) (with_n v 0))).
    assert (E2 : lookup (a_h A2) (e_empty e) = Some (with_n v 0)).
    { cbn [A2 set_h a_h]. rewrite lookup_store, H1, E. now rewrite N.eqb_refl. }
    assert (F2 : ProofHeap.fitv huge (with_n v 0)) by (unfold ProofHeap.fitv; cbn; lia).
    assert (DP : dispose huge (e_empty e) (cs A2) = Ok [Fin (e_empty e)] (cs A2)).
    { unfold dispose. rewrite (bind_ok _ _ _ _ _ (type_cs huge A2 _ _ E2 F2)). cbn [with_n o_t]. rewrite T.
      rewrite (bind_ok _ _ _ _ _ (bit_cs huge A2 _ _ E2 F2)). cbn [with_n o_b]. rewrite B.
      unfold bind at 1. cbn [ret]. rewrite (bind_ok _ _ _ _ _ (text_cs huge A2 _ _ [] E2 DV)). reflexivity. }
    rewrite (bind_ok _ _ _ _ _ DP). cbn [app release_loop].
    rewrite (bind_ok _ _ _ _ _ (free_cs huge A2 _ _ E2)). now destruct k. }
  set (A3 := set_h A1 (drop (store (a_h A) (e_empty e) (with_n v 0)) (e_empty e))) in *.
  set (A4 := set_atab TStr [] A3).
  assert (K4 : NoDup (map fst (a_h A4))).
  { cbn. apply drop_nodup. rewrite store_keys. apply I. }
  assert (L4 : forall x, lookup (a_h A4) x = if e_empty e =? x then None else lookup (a_h A) x).
  { intros x. change (a_h A4) with (drop (store (a_h A) (e_empty e) (with_n v 0)) (e_empty e)).
    rewrite lookup_drop by (rewrite store_keys; apply I). destruct (e_empty e =? x) eqn:Q; auto. now rewrite lookup_store, Q. }
  assert (ND1 : NoDup (map fst (vall X))) by (subst L lib; now inversion ND).
  destruct (vall_free X) as [VF1 VF2].
  assert (FR : frees (each vocab_free vs) (flat_map vfree X) A4).
  { assert (FR : frees (each (fun x => vocab_free (snd (fst x))) X) (flat_map vfree X) A4).
    { apply (frees_each _ vfree (fun x A => vok (a_h A) x /\ NoDup (vfree x) /\ Forall (live (a_h A)) (vfree x))).
      - intros x B1 N1 (P1 & P2 & P3). now apply vocab_free_ok.
      - intros x l B1 B2 FB OUT (P1 & P2 & P3). split; [|split; auto].
        + destruct x as [[g u] T']. destruct P1 as (Q1 & Q2 & Q3 & Q4). split; auto. split; auto. split; auto.
          unfold rems_ok in *. rewrite Forall_forall in *. intros q Q. apply (freed_rem _ B1 B2 _ _ FB); auto. apply OUT. cbn.
          right. right. apply in_or_app. left. apply in_flat_map. exists q. split; auto. right. now left.
        + rewrite Forall_forall in *. intros z Q. apply (freed_live _ B1 B2 _ FB); auto.
      - exact K4.
      - eapply nodup_same; eauto.
      - assert (NDX : NoDup (flat_map vfree X)) by (eapply nodup_same; eauto).
        rewrite Forall_forall in *. intros x Q. split; [|split].
        + specialize (VO x Q). destruct x as [[g u] T']. destruct VO as (Q1 & Q2 & Q3 & Q4). split; auto. split; auto. split; auto.
          unfold rems_ok in *. rewrite Forall_forall in *. intros q Q'. destruct (Q4 q Q') as (w & ns & EW & DW). exists w, ns. split; auto.
          rewrite L4. destruct (e_empty e =? q_iri q) eqn:QE; auto. apply N.eqb_eq in QE. exfalso. apply NE. rewrite QE.
          apply VF1, in_flat_map. exists (g, u, T'). split; auto. right. right. apply in_or_app. left.
          apply in_flat_map. exists q. split; auto. right. now left.
        + clear -NDX Q. induction X as [|y X IH]; [easy|]. cbn in NDX. destruct Q as [->|Q].
          * eapply nodup_app_l; eauto.
          * apply IH; auto. eapply nodup_app_r; eauto.
        + apply Forall_forall. intros z Z'. assert (In z (map fst (vall X))) as JZ by (apply VF1, in_flat_map; eauto).
          assert (In z lib) as JL by (subst lib L; now right).
          destruct (held_live _ _ _ _ _ z I) as (w & EW & _); [subst lib; auto|]. exists w. rewrite L4.
          destruct (e_empty e =? z) eqn:QE; auto. apply N.eqb_eq in QE. exfalso. apply NE. now rewrite QE. }
    destruct FR as (B1 & E1 & F1). exists B1. split; auto. rewrite <- VS, each_map. exact E1. }
  destruct FR as (A5 & E5 & (_ & T5 & L5)). exists (cs A5). split; [|split].
  - unfold lib_deinit. unfold bind at 1. rewrite set_table_cs. unfold bind at 1. rewrite set_table_cs. unfold bind at 1. rewrite set_table_cs.
    fold A1. rewrite (bind_ok _ _ _ _ _ RL). unfold bind at 1. rewrite set_table_cs. exact E5.
  - change (s_heap (cs A5)) with (amap cell_of (a_h A5)). destruct (a_h A5) as [|[a w] h] eqn:EH; [reflexivity|]. exfalso.
    assert (lookup (a_h A5) a = Some w) as LK by (rewrite EH; cbn; now rewrite N.eqb_refl).
    rewrite <- EH in L5. rewrite L5, L4 in LK. destruct (in_dec N.eq_dec a (flat_map vfree X)) as [Q|Q]; [discriminate|].
    destruct (e_empty e =? a) eqn:QE; [discriminate|]. apply Q, VF1.
    assert (In a lib) as JA by (apply ALL; exists w; auto). subst lib L. destruct JA as [JA|JA]; [|exact JA].
    cbn in JA. rewrite JA, N.eqb_refl in QE. discriminate.
  - intros T'. rewrite table_cs, T5. now destruct T'.
Qed.

Lemma shutdown e vs lib s : history huge fresh e vs lib s [] ->
  (forall a, alive s a -> In a lib) /\
  exists s', lib_deinit huge e vs s = Ok tt s' /\ s_heap s' = [] /\ forall T, table T s' = [].
Proof. intros H. exact (shutdown_at e vs lib s (history_inv huge fresh fresh_ok _ _ _ _ _ H)). Qed.

End End_.
