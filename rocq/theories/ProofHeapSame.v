(** Asking twice for the same key gives the same object. *)

From Coq Require Import NArith List Bool Arith Lia.
From Coq Require Import ZifyBool ZifyNat ZifyN.
From Verif Require Import Bytes ModelTypes ModelObject ModelHeader SpecHeader ModelText ModelHeap SpecHeap.
From Verif Require Import ProofObject ProofHeader ProofHeap ProofHeapRun ProofHeapFun ProofHeapName ProofHeapComp ProofHeapTop ProofHeapLib ProofHeapEnd.
Import ListNotations.
Local Open Scope N_scope.

Section Same.
Variable huge : bool.
Variable fresh : N -> heap -> N.
Hypothesis fresh_ok : allocator fresh.

Local Notation cs := (ProofHeap.cs huge).
Local Notation cell_of := (ProofHeap.cell_of huge).
Local Notation Inv := (ProofHeap.Inv huge).

Lemma iri_key_iff A a n m : iri_key (cs A) a n m <-> iri_txt (a_h A) a n m.
Proof.
  unfold iri_key, iri_txt. split.
  - intros (c & i & r & E & D & T1 & T2). apply lk in E as (v & E & ->). rewrite text_iff in T1, T2. exists v, i, r. auto.
  - intros (v & i & r & E & D & T1 & T2). exists (cell_of v), i, r. rewrite !text_iff. split; [apply lk; eauto|auto].
Qed.
Lemma entity_key_iff e A R a t i : Inv e A R [] -> entity_key huge (cs A) a t i <-> ent_is (a_h A) a t i.
Proof.
  intros I. unfold entity_key, ent_is. split.
  - intros (c & E & T & D). apply lk in E as (v & E & ->). exists v. split; auto.
    destruct (i_fit _ _ _ _ _ I a v E) as [F _]. rewrite type_cell in T by auto. inversion T. auto.
  - intros (v & E & T & D). exists (cell_of v). split; [apply lk; eauto|]. split; auto.
    destruct (i_fit _ _ _ _ _ I a v E) as [F _]. rewrite type_cell by auto. congruence.
Qed.
Lemma anon_key_iff A a t : anon_key (cs A) a t <-> anon_is (a_h A) a t.
Proof.
  unfold anon_key, anon_is. split.
  - intros (c & i & E & D & T). apply lk in E as (v & E & ->). rewrite text_iff in T. exists v, i. auto.
  - intros (v & i & E & D & T). exists (cell_of v), i. rewrite text_iff. split; [apply lk; eauto|auto].
Qed.
Lemma interned_iff e A R a t : Inv e A R [] -> interned huge e (cs A) a t <-> txt (a_h A) a = Some t /\ ns_ok e (a_h A) a.
Proof.
  intros I. unfold interned, ns_ok. rewrite text_iff. split.
  - intros (T & [->|(c & E & B)]); split; auto. right. apply lk in E as (v & E & ->).
    destruct (i_fit _ _ _ _ _ I a v E) as [F _]. rewrite bit_cell in B by auto. exists v. split; auto. split; auto.
    destruct (type_of_str _ _ _ _ _ _ _ I T) as (w & E' & TW). congruence.
  - intros (T & [->|(v & E & TV & B)]); split; auto. right. exists (cell_of v). split; [apply lk; eauto|].
    destruct (i_fit _ _ _ _ _ I a v E) as [F _]. now rewrite bit_cell.
Qed.

Section History.
Variables (e : env) (vs : list vocab) (lib own : list N) (s : state).
Hypothesis H : history huge fresh e vs lib s own.

(** Runs a call. *)
Lemma run k c (Q : option N -> ast -> Prop) : allowed huge e lib own s k -> SpecHeap.no_cycle s k -> room huge (lib ++ own) s k ->
  c <= N.of_nat (size k) + 8 ->
  (forall A, s = cs A -> Inv e A (lib ++ own) [] -> ok huge A (lib ++ own) c (exec huge fresh e k) Q) ->
  exists A A' r, s = cs A /\ Inv e A (lib ++ own) [] /\ exec huge fresh e k s = Ok r (cs A') /\
    history huge fresh e vs lib (cs A') (after k r own) /\
    (forall x, live (a_h A) x -> use (a_h A) (lib ++ own) x) /\ keeps (lib ++ own) (a_h A) (a_h A') /\ Q r A'.
Proof.
  intros AL NC RM C O. destruct (history_inv huge fresh fresh_ok _ _ _ _ _ H) as (A & X & L & E & EL & I & LB).
  assert (RO : Room huge A (N.of_nat (size k) + 8)) by (apply (room_iff huge e A (lib ++ own)); subst s; auto).
  destruct (O A E I (N.of_nat (size k) + 8 - c)) as (r & A' & EX & _ & V & HQ).
  { intros x v F. specialize (RO x v F). lia. }
  rewrite <- E in EX. exists A, A', r. split; auto. split; auto. split; auto. split; [eapply hist_call; eauto|].
  split; [|auto]. intros x LX. eapply no_garbage; eauto.
Qed.

Lemma keep_iri A A' a n m : Inv e A (lib ++ own) [] -> (forall x, live (a_h A) x -> use (a_h A) (lib ++ own) x) ->
  keeps (lib ++ own) (a_h A) (a_h A') -> iri_key (cs A) a n m -> iri_key (cs A') a n m.
Proof.
  intros I U K. rewrite !iri_key_iff. intros X. apply (keeps_iri (lib ++ own) (a_h A)); auto.
  - apply U. destruct X as (v & i & r & E & _). exists v. auto.
  - intros v E. apply (live_all _ _ _ _ _ _ I E).
Qed.

Lemma same_iri p q n m : allowed huge e lib own s (KIri p q) -> room huge (lib ++ own) s (KIri p q) ->
  has_text s p n -> has_text s q m ->
  exists b s', exec huge fresh e (KIri p q) s = Ok (Some b) s' /\
    iri_key s' b (fst (iri_of_parts n m)) (snd (iri_of_parts n m)) /\
    forall a, iri_key s a (fst (iri_of_parts n m)) (snd (iri_of_parts n m)) -> a = b.
Proof.
  intros AL RM X1 X2.
  destruct (run (KIri p q) 5 _ AL Logic.I RM ltac:(cbn; lia) (fun A E I =>
    cowl_iri_ok huge fresh fresh_ok e A (lib ++ own) p q n m I (proj1 (text_iff huge A p n) (eq_ind s (fun s => has_text s p n) X1 _ E))
      (proj1 (text_iff huge A q m) (eq_ind s (fun s => has_text s q m) X2 _ E))))
    as (A & A' & r & E & I & EX & HH & U & K & b & -> & I' & HT).
  exists b, (cs A'). split; auto. rewrite <- iri_key_iff in HT. split; auto. intros a KA.
  eapply (iri_unique huge fresh fresh_ok _ _ _ _ _ HH a b); [|exact HT]. apply (keep_iri A); auto. now rewrite <- E.
Qed.
Lemma same_iri_text t : room huge (lib ++ own) s (KIriText t) ->
  match iri_from_string t with
  | None => exists s', exec huge fresh e (KIriText t) s = Ok None s'
  | Some (n, m) => exists b s', exec huge fresh e (KIriText t) s = Ok (Some b) s' /\ iri_key s' b n m /\
      forall a, iri_key s a n m -> a = b
  end.
Proof.
  intros RM. destruct (run (KIriText t) 5 _ Logic.I Logic.I RM ltac:(cbn; lia) (fun A E I => iri_of_string_ok huge fresh fresh_ok e A (lib ++ own) t I))
    as (A & A' & r & E & I & EX & HH & U & K & HQ).
  destruct (iri_from_string t) as [[n m]|].
  - destruct HQ as (b & -> & I' & HT). exists b, (cs A'). split; auto. rewrite <- iri_key_iff in HT. split; auto. intros a KA.
    eapply (iri_unique huge fresh fresh_ok _ _ _ _ _ HH a b); [|exact HT]. apply (keep_iri A); auto. now rewrite <- E.
  - destruct HQ as (-> & _). eauto.
Qed.
Lemma keep_ent A A' R' a t i : Inv e A (lib ++ own) [] -> Inv e A' R' [] -> (forall x, live (a_h A) x -> use (a_h A) (lib ++ own) x) ->
  keeps (lib ++ own) (a_h A) (a_h A') -> entity_key huge (cs A) a t i -> entity_key huge (cs A') a t i.
Proof.
  intros I I' U K. rewrite (entity_key_iff e A _ _ _ _ I), (entity_key_iff e A' _ _ _ _ I'). intros X.
  apply (keeps_ent (lib ++ own) (a_h A)); auto. apply U. destruct X as (v & E & _). exists v. auto.
Qed.
Lemma same_entity t i : allowed huge e lib own s (KEntity t i) -> room huge (lib ++ own) s (KEntity t i) ->
  exists b s', exec huge fresh e (KEntity t i) s = Ok (Some b) s' /\ entity_key huge s' b t i /\
    forall a, entity_key huge s a t i -> a = b.
Proof.
  intros AL RM. 
  destruct (run (KEntity t i) 2 _ AL Logic.I RM ltac:(cbn; lia) (fun A E I => entity_get_ok huge fresh fresh_ok e A (lib ++ own) t i I (proj1 AL)
    (proj1 (type_iff huge e A _ [] i OT_IRI I) (eq_ind s (fun s => has_type huge s i OT_IRI) (proj2 (proj2 AL)) _ E))))
    as (A & A' & r & E & I & EX & HH & U & K & b & -> & I' & HT).
  exists b, (cs A'). split; auto. rewrite <- (entity_key_iff e A' _ _ _ _ I') in HT. split; auto. intros a KA.
  apply (entity_unique huge fresh fresh_ok _ _ _ _ _ HH a b t i); auto. eapply (keep_ent A); eauto. now rewrite <- E.
Qed.
Lemma same_entity_text t u : type_is_entity t = true -> room huge (lib ++ own) s (KEntityText t u) ->
  match iri_from_string u with
  | None => exists s', exec huge fresh e (KEntityText t u) s = Ok None s'
  | Some (n, m) => exists b i s', exec huge fresh e (KEntityText t u) s = Ok (Some b) s' /\ entity_key huge s' b t i /\ iri_key s' i n m /\
      forall a j, entity_key huge s a t j -> iri_key s j n m -> a = b
  end.
Proof.
  intros AL RM. destruct (run (KEntityText t u) 7 _ AL Logic.I RM ltac:(cbn; lia) (fun A E I => entity_of_string_ok huge fresh fresh_ok e A (lib ++ own) t u I AL))
    as (A & A' & r & E & I & EX & HH & U & K & HQ).
  destruct (iri_from_string u) as [[n m]|].
  - destruct HQ as (b & i & -> & I' & HT & HI). exists b, i, (cs A'). split; auto.
    rewrite <- iri_key_iff in HI. rewrite <- (entity_key_iff e A' _ _ _ _ I') in HT. split; auto. split; auto. intros a j KA KJ.
    rewrite E in KA, KJ. apply (keep_iri A A' j n m I U K) in KJ. apply (keep_ent A A' _ a t j I I' U K) in KA.
    assert (j = i) as -> by (apply (iri_unique huge fresh fresh_ok _ _ _ _ _ HH j i n m); auto).
    apply (entity_unique huge fresh fresh_ok _ _ _ _ _ HH a b t i); auto.
  - destruct HQ as (-> & _). eauto.
Qed.
Lemma keep_anon A A' R' a t : Inv e A (lib ++ own) [] -> Inv e A' R' [] -> (forall x, live (a_h A) x -> use (a_h A) (lib ++ own) x) ->
  keeps (lib ++ own) (a_h A) (a_h A') -> anon_key (cs A) a t -> anon_key (cs A') a t.
Proof.
  intros I I' U K. rewrite !anon_key_iff. intros X.
  apply (keeps_anon huge e A (lib ++ own) (lib ++ own)); auto. apply U. destruct X as (v & i & E & _). exists v. auto.
Qed.
Lemma same_anon_text t : room huge (lib ++ own) s (KAnonText t) ->
  exists b s', exec huge fresh e (KAnonText t) s = Ok (Some b) s' /\ anon_key s' b t /\ forall a, anon_key s a t -> a = b.
Proof.
  intros RM. destruct (run (KAnonText t) 2 (fun r A' => exists b, r = Some b /\ Inv e A' (b :: lib ++ own) [] /\ anon_is (a_h A') b t)
    Logic.I Logic.I RM ltac:(cbn; lia))
    as (A & A' & r & E & I & EX & HH & U & K & b & -> & I' & HT).
  { intros A E I. cbn [exec]. unfold some. eapply ok_map; [apply (anon_of_string_ok huge fresh fresh_ok e A (lib ++ own) t I)|].
    intros x A' (I' & HT) _. exists x. auto. }
  exists b, (cs A'). split; auto. rewrite <- anon_key_iff in HT. split; auto. intros a KA.
  apply (anon_unique huge fresh fresh_ok _ _ _ _ _ HH a b t); auto. eapply (keep_anon A); eauto. now rewrite <- E.
Qed.
Lemma same_anon i t ids : allowed huge e lib own s (KAnon (Some i) ids) -> room huge (lib ++ own) s (KAnon (Some i) ids) -> has_text s i t ->
  exists b s', exec huge fresh e (KAnon (Some i) ids) s = Ok (Some b) s' /\ anon_key s' b t /\ forall a, anon_key s a t -> a = b.
Proof.
  intros AL RM X. destruct (run (KAnon (Some i) ids) 2 (fun r A' => exists b, r = Some b /\ Inv e A' (b :: lib ++ own) [] /\ anon_is (a_h A') b t)
    AL Logic.I RM ltac:(cbn; lia))
    as (A & A' & r & E & I & EX & HH & U & K & b & -> & I' & HT).
  { intros A E I. rewrite E in X. apply text_iff in X. cbn [exec]. 
    eapply ok_post; [apply (anon_ind_ok huge fresh fresh_ok e A (lib ++ own) (Some i) ids I); eapply type_of_str; eauto|].
    intros [b|] A'; [|intros (_ & Z); discriminate]. intros (I' & t' & HT & X'). exists b. replace t with t' by congruence. auto. }
  exists b, (cs A'). split; auto. rewrite <- anon_key_iff in HT. split; auto. intros a KA.
  apply (anon_unique huge fresh fresh_ok _ _ _ _ _ HH a b t); auto. eapply (keep_anon A); eauto. now rewrite <- E.
Qed.

Lemma keep_str A A' R' a t : Inv e A (lib ++ own) [] -> Inv e A' R' [] -> (forall x, live (a_h A) x -> use (a_h A) (lib ++ own) x) ->
  keeps (lib ++ own) (a_h A) (a_h A') -> interned huge e (cs A) a t -> interned huge e (cs A') a t.
Proof.
  intros I I' U K. rewrite (interned_iff e A _ _ _ I), (interned_iff e A' _ _ _ I'). intros (X & N).
  assert (use (a_h A) (lib ++ own) a) as UA. { apply U. unfold txt in X. destruct (lookup (a_h A) a) as [v|] eqn:E; [|discriminate]. exists v. auto. }
  split; [eapply keeps_txt; eauto|eapply keeps_ns; eauto].
Qed.
Lemma same_string t : room huge (lib ++ own) s (KString t true) ->
  exists b s', exec huge fresh e (KString t true) s = Ok (Some b) s' /\ interned huge e s' b t /\ forall a, interned huge e s a t -> a = b.
Proof.
  intros RM. destruct (run (KString t true) 1 (fun r A' => exists b, r = Some b /\ Inv e A' (b :: lib ++ own) [] /\ txt (a_h A') b = Some t /\ ns_ok e (a_h A') b)
    Logic.I Logic.I RM ltac:(cbn; lia))
    as (A & A' & r & E & I & EX & HH & U & K & b & -> & I' & HT).
  { intros A E I. cbn [exec]. unfold some. eapply ok_map; [apply (string_opt_ok huge fresh fresh_ok e A (lib ++ own) t true I)|].
    intros x A' (I' & X & N) _. exists x. auto. }
  exists b, (cs A'). split; auto. rewrite <- (interned_iff e A' _ _ _ I') in HT. split; auto. intros a KA.
  apply (string_unique huge fresh fresh_ok _ _ _ _ _ HH a b t); auto. eapply (keep_str A); eauto. now rewrite <- E.
Qed.
Lemma same_intern p t : allowed huge e lib own s (KIntern p) -> room huge (lib ++ own) s (KIntern p) -> has_text s p t ->
  exists b s', string_intern huge e (Some p) s = Ok (Some b) s' /\ interned huge e s' b t /\ (forall a, interned huge e s a t -> a = b) /\
    history huge fresh e vs lib s' own.
Proof.
  intros AL RM X. destruct (run (KIntern p) 0 (fun r A' => exists b, string_intern huge e (Some p) s = Ok (Some b) (cs A') /\
      r = None /\ Inv e A' (lib ++ own) [] /\ txt (a_h A') b = Some t /\ ns_ok e (a_h A') b)
    AL Logic.I RM ltac:(cbn; lia))
    as (A & A' & r & E & I & EX & HH & U & K & b & SI & -> & I' & HT).
  { intros A E I. rewrite E in X. apply text_iff in X. cbn [exec]. unfold none.
    intros k Q. destruct (string_intern_ok huge e A (lib ++ own) p t I X k Q) as (r & A' & SI & Q' & V & b & -> & I' & HT & N & _).
    exists None, A'. rewrite (bind_ok _ _ _ _ _ SI). split; auto. split; auto. split; auto. exists b. rewrite E. auto. }
  exists b, (cs A'). split; auto. rewrite <- (interned_iff e A' _ _ _ I') in HT. split; auto. split; auto. intros a KA.
  apply (string_unique huge fresh fresh_ok _ _ _ _ _ HH a b t); auto. eapply (keep_str A); eauto. now rewrite <- E.
Qed.
End History.
End Same.
