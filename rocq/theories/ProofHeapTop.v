(** Every call that obeys the rules keeps the memory invariant. *)

From Coq Require Import NArith List Bool Arith Lia.
From Coq Require Import ZifyBool ZifyNat ZifyN.
From Verif Require Import Bytes ModelTypes ModelObject ModelHeader SpecHeader ModelText ModelHeap SpecHeap.
From Verif Require Import ProofObject ProofHeader ProofHeap ProofHeapRun ProofHeapFun ProofHeapName ProofHeapComp ProofHeapSeen ProofHeapOnto.
Import ListNotations.
Local Open Scope N_scope.

Section Top.
Variable huge : bool.
Variable fresh : N -> heap -> N.
Hypothesis fresh_ok : allocator fresh.
Variable e : env.

Local Notation Inv := (ProofHeap.Inv huge e).
Local Notation cs := (ProofHeap.cs huge).
Local Notation cell_of := (ProofHeap.cell_of huge).
Local Notation Room := (ProofHeap.Room huge).
Local Notation ok := (ProofHeapFun.ok huge).

(** * The words of the specification *)

Lemma lk A a c : lookup (s_heap (cs A)) a = Some c <-> exists v, lookup (a_h A) a = Some v /\ c = cell_of v.
Proof.
  rewrite lookup_cs. destruct (lookup (a_h A) a) as [v|]; cbn; split.
  - intros X. inversion X. eauto.
  - intros (w & X & ->). inversion X. auto.
  - discriminate.
  - intros (w & X & _). discriminate.
Qed.
Lemma body_cell v : c_body (cell_of v) = o_d v.
Proof. reflexivity. Qed.

Lemma alive_live A a : alive (cs A) a <-> live (a_h A) a.
Proof.
  unfold alive, live. split.
  - intros (c & H). apply lk in H as (v & E & _). eauto.
  - intros (v & E). exists (cell_of v). apply lk. eauto.
Qed.
Lemma type_iff A R W a t : Inv A R W -> has_type huge (cs A) a t <-> is_type (a_h A) a t.
Proof.
  intros I. unfold has_type, is_type. split.
  - intros (c & H & T). apply lk in H as (v & E & ->). exists v. split; auto.
    destruct (i_fit _ _ _ _ _ I a v E) as [F _]. rewrite type_cell in T by auto. congruence.
  - intros (v & E & T). exists (cell_of v). split; [apply lk; eauto|].
    destruct (i_fit _ _ _ _ _ I a v E) as [F _]. rewrite type_cell by auto. congruence.
Qed.
Lemma text_iff A a t : has_text (cs A) a t <-> txt (a_h A) a = Some t.
Proof.
  unfold has_text, txt. split.
  - intros (c & H & D). apply lk in H as (v & E & ->). rewrite E. rewrite body_cell in D. now rewrite D.
  - destruct (lookup (a_h A) a) as [v|] eqn:E; [|discriminate]. destruct (o_d v) eqn:D; try discriminate.
    intros X. inversion X; subst. exists (cell_of v). split; [apply lk; eauto|]. now rewrite body_cell.
Qed.
Lemma reach_live s a b : reach s a b -> alive s a /\ alive s b.
Proof. induction 1 as [|a c b d E J H [IH1 IH2]]; auto. split; auto. exists c. auto. Qed.
Lemma reach_rch A R a b : Inv A R [] -> reach (cs A) a b <-> rch (a_h A) a b /\ live (a_h A) a /\ live (a_h A) b.
Proof.
  intros I. split.
  - intros H. destruct (reach_live _ _ _ H) as [H1 H2]. rewrite alive_live in H1, H2. split; auto. clear H1 H2.
    induction H as [|a c b d E J H IH]; [constructor|]. apply rch_step with b; auto. apply lk in E as (v & E & ->).
    exists v. split; auto. rewrite kids_live; auto. apply (live_all _ _ _ _ _ _ I E).
  - intros (H & H1 & H2). clear H2. induction H as [a|r b x ED H IH].
    + constructor. now apply alive_live.
    + destruct ED as (v & E & J). destruct (kid_live _ _ _ _ _ _ _ _ I E J) as (w & F & _).
      apply reach_step with (cell_of v) b; [apply lk; eauto| |apply IH; exists w; auto].
      rewrite kids_live in J; auto. apply (live_all _ _ _ _ _ _ I E).
Qed.
Lemma usable_live A R a : Inv A R [] -> usable R (cs A) a <-> live (a_h A) a.
Proof.
  intros I. split.
  - intros (r & J & H). apply (reach_rch A R) in H as (_ & _ & H); auto.
  - intros H. destruct (no_garbage _ _ _ _ _ I H) as (r & J & K). exists r. split; auto. apply (reach_rch A R); auto.
    split; auto. split; auto. destruct (held_live _ _ _ _ _ _ I J) as (w & F & _). exists w. auto.
Qed.

Lemma pointers_to_cs A R x : Inv A R [] -> pointers_to x (s_heap (cs A)) = indeg x (a_h A).
Proof.
  intros I. change (s_heap (cs A)) with (amap cell_of (a_h A)).
  assert (P : forall a v, In (a, v) (a_h A) -> 0 < o_n v).
  { intros a v J. apply in_lookup in J; [|apply I]. apply (live_all _ _ _ _ _ _ I J). }
  revert P. generalize (a_h A). clear I. intros h. induction h as [|[a v] h IH]; intros P; [reflexivity|].
  cbn [amap map pointers_to fst snd]. rewrite indeg_cons, kids_live by (apply (P a); now left). f_equal.
  apply IH. intros b w J. apply (P b). now right.
Qed.
Lemma references_iff A R a v : Inv A R [] -> lookup (a_h A) a = Some v -> o_n v = N.of_nat (references R (cs A) a).
Proof.
  intros I E. unfold references. rewrite (pointers_to_cs A R a I). rewrite (i_ref _ _ _ _ _ I a v E).
  cbn [rels flat_map]. rewrite count_nil. f_equal. lia.
Qed.
Lemma room_iff A R k : Inv A R [] -> room huge R (cs A) k -> Room A (N.of_nat (size k) + 8).
Proof.
  intros I H a v E. specialize (H a). rewrite (references_iff A R a v I E). lia.
Qed.

Lemma count_give x a own : In a own -> count x own = (count x (give_up a own) + if N.eqb a x then 1 else 0)%nat.
Proof.
  induction own as [|b own IH]; [easy|]. intros J. cbn [give_up]. destruct (b =? a) eqn:E.
  - apply N.eqb_eq in E. subst b. rewrite count_cons. lia.
  - destruct J as [->|J]; [lia|]. rewrite !count_cons, IH by auto. lia.
Qed.

(** * The calls *)

Variable lib : list N.
Hypothesis lib_empty : In (e_empty e) lib.
Hypothesis lib_string : In (e_string e) lib.

Lemma app_empty l : In (e_empty e) (lib ++ l).
Proof. apply in_or_app. auto. Qed.
Lemma new_own A own a : Inv A (a :: lib ++ own) [] -> Inv A (lib ++ a :: own) [].
Proof. apply inv_count. intros x. rewrite count_cons, !count_app, count_cons. lia. Qed.

Definition returns (own : list N) (r : option N) (A' : ast) : Prop :=
  Inv A' (lib ++ match r with Some a => a :: own | None => own end) [].
Lemma returns_some A own c (m : act N) : ok A (lib ++ own) c m (fun a A' => Inv A' (a :: lib ++ own) []) ->
  ok A (lib ++ own) c (some m) (returns own).
Proof. intros H. unfold some. eapply ok_map; [exact H|]. intros x A' I' _. apply new_own. auto. Qed.
Lemma returns_none {X} A R own c (m : act X) : ok A R c m (fun _ A' => Inv A' (lib ++ own) []) ->
  ok A R c (none m) (returns own).
Proof. intros H. unfold none. eapply (ok_map huge A R c m (fun _ => None)); [exact H|]. intros x A' I' _. exact I'. Qed.

Definition result (k : call) (own : list N) (r : option N) (A' : ast) : Prop := Inv A' (lib ++ after k r own) [].

Lemma onto_iff A a o : onto_is (cs A) a o <-> exists v, lookup (a_h A) a = Some v /\ o_d v = BOnto o.
Proof.
  unfold onto_is. split.
  - intros (c & H & D). apply lk in H as (v & E & ->). eauto.
  - intros (v & E & D). exists (cell_of v). split; auto. apply lk. eauto.
Qed.
Lemma items_iff A a l : has_items (cs A) a l <-> exists v, lookup (a_h A) a = Some v /\ o_d v = BVec l.
Proof.
  unfold has_items. split.
  - intros (c & H & D). apply lk in H as (v & E & ->). eauto.
  - intros (v & E & D). exists (cell_of v). split; auto. apply lk. eauto.
Qed.

(** The calls that remove nothing. *)
Lemma exec_keeps A own k : Inv A (lib ++ own) [] -> std e (a_h A) -> allowed huge e lib own (cs A) k -> SpecHeap.no_cycle (cs A) k ->
  removes k = false ->
  ok A (lib ++ after k None own) (N.of_nat (size k) + 8) (exec huge fresh e k) (result k own).
Proof.
  intros I SD. set (R := lib ++ own) in *.
  assert (UL : forall a, usable (lib ++ own) (cs A) a -> live (a_h A) a) by (intros a; apply (usable_live A R a I)).
  assert (TY : forall a t, has_type huge (cs A) a t -> is_type (a_h A) a t) by (intros a t; apply (type_iff A R [] a t I)).
  assert (LS : live (a_h A) (e_string e)).
  { destruct (held_live huge e A R [] (e_string e) I) as (w & F & _); [apply in_or_app; auto|exists w; auto]. }
  assert (FL : forall l, Forall (usable (lib ++ own) (cs A)) l -> Forall (live (a_h A)) l).
  { intros l F. eapply Forall_impl; [|exact F]. auto. }
  assert (FR : forall l, Forall (required (usable (lib ++ own) (cs A))) l -> Forall (required (live (a_h A))) l).
  { intros l F. eapply Forall_impl; [|exact F]. intros [a|]; cbn; auto. }
  assert (OL : forall o, optional (usable (lib ++ own) (cs A)) o -> opt_live (a_h A) o) by (intros [a|]; cbn; auto).
  assert (OV : forall o, optional (fun a => usable (lib ++ own) (cs A) a /\ has_type huge (cs A) a OT_VECTOR) o ->
            match o with Some v => is_type (a_h A) v OT_VECTOR | None => True end).
  { intros [a|]; cbn; auto. intros [_ H]. auto. }
  assert (ON : forall a, has_type huge (cs A) a OT_ONTOLOGY -> exists v o, lookup (a_h A) a = Some v /\ o_d v = BOnto o).
  { intros a T. apply (onto_of_type _ _ _ _ _ _ I (TY _ _ T)). }
  assert (RL : forall x y, live (a_h A) x -> live (a_h A) y -> ~ reach (cs A) x y -> ~ rch (a_h A) x y).
  { intros x y L1 L2 N H. apply N. apply (reach_rch A R); auto. }
  unfold result.
  destruct k as [t b| |s|s|a|a|p q|t|t i|t u|id ids|t|v d|t|t d|t l|items| |v x|v x|t fs opt val|t items|sub super annot|a b|a| |o i|o i|o|o x|o x|o i|o i|o x|o x|o x];
    cbn [allowed SpecHeap.no_cycle after size exec removes]; intros AL NC RM; try discriminate RM.
  - (* KString *) apply (ok_weak huge A R _ 1); [lia|]. apply returns_some.
    eapply ok_post; [apply (string_opt_ok huge fresh fresh_ok e A R t b I)|]. now intros x A' (H & _) _.
  - apply (ok_weak huge A R _ 1); [lia|]. apply returns_some.
    eapply ok_post; [apply (string_empty_ok huge e A R I)|]. now intros x A' (_ & H & _) _.
  - destruct AL as [_ AL]. destruct (str_of_type _ _ _ _ _ _ I (TY _ _ AL)) as (t & X).
    apply (ok_weak huge A R _ 0); [lia|]. apply returns_none.
    eapply ok_post; [apply (string_intern_ok huge e A R s t I X)|]. now intros x A' (b & _ & H & _) _.
  - destruct AL as [J AL]. apply (ok_weak huge A _ _ 0); [lia|].
    assert (O : ok A (lib ++ give_up s own) 0 (none (release_copying_raw huge (Some s))) (returns (give_up s own))).
    { apply returns_none. eapply ok_post.
      - apply (copying_raw_ok huge e A (lib ++ give_up s own) R s I); auto.
        + intros x. unfold R. rewrite count_cons, !count_app, (count_give x s own J). lia.
        + apply app_empty.
      - now intros x A' (_ & H & _) _. }
    unfold none in *. intros q Q. destruct (O q Q) as (r & A' & E & Q' & V & H). exists r, A'. split; auto. split; auto. split; auto.
    unfold bind in E. destruct (release_copying_raw huge (Some s) (cs A)); inversion E; subst. exact H.
  - apply (ok_weak huge A R _ 1); [lia|]. apply returns_some.
    eapply ok_post; [apply (retain_ok huge e A R a I (UL _ AL))|]. now intros x A' (-> & H & _) _.
  - apply (ok_weak huge A _ _ 0); [lia|].
    assert (O : ok A (lib ++ give_up a own) 0 (none (release huge (Some a))) (returns (give_up a own))).
    { apply returns_none. eapply ok_post.
      - apply (release_ok huge e A (lib ++ give_up a own) R a I); auto.
        + intros x. unfold R. rewrite count_cons, !count_app, (count_give x a own AL). lia.
        + apply app_empty.
      - now intros x A' (H & _) _. }
    unfold none in *. intros q Q. destruct (O q Q) as (r & A' & E & Q' & V & H). exists r, A'. split; auto. split; auto. split; auto.
    unfold bind in E. destruct (release huge (Some a) (cs A)); inversion E; subst. exact H.
  - destruct AL as [[_ T1] [_ T2]]. destruct (str_of_type _ _ _ _ _ _ I (TY _ _ T1)) as (n & X1).
    destruct (str_of_type _ _ _ _ _ _ I (TY _ _ T2)) as (m & X2). apply (ok_weak huge A R _ 5); [lia|].
    eapply ok_post; [apply (cowl_iri_ok huge fresh fresh_ok e A R p q n m I X1 X2)|].
    intros r A' (a & -> & H & _) _. now apply new_own.
  - apply (ok_weak huge A R _ 5); [lia|].
    eapply ok_post; [apply (iri_of_string_ok huge fresh fresh_ok e A R t I)|].
    intros r A'. destruct (iri_from_string t) as [[n m]|].
    + intros (a & -> & H & _) _. now apply new_own.
    + now intros (-> & H) _.
  - destruct AL as (TE & _ & TI). apply (ok_weak huge A R _ 2); [lia|].
    eapply ok_post; [apply (entity_get_ok huge fresh fresh_ok e A R t i I TE (TY _ _ TI))|].
    intros r A' (a & -> & H & _) _. now apply new_own.
  - apply (ok_weak huge A R _ 7); [lia|].
    eapply ok_post; [apply (entity_of_string_ok huge fresh fresh_ok e A R t u I AL)|].
    intros r A'. destruct (iri_from_string u) as [[n m]|].
    + intros (a & i & -> & H & _) _. now apply new_own.
    + now intros (-> & H) _.
  - apply (ok_weak huge A R _ 2); [lia|].
    eapply ok_post; [apply (anon_ind_ok huge fresh fresh_ok e A R id ids I)|].
    + destruct id; auto. apply TY, AL.
    + intros [a|] A' (H & _) _; [now apply new_own|exact H].
  - apply (ok_weak huge A R _ 2); [lia|]. apply returns_some.
    eapply ok_post; [apply (anon_of_string_ok huge fresh fresh_ok e A R t I)|]. now intros x A' (H & _) _.
  - destruct AL as [[_ T1] O]. destruct (str_of_type _ _ _ _ _ _ I (TY _ _ T1)) as (t & X).
    apply (ok_weak huge A R _ 4); [lia|].
    eapply ok_post; [apply (literal_ok huge fresh fresh_ok e A R v d t I X LS)|].
    + destruct d as [d|]; cbn in *; auto. apply UL, O.
    + intros x -> Z. destruct O as [_ O]. apply (O Z t). now apply text_iff.
    + intros r A' (a & -> & H) _. now apply new_own.
  - apply (ok_weak huge A R _ 3); [lia|]. apply returns_some. apply lit_plain_ok; auto.
  - apply (ok_weak huge A R _ 3); [lia|]. apply returns_some. apply lit_typed_ok; auto.
  - apply (ok_weak huge A R _ 5); [lia|]. apply returns_some. apply lit_lang_ok; auto.
  - apply (ok_weak huge A R _ (N.of_nat (List.length items))); [lia|]. apply returns_some.
    eapply ok_post; [apply (vector_ok huge fresh fresh_ok e A R items I (FL _ AL))|]. now intros x A' (H & _) _.
  - apply (ok_weak huge A R _ 0); [lia|]. apply returns_some.
    eapply ok_post; [apply (vector_ordered_ok huge fresh fresh_ok e A R I)|]. now intros x A' (H & _) _.
  - destruct AL as [[_ TV] L]. apply (ok_weak huge A R _ 1); [lia|]. apply returns_none.
    apply (vector_add_ok huge e A R v x I (TY _ _ TV) (UL _ L)).
    intros H. apply NC. apply (reach_rch A R); auto. split; auto. split; auto. eapply type_live; eauto.
  - destruct AL as [[_ TV] J]. apply (ok_weak huge A _ _ 0); [lia|].
    assert (LX : live (a_h A) x). { destruct (held_live huge e A R [] x I) as (w & F & _); [apply in_or_app; auto|exists w; auto]. }
    assert (O : ok A (lib ++ give_up x own) 0 (none (vector_push (Some v) (Some x))) (returns (give_up x own))).
    { apply returns_none. apply (vector_push_ok huge e A (lib ++ give_up x own) R v x I); auto.
      - intros y. unfold R. rewrite count_cons, !count_app, (count_give y x own J). lia.
      - apply app_empty.
      - intros H. apply NC. apply (reach_rch A R); auto. split; auto. split; auto. eapply type_live; eauto. }
    unfold none in *. intros q Q. destruct (O q Q) as (r & A' & E & Q' & V & H). exists r, A'. split; auto. split; auto. split; auto.
    unfold bind in E. destruct (vector_push (Some v) (Some x) (cs A)); inversion E; subst. exact H.
  - apply (ok_weak huge A R _ (N.of_nat (List.length fs) + 4)); [lia|]. apply returns_some.
    apply construct_ok; auto. unfold good. destruct (ctor_of t) as [[n|n|n|n|]|]; auto.
    + destruct AL; auto.
    + destruct AL as (L & F & O). split; auto. split; auto. apply (OV opt O).
    + destruct AL as (L & F & O). split; auto.
    + destruct AL as (L & F & O). split; auto.
    + destruct AL as (c & o & d & -> & LC & LO & LD & AN). exists c, o, d. split; auto. split; auto. split; auto. split; auto. apply (OV opt AN).
  - destruct AL as [CT F]. apply (ok_weak huge A R _ (N.of_nat (List.length items) + 2)); [lia|]. apply returns_some.
    apply nary_ok; auto; [unfold arity; destruct CT as [-> | ->]; auto|]. destruct t; try reflexivity; destruct CT as [CT|CT]; discriminate CT.
  - destruct AL as ([_ TS] & LU & AN). apply (ok_weak huge A R _ 3); [lia|]. apply returns_some. apply chain_ok; auto. apply (OV annot AN).
  - destruct AL as [L1 L2]. apply (ok_weak huge A R _ 0); [lia|]. apply returns_none.
    destruct (equals_ok huge e A R I a b (UL _ L1) (UL _ L2)) as (r & Q & _). intros q K. exists r, A. split; auto. split; auto.
    split; [eapply keeps_refl; eauto|exact I].
  - destruct AL as [L1 C]. apply (ok_weak huge A R _ 0); [lia|]. apply returns_none.
    pose proof (prims_at huge e A R a I SD (UL _ L1) C) as Q. intros q K. eexists _, A. split; [exact Q|]. split; auto.
    split; [eapply keeps_refl; eauto|exact I].
  - apply (ok_weak huge A R _ 0); [lia|]. apply returns_some. apply ontology_ok; auto.
  - destruct AL as [_ T]. destruct (ON _ T) as (v & p & E & D). apply (ok_weak huge A R _ 0); [lia|]. apply returns_none.
    eapply ok_post; [apply (annot_vec_ok huge fresh fresh_ok e A R o v p I E D)|]. now intros x A' (H & _) _.
  - destruct AL as ([LO T] & LX & _ & C). destruct (ON _ T) as (v & p & E & D). apply (ok_weak huge A R _ 1); [lia|]. apply returns_none.
    destruct NC as [N1 N2]. apply (add_annot_ok huge fresh fresh_ok e A R o v p x I SD E D); auto.
    intros w W. destruct (kid_edge huge e A R I o v w E) as [_ LW]; [rewrite D; cbn; rewrite W, !in_app_iff; cbn; tauto|].
    apply RL; auto. apply (N2 p w); auto. apply onto_iff. eauto.
  - destruct AL as ([_ T] & [_ TI]). destruct (ON _ T) as (v & p & E & D). apply (ok_weak huge A R _ 1); [lia|]. apply returns_none.
    apply (add_import_ok huge e A R o v p i I E D); auto.
  - destruct AL as ([LO T] & LX & _ & C). destruct (ON _ T) as (v & p & E & D). apply (ok_weak huge A R _ 1); [lia|]. apply returns_none.
    apply (add_axiom_ok huge e A R o v p x I SD E D); auto.
  - destruct AL as ([LO T] & LX & _ & C). destruct (ON _ T) as (v & p & E & D). apply (ok_weak huge A R _ 0); [lia|]. apply returns_none.
    eapply ok_post; [apply (has_axiom_ok huge e A R o v p x I SD E D); auto|]. intros y A' -> _. exact I.
Qed.

(** The calls that remove something. *)
Lemma cut_none {X} A R P c (m : act X) : cut huge e A R P c m -> forall k, Room A (c + k) ->
  exists A', none m (cs A) = Ok None (cs A') /\ Room A' k /\ shr P (a_h A) (a_h A') /\ Inv A' R [].
Proof.
  intros H k K. destruct (H k K) as (x & A' & E & V). exists A'. unfold none. rewrite (bind_ok _ _ _ _ _ E). auto.
Qed.
Lemma shr_mono (P Q : N -> Prop) h h' : (forall x, P x -> Q x) -> shr P h h' -> shr Q h h'.
Proof. intros M H x w E. destruct (H x w E) as (v & F & A1 & A2 & A3). exists v. repeat split; auto. destruct A3 as [A3|[A3 A4]]; auto. Qed.
Lemma cut_mono {X} A R (P Q : N -> Prop) c c' (m : act X) : (forall x, P x -> Q x) -> c <= c' -> cut huge e A R P c m -> cut huge e A R Q c' m.
Proof.
  intros M L H k K. destruct (H (c' - c + k)) as (x & A' & E & V & S & I).
  - intros a v F. specialize (K a v F). lia.
  - exists x, A'. split; auto. split; [intros a v F; specialize (V a v F); lia|]. split; auto. eapply shr_mono; eauto.
Qed.

Lemma exec_cut A own k : Inv A (lib ++ own) [] -> std e (a_h A) -> allowed huge e lib own (cs A) k -> removes k = true ->
  forall q, Room A (N.of_nat (size k) + 8 + q) ->
  exists A', exec huge fresh e k (cs A) = Ok None (cs A') /\ Room A' q /\ shr (target (cs A) k) (a_h A) (a_h A') /\ Inv A' (lib ++ own) [].
Proof.
  intros I SD. set (R := lib ++ own) in *.
  assert (UL : forall a, usable (lib ++ own) (cs A) a -> live (a_h A) a) by (intros a; apply (usable_live A R a I)).
  assert (UU : forall a, live (a_h A) a -> use (a_h A) R a) by (intros a; apply (no_garbage _ _ _ _ _ I)).
  assert (TY : forall a t, has_type huge (cs A) a t -> is_type (a_h A) a t) by (intros a t; apply (type_iff A R [] a t I)).
  assert (ON : forall a, has_type huge (cs A) a OT_ONTOLOGY -> exists v o, lookup (a_h A) a = Some v /\ o_d v = BOnto o).
  { intros a T. apply (onto_of_type _ _ _ _ _ _ I (TY _ _ T)). }
  assert (RF : forall a, references (lib ++ own) (cs A) a = (count a R + indeg a (a_h A))%nat).
  { intros a. unfold references. now rewrite (pointers_to_cs A R a I). }
  destruct k as [t b| |s|s|a|a|p q|t|t i|t u|id ids|t|v d|t|t d|t l|items| |v x|v x|t fs opt val|t items|sub super annot|a b|a| |o i|o i|o|o x|o x|o i|o i|o x|o x|o x];
    cbn [allowed exec removes size target]; intros AL RM; try discriminate RM; apply cut_none.
  - destruct AL as ([LO T] & OI). destruct (ON _ T) as (v & p & E & D).
    apply (cut_mono A R (fun x => x = o) _ 1); [auto|lia|]. apply (set_iri_ok huge e A R o v p i I E D (UU _ (UL _ LO))).
    intros j ->. cbn in OI. destruct OI as [[LJ TJ] TW]. split; auto. intros Q. rewrite <- RF. apply (TW p); auto. apply onto_iff. eauto.
  - destruct AL as ([LO T] & OI). destruct (ON _ T) as (v & p & E & D).
    apply (cut_mono A R (fun x => x = o) _ 1); [auto|lia|]. apply (set_version_ok huge e A R o v p i I E D (UU _ (UL _ LO))).
    intros j ->. cbn in OI. destruct OI as [[LJ TJ] TW]. split; auto. intros Q. rewrite <- RF. apply (TW p); auto. apply onto_iff. eauto.
  - destruct AL as ([LO T] & LX & _ & H). destruct (ON _ T) as (v & p & E & D).
    assert (OI : onto_is (cs A) o p) by (apply onto_iff; eauto).
    apply (cut_mono A R (fun x => x = o \/ n_annot p = Some x) _ 0); [intros y [->|Y]; [now left|right; eauto]|lia|].
    apply (remove_annot_ok huge e A R o v p x I E D (UU _ (UL _ LO)) (UL _ LX)).
    intros w u l W F DU. rewrite <- (pointers_to_cs A R w I). apply (H p w l); auto. apply items_iff. eauto.
  - destruct AL as ([LO T] & [_ TI]). destruct (ON _ T) as (v & p & E & D).
    apply (cut_mono A R (fun x => x = o) _ 0); [auto|lia|]. apply (remove_import_ok huge e A R o v p i I E D (UU _ (UL _ LO))); auto.
  - destruct AL as ([LO T] & (LX & _ & C) & H). destruct (ON _ T) as (v & p & E & D).
    apply (cut_mono A R (fun x => x = o) _ 0); [auto|lia|].
    apply (remove_axiom_ok huge e A R o v p x I SD E D (UU _ (UL _ LO)) (UL _ LX) C).
    intros y J TW. pose proof (i_kids _ _ _ _ _ I o v E (live_all _ _ _ _ _ _ I E)) as KO. unfold kids_ok in KO. rewrite D in KO.
    unfold axs in J. apply in_flat_map in J as ([t l] & J1 & J2). apply (H p t y); auto; [apply onto_iff; eauto|].
    rewrite (tindex_of _ _ _ (proj1 (proj2 (proj2 (proj2 KO)))) J1). exact J2.
Qed.

(** What stays of memory. *)
Definition frame (k : call) (own : list N) (A A' : ast) : Prop :=
  if removes k then shr (target (cs A) k) (a_h A) (a_h A') else keeps (lib ++ after k None own) (a_h A) (a_h A').
Lemma after_removes k r own : removes k = true -> after k r own = match r with Some a => a :: own | None => own end.
Proof. destruct k; try discriminate; reflexivity. Qed.

Lemma exec_ok A own k : Inv A (lib ++ own) [] -> std e (a_h A) -> allowed huge e lib own (cs A) k -> SpecHeap.no_cycle (cs A) k ->
  forall q, Room A (N.of_nat (size k) + 8 + q) ->
  exists r A', exec huge fresh e k (cs A) = Ok r (cs A') /\ Room A' q /\ frame k own A A' /\ result k own r A'.
Proof.
  intros I SD AL NC q K. unfold frame. destruct (removes k) eqn:RM.
  - destruct (exec_cut A own k I SD AL RM q K) as (A' & E & V & S & I'). exists None, A'. split; auto. split; auto. split; auto.
    unfold result. rewrite after_removes by auto. exact I'.
  - apply (exec_keeps A own k I SD AL NC RM q K).
Qed.

End Top.
