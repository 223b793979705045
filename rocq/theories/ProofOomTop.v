(** Every call that looks at the results of its requests for memory survives their failure. *)

From Coq Require Import NArith List Bool Arith Lia Permutation.
From Coq Require Import ZifyBool ZifyNat ZifyN.
From Verif Require Import Bytes ModelTypes ModelObject ModelHeader SpecHeader ModelText ModelHeap SpecHeap ModelOom SpecOom.
From Verif Require Import ProofObject ProofHeader ProofText ProofHeap ProofHeapRun ProofHeapFun ProofHeapName ProofHeapComp ProofHeapSeen ProofHeapOnto ProofHeapTop ProofHeapLib ProofHeapEnd ProofOom.
Import ListNotations.
Local Open Scope N_scope.

Section OomTop.
Variable huge : bool.
Variable fresh : N -> heap -> N.
Hypothesis fresh_ok : allocator fresh.
Variable e : env.

Local Notation Inv := (ProofHeap.Inv huge e).
Local Notation cs := (ProofHeap.cs huge).
Local Notation cell_of := (ProofHeap.cell_of huge).
Local Notation Room := (ProofHeap.Room huge).

(** * Nothing changes *)

Lemma total_perm (f : ob -> nat) (h h' : obs) : NoDup (map fst h) -> NoDup (map fst h') ->
  (forall a v, lookup h a = Some v -> exists w, lookup h' a = Some w /\ f w = f v) ->
  (forall a, live h' a -> live h a) -> total f h = total f h'.
Proof.
  intros N1 N2 H G.
  assert (T : forall h : obs, total f h = list_sum (map snd (map (fun x => (fst x, f (snd x))) h))).
  { clear. induction h as [|[a v] h IH]; [reflexivity|]. cbn. unfold total in IH. now rewrite IH. }
  rewrite !T.
  assert (P : Permutation (map (fun x => (fst x, f (snd x))) h) (map (fun x => (fst x, f (snd x))) h')).
  { assert (ND : forall h : obs, NoDup (map fst h) -> NoDup (map (fun x => (fst x, f (snd x))) h)).
    { intros k K. apply (NoDup_map_inv fst). rewrite map_map. cbn. exact K. }
    apply NoDup_Permutation; auto. intros [a n]. rewrite !in_map_iff. split.
    - intros ([b v] & Q & J). cbn in Q. inversion Q; subst. apply in_lookup in J; auto. destruct (H a v J) as (w & E & <-).
      exists (a, w). split; auto. now apply lookup_in.
    - intros ([b w] & Q & J). cbn in Q. inversion Q; subst. apply in_lookup in J; auto. destruct (G a (ex_intro _ w J)) as (v & E).
      destruct (H a v E) as (w' & E' & F). rewrite J in E'. inversion E'; subst w'. exists (a, v). split; [cbn; now rewrite F|]. now apply lookup_in. }
  clear -P. induction P; cbn; auto; lia.
Qed.

Lemma unchanged_ok A A' R : Inv A R [] -> Inv A' R [] -> hold R (a_h A) (a_h A') -> unchanged huge (cs A) (cs A').
Proof.
  intros I I' H.
  assert (F : forall a v, lookup (a_h A) a = Some v -> exists w, lookup (a_h A') a = Some w /\ up v w /\ o_d w = o_d v).
  { intros a v E. destruct (H a) as (v' & w & E' & F & _ & U & D); [apply (no_garbage _ _ _ _ _ I); exists v; auto|].
    rewrite E in E'. inversion E'; subst v'. eauto. }
  assert (B : forall a, live (a_h A') a -> live (a_h A) a).
  { intros a L. destruct (no_garbage _ _ _ _ _ I' L) as (r & J & C).
    assert (LR : live (a_h A) r) by (destruct (held_live _ _ _ _ _ _ I J) as (w & W & _); exists w; auto).
    clear J L. induction C as [a|r b x (w & E & K) C IH]; auto. apply IH. destruct LR as (v & EV).
    destruct (F r v EV) as (w' & E' & _ & D). rewrite E in E'. inversion E'; subst w'.
    destruct (kid_live huge e A R [] r v b I EV) as (u & U & _); [|exists u; auto].
    rewrite kids_live in K by (apply (live_all _ _ _ _ _ _ I' E)). rewrite kids_live by (apply (live_all _ _ _ _ _ _ I EV)). congruence. }
  assert (DG : forall x, indeg x (a_h A) = indeg x (a_h A')).
  { intros x. apply total_perm; auto; [apply I|apply I'|]. intros a v E. destruct (F a v E) as (w & W & _ & D). exists w. split; auto.
    rewrite !kids_live; [now rewrite D|apply (live_all _ _ _ _ _ _ I E)|apply (live_all _ _ _ _ _ _ I' W)]. }
  intros a. destruct (lookup (s_heap (cs A)) a) as [c|] eqn:E; destruct (lookup (s_heap (cs A')) a) as [c'|] eqn:E'; auto.
  - apply lk in E as (v & E & ->). apply lk in E' as (w & E' & ->). destruct (F a v E) as (w' & W & U & D). rewrite E' in W. inversion W; subst w'.
    destruct (i_fit _ _ _ _ _ I a v E) as [F1 _]. destruct (i_fit _ _ _ _ _ I' a w E') as [F2 _].
    rewrite !type_cell, !ref_cell, !bit_cell by auto. destruct U as (U1 & U2 & _).
    split; [now rewrite U1|]. split; [exact D|]. split.
    + rewrite (i_ref _ _ _ _ _ I a v E), (i_ref _ _ _ _ _ I' a w E'). now rewrite DG.
    + intros T. destruct U2 as [->|[-> _]]; auto.
  - apply lk in E as (v & E & ->). destruct (F a v E) as (w' & W & _). rewrite lookup_cs, W in E'. discriminate.
  - apply lk in E' as (w & E' & ->). destruct (B a (ex_intro _ w E')) as (v & V). rewrite lookup_cs, V in E. discriminate.
Qed.

(** * The words of the specification *)

Lemma iri_iff A a n m : iri_txt (a_h A) a n m -> iri_key (cs A) a n m.
Proof.
  intros (v & i & r & E & D & X & Y). exists (cell_of v), i, r. split; [apply lk; eauto|]. split; auto. split; now apply text_iff.
Qed.
Lemma ent_iff A R W a t i : Inv A R W -> ent_is (a_h A) a t i -> entity_key huge (cs A) a t i.
Proof.
  intros I (v & E & T & D). exists (cell_of v). split; [apply lk; eauto|]. split; auto.
  destruct (i_fit _ _ _ _ _ I a v E) as [F _]. rewrite type_cell by auto. congruence.
Qed.
Lemma anon_iff A a t : anon_is (a_h A) a t -> anon_key (cs A) a t.
Proof. intros (v & i & E & D & X). exists (cell_of v), i. split; [apply lk; eauto|]. split; auto. now apply text_iff. Qed.
Lemma lit_iff A R W a v d : Inv A R W -> lit_is (a_h A) a v d -> literal_is huge (cs A) a v d.
Proof.
  intros I (w & E & T & D). exists (cell_of w). split; [apply lk; eauto|]. split; auto.
  destruct (i_fit _ _ _ _ _ I a w E) as [F _]. rewrite type_cell by auto. congruence.
Qed.
Lemma vec_iff A a l : vec_is (a_h A) a l -> has_items (cs A) a l.
Proof. intros (w & E & T & D). exists (cell_of w). split; [apply lk; eauto|auto]. Qed.
Lemma pointers_map ks us : pointers_of (BComp (map Obj ks ++ map UInt us)) = ks.
Proof.
  cbn. rewrite flat_map_app. replace (flat_map _ (map UInt us)) with (@nil N) by (induction us; auto). rewrite app_nil_r.
  induction ks; cbn; congruence.
Qed.
Lemma comp_iff A R W a t ks : Inv A R W -> comp_is (a_h A) a t ks -> fields_are huge (cs A) a t ks.
Proof.
  intros I (w & o & us & E & T & D). exists (cell_of w), o. split; [apply lk; eauto|].
  destruct (i_fit _ _ _ _ _ I a w E) as [F _]. rewrite type_cell by auto. split; [congruence|].
  rewrite body_cell, D. apply pointers_map.
Qed.
Lemma interned_iff A R W a t : Inv A R W -> txt (a_h A) a = Some t -> ns_ok e (a_h A) a -> interned huge e (cs A) a t.
Proof.
  intros I X N0. split; [now apply text_iff|]. destruct N0 as [->|(v & E & _ & B)]; auto. right. exists (cell_of v). split; [apply lk; eauto|].
  destruct (i_fit _ _ _ _ _ I a v E) as [F _]. now rewrite bit_cell by auto.
Qed.

(** * The calls *)

Variable full : N -> bool.
Variable lib : list N.
Hypothesis lib_empty : In (e_empty e) lib.
Hypothesis lib_string : In (e_string e) lib.

(** What a call does. *)
Definition outcome (s s' : state) (k : call) (r : option N) (n : N) : Prop :=
  (n = 0 \/ n = 1 /\ r = None /\ exists t l, k = KNary t l) /\
  match r with
  | Some a => asked huge e s s' k a
  | None => creates k = true -> unchanged huge s s'
  end.
Definition post (A : ast) (k : call) (own : list N) (r : option N) (n : N) (A' : ast) : Prop :=
  frame huge lib k own A A' /\ result huge e lib k own r A' /\ outcome (cs A) (cs A') k r n.

Lemma run_it A own k c m (Q : option N -> N -> ast -> Prop) : exec_f huge fresh e full k = m -> c <= N.of_nat (size k) + 8 ->
  okf huge A (lib ++ own) c 0 m Q ->
  (forall r n A', Q r n A' -> hold (lib ++ own) (a_h A) (a_h A') -> post A k own r n A') ->
  forall q, Room A (N.of_nat (size k) + 8 + q) ->
  exists r n A', exec_f huge fresh e full k 0 (cs A) = Ok (r, n) (cs A') /\ Room A' q /\ post A k own r n A'.
Proof.
  intros <- L H G q K. destruct (H (a_n A) q) as (r & n & A' & E & K' & V & P); [eapply room_less; [exact K|lia]|].
  rewrite at_self in E. exists r, n, A'. auto.
Qed.
Lemma after_creates k r own : creates k = true -> after k r own = match r with Some a => a :: own | None => own end.
Proof. destruct k; try discriminate; reflexivity. Qed.
Lemma creates_keeps k : creates k = true -> removes k = false.
Proof. destruct k; try discriminate; reflexivity. Qed.

(** A call that creates an object. *)
Lemma run_new A own k c P : Inv A (lib ++ own) [] -> creates k = true -> c <= N.of_nat (size k) + 8 ->
  okf huge A (lib ++ own) c 0 (exec_f huge fresh e full k) (gets huge e (lib ++ own) 0 P) ->
  (forall a A', Inv A' (a :: lib ++ own) [] -> P a A' -> asked huge e (cs A) (cs A') k a) ->
  forall q, Room A (N.of_nat (size k) + 8 + q) ->
  exists r n A', exec_f huge fresh e full k 0 (cs A) = Ok (r, n) (cs A') /\ Room A' q /\ post A k own r n A'.
Proof.
  intros I C L H G. eapply run_it; [reflexivity|exact L|exact H|]. intros r n A' [-> Q] V.
  split; [|split; [|split; [now left|]]].
  - unfold frame. rewrite (creates_keeps k C), (after_creates k None own C). now apply hold_keeps in V.
  - unfold result. rewrite (after_creates k r own C). destruct r as [a|]; [apply new_own; apply Q|exact Q].
  - destruct r as [a|]; [apply G; apply Q|]. intros _. apply (unchanged_ok A A' (lib ++ own)); auto.
Qed.
(** A call in which no request can fail. *)
Lemma run_old A own k : exec_f huge fresh e full k = lift (exec huge fresh e k) -> creates k = false ->
  Inv A (lib ++ own) [] -> std e (a_h A) -> allowed huge e lib own (cs A) k -> SpecHeap.no_cycle (cs A) k ->
  forall q, Room A (N.of_nat (size k) + 8 + q) ->
  exists r n A', exec_f huge fresh e full k 0 (cs A) = Ok (r, n) (cs A') /\ Room A' q /\ post A k own r n A'.
Proof.
  intros EQ C I SD AL NC q K. destruct (exec_ok huge fresh fresh_ok e lib lib_empty lib_string A own k I SD AL NC q K) as (r & A' & E & K' & V & RS).
  exists r, 0, A'. split; [rewrite EQ; unfold lift; now rewrite (bind_ok _ _ _ _ _ E)|]. split; auto. split; auto. split; auto.
  split; [now left|]. destruct r as [a|]; [|congruence]. destruct k; try exact Logic.I; discriminate C.
Qed.

Lemma reach_heap s s' a b : s_heap s = s_heap s' -> reach s a b -> reach s' a b.
Proof.
  intros E. induction 1 as [a (c & H)|a c b d H J K IH].
  - constructor. exists c. congruence.
  - apply reach_step with c b; auto. congruence.
Qed.
Lemma usable_at A q R a : usable R (cs A) a -> usable R (cs (at_n A q)) a.
Proof. intros (r & J & H). exists r. split; auto. now apply (reach_heap (cs A)). Qed.

Lemma try_none A n (m m' : oact unit) (a : act unit) r s' : (if full (a_n A) then m' else m) = lift a ->
  none a (cs (at_n A (a_n A + 1))) = Ok r s' ->
  ((mem <- attempt full ;; if mem then m else m') ;; oret (@None N))%oact n (cs A) = Ok (r, n) s'.
Proof.
  intros E H.
  assert (Z : ((mem <- attempt full ;; if mem then m else m') ;; oret (@None N))%oact n (cs A) =
    ((if full (a_n A) then m' else m) ;; oret (@None N))%oact n (cs (at_n A (a_n A + 1)))).
  { unfold obind, attempt, bind. cbn [cs s_n]. change (s_n (cs A)) with (a_n A). destruct (full (a_n A)); reflexivity. }
  rewrite Z, E. unfold none, obind, lift, bind, oret, ret in *. destruct (a (cs (at_n A (a_n A + 1)))); inversion H; subst. reflexivity.
Qed.

Lemma exec_f_ok A own k : Inv A (lib ++ own) [] -> std e (a_h A) -> allowed huge e lib own (cs A) k -> SpecHeap.no_cycle (cs A) k ->
  checked huge e (cs A) k ->
  forall q, Room A (N.of_nat (size k) + 8 + q) ->
  exists r n A', exec_f huge fresh e full k 0 (cs A) = Ok (r, n) (cs A') /\ Room A' q /\ post A k own r n A'.
Proof.
  intros I SD AL NC CK. set (R := lib ++ own) in *.
  assert (UL : forall a, usable (lib ++ own) (cs A) a -> live (a_h A) a) by (intros a; apply (usable_live huge e A R a I)).
  assert (TY : forall a t, has_type huge (cs A) a t -> is_type (a_h A) a t) by (intros a t; apply (type_iff huge e A R [] a t I)).
  assert (LS : live (a_h A) (e_string e)).
  { destruct (held_live huge e A R [] (e_string e) I) as (w & F & _); [apply in_or_app; auto|exists w; auto]. }
  assert (FL : forall l, Forall (usable (lib ++ own) (cs A)) l -> Forall (live (a_h A)) l).
  { intros l F. eapply Forall_impl; [|exact F]. auto. }
  assert (FR : forall l, Forall (required (usable (lib ++ own) (cs A))) l -> Forall (required (live (a_h A))) l).
  { intros l F. eapply Forall_impl; [|exact F]. intros [a|]; cbn; auto. }
  assert (OL : forall o, optional (usable (lib ++ own) (cs A)) o -> opt_live (a_h A) o) by (intros [a|]; cbn; auto).
  assert (OV : forall o, optional (fun a => usable (lib ++ own) (cs A) a /\ has_type huge (cs A) a OT_VECTOR) o ->
            match o with Some v => is_type (a_h A) v OT_VECTOR | None => True end).
  { intros [a|]; cbn; auto. intros [_ H]. auto. }
  assert (STR : forall a, has_type huge (cs A) a OT_STRING -> exists t, txt (a_h A) a = Some t).
  { intros a T. apply (str_of_type _ _ _ _ _ _ I (TY _ _ T)). }
  assert (SAME : forall a t t', txt (a_h A) a = Some t -> has_text (cs A) a t' -> t' = t).
  { intros a t t' X Y. apply text_iff in Y. congruence. }
  destruct k as [t b| |s|s|a|a|p q0|t|t i|t u|id ids|t|v d|t|t d|t l|items| |v x|v x|t fs opt val|t items|sb super annot|a b|a| |o i|o i|o|o x|o x|o i|o i|o x|o x|o x];
    try (now apply run_old; auto).
  - (* KString *) eapply (run_new A own _ 1); auto; [cbn; lia|apply (string_opt_f_ok huge fresh fresh_ok e full A R 0 t true b I)|].
    intros a A' I' [X Y]. split; [now apply text_iff|]. intros B. eapply interned_iff; eauto.
  - (* KIntern *) cbn in AL. destruct AL as [_ AL]. destruct (STR _ AL) as (t & X).
    eapply (run_it A own _ (0 + 0)); [reflexivity|cbn; lia| |].
    + eapply okf_bind; [apply (string_intern_f_ok huge e full A R 0 s t I X)|]. intros r n A' (-> & I' & _) _. apply (okf_ret huge e); auto.
      intros q. instantiate (1 := fun r n A' => r = None /\ n = 0 /\ Inv A' R []). cbv beta. split; auto. split; auto. now apply inv_at.
    + intros r n A' (-> & -> & I') V. split; [|split; [|split; [now left|discriminate]]].
      * unfold frame. cbn. now apply hold_keeps in V.
      * exact I'.
  - (* KIri *) cbn in AL. destruct AL as [[_ T1] [_ T2]]. destruct (STR _ T1) as (n & X1). destruct (STR _ T2) as (m & X2).
    eapply (run_new A own _ 5); auto; [cbn; lia|apply (cowl_iri_f_ok huge fresh fresh_ok e full A R 0 p q0 n m I X1 X2)|].
    intros a A' I' X. cbv beta in X. intros n' m' Y1 Y2. rewrite (SAME _ _ _ X1 Y1), (SAME _ _ _ X2 Y2).
    exists (fst (iri_of_parts n m)), (snd (iri_of_parts n m)). split; [now apply iri_iff|]. apply iri_of_parts_text.
  - (* KIriText *) eapply (run_new A own _ 5); auto; [cbn; lia|apply (iri_of_string_f_ok huge fresh fresh_ok e full A R 0 t I)|].
    intros a A' I' (n & m & F & X). exists n, m. split; [now apply iri_iff|].
    destruct (iri_from_string_canonical t) as [[-> Q]|(_ & n' & m' & Q & Z & _)]; rewrite F in Q; [discriminate|]. inversion Q; subst. auto.
  - (* KEntity *) cbn in AL. destruct AL as (TE & _ & TI).
    eapply (run_new A own _ 2); auto; [cbn; lia|apply (entity_get_f_ok huge fresh fresh_ok e full A R 0 t i I TE (TY _ _ TI))|].
    intros a A' I' X. eapply ent_iff; eauto.
  - (* KEntityText *) eapply (run_new A own _ 7); auto; [cbn; lia|apply (entity_of_string_f_ok huge fresh fresh_ok e full A R 0 t u I AL)|].
    intros a A' I' (i & n & m & F & EI & X). exists i, n, m. split; [eapply ent_iff; eauto|]. split; [now apply iri_iff|].
    destruct (iri_from_string_canonical u) as [[-> Q]|(_ & n' & m' & Q & Z & _)]; rewrite F in Q; [discriminate|]. inversion Q; subst. auto.
  - (* KAnon *) destruct id as [i|].
    + cbn in AL. destruct AL as [_ AL]. destruct (STR _ AL) as (t & X).
      eapply (run_new A own _ 1); auto; [cbn; lia|apply (anon_of_id_f_ok huge fresh fresh_ok e full A R 0 i t I X)|].
      intros a A' I' Y t' Z. rewrite (SAME _ _ _ X Z). now apply anon_iff.
    + eapply (run_new A own _ 2); auto; [cbn; lia|apply (anon_generate_f_ok huge fresh fresh_ok e full A R 0 ids I CK)|].
      intros a A' I' (t & J & Y). exists t. split; auto. now apply anon_iff.
  - (* KLiteral *) cbn in AL. destruct AL as [[_ T1] O]. 
    assert (TV := TY _ _ T1).
    assert (Z : forall d, live (a_h A) d -> okf huge A R 2 0 (literal_alloc_f huge fresh full (Some v) (Some d) false) (gets huge e R 0 (fun a A' => lit_is (a_h A') a v d))).
    { intros d0 LD. apply literal_alloc_f_ok; auto. }
    eapply (run_new A own _ 2 (fun a A' => lit_is (a_h A') a v (match d with Some d => d | None => e_string e end))); auto; [cbn; lia| |].
    + cbn [exec_f literal_f]. destruct d as [d|]; [|apply Z; auto]. cbn in O, CK. destruct O as [LD _]. destruct CK as (C1 & C2 & C3).
      assert (L := UL _ LD). destruct L as (u & E). destruct (i_fit _ _ _ _ _ I d u E) as [F SH].
      eapply okf_pure; [intros q; apply (type_cs huge (at_n A q) d u E F)|].
      replace ((d =? e_lang_string e) || (d =? e_plain_literal e)) with false by lia.
      destruct (o_t u) eqn:T; try (apply Z; auto).
      exfalso. apply C1. apply (type_iff huge e A R [] d OT_STRING I). exists u. auto.
    + intros a A' I' X. cbn. eapply lit_iff; eauto.
  - (* KLitPlain *) eapply (run_new A own _ 3); auto; [cbn; lia|apply (lit_copied_f_ok huge fresh fresh_ok e full A R 0 t (e_string e) I LS)|].
    intros a A' I' (v & X & Y). exists v. split; [eapply lit_iff; eauto|]. now apply text_iff.
  - (* KLitTyped *) eapply (run_new A own _ 3); auto; [cbn; lia|apply (lit_copied_f_ok huge fresh fresh_ok e full A R 0 t d I (UL _ AL))|].
    intros a A' I' (v & X & Y). exists v. split; [eapply lit_iff; eauto|]. now apply text_iff.
  - (* KVector *) eapply (run_new A own _ (N.of_nat (List.length items))); auto; [cbn; lia|apply (vector_f_ok huge fresh fresh_ok e full A R 0 items I (FL _ AL))|].
    intros a A' I' X. now apply vec_iff.
  - (* KVectorAdd *) intros q K. cbn [exec_f]. unfold vector_add_f.
    set (A1 := at_n A (a_n A + 1)).
    assert (I1 : Inv A1 (lib ++ own) []) by now apply inv_at.
    assert (AL1 : allowed huge e lib own (cs A1) (KVectorAdd v x)) by (destruct AL as [[U T] U2]; split; [split; [now apply usable_at|exact T]|now apply usable_at]).
    assert (NC1 : SpecHeap.no_cycle (cs A1) (KVectorAdd v x)) by (intros Z; apply NC; now apply (reach_heap (cs A1))).
    destruct (full (a_n A)) eqn:FU.
    + exists None, 0, A1. split; [unfold obind, attempt, bind; cbn; rewrite FU; reflexivity|]. split; [intros b w Z; specialize (K b w Z); lia|].
      split; [|split; [exact I1|split; [now left|discriminate]]]. unfold frame. cbn. eapply keeps_refl; eauto.
    + destruct (exec_ok huge fresh fresh_ok e lib lib_empty lib_string A1 own (KVectorAdd v x) I1 SD AL1 NC1 q K) as (r & A' & E & K' & V & RS).
      exists r, 0, A'. split; [|split; [exact K'|split; [exact V|split; [exact RS|split; [now left|]]]]].
      * apply (try_none A 0 _ _ (vector_add huge (Some v) (Some x))); [now rewrite FU|exact E].
      * cbn [exec] in E. unfold none, bind in E. destruct (vector_add huge (Some v) (Some x) (cs A1)); inversion E; subst. discriminate.
  - (* KVectorPush *) intros q K. cbn [exec_f]. unfold vector_push_f.
    set (A1 := at_n A (a_n A + 1)).
    assert (I1 : Inv A1 (lib ++ own) []) by now apply inv_at.
    assert (AL1 : allowed huge e lib own (cs A1) (KVectorPush v x)) by (destruct AL as [[U T] U2]; split; [split; [now apply usable_at|exact T]|exact U2]).
    assert (NC1 : SpecHeap.no_cycle (cs A1) (KVectorPush v x)) by (intros Z; apply NC; now apply (reach_heap (cs A1))).
    destruct (full (a_n A)) eqn:FU.
    + destruct (exec_ok huge fresh fresh_ok e lib lib_empty lib_string A1 own (KRelease x) I1 SD (proj2 AL) Logic.I q K) as (r & A' & E & K' & V & RS).
      exists None, 0, A'. split; [|split; [exact K'|split; [exact V|split; [exact RS|split; [now left|discriminate]]]]].
      assert (r = None) as -> by (cbn [exec] in E; unfold none, bind in E; destruct (release huge (Some x) (cs A1)); [now inversion E|discriminate E]).
      apply (try_none A 0 _ _ (release huge (Some x))); [now rewrite FU|exact E].
    + destruct (exec_ok huge fresh fresh_ok e lib lib_empty lib_string A1 own (KVectorPush v x) I1 SD AL1 NC1 q K) as (r & A' & E & K' & V & RS).
      exists r, 0, A'. split; [|split; [exact K'|split; [exact V|split; [exact RS|split; [now left|]]]]].
      * apply (try_none A 0 _ _ (vector_push (Some v) (Some x))); [now rewrite FU|exact E].
      * cbn [exec] in E. unfold none, bind in E. destruct (vector_push (Some v) (Some x) (cs A1)); inversion E; subst. discriminate.
  - (* KConstruct *) eapply (run_new A own _ (N.of_nat (List.length fs) + 4)); auto; [cbn; lia|apply (construct_f_ok huge fresh fresh_ok e full A R 0 t fs opt val I)|].
    + cbn in AL. unfold good. destruct (ctor_of t) as [[n|n|n|n|]|]; auto.
      * destruct AL; auto.
      * destruct AL as (L & F & O). split; auto. split; auto. apply (OV opt O).
      * destruct AL as (L & F & O). split; auto.
      * destruct AL as (L & F & O). split; auto.
      * destruct AL as (c & o & d & -> & LC & LO & LD & AN). exists c, o, d. split; auto. split; auto. split; auto. split; auto. apply (OV opt AN).
    + intros ->. exact CK.
    + intros a A' I' (ks & -> & X). exists ks. split; auto. eapply comp_iff; eauto.
  - (* KNary *) cbn in AL. destruct AL as [CT F].
    eapply (run_it A own _ (N.of_nat (List.length items) + 2)); [reflexivity|cbn; lia| |].
    + apply (nary_f_ok huge fresh fresh_ok e full A R 0 t items I); auto; [unfold arity; destruct CT as [-> | ->]; auto|].
      destruct t; try reflexivity; destruct CT as [CT|CT]; discriminate CT.
    + intros [a|] n A' Q V.
      * destruct Q as (-> & I' & v & u & w & E & T & (o & us & D) & VI & ->).
        split; [unfold frame; cbn; now apply hold_keeps in V|]. split; [now apply new_own|]. split; [now left|].
        exists u. split; [|now apply vec_iff]. eapply comp_iff; eauto. exists v, o, us. split; auto.
      * destruct Q as (Q & I').
        split; [unfold frame; cbn; now apply hold_keeps in V|]. split; [exact I'|]. split; [destruct Q; subst; eauto 10|].
        intros _. apply (unchanged_ok A A' R); auto.
  - (* KChain *) cbn in AL. destruct AL as ([_ TS] & LU & AN).
    eapply (run_new A own _ 3); auto; [cbn; lia|apply (chain_f_ok huge fresh fresh_ok e full A R 0 sb super annot I (TY _ _ TS) (UL _ LU) (OV annot AN))|].
    intros a A' I' X. eapply comp_iff; eauto.
  - (* KOntology *) eapply (run_new A own _ 0); auto; [cbn; lia|apply (ontology_f huge fresh fresh_ok e full A R 0 I)|].
    intros a A' I' X. apply (type_iff huge e A' _ [] a OT_ONTOLOGY I'). exact X.
Qed.

End OomTop.

(** * Histories *)

Section Fhistory.
Variable huge : bool.
Variable fresh : N -> heap -> N.
Hypothesis fresh_ok : allocator fresh.
Local Notation cs := (ProofHeap.cs huge).

Theorem fhistory_inv e vs lib s own : fhistory huge fresh e vs lib s own ->
  exists A X L, s = cs A /\ lib = map fst L /\ ProofHeap.Inv huge e A (lib ++ own) [] /\ Lb e vs X (a_h A) L.
Proof.
  assert (STEP : forall A X L own k r A', lib = map fst L -> ProofHeap.Inv huge e A (lib ++ own) [] -> Lb e vs X (a_h A) L ->
    frame huge lib k own A A' -> result huge e lib k own r A' -> (removes k = true -> r = None) ->
    exists A0 X L, cs A' = cs A0 /\ lib = map fst L /\ ProofHeap.Inv huge e A0 (lib ++ after k r own) [] /\ Lb e vs X (a_h A0) L).
  { clear s own. intros A X L own k r A' EL I LB V RS RN. exists A', X, L. split; auto. split; auto. split; auto.
    destruct LB as (B1 & B2 & B3 & B4 & B5 & B6 & B7).
    assert (KL : keeps lib (a_h A) (a_h A')).
    { subst lib. apply (frame_lib huge e A A' k own L); auto. intros M. unfold result in RS. rewrite after_removes in RS by auto.
      now rewrite (RN M) in RS. }
    assert (J : incl (map fst L) lib) by (subst lib; apply incl_refl).
    destruct (keeps_lib huge e A _ _ (a_h A') L I KL J B5 B6) as [D C].
    split; auto. split; auto. split; [|auto].
    rewrite Forall_forall in B3 |- *. intros x Q. apply (keeps_vok lib (a_h A)); auto.
    intros z Z. apply J. subst L. right. unfold vall. apply in_map_iff in Z as (p & <- & P). apply in_map. apply in_flat_map. eauto. }
  induction 1 as [s E EL|full s own k r n s' H IH AL NC RM CK EX|s own k r s' H IH AL NC RM EX].
  - destruct (lib_init_ok huge fresh fresh_ok) as (e' & vs' & A & X & L & E' & I & LB). rewrite E in E'. inversion E'; subst e' vs' s.
    exists A, X, L. subst lib. rewrite (library_fst huge e vs X A L LB), app_nil_r. auto.
  - destruct IH as (A & X & L & -> & EL & I & LB).
    assert (LE : In (e_empty e) lib). { subst lib. destruct LB as (_ & _ & _ & -> & _). now left. }
    assert (LS : In (e_string e) lib) by (subst lib; apply LB).
    destruct (exec_f_ok huge fresh fresh_ok e full lib LE LS A own k I (lib_std e vs X (a_h A) L LB) AL NC CK 0) as (r' & n' & A' & EX' & _ & V & RS & _).
    { rewrite N.add_0_r. apply (room_iff huge e A (lib ++ own)); auto. }
    rewrite EX in EX'. inversion EX'; subst r' n' s'. apply (STEP A X L); auto.
    intros M. assert (Q : exec_f huge fresh e full k = lift (exec huge fresh e k)) by (destruct k; try discriminate M; reflexivity).
    rewrite Q in EX. unfold lift, bind in EX. destruct (exec huge fresh e k (cs A)) as [y s1|] eqn:EE; inversion EX; subst.
    apply (removes_none huge fresh e k _ _ _ M EE).
  - destruct IH as (A & X & L & -> & EL & I & LB).
    assert (LE : In (e_empty e) lib). { subst lib. destruct LB as (_ & _ & _ & -> & _). now left. }
    assert (LS : In (e_string e) lib) by (subst lib; apply LB).
    destruct (exec_ok huge fresh fresh_ok e lib LE LS A own k I (lib_std e vs X (a_h A) L LB) AL NC 0) as (r' & A' & EX' & _ & V & RS).
    { rewrite N.add_0_r. apply (room_iff huge e A (lib ++ own)); auto. }
    rewrite EX in EX'. inversion EX'; subst r' s'. apply (STEP A X L); auto.
    intros M. apply (removes_none huge fresh e k _ _ _ M EX).
Qed.

Theorem oom_harmless e vs lib s own full k : fhistory huge fresh e vs lib s own ->
  allowed huge e lib own s k -> SpecHeap.no_cycle s k -> room huge (lib ++ own) s k -> checked huge e s k ->
  exists r n s', exec_f huge fresh e full k 0 s = Ok (r, n) s' /\
    (n = 0 \/ n = 1 /\ r = None /\ exists t l, k = KNary t l) /\
    match r with
    | Some a => asked huge e s s' k a
    | None => creates k = true -> unchanged huge s s'
    end.
Proof.
  intros H AL NC RM CK. destruct (fhistory_inv _ _ _ _ _ H) as (A & X & L & -> & EL & I & LB).
  assert (LE : In (e_empty e) lib). { subst lib. destruct LB as (_ & _ & _ & -> & _). now left. }
  assert (LS : In (e_string e) lib) by (subst lib; apply LB).
  destruct (exec_f_ok huge fresh fresh_ok e full lib LE LS A own k I (lib_std e vs X (a_h A) L LB) AL NC CK 0) as (r' & n' & A' & EX' & _ & V & RS & O).
  { rewrite N.add_0_r. apply (room_iff huge e A (lib ++ own)); auto. }
  exists r', n', (cs A'). split; auto.
Qed.

Section Reached.
Variables (e : env) (vs : list vocab) (lib own : list N) (s : state).
Hypothesis H : fhistory huge fresh e vs lib s own.

Lemma f_counts a c : lookup (s_heap s) a = Some c -> ref_of huge c = N.of_nat (references (lib ++ own) s a) /\ (0 < references (lib ++ own) s a)%nat.
Proof. exact (counts_ok_at huge e vs lib own s (fhistory_inv _ _ _ _ _ H) a c). Qed.
Lemma f_alive a : (0 < references (lib ++ own) s a)%nat -> alive s a.
Proof. exact (referenced_alive_at huge e vs lib own s (fhistory_inv _ _ _ _ _ H) a). Qed.
Lemma f_no_leak a : alive s a -> usable (lib ++ own) s a.
Proof. exact (no_leak_at huge e vs lib own s (fhistory_inv _ _ _ _ _ H) a). Qed.
Lemma f_iri_unique a b n m : iri_key s a n m -> iri_key s b n m -> a = b.
Proof. exact (iri_unique_at huge e vs lib own s (fhistory_inv _ _ _ _ _ H) a b n m). Qed.
Lemma f_entity_unique a b t i : entity_key huge s a t i -> entity_key huge s b t i -> a = b.
Proof. exact (entity_unique_at huge e vs lib own s (fhistory_inv _ _ _ _ _ H) a b t i). Qed.
Lemma f_anon_unique a b t : anon_key s a t -> anon_key s b t -> a = b.
Proof. exact (anon_unique_at huge e vs lib own s (fhistory_inv _ _ _ _ _ H) a b t). Qed.
Lemma f_string_unique a b t : interned huge e s a t -> interned huge e s b t -> a = b.
Proof. exact (string_unique_at huge e vs lib own s (fhistory_inv _ _ _ _ _ H) a b t). Qed.
End Reached.
Lemma f_shutdown e vs lib s : fhistory huge fresh e vs lib s [] ->
  (forall a, alive s a -> In a lib) /\
  exists s', lib_deinit huge e vs s = Ok tt s' /\ s_heap s' = [] /\ forall T, table T s' = [].
Proof. intros H. exact (shutdown_at huge e vs lib s (fhistory_inv _ _ _ _ _ H)). Qed.

End Fhistory.
