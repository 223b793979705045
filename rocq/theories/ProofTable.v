(** Proofs about tables and storing iterators. *)

From Coq Require Import NArith ZArith List Bool Lia String.
From Verif Require Import Bytes ModelTypes ModelObject ModelTable SpecObject SpecTable ProofObject ProofIter ProofAxiom.
Import ListNotations.
Local Open Scope N_scope.

Lemma simple_equals x y : simple x -> simple y -> (cowl_equals x y = true <-> seq x y).
Proof.
  intros [Dx [i Wx]] [Dy [j Wy]]. eapply equals_seq; eauto. eapply wt_one_same_order; eauto.
Qed.

Lemma find_spec t k : proper_table t -> simple k ->
  match table_find k (tbl_entries t) with
  | Some (k', w) => In (k', w) (tbl_entries t) /\ seq k k'
  | None => forall k' w, In (k', w) (tbl_entries t) -> ~ seq k k'
  end.
Proof.
  intros (_ & Hs & _) Sk. unfold table_find.
  destruct (find _ _) as [[k' w]|] eqn:E.
  - apply find_some in E as [Hin E]. simpl in E. split; auto. apply simple_equals; eauto.
  - intros k' w Hin Hq. apply (find_none _ _ E) in Hin as Hn. simpl in Hn.
    assert (cowl_equals k k' = true) by (apply simple_equals; eauto). congruence.
Qed.

Lemma key_unique (l : list (obj * option pval)) k v k' v' : ForallOrdPairs (fun e f => ~ seq (fst e) (fst f)) l ->
  In (k, v) l -> In (k', v') l -> seq k k' -> (k, v) = (k', v').
Proof.
  induction 1 as [|e l He H IH]; intros H1 H2 Hq; [destruct H1|].
  rewrite Forall_forall in He.
  destruct H1 as [->|H1], H2 as [E|H2].
  - auto.
  - apply He in H2. simpl in H2. tauto.
  - subst e. apply He in H1. simpl in H1. apply seq_sym in Hq. tauto.
  - auto.
Qed.

Lemma keys_incl_sym (a b : list (obj * option pval)) :
  ForallOrdPairs (fun e f => ~ seq (fst e) (fst f)) a -> ForallOrdPairs (fun e f => ~ seq (fst e) (fst f)) b ->
  List.length a = List.length b ->
  (forall e, In e a -> exists f, In f b /\ seq (fst e) (fst f)) ->
  (forall f, In f b -> exists e, In e a /\ seq (fst e) (fst f)).
Proof.
  intros Pa Pb Hlen H f Hf.
  destruct (matching (fun e f => seq (fst e) (fst f)) (fun e f => seq (fst e) (fst f)) a b) as (b' & Hp & HF); auto.
  - intros x y z H1 H2. apply seq_sym in H2. eapply seq_trans; eauto.
  - lia.
  - assert (Hf' : In f b') by (eapply Permutation.Permutation_in; eauto).
    destruct (Forall2_in_r _ _ _ _ HF Hf') as (e & He & Hq). eauto.
Qed.

Lemma uhset_equals_spec a b : proper_table a -> proper_table b ->
  (uhset_equals (tbl_entries a) (tbl_entries b) = true <->
   List.length (tbl_entries a) = List.length (tbl_entries b) /\
   forall e, In e (tbl_entries a) -> exists f, In f (tbl_entries b) /\ seq (fst e) (fst f)).
Proof.
  intros Pa Pb. unfold uhset_equals. rewrite andb_true_iff, Nat.eqb_eq, forallb_forall.
  split; intros [Hl H]; split; auto; intros [k v] Hin; specialize (H _ Hin).
  - pose proof (find_spec b k Pb (proj1 (proj2 Pa) _ _ Hin)) as F. simpl in *.
    destruct (table_find k (tbl_entries b)) as [[k' w]|]; [|discriminate]. exists (k', w). auto.
  - pose proof (find_spec b k Pb (proj1 (proj2 Pa) _ _ Hin)) as F. simpl in *.
    destruct (table_find k (tbl_entries b)) as [[k' w]|]; auto.
    destruct H as ([k' w] & H1 & H2). exfalso. eapply F; eauto.
Qed.

Lemma table_loop_spec a b es : proper_table a -> proper_table b -> disjoint_values a b ->
  (forall e, In e es -> In e (tbl_entries a)) ->
  decides (table_equals_loop es b)
    (forall k v, In (k, v) es -> match table_find k (tbl_entries b) with Some (_, w) => same_value v w | None => False end).
Proof.
  intros Pa Pb [D1 D2]. induction es as [|[k v] es IH]; intros Hin.
  - left. split; auto. intros k v [].
  - simpl. assert (Hk : In (k, v) (tbl_entries a)) by (apply Hin; simpl; auto).
    pose proof (find_spec b k Pb (proj1 (proj2 Pa) _ _ Hk)) as F.
    unfold table_get_value. destruct v as [l|]; [|exfalso; eapply D1; eauto].
    destruct (table_find k (tbl_entries b)) as [[k' [r|]]|] eqn:E.
    + simpl. destruct F as [F _]. assert (Ha : pv_addr r =? pv_addr l = false).
      { apply N.eqb_neq. intros Hc. eapply D2; eauto. }
      rewrite Ha. destruct (cowl_equals (pv_obj l) (pv_obj r)) eqn:Eq.
      * destruct IH as [[H ->]|[H ->]]; [intros; apply Hin; simpl; auto| |].
        -- left. split; auto. intros k0 v0 [E0|H0]; [|now apply H]. inversion E0; subst. rewrite E. simpl.
           apply simple_equals; auto; [apply (proj2 (proj2 Pa) _ _ Hk)|apply (proj2 (proj2 Pb) _ _ F)].
        -- right. split; auto. intros H0. apply H. intros k0 v0 Hk0. apply H0. simpl; auto.
      * right. split; auto. intros H. specialize (H k (Some l) (or_introl eq_refl)). rewrite E in H. simpl in H.
        apply simple_equals in H; [congruence|apply (proj2 (proj2 Pa) _ _ Hk)|apply (proj2 (proj2 Pb) _ _ F)].
    + simpl. right. split; auto. intros H. specialize (H k (Some l) (or_introl eq_refl)). rewrite E in H. auto.
    + simpl. right. split; auto. intros H. specialize (H k (Some l) (or_introl eq_refl)). rewrite E in H. auto.
Qed.

Theorem table_equals_spec a b : proper_table a -> proper_table b -> disjoint_values a b ->
  decides (table_equals a b) (same_table a b).
Proof.
  intros Pa Pb D. unfold table_equals.
  destruct (uhset_equals (tbl_entries a) (tbl_entries b)) eqn:U; simpl negb; cbv iota.
  - apply uhset_equals_spec in U as [Hl HU]; auto.
    assert (HU' : forall f, In f (tbl_entries b) -> exists e, In e (tbl_entries a) /\ seq (fst e) (fst f)).
    { apply keys_incl_sym; auto; [apply Pa|apply Pb]. }
    destruct (tbl_is_map a) eqn:Ma; simpl.
    + destruct (tbl_is_map b) eqn:Mb; simpl.
      * destruct (table_loop_spec a b (tbl_entries a) Pa Pb D) as [[H ->]|[H ->]]; auto.
        -- left. split; auto. split; [congruence|]. split.
           ++ intros k v Hk. specialize (H k v Hk).
              pose proof (find_spec b k Pb (proj1 (proj2 Pa) _ _ Hk)) as F.
              destruct (table_find k (tbl_entries b)) as [[k' w]|]; [|tauto]. exists k', w. tauto.
           ++ intros k w Hk. destruct (HU' _ Hk) as ([k' v] & Hk' & Hq). simpl in Hq.
              exists k', v. split; auto. split; auto. intros _. specialize (H k' v Hk').
              pose proof (find_spec b k' Pb (proj1 (proj2 Pa) _ _ Hk')) as F.
              destruct (table_find k' (tbl_entries b)) as [[k2 w2]|]; [|tauto]. destruct F as [F Hq2].
              assert (E : (k, w) = (k2, w2)).
              { eapply key_unique; eauto; [apply Pb|]. eapply seq_trans; [apply seq_sym; eauto|auto]. }
              inversion E; subst; auto.
        -- right. split; auto. intros (_ & H1 & _). apply H. intros k v Hk.
           destruct (H1 k v Hk) as (k' & w & Hk' & Hq & Hv). specialize (Hv Ma).
           pose proof (find_spec b k Pb (proj1 (proj2 Pa) _ _ Hk)) as F.
           destruct (table_find k (tbl_entries b)) as [[k2 w2]|].
           ++ destruct F as [F Hq2]. assert (E : (k', w) = (k2, w2)).
              { eapply key_unique; eauto; [apply Pb|]. eapply seq_trans; [apply seq_sym; eauto|auto]. }
              inversion E; subst; auto.
           ++ eapply F; eauto.
      * right. split; auto. intros (E & _). congruence.
    + destruct (tbl_is_map b) eqn:Mb; simpl.
      * right. split; auto. intros (E & _). congruence.
      * left. split; auto. split; [congruence|]. split.
        -- intros k v Hk. destruct (HU _ Hk) as ([k' w] & Hk' & Hq). exists k', w. simpl in Hq.
           repeat split; auto. congruence.
        -- intros k w Hk. destruct (HU' _ Hk) as ([k' v] & Hk' & Hq). exists k', v. simpl in Hq.
           repeat split; auto. congruence.
  - right. split; auto. intros (_ & H1 & H2).
    assert (U' : uhset_equals (tbl_entries a) (tbl_entries b) = true); [|congruence].
    apply uhset_equals_spec; auto. split.
    + apply (mutual_inclusion_length (fun e f => seq (fst e) (fst f))).
      * intros; now apply seq_sym.
      * intros; eapply seq_trans; eauto.
      * apply Pa.
      * apply Pb.
      * intros [k v] Hk. destruct (H1 k v Hk) as (k' & w & Hk' & Hq & _). exists (k', w); auto.
      * intros [k w] Hk. destruct (H2 k w Hk) as (k' & v & Hk' & Hq & _). exists (k', v); auto.
    + intros [k v] Hk. destruct (H1 k v Hk) as (k' & w & Hk' & Hq & _). exists (k', w). auto.
Qed.

(** * Storing iterators *)

Lemma called_vec retain l : forall v lg done s' r,
  called (iterator_vec retain) (v, lg) done s' r -> done = l ->
  s' = (v ++ l, if retain then lg ++ l else lg) /\ r = 0%Z.
Proof.
  intros v lg done s' r H. remember (v, lg) as s. revert l v lg Heqs.
  induction H; intros l0 v lg Hs Hd; subst.
  - rewrite !app_nil_r. destruct retain; auto.
  - unfold iterator_vec in H. inversion H; subst. exfalso. apply H0. reflexivity.
  - unfold iterator_vec in H. inversion H; subst. simpl in *.
    destruct (IHcalled l _ _ eq_refl eq_refl) as [-> ->]. split; auto.
    destruct retain; rewrite <- !app_assoc; reflexivity.
Qed.

Theorem vec_collects (run : forall S, (S -> obj -> S * ret) -> S -> ires S) l retain :
  delivers run l -> run _ (iterator_vec retain) ([], []) = IRet (l, if retain then l else []) 0%Z.
Proof.
  intros D. destruct (D _ (iterator_vec retain) ([], [])) as (d & rest & s' & r & -> & Hc & -> & Hr).
  destruct (called_vec retain _ _ _ _ _ _ Hc eq_refl) as [-> ->]. rewrite (Hr eq_refl), app_nil_r.
  destruct retain; reflexivity.
Qed.

Lemma called_set retain l : forall v lg done s' r,
  called (iterator_set retain) (v, lg) done s' r -> done = l ->
  Forall simple v -> Forall simple l -> ForallOrdPairs (fun x y => ~ seq x y) (v ++ l) ->
  s' = (v ++ l, if retain then lg ++ l else lg) /\ r = 0%Z.
Proof.
  intros v lg done s' r H. remember (v, lg) as s. revert l v lg Heqs.
  induction H; intros l0 v lg Hs Hd Sv Sl Hp; subst.
  - rewrite !app_nil_r. destruct retain; auto.
  - exfalso. unfold iterator_set in H. simpl in H.
    destruct (existsb (cowl_equals x) v) eqn:E.
    + apply existsb_exists in E as (y & Hy & E). inversion Sl; subst. rewrite Forall_forall in Sv.
      apply simple_equals in E; auto. apply seq_sym in E.
      clear -Hp Hy E. induction v as [|z v IH]; [destruct Hy|]. inversion Hp; subst.
      destruct Hy as [->|Hy]; [|auto]. rewrite Forall_forall in H1. apply (H1 x); [|auto].
      apply in_app_iff; simpl; auto.
    + inversion H; subst. apply H0. reflexivity.
  - assert (E : existsb (cowl_equals x) v = false).
    { destruct (existsb (cowl_equals x) v) eqn:E; auto. exfalso. unfold iterator_set in H. simpl in H. rewrite E in H. discriminate. }
    unfold iterator_set in H. simpl in H. rewrite E in H. inversion H; subst. inversion Sl; subst.
    destruct (IHcalled l _ _ eq_refl eq_refl) as [-> ->]; auto.
    + apply Forall_app; auto.
    + now rewrite <- app_assoc.
    + split; auto. destruct retain; rewrite <- !app_assoc; reflexivity.
Qed.

Lemma pairs_prefix {A} (R : A -> A -> Prop) l m : ForallOrdPairs R (l ++ m) -> ForallOrdPairs R l.
Proof.
  induction l as [|x l IH]; intros H; [constructor|]. inversion H; subst. constructor; auto.
  apply Forall_app in H2. tauto.
Qed.

Theorem set_collects (run : forall S, (S -> obj -> S * ret) -> S -> ires S) l retain :
  delivers run l -> Forall simple l -> ForallOrdPairs (fun x y => ~ seq x y) l ->
  run _ (iterator_set retain) ([], []) = IRet (l, if retain then l else []) 0%Z.
Proof.
  intros D Sl Pl. destruct (D _ (iterator_set retain) ([], [])) as (d & rest & s' & r & -> & Hc & -> & Hr).
  apply Forall_app in Sl as [Sl _]. apply pairs_prefix in Pl.
  destruct (called_set retain _ _ _ _ _ _ Hc eq_refl) as [-> ->]; auto.
  rewrite (Hr eq_refl), app_nil_r. destruct retain; reflexivity.
Qed.

(** * What the set iterator retains, and counting *)

Lemma called_set_log retain : forall s done s' r, called (iterator_set retain) s done s' r ->
  exists l rest, done = l ++ rest /\ fst s' = fst s ++ l /\ snd s' = (if retain then snd s ++ l else snd s).
Proof.
  intros s done s' r H. induction H.
  - exists [], []. rewrite !app_nil_r. destruct retain; auto.
  - unfold iterator_set in H. destruct (existsb (cowl_equals x) (fst s)); injection H as <- <-.
    + exists [], [x]. rewrite !app_nil_r. destruct retain; auto.
    + exists [x], []. auto.
  - unfold iterator_set in H. destruct (existsb (cowl_equals x) (fst s)); [discriminate|].
    injection H as <-. destruct IHcalled as (l0 & rest & -> & E1 & E2). cbn [fst snd] in *.
    exists (x :: l0), rest. split; auto. split; [rewrite E1, <- app_assoc; reflexivity|].
    rewrite E2. destruct retain; [rewrite <- app_assoc|]; reflexivity.
Qed.

Theorem set_retains (run : forall S, (S -> obj -> S * ret) -> S -> ires S) l retain : delivers run l ->
  exists held rest r, l = held ++ rest /\
  run _ (iterator_set retain) ([], []) = IRet (held, if retain then held else []) r.
Proof.
  intros D. destruct (D _ (iterator_set retain) ([], [])) as (d & rest & s' & r & -> & Hc & -> & Hr).
  destruct (called_set_log retain _ _ _ _ Hc) as (h & rest' & -> & E1 & E2). cbn [fst snd app] in *.
  exists h, (rest' ++ rest), r. split; [now rewrite app_assoc|].
  destruct s' as [a b]. cbn [fst snd] in *. subst. reflexivity.
Qed.

Lemma called_count w : forall s done s' r, called (iterator_count w) s done s' r -> s < 2 ^ w ->
  s' = (s + N.of_nat (List.length done)) mod 2 ^ w /\ r = 0%Z.
Proof.
  intros s done s' r H. induction H; intros L.
  - cbn. rewrite N.add_0_r, N.mod_small; auto.
  - unfold iterator_count in H. injection H as <- <-. now destruct H0.
  - unfold iterator_count in H. injection H as <-.
    assert (P : 2 ^ w <> 0) by (apply N.pow_nonzero; discriminate).
    destruct IHcalled as [-> ->]; [now apply N.mod_lt|]. split; auto.
    rewrite N.add_mod_idemp_l by auto. f_equal. cbn [List.length]. rewrite Nnat.Nat2N.inj_succ. lia.
Qed.

Theorem count_counts (run : forall S, (S -> obj -> S * ret) -> S -> ires S) l w : delivers run l ->
  run _ (iterator_count w) 0 = IRet (N.of_nat (List.length l) mod 2 ^ w) 0%Z.
Proof.
  intros D. destruct (D _ (iterator_count w) 0) as (d & rest & s' & r & -> & Hc & -> & Hr).
  assert (P : 2 ^ w <> 0) by (apply N.pow_nonzero; discriminate).
  destruct (called_count w _ _ _ _ Hc) as [-> ->]; [lia|]. rewrite (Hr eq_refl), app_nil_r, N.add_0_l. reflexivity.
Qed.

(** * Iterating over the entries of a table *)

Lemma called_join {S A} (call : S -> A -> S * ret) s d1 s1 : called call s d1 s1 0%Z ->
  forall d2 s2 r, called call s1 d2 s2 r -> called call s (d1 ++ d2) s2 r.
Proof.
  intros H. remember 0%Z as z. induction H; intros d2 s2 r0 H2; subst; auto.
  - now destruct H0.
  - cbn. eapply called_more; eauto.
Qed.

Theorem table_calls es l flags : well_formed_entries es -> entry_occurrences es l ->
  forall S (call : S -> obj -> S * ret) s, exists done rest s' r r',
  filter (enabled flags) l = done ++ rest /\ called call s done s' r /\
  table_iterate_primitives call flags es s = IRet s' r' /\
  (r = 0%Z -> rest = [] /\ r' = 0%Z) /\ (r' = r \/ r' = 0%Z).
Proof.
  intros W H S call. induction H as [|k es lk l Hk He IH|k v es lk lv l Hk Hv He IH]; intros s.
  - exists [], [], s, 0%Z, 0%Z. repeat split; auto. constructor.
  - assert (W' : well_formed_entries es) by (intros ? ? ?; apply W; now right).
    destruct (W k None (or_introl eq_refl)) as [Wk _].
    destruct (iterate_delivers k lk Wk Hk flags S call s) as (d & rest & s1 & r & E & C & R & Z).
    cbn [table_iterate_primitives]. rewrite R. unfold should_stop, COWL_OK, COWL_CONTINUE.
    rewrite filter_app, E. destruct (Z.eqb_spec r 0).
    + subst r. rewrite (Z eq_refl), app_nil_r.
      destruct (IH W' s1) as (d2 & rest2 & s2 & r2 & r2' & E2 & C2 & R2 & Z2 & O2).
      exists (d ++ d2), rest2, s2, r2, r2'. rewrite E2, app_assoc. split; auto.
      split; [eapply called_join; eauto|]. auto.
    + exists d, (rest ++ filter (enabled flags) l), s1, r, r. rewrite <- app_assoc. repeat split; auto; contradiction.
  - assert (W' : well_formed_entries es) by (intros ? ? ?; apply W; now right).
    destruct (W k (Some v) (or_introl eq_refl)) as [Wk Wv]. specialize (Wv _ eq_refl).
    destruct (iterate_delivers k lk Wk Hk flags S call s) as (d & rest & s1 & r & E & C & R & Z).
    cbn [table_iterate_primitives]. rewrite R. unfold should_stop, COWL_OK, COWL_CONTINUE.
    rewrite !filter_app, E. destruct (Z.eqb_spec r 0).
    + subst r. rewrite (Z eq_refl), app_nil_r. cbn [negb].
      destruct (iterate_delivers (pv_obj v) lv Wv Hv flags S call s1) as (dv & restv & s2 & rv & Ev & Cv & Rv & Zv).
      rewrite Rv, Ev. destruct (Z.eqb_spec rv 0).
      * subst rv. rewrite (Zv eq_refl), app_nil_r. cbn [negb].
        destruct (IH W' s2) as (d2 & rest2 & s3 & r2 & r2' & E2 & C2 & R2 & Z2 & O2).
        exists (d ++ dv ++ d2), rest2, s3, r2, r2'. rewrite E2, <- !app_assoc. split; auto.
        split; [eapply called_join; eauto; eapply called_join; eauto|]. auto.
      * exists (d ++ dv), (restv ++ filter (enabled flags) l), s2, rv, 0%Z. rewrite <- !app_assoc.
        split; [auto|]. split; [eapply called_join; eauto|]. repeat split; auto; contradiction.
    + exists d, (rest ++ filter (enabled flags) lv ++ filter (enabled flags) l), s1, r, r.
      rewrite <- app_assoc. repeat split; auto; contradiction.
Qed.
