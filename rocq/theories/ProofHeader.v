(** Proofs about the header word, axiom-type sets and type predicates. *)

From Coq Require Import NArith ZArith List Bool Sorted Lia.
From Coq Require Import ZifyBool ZifyNat ZifyN.
From Verif Require Import ModelTypes ModelHeader SpecHeader.
Import ListNotations.
Local Open Scope N_scope.

(** * Header word *)

(** The word as a number. *)
Definition word (huge : bool) (h : header) : N :=
  h_type h * 2 ^ (ref_bits huge + 1) + (if h_bit h then 2 ^ ref_bits huge else 0) + h_refs h.

Definition fits (huge : bool) (h : header) : Prop := h_type h < 128 /\ h_refs h <= max_refs huge.

Lemma max_refs_pow huge : max_refs huge + 1 = 2 ^ ref_bits huge.
Proof. destruct huge; reflexivity. Qed.

Lemma ones_mask huge : ref_mask huge = N.ones (ref_bits huge).
Proof. destruct huge; reflexivity. Qed.

Lemma testbit_word huge h i : fits huge h ->
  N.testbit (word huge h) i =
  if i <? ref_bits huge then N.testbit (h_refs h) i
  else if i =? ref_bits huge then h_bit h
  else N.testbit (h_type h) (i - (ref_bits huge + 1)).
Proof.
  intros [Ht Hr].
  assert (Hr' : h_refs h < 2 ^ ref_bits huge) by (rewrite <- max_refs_pow; lia).
  set (r := ref_bits huge) in *.
  unfold word. fold r.
  set (u := h_type h * 2 ^ 1 + N.b2n (h_bit h)).
  assert (E : h_type h * 2 ^ (r + 1) + (if h_bit h then 2 ^ r else 0) + h_refs h = u * 2 ^ r + h_refs h).
  { unfold u. rewrite N.pow_add_r. destruct (h_bit h); simpl N.b2n; nia. }
  rewrite E. clear E.
  assert (P : 2 ^ r <> 0) by (apply N.pow_nonzero; lia).
  destruct (i <? r) eqn:L.
  - rewrite <- (N.mod_pow2_bits_low (u * 2 ^ r + h_refs h) r i) by lia.
    rewrite N.add_comm, N.mod_add by auto. rewrite N.mod_pow2_bits_low by lia. auto.
  - replace i with ((i - r) + r) at 1 by lia. rewrite <- N.div_pow2_bits.
    rewrite N.div_add_l, N.div_small, N.add_0_r by auto. unfold u.
    destruct (i =? r) eqn:Q.
    + replace (i - r) with 0 by lia. rewrite N.add_comm, N.pow_1_r, N.mul_comm.
      rewrite N.testbit_odd, N.shiftr_0_r, N.odd_add_mul_2. destruct (h_bit h); auto.
    + replace (i - r) with (N.succ (i - (r + 1))) by lia. rewrite N.pow_1_r, N.mul_comm.
      apply N.testbit_succ_r.
Qed.

Lemma word_lt huge h : fits huge h -> word huge h < 2 ^ word_bits huge.
Proof.
  intros [Ht Hr]. pose proof (max_refs_pow huge) as M. unfold word, word_bits.
  replace (2 ^ (ref_bits huge + 8)) with (256 * 2 ^ ref_bits huge) by (rewrite N.pow_add_r; lia).
  rewrite N.pow_add_r. destruct (h_bit h); nia.
Qed.

Lemma wrap_word huge h : fits huge h -> wrap huge (word huge h) = word huge h.
Proof. intros H. apply N.mod_small, word_lt, H. Qed.

Lemma high_bits_type t i : t < 128 -> 7 <= i -> N.testbit t i = false.
Proof.
  intros Ht Hi. destruct (N.eq_dec t 0) as [->|Z]; [apply N.bits_0|].
  apply N.bits_above_log2. apply N.log2_lt_pow2; [lia|].
  apply N.lt_le_trans with (2 ^ 7); [exact Ht|]. apply N.pow_le_mono_r; lia.
Qed.

Lemma high_bits_refs huge n i : n <= max_refs huge -> ref_bits huge <= i -> N.testbit n i = false.
Proof.
  intros Ht Hi. destruct (N.eq_dec n 0) as [->|Z]; [apply N.bits_0|].
  apply N.bits_above_log2. apply N.log2_lt_pow2; [lia|].
  apply N.lt_le_trans with (2 ^ ref_bits huge); [rewrite <- max_refs_pow; lia|].
  apply N.pow_le_mono_r; lia.
Qed.

Lemma bit_mask_bits huge i : N.testbit (bit_mask huge) i = (i =? ref_bits huge).
Proof. unfold bit_mask. rewrite N.shiftl_1_l, N.pow2_bits_eqb. apply N.eqb_sym. Qed.

Lemma ref_mask_bits huge i : N.testbit (ref_mask huge) i = (i <? ref_bits huge).
Proof.
  rewrite ones_mask. destruct (i <? ref_bits huge) eqn:E.
  - apply N.ones_spec_low. lia.
  - apply N.ones_spec_high. lia.
Qed.

Lemma ones_bits n i : N.testbit (N.ones n) i = (i <? n).
Proof.
  destruct (i <? n) eqn:E; [apply N.ones_spec_low|apply N.ones_spec_high]; lia.
Qed.

Lemma type_mask_bits huge i : N.testbit (type_mask huge) i = (ref_bits huge <? i) && (i <? word_bits huge).
Proof.
  unfold type_mask, bit_type_mask. rewrite !N.ldiff_spec, bit_mask_bits, ref_mask_bits, ones_bits. lia.
Qed.

Lemma shows_word huge h : fits huge h -> shows huge (word huge h) h.
Proof.
  intros F. destruct F as [Ht Hr]. unfold shows. repeat split.
  - apply N.bits_inj. intros i. unfold hd_get_type. rewrite N.shiftr_spec', N.land_spec, type_mask_bits, testbit_word by (split; auto).
    destruct (i + (ref_bits huge + 1) <? ref_bits huge) eqn:A; [lia|].
    destruct (i + (ref_bits huge + 1) =? ref_bits huge) eqn:B; [lia|].
    replace (i + (ref_bits huge + 1) - (ref_bits huge + 1)) with i by lia.
    destruct (ref_bits huge <? i + (ref_bits huge + 1)) eqn:C; [|lia]. simpl andb.
    destruct (i + (ref_bits huge + 1) <? word_bits huge) eqn:D.
    + now rewrite andb_true_r.
    + rewrite andb_false_r. symmetry. apply high_bits_type; auto. unfold word_bits in D. lia.
  - unfold hd_get_bit.
    assert (T : N.testbit (word huge h) (ref_bits huge) = h_bit h).
    { rewrite testbit_word by (split; auto). rewrite N.eqb_refl.
      destruct (ref_bits huge <? ref_bits huge) eqn:A; [lia|auto]. }
    destruct (h_bit h) eqn:B.
    + apply N.eqb_eq. apply N.bits_inj. intros i. rewrite N.land_spec, bit_mask_bits.
      destruct (i =? ref_bits huge) eqn:E; [|now rewrite andb_false_r].
      apply N.eqb_eq in E. subst i. now rewrite T.
    + apply N.eqb_neq. intros C. apply (f_equal (fun x => N.testbit x (ref_bits huge))) in C.
      rewrite N.land_spec, bit_mask_bits, N.eqb_refl, T in C. discriminate.
  - apply N.bits_inj. intros i. unfold hd_get_ref. rewrite N.land_spec, ref_mask_bits, testbit_word by (split; auto).
    destruct (i <? ref_bits huge) eqn:A; [now rewrite andb_true_r|].
    rewrite andb_false_r. symmetry. apply (high_bits_refs huge); auto. lia.
Qed.

Lemma fits_step huge h op h' : fits huge h -> h_step huge h op h' -> fits huge h'.
Proof. intros [A B] S. destruct S; unfold fits in *; simpl in *; lia. Qed.

Lemma step_word huge h op h' : fits huge h -> h_step huge h op h' -> hd_step huge (word huge h) op = word huge h'.
Proof.
  intros F S. pose proof (fits_step _ _ _ _ F S) as F'. destruct S as [t b n H|t b n|t b n|t b n]; simpl hd_step.
  - unfold hd_incr. replace (word huge (mkHdr t b n) + 1) with (word huge (mkHdr t b (n + 1))).
    + apply wrap_word, F'.
    + unfold word. cbn [h_type h_bit h_refs]. lia.
  - unfold hd_decr, wrap.
    replace (word huge (mkHdr t b (n + 1)) + 2 ^ word_bits huge - 1)
      with (word huge (mkHdr t b n) + 1 * 2 ^ word_bits huge).
    + rewrite N.mod_add by (apply N.pow_nonzero; lia). apply wrap_word, F'.
    + unfold word. cbn [h_type h_bit h_refs]. lia.
  - unfold hd_set_bit. apply N.bits_inj. intros i.
    rewrite N.lor_spec, bit_mask_bits, !testbit_word by auto. simpl.
    destruct (i <? ref_bits huge) eqn:A; destruct (i =? ref_bits huge) eqn:B; try lia; now rewrite ?orb_true_r, ?orb_false_r.
  - unfold hd_unset_bit. apply N.bits_inj. intros i.
    rewrite N.ldiff_spec, bit_mask_bits, !testbit_word by auto. simpl.
    destruct (i <? ref_bits huge) eqn:A; destruct (i =? ref_bits huge) eqn:B; try lia; now rewrite ?andb_true_r, ?andb_false_r.
Qed.

Lemma init_word huge t b : t < 128 -> hd_init huge t b = word huge (mkHdr t b 1).
Proof.
  intros Ht. assert (F : fits huge (mkHdr t b 1)) by (split; simpl; [auto|destruct huge; vm_compute; discriminate]).
  assert (F0 : fits huge (mkHdr t false 0)) by (split; simpl; [auto|destruct huge; vm_compute; discriminate]).
  unfold hd_init.
  assert (E : N.shiftl t (ref_bits huge + 1) = word huge (mkHdr t false 0)).
  { rewrite N.shiftl_mul_pow2. unfold word. cbn [h_type h_bit h_refs]. lia. }
  rewrite E, wrap_word by auto. apply N.bits_inj. intros i. rewrite !N.lor_spec, !testbit_word by auto. simpl h_refs. simpl h_type. simpl h_bit.
  assert (R : 1 <= ref_bits huge) by (destruct huge; vm_compute; discriminate).
  assert (M : N.testbit (if b then bit_mask huge else 0) i = (b && (i =? ref_bits huge))).
  { destruct b; cbn [andb]; [apply bit_mask_bits|]. apply (N.bits_0 i). }
  rewrite M, N.bits_0. destruct (N.eq_dec i 0) as [->|I].
  - destruct (0 <? ref_bits huge) eqn:A; [|lia]. simpl. now rewrite orb_true_r.
  - replace (N.testbit 1 i) with false.
    2:{ symmetry. destruct i; [lia|]. reflexivity. }
    destruct (i <? ref_bits huge) eqn:A; destruct (i =? ref_bits huge) eqn:B; try lia;
      simpl; rewrite ?andb_false_r, ?andb_true_r, ?orb_false_r; auto.
Qed.

Lemma run_word huge h0 ops h : h_run huge h0 ops h -> fits huge h0 ->
  hd_run huge (word huge h0) ops = word huge h /\ fits huge h.
Proof.
  unfold hd_run. induction 1 as [h0|h0 op h1 ops h2 S R IH]; intros F; auto.
  cbn [fold_left]. rewrite (step_word _ _ _ _ F S). apply IH. eapply fits_step; eauto.
Qed.

Lemma fits_init huge t b : t < 128 -> fits huge (mkHdr t b 1).
Proof. split; simpl; [auto|destruct huge; vm_compute; discriminate]. Qed.

Theorem header_refines huge t b ops h : t < 128 -> h_run huge (mkHdr t b 1) ops h ->
  shows huge (hd_run huge (hd_init huge t b) ops) h.
Proof.
  intros Ht R. rewrite init_word by auto. apply run_word in R as [-> F]; [|now apply fits_init].
  now apply shows_word.
Qed.

Theorem header_overflow huge t b : t < 128 ->
  shows huge (hd_incr huge (word huge (mkHdr t b (max_refs huge)))) (mkHdr (if b then (t + 1) mod 128 else t) (negb b) 0).
Proof.
  intros Ht. unfold hd_incr.
  set (h' := mkHdr (if b then (t + 1) mod 128 else t) (negb b) 0).
  assert (F : fits huge h').
  { split; simpl; [|lia]. destruct b; auto. apply N.mod_lt. lia. }
  replace (wrap huge (word huge (mkHdr t b (max_refs huge)) + 1)) with (word huge h').
  { apply shows_word, F. }
  pose proof (max_refs_pow huge) as M. unfold word, wrap, word_bits, h'. simpl h_refs; simpl h_bit; simpl h_type.
  rewrite !N.pow_add_r in *. change (2 ^ 1) with 2. change (2 ^ 8) with 256.
  set (p := 2 ^ ref_bits huge) in *. assert (0 < p) by lia.
  destruct b; cbn [negb].
  - replace (t * (p * 2) + p + max_refs huge + 1) with ((t + 1) * 2 * p) by nia.
    destruct (N.eq_dec t 127) as [->|T].
    + rewrite N.mod_same by lia. replace ((127 + 1) * 2 * p) with (1 * (p * 256)) by nia.
      rewrite N.mod_mul by nia. lia.
    + rewrite (N.mod_small (t + 1)) by lia. rewrite N.mod_small by nia. nia.
  - replace (t * (p * 2) + 0 + max_refs huge + 1) with (t * 2 * p + p) by nia.
    rewrite N.mod_small by nia. nia.
Qed.

Theorem header_limit huge t b ops t' b' : t < 128 -> h_run huge (mkHdr t b 1) ops (mkHdr t' b' (max_refs huge)) ->
  shows huge (hd_run huge (hd_init huge t b) (ops ++ [HRetain]))
    (mkHdr (if b' then (t' + 1) mod 128 else t') (negb b') 0).
Proof.
  intros Ht R. rewrite init_word by auto. apply run_word in R as [E F]; [|now apply fits_init].
  unfold hd_run in *. rewrite fold_left_app, E. apply header_overflow. apply F.
Qed.

(** A run up to the limit exists: retaining [n] times. *)
Lemma run_retains huge t b n m : n + N.of_nat m <= max_refs huge ->
  h_run huge (mkHdr t b n) (repeat HRetain m) (mkHdr t b (n + N.of_nat m)).
Proof.
  revert n. induction m as [|m IH]; intros n H.
  - simpl. rewrite N.add_0_r. constructor.
  - cbn [repeat]. eapply hr_cons; [constructor; lia|].
    replace (n + N.of_nat (S m)) with (n + 1 + N.of_nat m) by lia. apply IH. lia.
Qed.

(** * Sets of axiom types *)

Lemma lowest_bit p : N.testbit (Npos p) (lowest p) = true.
Proof.
  induction p as [p IH|p IH|]; auto. cbn [lowest].
  change (N.pos (xO p)) with (2 * N.pos p). now rewrite N.testbit_even_succ by lia.
Qed.

Lemma lowest_least p i : i < lowest p -> N.testbit (Npos p) i = false.
Proof.
  revert i. induction p as [p IH|p IH|]; intros i H; cbn [lowest] in H; try lia.
  change (N.pos (xO p)) with (2 * N.pos p).
  destruct (N.eq_dec i 0) as [->|Z].
  - apply N.testbit_even_0.
  - replace i with (N.succ (i - 1)) by lia. rewrite N.testbit_even_succ by lia. apply IH. lia.
Qed.

(** Types of the set not below [from]. *)
Definition rest_of (flags from : N) (l : list N) : Prop :=
  (forall t, In t l <-> N.testbit flags t = true /\ from <= t /\ t < 37) /\ StronglySorted N.lt l.

Lemma ldiff_low flags from i : N.testbit (N.ldiff flags (N.shiftl 1 from - 1)) i = (from <=? i) && N.testbit flags i.
Proof.
  rewrite N.shiftl_1_l, N.sub_1_r, <- N.ones_equiv, N.ldiff_spec, ones_bits.
  destruct (i <? from) eqn:A; destruct (from <=? i) eqn:B; try lia; simpl; now rewrite ?andb_true_r, ?andb_false_r.
Qed.

Lemma foreach_type_spec fuel : forall flags from type,
  type = first_set (N.ldiff flags (N.shiftl 1 from - 1)) -> from + N.of_nat fuel >= 37 ->
  exists l, foreach_type fuel flags type = Some l /\ rest_of flags from l.
Proof.
  induction fuel as [|fuel IH]; intros flags from type E Hf.
  - exists []. set (x := N.ldiff flags (N.shiftl 1 from - 1)) in *.
    assert (T : 37 <= type).
    { subst type. destruct x as [|p] eqn:X; simpl; [lia|].
      pose proof (lowest_bit p) as B. rewrite <- X in B. unfold x in B. rewrite ldiff_low in B.
      apply andb_prop in B as [B _]. lia. }
    unfold foreach_type. change AT_COUNT with 37. destruct (type <? 37) eqn:L; [lia|]. split; auto.
    split; [|constructor]. intros t. simpl. lia.
  - cbn [foreach_type]. change AT_COUNT with 37.
    set (x := N.ldiff flags (N.shiftl 1 from - 1)) in *.
    assert (A : forall t, N.testbit x t = true <-> N.testbit flags t = true /\ from <= t).
    { intros t. unfold x. rewrite ldiff_low, andb_true_iff. lia. }
    destruct (type <? 37) eqn:L.
    + destruct x as [|p] eqn:X; [subst; simpl in L; lia|].
      simpl in E. assert (B : N.testbit flags type = true /\ from <= type).
      { apply A. rewrite E. apply lowest_bit. }
      destruct (IH flags (type + 1) (first_set (N.ldiff flags (N.shiftl 1 (type + 1) - 1))) eq_refl) as (l & -> & Hl & Hs); [lia|].
      exists (type :: l). split; auto. split.
      * intros t. simpl. rewrite Hl. split.
        -- intros [<-|H]; [|lia]. destruct B. repeat split; auto. lia.
        -- intros (H1 & H2 & H3). destruct (N.lt_trichotomy t type) as [C|[C|C]]; [|auto|].
           ++ exfalso. assert (D : N.testbit (N.pos p) t = true) by (apply A; auto).
              rewrite lowest_least in D by lia. discriminate.
           ++ right. repeat split; auto. lia.
      * constructor; auto. apply Forall_forall. intros t Ht. apply Hl in Ht. lia.
    + exists []. split; auto. split; [|constructor]. intros t. simpl. split; [tauto|].
      intros (H1 & H2 & H3). assert (D : N.testbit x t = true) by (apply A; auto).
      destruct x as [|p]; [rewrite N.bits_0 in D; discriminate|]. simpl in E.
      rewrite lowest_least in D by lia. discriminate.
Qed.

Theorem foreach_types_spec flags : exists l, foreach_types flags = Some l /\
  (forall t, In t l <-> in_set flags t /\ t < 37) /\ StronglySorted N.lt l.
Proof.
  unfold foreach_types.
  destruct (foreach_type_spec 40 flags 0 (first_set flags)) as (l & E & H & S).
  - now rewrite N.sub_diag, N.ldiff_0_r.
  - lia.
  - exists l. split; auto. split; auto. intros t. rewrite H. unfold in_set. intuition lia.
Qed.

Lemma in_sorted_unique (l : list N) : StronglySorted N.lt l -> NoDup l.
Proof.
  induction 1 as [|x l S IH F]; constructor; auto. intros H. rewrite Forall_forall in F.
  specialize (F x H). lia.
Qed.

Lemma af_of_bits t i : N.testbit (af_of t) i = (i =? t).
Proof. unfold af_of. rewrite N.shiftl_1_l, N.pow2_bits_eqb. apply N.eqb_sym. Qed.

Theorem af_has_spec flags t : af_has flags t = true <-> in_set flags t.
Proof.
  unfold af_has, in_set. rewrite N.eqb_eq. split.
  - intros H. apply (f_equal (fun x => N.testbit x t)) in H. rewrite N.land_spec, af_of_bits, N.eqb_refl, andb_true_r in H. auto.
  - intros H. apply N.bits_inj. intros i. rewrite N.land_spec, af_of_bits.
    destruct (i =? t) eqn:E; [|apply andb_false_r]. apply N.eqb_eq in E. subst. now rewrite H.
Qed.

Theorem af_add_spec flags t u : in_set (af_add flags t) u <-> in_set flags u \/ u = t.
Proof. unfold in_set, af_add. rewrite N.lor_spec, af_of_bits, orb_true_iff, N.eqb_eq. tauto. Qed.

Theorem af_remove_spec flags t u : in_set (af_remove flags t) u <-> in_set flags u /\ u <> t.
Proof. unfold in_set, af_remove. rewrite N.ldiff_spec, af_of_bits, andb_true_iff, negb_true_iff, N.eqb_neq. tauto. Qed.

Lemma af_all_bits i : N.testbit AF_ALL i = (i <? 37).
Proof. change AF_ALL with (N.ones 37). apply ones_bits. Qed.

Theorem af_has_all_spec flags : af_has_all flags = true <-> forall t, t < 37 -> in_set flags t.
Proof.
  unfold af_has_all, in_set. rewrite N.eqb_eq. split.
  - intros H t Ht. apply (f_equal (fun x => N.testbit x t)) in H. rewrite N.land_spec, af_all_bits in H.
    destruct (t <? 37) eqn:E; [|lia]. now rewrite andb_true_r in H.
  - intros H. apply N.bits_inj. intros i. rewrite N.land_spec, af_all_bits.
    destruct (i <? 37) eqn:E; [|apply andb_false_r]. rewrite H; auto. lia.
Qed.

Theorem af_has_none_spec flags : af_has_none flags = true <-> forall t, t < 37 -> ~ in_set flags t.
Proof.
  unfold af_has_none, in_set. rewrite N.eqb_eq. split.
  - intros H t Ht. apply (f_equal (fun x => N.testbit x t)) in H. rewrite N.land_spec, af_all_bits, N.bits_0 in H.
    destruct (t <? 37) eqn:E; [|lia]. rewrite andb_true_r in H. congruence.
  - intros H. apply N.bits_inj. intros i. rewrite N.land_spec, af_all_bits, N.bits_0.
    destruct (i <? 37) eqn:E; [|apply andb_false_r]. rewrite andb_true_r. apply not_true_is_false, H. lia.
Qed.

Theorem af_all_spec t : in_set AF_ALL t <-> t < 37.
Proof. unfold in_set. rewrite af_all_bits. lia. Qed.

(** * Type predicates *)

Lemma exactly_by (f : otype -> bool) l : (forall t, f t = existsb (otype_eqb t) l) -> exactly f l.
Proof.
  intros H t. rewrite H, existsb_exists. split.
  - intros (x & Hx & E). unfold otype_eqb in E. apply N.eqb_eq in E.
    assert (t = x) by (destruct t, x; try reflexivity; discriminate E). now subst.
  - intros Hx. exists t. split; auto. unfold otype_eqb. apply N.eqb_refl.
Qed.

Theorem kinds_exact :
  exactly type_is_axiom axiom_types /\ exactly type_is_cls_exp cls_exp_types /\
  exactly type_is_data_range data_range_types /\ exactly type_is_obj_prop_exp obj_prop_exp_types /\
  exactly type_is_data_prop_exp [OT_DPE_DATA_PROP] /\ exactly type_is_individual individual_types /\
  exactly type_is_entity entity_types /\ exactly type_is_primitive primitive_types.
Proof. repeat split; apply exactly_by; intros t'; destruct t'; reflexivity. Qed.

Lemma inverts_by get first l :
  forallb (fun k => match nth_error l k, family_type first (N.of_nat k) with
                    | Some t, Some t' => otype_eqb t t' && (get t =? N.of_nat k) | _, _ => false end)
    (seq 0 (length l)) = true -> inverts get first l.
Proof.
  intros H k Hk. rewrite forallb_forall in H. specialize (H (N.to_nat k)). rewrite N2Nat.id in H.
  assert (I : In (N.to_nat k) (seq 0 (length l))) by (apply in_seq; lia). specialize (H I).
  destruct (nth_error l (N.to_nat k)) as [t|]; [|discriminate].
  destruct (family_type first k) as [t'|]; [|discriminate].
  apply andb_prop in H as [A B]. exists t. split; auto. split; [|lia].
  unfold otype_eqb in A. apply N.eqb_eq in A. assert (t = t') by (destruct t, t'; try reflexivity; discriminate A).
  now subst.
Qed.

Theorem getters_invert :
  inverts axiom_type_num OT_A_DECL axiom_types /\
  inverts cls_exp_get_type OT_CE_CLASS cls_exp_types /\
  inverts data_range_get_type OT_DR_DATATYPE data_range_types /\
  inverts obj_card_get_type OT_CE_OBJ_MIN_CARD [OT_CE_OBJ_MIN_CARD; OT_CE_OBJ_MAX_CARD; OT_CE_OBJ_EXACT_CARD] /\
  inverts data_card_get_type OT_CE_DATA_MIN_CARD [OT_CE_DATA_MIN_CARD; OT_CE_DATA_MAX_CARD; OT_CE_DATA_EXACT_CARD] /\
  inverts obj_quant_get_type OT_CE_OBJ_SOME [OT_CE_OBJ_SOME; OT_CE_OBJ_ALL] /\
  inverts data_quant_get_type OT_CE_DATA_SOME [OT_CE_DATA_SOME; OT_CE_DATA_ALL] /\
  inverts nary_cls_get_type OT_CE_OBJ_INTERSECT [OT_CE_OBJ_INTERSECT; OT_CE_OBJ_UNION] /\
  inverts nary_data_get_type OT_DR_DATA_INTERSECT [OT_DR_DATA_INTERSECT; OT_DR_DATA_UNION] /\
  inverts nary_cls_axiom_get_type OT_A_EQUIV_CLASSES [OT_A_EQUIV_CLASSES; OT_A_DISJ_CLASSES] /\
  inverts nary_obj_prop_axiom_get_type OT_A_EQUIV_OBJ_PROP [OT_A_EQUIV_OBJ_PROP; OT_A_DISJ_OBJ_PROP] /\
  inverts nary_data_prop_axiom_get_type OT_A_EQUIV_DATA_PROP [OT_A_EQUIV_DATA_PROP; OT_A_DISJ_DATA_PROP] /\
  inverts nary_ind_axiom_get_type OT_A_SAME_IND [OT_A_SAME_IND; OT_A_DIFF_IND] /\
  inverts char_axiom_get_type OT_A_FUNC_OBJ_PROP
    [OT_A_FUNC_OBJ_PROP; OT_A_INV_FUNC_OBJ_PROP; OT_A_REFL_OBJ_PROP; OT_A_IRREFL_OBJ_PROP;
     OT_A_SYMM_OBJ_PROP; OT_A_ASYMM_OBJ_PROP; OT_A_TRANS_OBJ_PROP].
Proof. repeat split; apply inverts_by; reflexivity. Qed.

Theorem entity_getters e :
  entity_get_type (etype_otype e) = e /\ primitive_get_type (etype_otype e) = PT_ENT e /\
  In (etype_otype e) entity_types.
Proof. destruct e; repeat split; simpl; tauto. Qed.

Theorem primitive_getter t : In t primitive_types ->
  (t = OT_IRI /\ primitive_get_type t = PT_IRI) \/ (t = OT_I_ANONYMOUS /\ primitive_get_type t = PT_ANON_IND) \/
  (exists e, t = etype_otype e /\ primitive_get_type t = PT_ENT e).
Proof.
  simpl. intros H; repeat destruct H as [<-|H]; try contradiction;
    [right; right; exists ET_CLASS|right; right; exists ET_DATATYPE|right; right; exists ET_OBJ_PROP
    |right; right; exists ET_DATA_PROP|right; right; exists ET_ANNOT_PROP|right; right; exists ET_NAMED_IND
    |right; left|left]; split; reflexivity.
Qed.

Lemma otype_num_small t : otype_num t < 128.
Proof. destruct t; reflexivity. Qed.

(** * Examples *)

Example ex_h_run : h_run false (mkHdr (otype_num OT_I_ANONYMOUS) false 1)
  [HRetain; HSetBit; HRetain; HRelease; HUnsetBit; HSetBit; HRelease; HRelease]
  (mkHdr (otype_num OT_I_ANONYMOUS) true 0).
Proof.
  eapply hr_cons; [apply hs_retain; reflexivity|].
  eapply hr_cons; [apply hs_set|].
  eapply hr_cons; [apply hs_retain; reflexivity|].
  eapply hr_cons; [apply (hs_release _ _ _ 2)|].
  eapply hr_cons; [apply hs_unset|].
  eapply hr_cons; [apply hs_set|].
  eapply hr_cons; [apply (hs_release _ _ _ 1)|].
  eapply hr_cons; [apply (hs_release _ _ _ 0)|].
  constructor.
Qed.

Example ex_h_limit huge t b :
  h_run huge (mkHdr t b 1) (repeat HRetain (N.to_nat (max_refs huge - 1))) (mkHdr t b (max_refs huge)).
Proof.
  pose proof (run_retains huge t b 1 (N.to_nat (max_refs huge - 1))) as H.
  assert (M : 1 <= max_refs huge) by (destruct huge; vm_compute; discriminate).
  rewrite N2Nat.id in H. replace (1 + (max_refs huge - 1)) with (max_refs huge) in H by lia.
  apply H. lia.
Qed.

Example ex_foreach : foreach_types (af_add (af_add AF_NONE 36) 1) = Some [1; 36] /\ foreach_types 0 = Some [] /\
  foreach_types (2 ^ 40 + 1) = Some [0].
Proof. repeat split. Qed.

Example ex_kinds : In OT_A_HAS_KEY axiom_types /\ ~ In OT_ANNOTATION axiom_types /\ In OT_ANNOT_PROP entity_types.
Proof. repeat split; simpl; try tauto. intros H; repeat destruct H as [H|H]; try discriminate; contradiction. Qed.

Theorem annot_value_getter k t : nth_error annot_value_types k = Some t -> annot_value_get_type t = N.of_nat k.
Proof. destruct k as [|[|[|[|k]]]]; cbn; intros [=<-]; reflexivity. Qed.
