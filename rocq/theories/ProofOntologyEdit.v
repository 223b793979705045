(** Filtered iteration and removal, and whole histories. *)

From Coq Require Import NArith ZArith List Bool Arith Lia Permutation Sorted.
From Verif Require Import Bytes ModelTypes ModelObject ModelHeader SpecObject SpecHeader.
From Verif Require Import ProofObject ProofIter ProofAxiom ProofHeader ModelOntology SpecOntology ProofOntology ProofOntologyQuery.
Import ListNotations.
Local Open Scope nat_scope.

(** * Indexed axioms *)

Lemma pindex_expand heap o p k : Inv heap o -> o_indexing o = true -> kind p = Some k ->
  Permutation (vec_data (pindex (o_refs o) p)) (expand p (all_ax o)).
Proof. intros I Ind K. pose proof (inv_index _ _ I p k K) as H. now rewrite Ind in H. Qed.

Lemma pindex_in heap o p k a : Inv heap o -> o_indexing o = true -> kind p = Some k ->
  (In a (vec_data (pindex (o_refs o) p)) <-> In a (all_ax o) /\ mentions p (r_obj a)).
Proof.
  intros I Ind K. rewrite <- (cnt_mentions p k) by auto. rewrite <- expand_in.
  pose proof (pindex_expand heap o p k I Ind K) as P.
  split; intros H; (eapply Permutation_in; [|exact H]); [exact P|symmetry; exact P].
Qed.

Lemma about_kind p k q : kind p = Some k -> about p q -> exists k', kind q = Some k'.
Proof. intros K [->|(e & ns & rem & -> & ->)]; eauto. exists PT_IRI. reflexivity. Qed.

Lemma about_list_in heap o p k a : Inv heap o -> o_indexing o = true -> kind p = Some k ->
  (In a (about_list o p) <-> In a (all_ax o) /\ exists q, about p q /\ mentions q (r_obj a)).
Proof.
  intros I Ind K. unfold about_list. rewrite in_app_iff, (pindex_in heap o p k a I Ind K).
  assert (E : In a (match p with OEnt _ ns rem => vec_data (pindex (o_refs o) (OIri ns rem)) | _ => [] end) <->
              In a (all_ax o) /\ exists e ns rem, p = OEnt e ns rem /\ mentions (OIri ns rem) (r_obj a)).
  { destruct p; try (split; [intros []|intros (_ & e' & n' & r' & E & _); discriminate]).
    rewrite (pindex_in heap o (OIri ns rem) PT_IRI a I Ind eq_refl). split.
    - intros [H M]. split; auto. eauto 6.
    - intros (H & e' & n' & r' & [= -> -> ->] & M). auto. }
  rewrite E. clear E. unfold about. split.
  - intros [[H M]|(H & e & ns & rem & -> & M)]; (split; [exact H|]); [eauto|]. exists (OIri ns rem). eauto 8.
  - intros (H & q & [->|(e & ns & rem & -> & ->)] & M); [auto|]. right. eauto 8.
Qed.

(** * Filtered iteration *)

Lemma filter_ext_perm {A} (f : A -> bool) l m : Permutation l m -> Permutation (filter f l) (filter f m).
Proof.
  induction 1; simpl; auto.
  - destruct (f x); auto.
  - destruct (f x), (f y); auto. constructor.
  - etransitivity; eauto.
Qed.

Lemma matchb_ext f g a b : prims (f_prims f) -> prims (f_prims g) -> is_axiom_object (r_obj a) -> is_axiom_object (r_obj b) ->
  (satisfies f a <-> satisfies g b) -> matchb f a = matchb g b.
Proof.
  intros Hf Hg Wa Wb E. destruct (filter_matches_spec f a Hf Wa) as [_ Ef]. destruct (filter_matches_spec g b Hg Wb) as [_ Eg].
  destruct (matchb f a), (matchb g b); auto; [symmetry|]; tauto.
Qed.

Lemma prims_remove l p : prims l -> prims (remove_prim l p).
Proof. intros H q Hq. apply H. eapply remove_prim_incl, Hq. Qed.

Lemma satisfies_split f g p k a : kind p = Some k -> In p (f_prims f) -> f_prims g = remove_prim (f_prims f) p ->
  f_closure g = f_closure f -> (forall t, (t < 37)%N -> N.testbit (f_types g) t = N.testbit (f_types f) t) ->
  is_axiom_object (r_obj a) -> (satisfies f a <-> satisfies g a /\ mentions p (r_obj a)).
Proof.
  intros K Hp Ep Ec Et W. unfold satisfies. rewrite Ec, Ep, Et by (now apply ax_type_bound). split.
  - intros (H1 & H2 & H3). repeat split; auto. intros q Hq. apply H2. eapply remove_prim_incl, Hq.
  - intros ((H1 & H2 & H3) & M). repeat split; auto. intros q Hq.
    destruct (remove_prim_or (f_prims f) p k q K Hq) as [->|Hq']; auto.
Qed.

Lemma matching_spec heap w o f : Inv heap o -> o_indexing o = true -> prims (f_prims f) ->
  exists L, (forall S (call : S -> ref -> S * ret) s, iterate_axioms_matching call w o f s = as_ires (deliver call L s)) /\
  (f_prims f = [] -> L = []) /\
  (f_prims f <> [] ->
    Permutation L (filter (matchb f) (all_ax o)) \/
    exists p g, In p (f_prims f) /\ f_prims g = remove_prim (f_prims f) p /\ f_closure g = f_closure f /\
      (forall t, (t < 37)%N -> N.testbit (f_types g) t = N.testbit (f_types f) t) /\
      L = filter (matchb g) (about_list o p)).
Proof.
  intros I Ind H. destruct (best_filter_spec heap w o f I Ind H) as (g & best & E & Ec & B).
  assert (FM : forall f' a, prims (f_prims f') -> In a (all_ax o) -> filter_matches f' a = Some (matchb f' a)).
  { intros f' a Hf Ha. apply filter_matches_spec; auto. now apply (all_ax_in o heap a I). }
  unfold iterate_axioms_matching. rewrite E. destruct best as [p|].
  - destruct B as (Hp & Ep & NN & NZ & Et). exists (filter (matchb g) (about_list o p)).
    destruct (H p Hp) as [k K].
    assert (Hg : prims (f_prims g)) by (rewrite Ep; now apply prims_remove).
    assert (A : forall a, In a (about_list o p) -> In a (all_ax o)).
    { intros a Ha. now apply (about_list_in heap o p k a I Ind K) in Ha. }
    split; [|split; [intros X; rewrite X in Hp; destruct Hp|]].
    + intros S call s. apply N.eqb_neq in NZ. rewrite NZ.
      destruct (negb (N.eqb (f_types g) AF_ALL) || negb (Nat.eqb (length (f_prims g)) 0) ||
                match f_closure g with Some _ => true | None => false end) eqn:Chk.
      * rewrite for_primitive_deliver. apply matching_deliver. intros a Ha. auto.
      * rewrite for_primitive_deliver. rewrite filter_id; auto. intros a Ha.
        destruct (all_ax_in o heap a I (A a Ha)) as (_ & W & _).
        apply (filter_matches_spec g a Hg W). apply orb_false_iff in Chk as [Chk C3]. apply orb_false_iff in Chk as [C1 C2].
        apply negb_false_iff, N.eqb_eq in C1. apply negb_false_iff, Nat.eqb_eq in C2.
        destruct (f_closure g) eqn:Cl; [discriminate|].
        split; [|split].
        -- rewrite C1, af_all_bits. apply N.ltb_lt. now apply ax_type_bound.
        -- destruct (f_prims g); [now intros q []|discriminate].
        -- rewrite Cl. discriminate.
    + intros _. right. exists p, g. auto.
  - destruct B as (Ep & [(Z & NS)|(NE & Et & NZ & NA)]).
    + exists []. rewrite Z. split; [reflexivity|]. split; auto. intros NE. left. specialize (NS NE).
      assert (X : filter (matchb f) (all_ax o) = []); [|rewrite X; constructor].
      assert (Y : forall a, In a (all_ax o) -> matchb f a = false).
      { intros a Ha. destruct (matchb f a) eqn:M; auto. exfalso. apply (NS a Ha).
        destruct (all_ax_in o heap a I Ha) as (_ & W & _). now apply (filter_matches_spec f a H W). }
      clear -Y. induction (all_ax o) as [|a l IH]; auto. simpl. rewrite Y by (simpl; auto). apply IH. intros; apply Y; simpl; auto.
    + destruct (foreach_types_spec (f_types f)) as (l & El & Hl & Sl).
      set (f' := mkFilter AF_ALL (f_prims g) (f_closure g)).
      exists (filter (matchb f') (flat_map (fun t => vec_data (tindex o t)) l)).
      pose proof (of_types_filter heap o (f_types f) l I El) as P.
      split; [|split; [intros X; now apply NE in X|]].
      * intros S call s. rewrite Et. apply N.eqb_neq in NZ, NA. rewrite NZ, NA. rewrite Ep.
        assert (Q : Nat.eqb (length (f_prims f)) 0 = false) by (apply Nat.eqb_neq; destruct (f_prims f); simpl; [now destruct NE|lia]).
        rewrite Q. cbn [negb andb]. rewrite (of_types_deliver _ o (f_types f) l _ El).
        unfold f'. rewrite Ep. apply matching_deliver. intros a Ha. apply FM; auto.
        eapply Permutation_in in Ha; [|exact P]. now apply filter_In in Ha.
      * intros _. left. rewrite (filter_ext_perm _ _ _ P). clear P.
        assert (X : forall L, (forall a, In a L -> In a (all_ax o)) ->
          filter (matchb f') (filter (fun a => N.testbit (f_types f) (ax_type (r_obj a))) L) = filter (matchb f) L).
        { induction L as [|a L IH]; intros HL; auto. simpl.
          destruct (all_ax_in o heap a I (HL a (or_introl eq_refl))) as (_ & W & _).
          rewrite <- IH by (intros; apply HL; simpl; auto).
          destruct (filter_matches_spec f a H W) as [_ Ef].
          assert (Hf' : prims (f_prims f')) by (unfold f'; simpl; now rewrite Ep).
          destruct (filter_matches_spec f' a Hf' W) as [_ Ef'].
          destruct (N.testbit (f_types f) (ax_type (r_obj a))) eqn:T.
          - simpl. assert (Q : matchb f' a = matchb f a); [|now rewrite Q].
            apply matchb_ext; auto. unfold satisfies, f'. cbn [f_types f_prims f_closure]. rewrite Ec, Ep, T, af_all_bits.
            assert (LL : (ax_type (r_obj a) <? 37)%N = true) by (now apply N.ltb_lt, ax_type_bound).
            rewrite LL. tauto.
          - destruct (matchb f a) eqn:M; auto. exfalso. destruct Ef as [Ef _]. destruct (Ef eq_refl) as [TT _]. congruence. }
        rewrite X; auto.
Qed.

Lemma filter_app_nil {A} (f : A -> bool) l : filter f (l ++ []) = filter f l.
Proof. now rewrite app_nil_r. Qed.

Lemma filter_repeat {A} (f : A -> bool) a n : filter f (repeat a n) = if f a then repeat a n else [].
Proof. induction n; simpl; [now destruct (f a)|]. rewrite IHn. now destruct (f a). Qed.

(** Set of delivered axioms, and the exact list when nothing is mentioned twice. *)
Lemma matching_sound_complete heap w o f : Inv heap o -> o_indexing o = true -> prims (f_prims f) -> f_prims f <> [] ->
  exists L, (forall S (call : S -> ref -> S * ret) s, iterate_axioms_matching call w o f s = as_ires (deliver call L s)) /\
  (forall a, In a (all_ax o) -> satisfies f a -> In a L) /\
  (forall a, In a L -> In a (all_ax o) /\ N.testbit (f_types f) (ax_type (r_obj a)) = true /\
     (forall c, f_closure f = Some c -> c a = true) /\
     (forall p, In p (f_prims f) -> exists q, about p q /\ mentions q (r_obj a))) /\
  ((forall a, In a (all_ax o) -> satisfies f a -> forall p, In p (f_prims f) -> occurs p (r_obj a) 1) ->
   (forall a, In a (all_ax o) -> forall p q, In p (f_prims f) -> about p q -> q <> p -> ~ mentions q (r_obj a)) ->
   Permutation L (filter (matchb f) (all_ax o))).
Proof.
  intros I Ind H NE. destruct (matching_spec heap w o f I Ind H) as (L & HL & _ & C). exists L. split; auto.
  assert (SAT : forall a, In a (all_ax o) -> (matchb f a = true <-> satisfies f a)).
  { intros a Ha. destruct (all_ax_in o heap a I Ha) as (_ & W & _). now apply filter_matches_spec. }
  destruct (C NE) as [P|(p & g & Hp & Ep & Ec & Et & ->)]; clear C.
  - assert (Q : forall a, In a L <-> In a (all_ax o) /\ satisfies f a).
    { intros a. split.
      - intros Ha. eapply Permutation_in in Ha; [|exact P]. apply filter_In in Ha as [Ha M]. split; auto. now apply SAT.
      - intros [Ha S]. eapply Permutation_in; [symmetry; exact P|]. apply filter_In. split; auto. now apply SAT. }
    split; [|split].
    + intros a Ha S. apply Q. auto.
    + intros a Ha. apply Q in Ha as (Ha & S1 & S2 & S3). repeat split; auto. intros p Hp. exists p. split; [now left|auto].
    + auto.
  - destruct (H p Hp) as [k K].
    assert (Hg : prims (f_prims g)) by (rewrite Ep; now apply prims_remove).
    assert (SG : forall a, In a (all_ax o) -> (matchb g a = true <-> satisfies g a)).
    { intros a Ha. destruct (all_ax_in o heap a I Ha) as (_ & W & _). now apply filter_matches_spec. }
    split; [|split].
    + intros a Ha S. destruct (all_ax_in o heap a I Ha) as (_ & W & _).
      apply (satisfies_split f g p k a) in S as [S M]; auto. apply filter_In. split; [|now apply SG].
      apply (about_list_in heap o p k a I Ind K). split; auto. exists p. split; [now left|auto].
    + intros a Ha. apply filter_In in Ha as [Ha M]. apply (about_list_in heap o p k a I Ind K) in Ha as (Ha & q & Aq & Mq).
      destruct (all_ax_in o heap a I Ha) as (_ & W & _).
      apply SG in M as (S1 & S2 & S3); auto. rewrite Et in S1 by (now apply ax_type_bound). rewrite Ec in S3.
      repeat split; auto. intros p' Hp'. destruct (remove_prim_or (f_prims f) p k p' K Hp') as [->|Hq']; eauto.
      exists p'. split; [now left|]. apply S2. now rewrite Ep.
    + intros O1 O2.
      assert (AL : Permutation (about_list o p) (expand p (all_ax o))).
      { unfold about_list. rewrite (pindex_expand heap o p k I Ind K).
        assert (Z : match p with OEnt _ ns rem => vec_data (pindex (o_refs o) (OIri ns rem)) | _ => [] end = []).
        { destruct p; auto. destruct (vec_data (pindex (o_refs o) (OIri ns rem))) as [|b v] eqn:V; auto. exfalso.
          assert (Hb : In b (vec_data (pindex (o_refs o) (OIri ns rem)))) by (rewrite V; simpl; auto).
          apply (pindex_in heap o (OIri ns rem) PT_IRI b I Ind eq_refl) in Hb as [Hb Mb].
          refine (O2 b Hb _ (OIri ns rem) Hp _ _ Mb); [right; eauto 6|discriminate]. }
        rewrite Z, app_nil_r. reflexivity. }
      rewrite (filter_ext_perm _ _ _ AL).
      assert (X : forall l, (forall a, In a l -> In a (all_ax o)) -> filter (matchb g) (expand p l) = filter (matchb f) l).
      { induction l as [|a l IH]; intros Hl; auto. rewrite expand_cons, filter_app, filter_repeat. cbn [filter].
        rewrite IH by (intros; apply Hl; simpl; auto). assert (Ha := Hl a (or_introl eq_refl)).
        destruct (all_ax_in o heap a I Ha) as (_ & W & _).
        pose proof (satisfies_split f g p k a K Hp Ep Ec Et W) as SS. rewrite <- (SAT a Ha), <- (SG a Ha) in SS.
        destruct (matchb f a) eqn:Mf.
        - destruct SS as [SS _]. destruct (SS eq_refl) as [-> _].
          assert (Z : cnt p (occ (r_obj a)) = 1).
          { apply (occurs_cnt p k); auto. apply O1; auto. now apply SAT. }
          rewrite Z. reflexivity.
        - destruct (matchb g a) eqn:Mg; auto. destruct (cnt p (occ (r_obj a))) eqn:Z; auto. exfalso.
          destruct SS as [_ SS]. assert (false = true); [|discriminate]. apply SS. split; auto.
          apply (cnt_mentions p k); auto. lia. }
      rewrite X; auto.
Qed.

(** * Bulk removal *)

Definition hkind (h : handle) : Prop := match h with HPrim p => exists k, kind p = Some k | HType t => (t < 37)%N end.

Lemma h_vec_in heap o h a : Inv heap o -> o_indexing o = true -> hkind h -> In a (vec_data (h_vec o h)) -> In a (all_ax o).
Proof.
  intros I Ind K H. destruct h as [p|t]; simpl in *.
  - destruct K as [k K]. now apply (pindex_in heap o p k a I Ind K) in H.
  - now apply (in_all_ax o t).
Qed.

Definition hsel (h : handle) (a : ref) : Prop :=
  match h with HPrim p => mentions p (r_obj a) | HType t => ax_type (r_obj a) = t end.

Lemma h_vec_sel heap o h a : Inv heap o -> o_indexing o = true -> hkind h -> In a (vec_data (h_vec o h)) -> hsel h a.
Proof.
  intros I Ind K H. destruct h as [p|t]; simpl in *.
  - destruct K as [k K]. now apply (pindex_in heap o p k a I Ind K) in H.
  - now apply (inv_types _ _ I) in H.
Qed.

(** What happened, if the loop came to an end. *)
Definition bulk (heap : N -> obj) (f : afilter) (o o' : onto) (gone : list ref) : Prop :=
  Inv heap o' /\ o_indexing o' = true /\ Permutation (all_ax o) (gone ++ all_ax o') /\
  (forall a, In a gone -> matchb f a = true) /\
  o_annot o' = o_annot o /\ o_imports o' = o_imports o /\ o_iri o' = o_iri o /\ o_version o' = o_version o /\
  keys (o_refs o') = keys (o_refs o).

Lemma bulk_refl heap f o : Inv heap o -> o_indexing o = true -> bulk heap f o o [].
Proof. intros I Ind. unfold bulk. split; [auto|]. split; [auto|]. split; [reflexivity|]. split; [now intros a []|auto]. Qed.

Lemma bulk_trans heap f o1 o2 o3 g1 g2 : bulk heap f o1 o2 g1 -> bulk heap f o2 o3 g2 -> bulk heap f o1 o3 (g1 ++ g2).
Proof.
  intros (I1 & D1 & P1 & M1 & A1 & B1 & C1 & V1 & K1) (I2 & D2 & P2 & M2 & A2 & B2 & C2 & V2 & K2).
  split; auto. split; auto. split; [rewrite P1, P2, app_assoc; reflexivity|].
  split; [intros a [H|H] % in_app_iff; auto|]. repeat split; congruence.
Qed.

Lemma bulk_one heap f o o' a : Inv heap o -> o_indexing o = true -> In a (all_ax o) -> matchb f a = true ->
  forall l, remove_and_unindex o a = Some (o', l) -> bulk heap f o o' [a] /\ l = [Release (r_id a)].
Proof.
  intros I Ind Ha M l E. destruct (remove_and_unindex_in heap o a I Ha) as (o1 & E1 & I1 & P1 & D1 & A1 & B1 & C1 & V1 & K1 & _).
  rewrite E in E1. injection E1 as -> ->. split; auto. unfold bulk. split; [auto|]. split; [congruence|]. split; [auto|].
  split; [intros b [<-|[]]; auto|]. repeat (split; auto).
Qed.

Lemma remove_loop_sound heap h f : prims (f_prims f) -> hkind h -> forall i o c log o' c' log',
  Inv heap o -> o_indexing o = true -> remove_loop h f i o c log = Some (o', c', log') ->
  exists gone, bulk heap f o o' gone /\ c' = c + length gone /\ log' = log ++ map (fun a => Release (r_id a)) gone /\
    (forall a, In a gone -> hsel h a).
Proof.
  intros Hf K. induction i as [|i IH]; intros o c log o' c' log' I Ind E; cbn [remove_loop] in E.
  - injection E as <- <- <-. exists []. split; [now apply bulk_refl|]. simpl. rewrite app_nil_r.
    repeat (split; auto). now intros a [].
  - destruct (nth_error (vec_data (h_vec o h)) i) as [a|] eqn:Ea; [|discriminate].
    apply nth_error_In in Ea. pose proof (h_vec_sel heap o h a I Ind K Ea) as Sa.
    apply (h_vec_in heap o h a I Ind K) in Ea. destruct (all_ax_in o heap a I Ea) as (_ & W & _).
    destruct (filter_matches_spec f a Hf W) as [Em _]. rewrite Em in E. destruct (matchb f a) eqn:M; [|now apply IH in E].
    destruct (remove_and_unindex o a) as [[o1 l1]|] eqn:R; [|discriminate].
    destruct (bulk_one heap f o o1 a I Ind Ea M l1 R) as [B ->].
    destruct (IH o1 _ _ _ _ _ (proj1 B) (proj1 (proj2 B)) E) as (gone & B2 & -> & -> & Sg).
    exists (a :: gone). split; [exact (bulk_trans heap f o o1 o' [a] gone B B2)|]. simpl. rewrite <- app_assoc.
    split; [lia|]. split; [reflexivity|]. intros b [<-|Hb]; auto.
Qed.

Lemma nth_unordered l i j y : i < length l -> i <= j -> nth_error (unordered_remove_at l i) j = Some y ->
  exists j', i < j' /\ nth_error l j' = Some y.
Proof.
  intros Hi Hj. unfold unordered_remove_at. destruct (rev l) as [|z r] eqn:E.
  - destruct j; discriminate.
  - assert (L : l = rev r ++ [z]).
    { apply (f_equal (@rev ref)) in E. rewrite rev_involutive in E. simpl in E. auto. }
    set (l' := rev r) in *. clearbody l'. rewrite L in Hi |- *. rewrite app_length in *. cbn [length] in *.
    destruct (Nat.eqb_spec (S i) (length l' + 1)) as [e|n].
    + intros H. assert (j < length l') by (apply nth_error_Some; congruence). lia.
    + intros H. assert (Lf : length (firstn i l') = i) by (rewrite firstn_length; lia).
      rewrite nth_error_app2 in H by lia. rewrite Lf in H. destruct (j - i) as [|d] eqn:D.
      * simpl in H. injection H as <-. exists (length l'). split; [lia|]. rewrite nth_error_app2 by lia.
        now rewrite Nat.sub_diag.
      * change (nth_error (skipn (S i) l') d = Some y) in H. exists (S i + d). split; [lia|].
        assert (X : nth_error (skipn (S i) l') d = nth_error l' (S i + d)).
        { clear. revert l'. induction (S i) as [|n IH]; intros l'; auto. destruct l'; simpl; [now destruct d|apply IH]. }
        rewrite X in H. rewrite nth_error_app1; auto. apply nth_error_Some. congruence.
Qed.

Lemma last_index_at l i y : nth_error l i = Some y ->
  (forall j z, i < j -> nth_error l j = Some z -> r_id z <> r_id y) -> last_index l (r_id y) = Some i.
Proof.
  revert i. induction l as [|x l IH]; intros i H N; [destruct i; discriminate|]. destruct i as [|i]; simpl in *.
  - injection H as ->. assert (X : last_index l (r_id y) = None).
    { apply last_index_none. intros z Hz. apply In_nth_error in Hz as [j Hj]. apply (N (S j) z); [lia|exact Hj]. }
    rewrite X. now rewrite N.eqb_refl.
  - rewrite (IH i); auto. intros j z Hj Hz. apply (N (S j) z); [lia|exact Hz].
Qed.

Lemma remove_loop_complete heap h f : prims (f_prims f) -> hkind h -> forall i o c log,
  Inv heap o -> o_indexing o = true ->
  (forall p a, h = HPrim p -> In a (all_ax o) -> mentions p (r_obj a) -> matchb f a = true -> cnt p (occ (r_obj a)) = 1) ->
  i <= length (vec_data (h_vec o h)) ->
  (forall j a, i <= j -> nth_error (vec_data (h_vec o h)) j = Some a -> matchb f a = false) ->
  exists o' c' log', remove_loop h f i o c log = Some (o', c', log') /\
    (forall a, In a (vec_data (h_vec o' h)) -> matchb f a = false).
Proof.
  intros Hf K. induction i as [|i IH]; intros o c log I Ind One Hi Hn; cbn [remove_loop].
  - eexists _, _, _. split; [reflexivity|]. intros a Ha. apply In_nth_error in Ha as [j Hj]. apply (Hn j); auto. lia.
  - destruct (nth_error (vec_data (h_vec o h)) i) as [a|] eqn:Ea; [|apply nth_error_None in Ea; lia].
    pose proof (nth_error_In _ _ Ea) as Hv. pose proof (h_vec_in heap o h a I Ind K Hv) as Ha.
    destruct (all_ax_in o heap a I Ha) as (_ & W & C).
    destruct (filter_matches_spec f a Hf W) as [Em _]. rewrite Em. destruct (matchb f a) eqn:M.
    + destruct (remove_and_unindex_in heap o a I Ha) as (o1 & E1 & I1 & P1 & D1 & _ & _ & _ & _ & _ & T1 & X1).
      rewrite E1. assert (V : vec_data (h_vec o1 h) = unordered_remove_at (vec_data (h_vec o h)) i).
      { assert (V : vec_data (h_vec o1 h) = remove_ptr (vec_data (h_vec o h)) (r_id a)).
        { destruct h as [p|t]; simpl in *.
          - rewrite X1. destruct K as [k K]. apply (pindex_in heap o p k a I Ind K) in Hv as [_ Mp].
            rewrite (One p a eq_refl Ha Mp M). reflexivity.
          - rewrite T1. apply (inv_types _ _ I) in Hv as (-> & _). now rewrite N.eqb_refl. }
        rewrite V. unfold remove_ptr. rewrite (last_index_at _ i a Ea); auto.
        intros j z Hj Hz X. assert (Hz' := nth_error_In _ _ Hz). apply (h_vec_in heap o h z I Ind K) in Hz'.
        assert (z = a) as -> by exact (heap_eq heap z a (all_ax_coh heap o I z Hz') C X).
        assert (F : matchb f a = false) by (apply (Hn j); auto). congruence. }
      apply IH; auto.
      * congruence.
      * intros p b Eh Hb. apply (One p b Eh). eapply Permutation_in; [symmetry; exact P1|]. simpl. auto.
      * rewrite V. pose proof (Permutation_length (unordered_remove_perm _ i a Ea)) as Q. simpl in Q. lia.
      * intros j b Hj. rewrite V. intros Hb. destruct (nth_unordered (vec_data (h_vec o h)) i j b Hi Hj Hb) as (j' & Hj' & Hb').
        apply (Hn j'); auto.
    + apply IH; auto; [lia|]. intros j b Hj Hb. destruct (Nat.eq_dec j i) as [->|]; [congruence|]. apply (Hn j); auto. lia.
Qed.

Lemma remove_matching_sound heap h f o o' c log : prims (f_prims f) -> hkind h -> Inv heap o -> o_indexing o = true ->
  remove_matching o h f = Some (o', c, log) ->
  exists gone, bulk heap f o o' gone /\ c = length gone /\ log = map (fun a => Release (r_id a)) gone /\
    (forall a, In a gone -> hsel h a).
Proof.
  intros Hf K I Ind E. unfold remove_matching in E. destruct (h_vec o h).
  - apply (remove_loop_sound heap h f Hf K _ _ _ _ _ _ _ I Ind) in E as (gone & B & -> & -> & Sg). exists gone. auto.
  - injection E as <- <- <-. exists []. split; [now apply bulk_refl|]. repeat (split; auto). now intros a [].
Qed.

Lemma remove_matching_complete heap h f o : prims (f_prims f) -> hkind h -> Inv heap o -> o_indexing o = true ->
  (forall p a, h = HPrim p -> In a (all_ax o) -> mentions p (r_obj a) -> matchb f a = true -> cnt p (occ (r_obj a)) = 1) ->
  exists o' c log, remove_matching o h f = Some (o', c, log) /\
    (forall a, In a (vec_data (h_vec o' h)) -> matchb f a = false).
Proof.
  intros Hf K I Ind One. unfold remove_matching. destruct (h_vec o h) as [v|] eqn:E.
  - apply (remove_loop_complete heap); auto; rewrite E; simpl; auto.
    intros j a Hj Ha. assert (j < length v) by (apply nth_error_Some; congruence). lia.
  - eexists _, _, _. split; [reflexivity|]. rewrite E. now intros a [].
Qed.

Lemma bulk_types heap f o o' gone a : Inv heap o -> bulk heap f o o' gone -> In a (all_ax o') -> In a (all_ax o).
Proof. intros I B H. eapply Permutation_in; [symmetry; apply B|]. apply in_app_iff. auto. Qed.

Lemma remove_types_sound heap f : prims (f_prims f) -> forall ts o c log o' c' log',
  (forall t, In t ts -> (t < 37)%N) -> Inv heap o -> o_indexing o = true ->
  remove_types ts f o c log = Some (o', c', log') ->
  exists gone, bulk heap f o o' gone /\ c' = c + length gone /\ log' = log ++ map (fun a => Release (r_id a)) gone /\
    (forall a, In a gone -> In (ax_type (r_obj a)) ts).
Proof.
  intros Hf. induction ts as [|t ts IH]; intros o c log o' c' log' B I Ind E; cbn [remove_types] in E.
  - injection E as <- <- <-. exists []. split; [now apply bulk_refl|]. simpl. rewrite app_nil_r.
    repeat (split; auto).
  - destruct (remove_matching o (HType t) f) as [[[o1 c1] l1]|] eqn:R; [|discriminate].
    apply (remove_matching_sound heap) in R as (g1 & B1 & -> & -> & S1); auto; [|apply B; simpl; auto].
    apply IH in E as (g2 & B2 & -> & -> & S2); [|intros; apply B; simpl; auto|apply B1|apply B1].
    exists (g1 ++ g2). split; [exact (bulk_trans _ _ _ _ _ _ _ B1 B2)|]. rewrite app_length, map_app, app_assoc.
    split; [lia|]. split; auto. intros a [Ha|Ha] % in_app_iff; simpl; auto. left. symmetry. apply (S1 a Ha).
Qed.

Lemma remove_types_complete heap f : prims (f_prims f) -> forall ts o c log,
  (forall t, In t ts -> (t < 37)%N) -> Inv heap o -> o_indexing o = true ->
  exists o' c' log', remove_types ts f o c log = Some (o', c', log') /\
    (forall a, In a (all_ax o') -> In (ax_type (r_obj a)) ts -> matchb f a = false).
Proof.
  intros Hf. induction ts as [|t ts IH]; intros o c log B I Ind; cbn [remove_types].
  - eexists _, _, _. split; [reflexivity|]. now intros a _ [].
  - destruct (remove_matching_complete heap (HType t) f o Hf) as (o1 & c1 & l1 & R & N1); auto.
    { apply B; simpl; auto. } { discriminate. }
    rewrite R. apply (remove_matching_sound heap) in R as (g1 & B1 & -> & -> & _); auto; [|apply B; simpl; auto].
    destruct (IH o1 (c + length g1) (log ++ map (fun a => Release (r_id a)) g1)) as (o2 & c2 & l2 & E & N2);
      [intros; apply B; simpl; auto|apply B1|apply B1|].
    exists o2, c2, l2. split; auto. intros a Ha [Et|Ht]; [subst t|auto].
    apply N1. simpl.
    destruct (remove_types_sound heap f Hf ts o1 _ _ _ _ _ (fun t Ht => B t (or_intror Ht)) (proj1 B1) (proj1 (proj2 B1)) E)
      as (g2 & B2 & _).
    apply (all_ax_in o1 heap a (proj1 B1)). now apply (bulk_types heap f o1 o2 g2 a (proj1 B1) B2).
Qed.

(** Bulk removal: if it returns, exactly the listed axioms, all satisfying the filter, are gone. *)
Lemma remove_axioms_matching_sound heap w o f o' c log : Inv heap o -> o_indexing o = true -> prims (f_prims f) ->
  remove_axioms_matching w o f = Some (o', c, log) ->
  exists gone, Inv heap o' /\ o_indexing o' = true /\ Permutation (all_ax o) (gone ++ all_ax o') /\
    (forall a, In a gone -> satisfies f a) /\ c = length gone /\ log = map (fun a => Release (r_id a)) gone /\
    o_annot o' = o_annot o /\ o_imports o' = o_imports o /\ o_iri o' = o_iri o /\ o_version o' = o_version o /\
    keys (o_refs o') = keys (o_refs o) /\ (f_prims f = [] -> gone = []).
Proof.
  intros I Ind H E. unfold remove_axioms_matching in E.
  destruct (N.eqb (f_types f) AF_NONE).
  { injection E as <- <- <-. exists []. split; [auto|]. split; [auto|]. split; [reflexivity|]. split; [now intros a []|]. repeat (split; auto). }
  destruct (best_filter_spec heap w o f I Ind H) as (g & best & Eb & Ec & B). rewrite Eb in E.
  destruct best as [p|].
  - destruct B as (Hp & Ep & NN & NZ & Et). destruct (H p Hp) as [k K].
    assert (Hg : prims (f_prims g)) by (rewrite Ep; now apply prims_remove).
    assert (Kh : hkind (HPrim p)) by (exists k; exact K).
    pose proof (remove_matching_sound heap (HPrim p) g o o' c log Hg Kh I Ind E)
      as (gone & (I' & D' & P & M & A1 & A2 & A3 & A4 & A5) & -> & -> & Sg).
    assert (NE : f_prims f <> []) by (intros X; rewrite X in Hp; destruct Hp).
    assert (S : forall a, In a gone -> satisfies f a).
    { intros a Ha. assert (Ha' : In a (all_ax o)) by (eapply Permutation_in; [symmetry; exact P|]; apply in_app_iff; auto).
      destruct (all_ax_in o heap a I Ha') as (_ & W & _). apply (satisfies_split f g p k a); auto. split.
      - apply (filter_matches_spec g a Hg W). auto.
      - exact (Sg a Ha). }
    exists gone. repeat (split; [auto; fail|]). intros X. now apply NE in X.
  - destruct B as (Ep & B).
    destruct (foreach_types_spec (f_types g)) as (l & El & Hl & Sl). rewrite El in E.
    set (f' := mkFilter AF_ALL (f_prims g) (f_closure g)) in *.
    assert (Hf' : prims (f_prims f')) by (unfold f'; simpl; now rewrite Ep).
    pose proof (remove_types_sound heap f' Hf' l o 0 [] o' c log (fun t Ht => proj2 (proj1 (Hl t) Ht)) I Ind E)
      as (gone & (I' & D' & P & M & A1 & A2 & A3 & A4 & A5) & -> & -> & Sg).
    assert (S : forall a, In a gone -> N.testbit (f_types g) (ax_type (r_obj a)) = true) by (intros a Ha; now apply Hl, Sg).
    assert (S' : f_types g = AF_NONE -> gone = []).
    { intros X. destruct gone as [|a gone]; auto. specialize (S a (or_introl eq_refl)). now rewrite X in S. }
    exists gone. split; [auto|]. split; [auto|]. split; [auto|].
    split; [|repeat (split; [auto; fail|])].
    + intros a Ha. destruct B as [(Z & _)|(NE & Et & NZ & NA)]; [rewrite S' in Ha by auto; destruct Ha|].
      assert (Ha' : In a (all_ax o)) by (eapply Permutation_in; [symmetry; exact P|]; apply in_app_iff; auto).
      destruct (all_ax_in o heap a I Ha') as (_ & W & _).
      specialize (M a Ha). apply (filter_matches_spec f' a Hf' W) in M as (_ & M2 & M3). unfold f' in *. cbn [f_types f_prims f_closure] in *.
      split; [rewrite <- Et; auto|]. split; [now rewrite <- Ep|now rewrite <- Ec].
    + intros X. destruct B as [(Z & _)|(NE & _)]; [auto|now apply NE in X].
Qed.

(** Bulk removal through a primitive that no selected axiom mentions twice. *)
Lemma remove_axioms_matching_complete heap w o f : Inv heap o -> o_indexing o = true -> prims (f_prims f) -> f_prims f <> [] ->
  (forall a, In a (all_ax o) -> satisfies f a -> forall p, In p (f_prims f) -> occurs p (r_obj a) 1) ->
  exists o' c log, remove_axioms_matching w o f = Some (o', c, log) /\
    (forall a, In a (all_ax o') -> ~ satisfies f a).
Proof.
  intros I Ind H NE One. unfold remove_axioms_matching.
  destruct (N.eqb_spec (f_types f) AF_NONE) as [Z|NZ].
  { eexists _, _, _. split; [reflexivity|]. intros a Ha (X & _). rewrite Z in X. discriminate. }
  destruct (best_filter_spec heap w o f I Ind H) as (g & best & Eb & Ec & B). rewrite Eb.
  destruct best as [p|].
  - destruct B as (Hp & Ep & NN & NZ' & Et). destruct (H p Hp) as [k K].
    assert (Hg : prims (f_prims g)) by (rewrite Ep; now apply prims_remove).
    assert (Kh : hkind (HPrim p)) by (exists k; exact K).
    destruct (remove_matching_complete heap (HPrim p) g o Hg Kh I Ind) as (o' & c & log & E & N).
    { intros p' a [= <-] Ha Mp M. destruct (all_ax_in o heap a I Ha) as (_ & W & _). apply (occurs_cnt p k); auto.
      apply One; auto. apply (satisfies_split f g p k a); auto. split; auto. now apply (filter_matches_spec g a Hg W). }
    exists o', c, log. split; auto. intros a Ha Sa.
    pose proof (remove_matching_sound heap (HPrim p) g o o' c log Hg Kh I Ind E) as (gone & (I' & D' & _) & _).
    destruct (all_ax_in o' heap a I' Ha) as (_ & W & _).
    apply (satisfies_split f g p k a) in Sa as [Sg Mp]; auto.
    assert (F : matchb g a = false).
    { apply N. simpl. apply (pindex_in heap o' p k a I' D' K). auto. }
    apply (filter_matches_spec g a Hg W) in Sg. congruence.
  - destruct B as (Ep & B).
    destruct (foreach_types_spec (f_types g)) as (l & El & Hl & Sl). rewrite El.
    set (f' := mkFilter AF_ALL (f_prims g) (f_closure g)) in *.
    assert (Hf' : prims (f_prims f')) by (unfold f'; simpl; now rewrite Ep).
    destruct (remove_types_complete heap f' Hf' l o 0 [] (fun t Ht => proj2 (proj1 (Hl t) Ht)) I Ind) as (o' & c & log & E & N).
    exists o', c, log. split; auto. intros a Ha Sa.
    pose proof (remove_types_sound heap f' Hf' l o 0 [] o' c log (fun t Ht => proj2 (proj1 (Hl t) Ht)) I Ind E) as (gone & B' & _).
    assert (Ha' := bulk_types heap f' o o' gone a I B' Ha).
    destruct B as [(Z & NS)|(_ & Et & _ & NA)]; [exact (NS NE a Ha' Sa)|].
    destruct (all_ax_in o heap a I Ha') as (_ & W & _). destruct Sa as (S1 & S2 & S3).
    assert (F : matchb f' a = false).
    { apply N; auto. apply Hl. split; [unfold in_set; now rewrite Et|now apply ax_type_bound]. }
    assert (T : matchb f' a = true); [|congruence].
    apply (filter_matches_spec f' a Hf' W). unfold f'. split; cbn [f_types f_prims f_closure].
    + rewrite af_all_bits. apply N.ltb_lt. now apply ax_type_bound.
    + rewrite Ep, Ec. auto.
Qed.
