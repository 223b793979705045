(** The statements about ontologies a client can reach. *)

From Coq Require Import NArith ZArith List Bool Arith Lia Permutation Sorted.
From Verif Require Import Bytes ModelTypes ModelObject ModelHeader SpecObject SpecHeader.
From Verif Require Import ProofObject ProofIter ProofAxiom ProofHeader ModelOntology SpecOntology.
From Verif Require Import ProofOntology ProofOntologyQuery ProofOntologyEdit ProofOntologyHistory.
Import ListNotations.
Local Open Scope nat_scope.

Lemma reached_inv heap w o : reached heap w o -> Inv heap o /\ o_indexing o = true.
Proof.
  intros (es & rs & log & H & E). destruct (run_inv heap w es _ _ _ _ (inv_empty heap true) eq_refl H E) as (I & D & _). auto.
Qed.

Lemma reached_step heap w o e o' r log : reached heap w o -> typed e -> in_heap heap e ->
  o_step w o e = Some (o', r, log) -> reached heap w o'.
Proof.
  intros (es & rs & lg & H & E) T Hh S.
  assert (X : forall es o0 o1 rs lg, o_run w o0 es = Some (o1, rs, lg) -> o_step w o1 e = Some (o', r, log) ->
    o_run w o0 (es ++ [e]) = Some (o', rs ++ [r], lg ++ log)).
  { clear. induction es as [|x es IH]; intros o0 o1 rs lg E S; cbn [o_run app] in *.
    - injection E as <- <- <-. rewrite S. simpl. now rewrite app_nil_r.
    - destruct (o_step w o0 x) as [[[o2 r2] l2]|]; [|discriminate].
      destruct (o_run w o2 es) as [[[o3 rs3] l3]|] eqn:E3; [|discriminate]. injection E as <- <- <-.
      rewrite (IH _ _ _ _ E3 S). simpl. now rewrite <- app_assoc. }
  exists (es ++ [e]), (rs ++ [r]), (lg ++ log). split; [|eapply X; eauto].
  intros x Hx. apply in_app_iff in Hx as [Hx|[<-|[]]]; auto.
Qed.

(** * C24 *)

Lemma history_contents heap w es l os : history heap es -> supported_effects [] es l os ->
  exists o rs log m, o_run w (o_empty true) es = Some (o, rs, log) /\ as_documented rs os /\
    contains o m /\ Permutation m l /\ axiom_count w o = (N.of_nat (length l) mod 2 ^ w)%N.
Proof.
  intros H S. destruct (run_supported heap w es (o_empty true) [] l os (inv_empty heap true) eq_refl H) as (o & rs & log & E & P & D); auto.
  exists o, rs, log, (all_ax o). split; auto. split; auto. split; [apply contains_all|]. split; auto.
  now rewrite axiom_count_spec, (Permutation_length P).
Qed.

Lemma reached_contents heap w o : reached heap w o -> exists l, contains o l /\
  axiom_count w o = (N.of_nat (length l) mod 2 ^ w)%N /\
  (forall t, (t < 37)%N -> exists m, delivers (fun S call s => iterate_axioms_of_type call o t s) m /\
     Permutation m (filter (fun a => N.eqb (ax_type (r_obj a)) t) l) /\ count_for_type o t = length m) /\
  (forall types, exists m, delivers (fun S call s => iterate_axioms_of_types call o types s) m /\
     Permutation m (filter (fun a => N.testbit types (ax_type (r_obj a))) l) /\
     count_for_types w o types = Some (N.of_nat (length m) mod 2 ^ w)%N).
Proof.
  intros R. apply reached_inv in R as [I Ind]. exists (all_ax o). split; [apply contains_all|].
  split; [apply axiom_count_spec|]. split.
  - intros t Ht. exists (vec_data (tindex o t)). split; [|split].
    + apply delivers_intro. intros. apply of_type_deliver.
    + assert (X := types_filter heap o [t] I). simpl flat_map in X. rewrite app_nil_r in X.
      refine (X _ _ (fun u => N.eqb u t) _); simpl.
      * constructor; auto using NoDup_nil.
      * now intros u [<-|[]].
      * intros u _. rewrite N.eqb_eq. split; [auto|now intros [<-|[]]].
    + reflexivity.
  - intros types. destruct (foreach_types_spec types) as (l & E & _). exists (flat_map (fun t => vec_data (tindex o t)) l).
    split; [|split].
    + apply delivers_intro. intros. now apply of_types_deliver.
    + eapply of_types_filter; eauto.
    + now apply count_for_types_spec.
Qed.

(** * C25 *)

Lemma for_primitive_spec heap w o l p k : reached heap w o -> contains o l -> kind p = Some k -> exists m,
  delivers (fun S call s => iterate_axioms_for_primitive call o p s) m /\
  (forall a, In a m <-> In a l /\ exists q, about p q /\ mentions q (r_obj a)) /\
  count_for_primitive w o p = (N.of_nat (length m) mod 2 ^ w)%N.
Proof.
  intros R C K. apply reached_inv in R as [I Ind]. apply contains_eq in C as ->. exists (about_list o p). split; [|split].
  - apply delivers_intro. intros. apply for_primitive_deliver.
  - intros a. eapply about_list_in; eauto.
  - apply count_for_primitive_spec.
Qed.

Lemma cnt_nth p k l : kind p = Some k -> 0 < cnt p l -> exists i, nth_error l i = Some p.
Proof.
  intros K. induction l as [|q l IH]; cbn [cnt filter length]; unfold cnt; simpl; [lia|].
  destruct (prim_eqb p q) eqn:E.
  - intros _. apply (prim_eqb_eq _ _ k K) in E as ->. now exists 0.
  - intros H. destruct (IH H) as [i Hi]. now exists (S i).
Qed.

Lemma cnt_two p k l : kind p = Some k -> 1 < cnt p l -> exists i j, i <> j /\ nth_error l i = Some p /\ nth_error l j = Some p.
Proof.
  intros K. induction l as [|q l IH]; unfold cnt; simpl; [lia|].
  destruct (prim_eqb p q) eqn:E; simpl.
  - intros H. apply (prim_eqb_eq _ _ k K) in E as ->. destruct (cnt_nth p k l K) as [i Hi]; [unfold cnt; lia|].
    exists 0, (S i). auto.
  - intros H. destruct (IH H) as (i & j & N & Hi & Hj). exists (S i), (S j). auto.
Qed.

Lemma nodup_expand_gen (n : ref -> nat) l : NoDup l -> (forall a, In a l -> n a <= 1) -> NoDup (flat_map (fun a => repeat a (n a)) l).
Proof.
  induction l as [|a l IH]; simpl; intros H N; auto. inversion H as [|? ? Ha Hl]; subst.
  assert (X : n a <= 1) by auto. assert (Y : ~ In a (flat_map (fun a => repeat a (n a)) l)).
  { intros G. apply in_flat_map in G as (b & Hb & G). apply repeat_spec in G. now subst b. }
  destruct (n a) as [|[|]]; simpl; [auto|constructor; auto|lia].
Qed.

Lemma nodup_app {A} (l m : list A) : NoDup l -> NoDup m -> (forall x, In x l -> ~ In x m) -> NoDup (l ++ m).
Proof.
  induction l as [|x l IH]; simpl; intros Hl Hm D; auto. inversion Hl as [|? ? Hx Hl']; subst. constructor.
  - rewrite in_app_iff. intros [H|H]; auto. apply (D x); auto.
  - apply IH; auto.
Qed.

Lemma for_primitive_once heap w o l p k : reached heap w o -> contains o l -> kind p = Some k ->
  NoDup l -> (forall a, In a l -> about_once p (r_obj a)) ->
  exists m, delivers (fun S call s => iterate_axioms_for_primitive call o p s) m /\ NoDup m /\
    (forall a, In a m <-> In a l /\ exists q, about p q /\ mentions q (r_obj a)) /\
    count_for_primitive w o p = (N.of_nat (length m) mod 2 ^ w)%N.
Proof.
  intros R C K ND O. destruct (for_primitive_spec heap w o l p k R C K) as (m & D & M & Cn).
  exists m. split; auto. split; [|auto]. apply reached_inv in R as [I Ind]. apply contains_eq in C as ->.
  assert (m = about_list o p) as ->.
  { eapply delivers_unique; [exact D|]. apply delivers_intro. intros. apply for_primitive_deliver. }
  assert (One : forall q j a, kind q = Some j -> about p q -> In a (all_ax o) -> cnt q (occ (r_obj a)) <= 1).
  { intros q j a Kq Aq Ha. destruct (Nat.le_gt_cases (cnt q (occ (r_obj a))) 1) as [G|G]; auto.
    destruct (cnt_two q j _ Kq G) as (x & y & N & Hx & Hy). exfalso. apply N.
    exact (O a Ha _ (occ_occurrences _) x y q q Hx Hy Aq Aq). }
  unfold about_list. apply nodup_app.
  - eapply Permutation_NoDup; [symmetry; eapply pindex_expand; eauto|]. apply nodup_expand_gen; auto.
    intros a Ha. eapply One; eauto. now left.
  - destruct p as [i st|n r|e n r|i|v n r|v l|ord l|t fs opt n]; try apply NoDup_nil.
    assert (A : about (OEnt e n r) (OIri n r)) by (right; exists e, n, r; auto).
    eapply Permutation_NoDup; [symmetry; apply (pindex_expand heap o (OIri n r) PT_IRI I Ind eq_refl)|].
    apply nodup_expand_gen; auto. intros a Ha. apply (One (OIri n r) PT_IRI); auto.
  - intros a Ha Hb. destruct p as [i st|n r|e n r|i|v n r|v l|ord l|t fs opt n]; try destruct Hb.
    assert (A : about (OEnt e n r) (OIri n r)) by (right; exists e, n, r; auto).
    apply (pindex_in heap o (OIri n r) PT_IRI a I Ind eq_refl) in Hb as [_ Hb].
    apply (pindex_in heap o (OEnt e n r) k a I Ind K) in Ha as [Ha Hp].
    apply mentions_occ in Hb as [_ Hb]. apply mentions_occ in Hp as [_ Hp].
    apply In_nth_error in Hb as [i Hi]. apply In_nth_error in Hp as [j Hj].
    assert (i = j) by (apply (O a Ha _ (occ_occurrences _) i j _ _ Hi Hj A); now left). subst j.
    rewrite Hi in Hj. discriminate.
Qed.

(** * C26, C27 *)

Lemma has_axiom_reached heap w o l a : reached heap w o -> contains o l -> is_axiom_object (r_obj a) ->
  decides (has_axiom o a) (exists b, In b l /\ cowl_equals (r_obj a) (r_obj b) = true).
Proof. intros R C W. apply reached_inv in R as [I Ind]. apply contains_eq in C as ->. eapply has_axiom_spec; eauto. Qed.

Lemma remove_result heap w o l a : reached heap w o -> contains o l -> is_axiom_object (r_obj a) -> r_obj a = heap (r_id a) ->
  exists o' b log, remove_axiom o a = Some (o', b, log) /\
    (b = true <-> exists c, In c l /\ cowl_equals (r_obj a) (r_obj c) = true) /\
    (In a l -> exists l', contains o' l' /\ Permutation l (a :: l') /\ log = [Release (r_id a)]) /\
    (~ In a l -> contains o' l) /\
    (b = false -> o' = o /\ log = []).
Proof.
  intros R C W H. apply reached_inv in R as [I Ind]. apply contains_eq in C as ->.
  destruct (remove_axiom_spec heap o a I W H) as [(Ha & o1 & E1 & R1)|[(Na & Eq & o1 & v & E1 & R1 & Tv & NI)|(Ne & E1)]].
  - destruct (remove_and_unindex_in heap o a I Ha) as (o2 & R2 & I2 & P2 & _). rewrite R1 in R2. injection R2 as ->.
    exists o2, true, [Release (r_id a)]. split; auto. split; [split; auto; intros _; exists a; split; auto; apply equals_refl|].
    split; [intros _; exists (all_ax o2); split; [apply contains_all|auto]|]. split; [now intros Na|discriminate].
  - destruct (remove_and_unindex_out heap o a v I W Tv NI) as (o2 & R2 & I2 & P2 & _). rewrite R1 in R2. injection R2 as ->.
    exists o2, true, [Release (r_id a)]. split; auto. split; [split; auto|].
    split; [now intros Ha|]. split; [intros _; rewrite <- P2; apply contains_all|discriminate].
  - exists o, false, []. split; auto. split.
    + split; [discriminate|]. intros (c & Hc & E). rewrite Ne in E by auto. discriminate.
    + split; [|split; [intros _; apply contains_all|auto]].
      intros Ha. specialize (Ne a Ha). rewrite equals_refl in Ne. discriminate.
Qed.

Lemma remove_supported heap w o l a : reached heap w o -> contains o l -> is_axiom_object (r_obj a) -> r_obj a = heap (r_id a) ->
  In a l \/ (forall b, In b l -> cowl_equals (r_obj a) (r_obj b) = false) ->
  exists o' l' b log, remove_axiom o a = Some (o', b, log) /\ reached heap w o' /\ contains o' l' /\
    effect l (ERemoveAxiom a) l' (Some (if b then 1 else 0)) /\ log = (if b then [Release (r_id a)] else []).
Proof.
  intros R C W H S. destruct (remove_result heap w o l a R C W H) as (o' & b & log & E & B & In1 & Out & F).
  assert (R' : reached heap w o').
  { eapply (reached_step heap w o (ERemoveAxiom a)); eauto; [intros x [<-|[]]; auto|]. cbn [o_step]. now rewrite E. }
  destruct S as [Ha|Nb].
  - destruct (In1 Ha) as (l' & C' & P & L). exists o', l', b, log. split; auto. split; auto. split; auto.
    assert (b = true) as -> by (apply B; exists a; split; auto; apply equals_refl). split; auto. now apply eff_remove.
  - assert (b = false) as ->.
    { destruct b; auto. destruct B as [B _]. destruct (B eq_refl) as (c & Hc & Ec). rewrite Nb in Ec by auto. discriminate. }
    destruct (F eq_refl) as [-> ->]. exists o, l, false, []. split; auto. split; auto. split; auto. split; auto. now apply eff_remove_absent.
Qed.

(** * C28, C29 *)

Lemma matching_up_to_iri heap w o l f : reached heap w o -> contains o l -> prims (f_prims f) -> f_prims f <> [] ->
  exists m, delivers (fun S call s => iterate_axioms_matching call w o f s) m /\
  (forall a, In a l -> satisfies f a -> In a m) /\
  (forall a, In a m -> In a l /\ N.testbit (f_types f) (ax_type (r_obj a)) = true /\
     (forall c, f_closure f = Some c -> c a = true) /\
     (forall p, In p (f_prims f) -> exists q, about p q /\ mentions q (r_obj a))).
Proof.
  intros R C H NE. apply reached_inv in R as [I Ind]. apply contains_eq in C as ->.
  destruct (matching_sound_complete heap w o f I Ind H NE) as (L & D & S1 & S2 & _).
  exists L. split; [apply delivers_intro; exact D|]. auto.
Qed.

Lemma matching_exact heap w o l f : reached heap w o -> contains o l -> prims (f_prims f) -> f_prims f <> [] ->
  (forall a, In a l -> satisfies f a -> forall p, In p (f_prims f) -> occurs p (r_obj a) 1) ->
  (forall a, In a l -> forall p q, In p (f_prims f) -> about p q -> q <> p -> ~ mentions q (r_obj a)) ->
  exists m rest, delivers (fun S call s => iterate_axioms_matching call w o f s) m /\
    Permutation l (m ++ rest) /\ (forall a, In a m -> satisfies f a) /\ (forall a, In a rest -> ~ satisfies f a).
Proof.
  intros R C H NE O1 O2. apply reached_inv in R as [I Ind]. apply contains_eq in C as ->.
  destruct (matching_sound_complete heap w o f I Ind H NE) as (L & D & _ & _ & P). specialize (P O1 O2).
  exists L, (filter (fun a => negb (matchb f a)) (all_ax o)). split; [apply delivers_intro; exact D|].
  assert (Q : forall l : list ref, Permutation l (filter (matchb f) l ++ filter (fun a => negb (matchb f a)) l)).
  { clear. induction l as [|a l IH]; simpl; auto. destruct (matchb f a); simpl; [now constructor|].
    rewrite IH at 1. apply Permutation_middle. }
  split; [rewrite (Permutation_app_tail _ P); apply Q|]. split.
  - intros a Ha. eapply Permutation_in in Ha; [|exact P]. apply filter_In in Ha as [Ha M]. now apply (matchb_dec heap o).
  - intros a Ha. apply filter_In in Ha as [Ha M]. intros X. apply (matchb_dec heap o f I H a Ha) in X. rewrite X in M. discriminate.
Qed.

Lemma bulk_sound heap w o l f o' c log : reached heap w o -> contains o l -> prims (f_prims f) ->
  remove_axioms_matching w o f = Some (o', c, log) ->
  exists gone l', contains o' l' /\ Permutation l (gone ++ l') /\ (forall a, In a gone -> satisfies f a) /\
    c = length gone /\ log = map (fun a => Release (r_id a)) gone.
Proof.
  intros R C H E. apply reached_inv in R as [I Ind]. apply contains_eq in C as ->.
  destruct (remove_axioms_matching_sound heap w o f o' c log I Ind H E) as (gone & _ & _ & P & S & Cn & L & _).
  exists gone, (all_ax o'). split; [apply contains_all|auto].
Qed.

Lemma bulk_exact heap w o l f : reached heap w o -> contains o l -> prims (f_prims f) -> f_prims f <> [] ->
  (forall a, In a l -> satisfies f a -> forall p, In p (f_prims f) -> occurs p (r_obj a) 1) ->
  exists o' l' c log, remove_axioms_matching w o f = Some (o', c, log) /\ reached heap w o' /\ contains o' l' /\
    effect l (ERemoveMatching f) l' (Some c).
Proof.
  intros R C H NE O. pose proof (reached_inv _ _ _ R) as [I Ind]. apply contains_eq in C as ->.
  destruct (remove_axioms_matching_complete heap w o f I Ind H NE O) as (o' & c & log & E & N).
  destruct (remove_axioms_matching_sound heap w o f o' c log I Ind H E) as (gone & _ & _ & P & S & -> & L & _).
  exists o', (all_ax o'), (length gone), log. split; auto. split.
  - eapply (reached_step heap w o (ERemoveMatching f)); eauto. intros x [].
  - split; [apply contains_all|]. now apply eff_bulk.
Qed.

(** * C30 *)

Lemma about_cases p k o : kind p = Some k ->
  (o_has_primitive o p = true <-> exists q, about p q /\ In q (keys (o_refs o))).
Proof.
  intros K. unfold o_has_primitive. pose proof (map_get_in (o_refs o) p k K) as M.
  destruct (map_get (o_refs o) p) as [v|].
  - split; auto. intros _. exists p. split; [now left|]. apply M. discriminate.
  - assert (N : ~ In p (keys (o_refs o))) by (intros X; apply M in X; now apply X).
    destruct p as [i st|n r|e n r|i|v n r|v l|ord l|t fs opt n]; try discriminate K;
      try (split; [discriminate|]; intros (q & [->|(e' & n' & r' & [=] & _)] & X); now apply N in X).
    pose proof (map_get_in (o_refs o) (OIri n r) PT_IRI eq_refl) as M'. destruct (map_get (o_refs o) (OIri n r)) as [v|].
    + split; auto. intros _. exists (OIri n r). split; [right; exists e, n, r; auto|]. apply M'. discriminate.
    + split; [discriminate|]. intros (q & [->|(e' & n' & r' & [= <- <- <-] & ->)] & X); [now apply N in X|].
      apply M' in X. now contradict X.
Qed.

Lemma run_keys heap w es o rs log : history heap es -> o_run w (o_empty true) es = Some (o, rs, log) ->
  forall p k, kind p = Some k -> (In p (keys (o_refs o)) <-> exists x, ever_added es x /\ mentions p x).
Proof.
  intros H E p k K. destruct (run_inv heap w es _ _ _ _ (inv_empty heap true) eq_refl H E) as (_ & _ & KK & _).
  rewrite KK. split.
  - intros [[]|(x & A & X)]. exists x. split; auto. apply mentions_occ. eauto.
  - intros (x & A & X). right. exists x. split; auto. now apply mentions_occ in X.
Qed.

Lemma has_primitive_history heap w es o rs log p k : history heap es -> o_run w (o_empty true) es = Some (o, rs, log) ->
  kind p = Some k ->
  (o_has_primitive o p = true <-> exists x q, ever_added es x /\ about p q /\ mentions q x).
Proof.
  intros H E K. rewrite (about_cases p k o K). split.
  - intros (q & A & X). destruct (about_kind p k q K A) as [j J]. apply (run_keys heap w es o rs log H E q j J) in X as (x & Y & Z). eauto.
  - intros (x & q & Y & A & Z). exists q. split; auto. destruct (about_kind p k q K A) as [j J]. apply (run_keys heap w es o rs log H E q j J). eauto.
Qed.

Lemma list_edit_none l m : list_edit l None m -> m = l.
Proof. now inversion 1. Qed.
Lemma list_edit_add l x m : list_edit l (Some (true, x)) m -> m = l ++ [x].
Proof. now inversion 1. Qed.

(** What is added and never removed is there. *)
Lemma only_adds_all heap w es : forall o o' rs log, Inv heap o -> o_indexing o = true -> history heap es -> only_adds es ->
  o_run w o es = Some (o', rs, log) ->
  forall x, (exists a, In a (all_ax o' ++ vec_data (o_annot o')) /\ r_obj a = x) <->
            (exists a, In a (all_ax o ++ vec_data (o_annot o)) /\ r_obj a = x) \/ ever_added es x.
Proof.
  induction es as [|e es IH]; intros o o' rs log I Ind H OA E x; cbn [o_run] in E.
  - injection E as <- <- <-. split; auto. intros [X|(e & [] & _)]; auto.
  - destruct (o_step w o e) as [[[o1 r1] l1]|] eqn:E1; [|discriminate].
    destruct (o_run w o1 es) as [[[o2 rs2] l2]|] eqn:E2; [|discriminate]. injection E as <- <- <-.
    apply history_cons in H as [[T H] Hs].
    pose proof (step_spec heap w o e o1 r1 l1 I Ind T H E1) as St.
    assert (OA' : only_adds es) by (intros y Hy; apply OA; simpl; auto).
    assert (OAe := OA e (or_introl eq_refl)).
    rewrite (IH o1 o2 rs2 l2 (st_inv _ _ _ _ _ _ St) (st_ind _ _ _ _ _ _ St) Hs OA' E2 x).
    assert (Q : (exists a, In a (all_ax o1 ++ vec_data (o_annot o1)) /\ r_obj a = x) <->
                (exists a, In a (all_ax o ++ vec_data (o_annot o)) /\ r_obj a = x) \/
                match e with EAddAxiom a | EAddAnnot a => r_obj a = x | _ => False end).
    { pose proof (st_axioms _ _ _ _ _ _ St) as Ax. pose proof (st_annots _ _ _ _ _ _ St) as An.
      destruct e as [a|a|f|a|a|i|i|i|i]; try destruct OAe; cbn [on_annots] in An.
      - destruct Ax as [P _]. apply list_edit_none in An. rewrite An. split.
        + intros (b & Hb & Eb). apply in_app_iff in Hb as [Hb|Hb].
          * eapply Permutation_in in Hb; [|exact P]. destruct Hb as [<-|Hb]; auto. left. exists b. rewrite in_app_iff. auto.
          * left. exists b. rewrite in_app_iff. auto.
        + intros [(b & Hb & Eb)|Eb].
          * exists b. split; auto. rewrite in_app_iff in *. destruct Hb as [Hb|Hb]; auto. left.
            eapply Permutation_in; [symmetry; exact P|]. simpl. auto.
          * exists a. split; auto. apply in_app_iff. left. eapply Permutation_in; [symmetry; exact P|]. simpl. auto.
      - rewrite Ax. apply list_edit_add in An. rewrite An. split.
        + intros (b & Hb & Eb). rewrite !in_app_iff in Hb. destruct Hb as [Hb|[Hb|[<-|[]]]]; auto; left; exists b; rewrite in_app_iff; auto.
        + intros [(b & Hb & Eb)|Eb]; [exists b|exists a]; (split; [|auto]); rewrite !in_app_iff in *; simpl; tauto.
      - rewrite Ax. apply list_edit_none in An. rewrite An. tauto.
      - rewrite Ax. apply list_edit_none in An. rewrite An. tauto.
      - rewrite Ax. apply list_edit_none in An. rewrite An. tauto.
      - rewrite Ax. apply list_edit_none in An. rewrite An. tauto. }
    rewrite Q. split.
    + intros [[X|X]|(y & Hy & X)]; auto; right.
      * exists e. simpl. auto.
      * exists y. simpl. auto.
    + intros [X|(y & [<-|Hy] & X)]; auto. right. exists y. auto.
Qed.

Lemma signature_only_adds heap w es o rs log l p k : history heap es -> only_adds es ->
  o_run w (o_empty true) es = Some (o, rs, log) -> contains o l -> kind p = Some k ->
  (o_has_primitive o p = true <->
   exists a q, In a (l ++ vec_data (o_annot o)) /\ about p q /\ mentions q (r_obj a)).
Proof.
  intros H OA E C K. apply contains_eq in C as ->. rewrite (has_primitive_history heap w es o rs log p k H E K).
  pose proof (only_adds_all heap w es _ _ _ _ (inv_empty heap true) eq_refl H OA E) as X. split.
  - intros (x & q & A & Y). destruct (proj2 (X x) (or_intror A)) as (a & Ha & <-). eauto.
  - intros (a & q & Ha & Y). exists (r_obj a), q. split; auto.
    destruct (proj1 (X (r_obj a))) as [(b & [] & _)|G]; auto. eauto.
Qed.

(** ** Iterating the signature *)

Lemma kind_type p k : kind p = Some k -> primitive_get_type (get_type p) = k.
Proof. destruct p; try discriminate; simpl; intros [= <-]; try reflexivity. now destruct e. Qed.

Lemma enabled_kind p k flags : kind p = Some k -> enabled flags p = pf_has flags k.
Proof. destruct p; try discriminate; simpl; intros [= <-]; try reflexivity. now destruct e. Qed.

Lemma iterate_key {S} (call : S -> obj -> S * ret) flags p k s : kind p = Some k -> pf_has flags k = true ->
  iterate_primitives call flags p s = as_ires (deliver call [p] s).
Proof.
  intros K F.
  assert (X : iterate_primitives call flags p s = iterate_pf call k p flags s).
  { destruct p; try discriminate; simpl in K; injection K as <-; reflexivity. }
  rewrite X, (iterate_pf_deliver call flags k p s K). cbn [filter]. now rewrite (enabled_kind p k flags K), F.
Qed.

Lemma ptype_num_inj i j : ptype_num i = ptype_num j -> i = j.
Proof. destruct i as [[]| |], j as [[]| |]; try reflexivity; discriminate. Qed.

Lemma refs_of_in o i p : In p (keys (refs_of o i)) -> In p (keys (o_refs o)) /\ primitive_get_type (get_type p) = i.
Proof.
  unfold keys, refs_of. intros H. apply in_map_iff in H as ([q v] & <- & H). apply filter_In in H as [H E].
  simpl in E. apply N.eqb_eq, ptype_num_inj in E. split; auto. apply in_map_iff. exists (q, v). auto.
Qed.

Lemma in_refs_of o p : In p (keys (o_refs o)) -> In p (keys (refs_of o (primitive_get_type (get_type p)))).
Proof.
  unfold keys, refs_of. intros H. apply in_map_iff in H as ([q v] & <- & H). apply in_map_iff. exists (q, v). split; auto.
  apply filter_In. split; auto. simpl. apply N.eqb_refl.
Qed.

Lemma nodup_keys_of o i : NoDup (keys (o_refs o)) -> NoDup (keys (refs_of o i)).
Proof.
  unfold keys, refs_of. induction (o_refs o) as [|[q v] m IH]; simpl; intros H; auto. inversion H as [|? ? Hq Hm]; subst.
  destruct (ptype_num _ =? ptype_num i)%N; simpl; auto. constructor; auto.
  intros X. apply Hq. apply in_map_iff in X as ([q' v'] & <- & X). apply filter_In in X as [X _]. apply in_map_iff. exists (q', v'). auto.
Qed.

Lemma nodup_flat_map {A B} (f : A -> list B) l : NoDup l -> (forall x, In x l -> NoDup (f x)) ->
  (forall x y b, In b (f x) -> In b (f y) -> x = y) -> NoDup (flat_map f l).
Proof.
  induction l as [|x l IH]; simpl; intros H N D; [constructor|]. inversion H as [|? ? Hx Hl]; subst.
  apply nodup_app; auto. intros b Hb X. apply in_flat_map in X as (y & Hy & X). now rewrite (D x y b Hb X) in Hx.
Qed.

Lemma all_ptypes_nodup : NoDup all_ptypes.
Proof. repeat (constructor; [intros H; repeat (destruct H as [H|H]; [discriminate|]); exact H|]). constructor. Qed.

Lemma all_ptypes_in i : In i all_ptypes.
Proof. destruct i as [[]| |]; simpl; tauto. Qed.

Definition key_list (visit : list (obj * option (list ref)) -> list (obj * option (list ref))) (o : onto) (flags : N) : list obj :=
  flat_map (fun i => if pf_has flags i then keys (visit (refs_of o i)) else []) all_ptypes.

Lemma key_list_spec heap o visit flags : Inv heap o -> (forall l, Permutation (visit l) l) ->
  NoDup (key_list visit o flags) /\
  (forall p, In p (key_list visit o flags) <-> In p (keys (o_refs o)) /\ enabled flags p = true).
Proof.
  intros I V.
  assert (V' : forall i, Permutation (keys (visit (refs_of o i))) (keys (refs_of o i))) by (intros i; apply Permutation_map, V).
  assert (In1 : forall i p, In p (keys (visit (refs_of o i))) <-> In p (keys (refs_of o i))).
  { intros i p. split; apply Permutation_in; [|symmetry]; apply V'. }
  split.
  - apply nodup_flat_map; [apply all_ptypes_nodup| |].
    + intros i _. destruct (pf_has flags i); [|constructor].
      eapply Permutation_NoDup; [symmetry; apply V'|]. apply nodup_keys_of, I.
    + intros i j p. destruct (pf_has flags i), (pf_has flags j); try easy. rewrite !In1. intros H1 H2.
      apply refs_of_in in H1 as [_ <-]. now apply refs_of_in in H2 as [_ <-].
  - intros p. unfold key_list. rewrite in_flat_map. split.
    + intros (i & _ & H). destruct (pf_has flags i) eqn:F; [|easy]. apply In1, refs_of_in in H as [H E]. split; auto.
      destruct (inv_kinds _ _ I p H) as [k K]. rewrite (enabled_kind p k flags K). rewrite (kind_type p k K) in E. now subst k.
    + intros [H E]. destruct (inv_kinds _ _ I p H) as [k K]. rewrite (enabled_kind p k flags K) in E.
      exists k. split; [apply all_ptypes_in|]. rewrite E. apply In1. rewrite <- (kind_type p k K). now apply in_refs_of.
Qed.

Lemma primitive_count_spec o visit flags : (forall l, Permutation (visit l) l) ->
  primitive_count o flags = length (key_list visit o flags).
Proof.
  intros V. unfold primitive_count, key_list.
  assert (X : forall l c, fold_left (fun c i => if pf_has flags i then c + length (refs_of o i) else c) l c =
    c + length (flat_map (fun i => if pf_has flags i then keys (visit (refs_of o i)) else []) l)).
  { induction l as [|i l IH]; intros c; simpl; [lia|]. rewrite IH, app_length. destruct (pf_has flags i); simpl; [|lia].
    unfold keys. rewrite map_length, (Permutation_length (V _)). lia. }
  apply X.
Qed.

Lemma iterate_keys heap o visit alive flags S (call : S -> obj -> S * ret) s : Inv heap o ->
  (forall l, Permutation (visit l) l) -> (forall p, In p (keys (o_refs o)) -> alive p = true) ->
  o_iterate_primitives call visit alive o flags s = as_ires (deliver call (key_list visit o flags) s).
Proof.
  intros I V A. unfold o_iterate_primitives, key_list. apply iter_loop_deliver. intros i st _.
  destruct (pf_has flags i) eqn:F; [|reflexivity].
  replace (keys (visit (refs_of o i))) with (flat_map (fun e : obj * option (list ref) => [fst e]) (visit (refs_of o i))).
  2:{ unfold keys. induction (visit (refs_of o i)); simpl; congruence. }
  apply iter_loop_deliver. intros e s' He.
  assert (Hk : In (fst e) (keys (refs_of o i))).
  { apply in_map. eapply Permutation_in; [apply V|exact He]. }
  apply refs_of_in in Hk as [Hk Ek]. rewrite (A _ Hk). destruct (inv_kinds _ _ I _ Hk) as [k K].
  rewrite (kind_type _ _ K) in Ek. subst i. eapply iterate_key; eauto.
Qed.

Lemma signature_history heap w es o rs log visit alive flags : history heap es ->
  o_run w (o_empty true) es = Some (o, rs, log) ->
  (forall l, Permutation (visit l) l) ->
  (forall p x, ever_added es x -> mentions p x -> alive p = true) ->
  exists l, NoDup l /\ delivers (fun S call s => o_iterate_primitives call visit alive o flags s) l /\
    primitive_count o flags = length l /\
    (forall p, In p l <-> enabled flags p = true /\ exists x, ever_added es x /\ mentions p x).
Proof.
  intros H E V A. destruct (run_inv heap w es _ _ _ _ (inv_empty heap true) eq_refl H E) as (I & _).
  destruct (key_list_spec heap o visit flags I V) as [N M]. exists (key_list visit o flags). split; auto. split; [|split].
  - apply delivers_intro. intros. eapply iterate_keys; eauto. intros p Hp. destruct (inv_kinds _ _ I p Hp) as [k K].
    apply (run_keys heap w es o rs log H E p k K) in Hp as (x & X & Y). eauto.
  - now apply primitive_count_spec.
  - intros p. rewrite M. split.
    + intros [Hp F]. split; auto. destruct (inv_kinds _ _ I p Hp) as [k K]. now apply (run_keys heap w es o rs log H E p k K).
    + intros [F (x & X & Y)]. split; auto. pose proof (proj1 (proj1 (mentions_occ p x) Y)) as [k K].
      apply (run_keys heap w es o rs log H E p k K). eauto.
Qed.

Lemma signature_adds heap w es o rs log l visit alive flags : history heap es -> only_adds es ->
  o_run w (o_empty true) es = Some (o, rs, log) -> contains o l ->
  (forall l, Permutation (visit l) l) ->
  (forall p a, In a (l ++ vec_data (o_annot o)) -> mentions p (r_obj a) -> alive p = true) ->
  exists m, NoDup m /\ delivers (fun S call s => o_iterate_primitives call visit alive o flags s) m /\
    primitive_count o flags = length m /\
    (forall p, In p m <-> enabled flags p = true /\ exists a, In a (l ++ vec_data (o_annot o)) /\ mentions p (r_obj a)).
Proof.
  intros H OA E C V A. apply contains_eq in C as ->.
  pose proof (only_adds_all heap w es _ _ _ _ (inv_empty heap true) eq_refl H OA E) as X.
  assert (Y : forall p, (exists x, ever_added es x /\ mentions p x) <-> (exists a, In a (all_ax o ++ vec_data (o_annot o)) /\ mentions p (r_obj a))).
  { intros p. split.
    - intros (x & G & M). destruct (proj2 (X x) (or_intror G)) as (a & Ha & <-). eauto.
    - intros (a & Ha & M). exists (r_obj a). split; auto. destruct (proj1 (X (r_obj a))) as [(b & [] & _)|G]; auto. eauto. }
  destruct (signature_history heap w es o rs log visit alive flags H E V) as (m & N & D & Cn & M).
  { intros p x G Mx. destruct (proj1 (Y p)) as (a & Ha & Ma); eauto. }
  exists m. split; auto. split; auto. split; auto. intros p. now rewrite M, Y.
Qed.

(** * C31 *)

Fixpoint dropp (p : obj) (l : list obj) : list obj :=
  match l with [] => [] | q :: l' => if prim_eqb p q then dropp p l' else q :: dropp p l' end.

Lemma dropp_dropping p k l : kind p = Some k -> dropping p l (dropp p l).
Proof.
  intros K. induction l as [|q l IH]; simpl; [constructor|]. destruct (prim_eqb p q) eqn:E.
  - apply (prim_eqb_eq _ _ k K) in E as ->. now constructor.
  - constructor; auto. intros ->. now rewrite (prim_eqb_refl p k K) in E.
Qed.

Lemma related_deliver {S} (call : S -> obj -> S * ret) p l : forall s,
  deliver (related_operand call p) l s = deliver call (dropp p l) s.
Proof.
  induction l as [|q l IH]; intros s; simpl; auto. unfold related_operand at 1. destruct (prim_eqb p q); simpl; auto.
  destruct (call s q) as [s' r]. destruct (should_stop r); auto.
Qed.

Definition ops (a : obj) (position : N) : list obj :=
  match a with OComp _ fs _ _ => operands_at fs position | _ => [] end.

Lemma ops_spec a position : is_axiom_object a ->
  operand_sequence a position (ops a position) /\
  (forall S (call : S -> obj -> S * ret) s, iterate_operands call a position s = as_ires (deliver call (ops a position) s)).
Proof.
  intros W. destruct (axiom_comp a W) as (t & fs & opt & -> & _). split.
  - unfold is_axiom_object in W. apply axiom_arity in W as [_ Hl]. now apply operands_at_sequence.
  - intros. eapply iterate_operands_deliver; eauto.
Qed.

Lemma operand_mentions a p k position : kind p = Some k -> operand_at a p position -> mentions p a.
Proof.
  intros K. destruct a; try easy. intros (i & f & m & Hf & Hp & _). apply nth_error_In in Hf.
  apply (mentions_in p _ f); [simpl; apply in_app_iff; auto|].
  destruct f; simpl in Hp; try (destruct Hp as [<-|[]]; now apply (mentions_here _ k)).
  apply (mentions_in p _ p); [exact Hp|now apply (mentions_here _ k)].
Qed.

Definition opb (p : obj) (a : ref) : bool := match axiom_has_operand (r_obj a) p PS_ANY with Some b => b | None => false end.

Lemma related_spec heap w o l p k types position : reached heap w o -> contains o l -> kind p = Some k ->
  exists axs ds, delivers (fun S call s => iterate_related call o p types position s) (List.concat ds) /\
    Forall2 (fun a d => exists ops, operand_sequence (r_obj a) position ops /\ dropping p ops d) axs ds /\
    (forall a, In a axs <-> In a l /\ N.testbit types (ax_type (r_obj a)) = true /\ operand_at (r_obj a) p 7) /\
    (NoDup l -> (forall a, In a l -> at_most_once p (r_obj a)) -> NoDup axs).
Proof.
  intros R C K. apply reached_inv in R as [I Ind]. apply contains_eq in C as ->.
  set (sel := fun a : ref => af_has types (ax_type (r_obj a)) && opb p a).
  set (vs := vec_data (pindex (o_refs o) p)).
  assert (AX : forall a, In a vs -> In a (all_ax o) /\ is_axiom_object (r_obj a) /\ mentions p (r_obj a)).
  { intros a Ha. apply (pindex_in heap o p k a I Ind K) in Ha as [Ha M]. split; auto. split; auto. eapply all_ax_in; eauto. }
  assert (OP : forall a, is_axiom_object (r_obj a) -> axiom_has_operand (r_obj a) p PS_ANY = Some (opb p a) /\ (opb p a = true <-> operand_at (r_obj a) p 7)).
  { intros a W. pose proof (has_operand_prim (r_obj a) p k PS_ANY W K) as [[X Y]|[X Y]]; unfold opb; rewrite Y; split; auto; split; auto; try discriminate; tauto. }
  assert (TY : forall a, is_axiom_object (r_obj a) -> (af_has types (ax_type (r_obj a)) = true <-> N.testbit types (ax_type (r_obj a)) = true)).
  { intros a W. apply af_has_spec. }
  exists (filter sel vs), (map (fun a => dropp p (ops (r_obj a) position)) (filter sel vs)). split; [|split; [|split]].
  - apply delivers_intro. intros S call s. unfold iterate_related. fold vs.
    rewrite (iter_loop_deliver call (related_axiom call p types position)
      (fun a => if sel a then dropp p (ops (r_obj a) position) else [])).
    + f_equal. f_equal. clear. induction vs as [|a l IH]; simpl; auto. rewrite IH. destruct (sel a); reflexivity.
    + intros a st Ha. destruct (AX a Ha) as (_ & W & _). unfold related_axiom, sel.
      destruct (af_has types (ax_type (r_obj a))); simpl; [|reflexivity].
      destruct (OP a W) as [-> _]. destruct (opb p a); [|reflexivity].
      destruct (ops_spec (r_obj a) position W) as [_ D]. rewrite D, related_deliver. reflexivity.
  - assert (G : forall a, In a (filter sel vs) -> is_axiom_object (r_obj a)) by (intros a Ha; apply filter_In in Ha as [Ha _]; now apply AX).
    induction (filter sel vs) as [|a m IH]; simpl; constructor; [|apply IH; intros; apply G; simpl; auto].
    exists (ops (r_obj a) position). split; [apply ops_spec, G; simpl; auto|]. eapply dropp_dropping; eauto.
  - intros a. rewrite filter_In. unfold sel. split.
    + intros [Ha S]. destruct (AX a Ha) as (Ha' & W & _). apply andb_prop in S as [S1 S2]. split; auto. split; [now apply TY|]. now apply OP.
    + intros (Ha & S1 & S2). assert (W : is_axiom_object (r_obj a)) by (eapply all_ax_in; eauto). split.
      * apply (pindex_in heap o p k a I Ind K). split; auto. eapply operand_mentions; eauto.
      * apply andb_true_intro. split; [now apply TY|now apply OP].
  - intros ND O. apply NoDup_filter. eapply Permutation_NoDup; [symmetry; eapply pindex_expand; eauto|].
    apply nodup_expand_gen; auto. intros a Ha. apply (O a Ha). now apply (occurs_cnt p k).
Qed.

(** * C32 *)

Lemma lists_history heap w es o rs log : history heap es -> o_run w (o_empty true) es = Some (o, rs, log) ->
  exists annots imports, list_edits on_annots [] es annots /\ list_edits on_imports [] es imports /\
    delivers (fun S call s => iterate_annot call o s) annots /\
    delivers (fun S call s => iterate_imports call o s) imports /\
    import_count o = length imports /\
    (forall i, has_import o i = true <-> exists y, In y imports /\ cowl_equals (r_obj i) (r_obj y) = true).
Proof.
  intros H E. destruct (run_inv heap w es _ _ _ _ (inv_empty heap true) eq_refl H E) as (I & _ & _ & A & M).
  exists (vec_data (o_annot o)), (vec_data (o_imports o)). split; auto. split; auto.
  split; [apply delivers_intro; intros; apply ref_loop|]. split; [apply delivers_intro; intros; apply ref_loop|].
  split; [reflexivity|]. intros i. unfold has_import.
  assert (X : vec_contains (vec_data (o_imports o)) (r_obj i) = true <->
    exists y, In y (vec_data (o_imports o)) /\ cowl_equals (r_obj i) (r_obj y) = true) by (unfold vec_contains; apply existsb_exists).
  destruct (o_imports o); exact X.
Qed.

Lemma list_results heap w o e x o' r log : reached heap w o -> typed e -> in_heap heap e ->
  o_step w o e = Some (o', r, log) -> e = ERemoveAnnot x \/ e = ERemoveImport x ->
  forall l, delivers (fun S call s => if match e with ERemoveAnnot _ => true | _ => false end then iterate_annot call o s else iterate_imports call o s) l ->
  (r = 1 /\ exists y, In y l /\ cowl_equals (r_obj x) (r_obj y) = true) \/
  (r = 0 /\ forall y, In y l -> cowl_equals (r_obj x) (r_obj y) = false).
Proof.
  intros R T H E Ee l D. apply reached_inv in R as [I Ind].
  pose proof (st_result _ _ _ _ _ _ (step_spec heap w o e o' r log I Ind T H E)) as X.
  destruct Ee as [->| ->].
  - assert (l = vec_data (o_annot o)) as ->; [|exact X].
    eapply delivers_unique; [exact D|]. apply delivers_intro. intros. apply ref_loop.
  - assert (l = vec_data (o_imports o)) as ->; [|exact X].
    eapply delivers_unique; [exact D|]. apply delivers_intro. intros. apply ref_loop.
Qed.

(** * C13 *)

Lemma references_balance heap w es o rs log : history heap es -> same_pointers es ->
  o_run w (o_empty true) es = Some (o, rs, log) ->
  exists l, contains o l /\
    (forall id, net id log = copies id (stored o l)) /\
    (forall id, net id (log ++ o_free o) = 0%Z).
Proof.
  intros H SP E. exists (all_ax o). split; [apply contains_all|].
  assert (B : balanced (o_empty true) o log).
  { refine (run_balanced heap w es es _ _ _ _ (inv_empty heap true) eq_refl H SP _ _ _ _ E).
    - now intros x.
    - now intros y.
    - now intros y.
    - now intros y. }
  assert (X : forall id, net id log = copies id (stored o (all_ax o))).
  { intros id. rewrite (B id). assert (copies id (stored (o_empty true) (all_ax (o_empty true))) = 0%Z) as -> by reflexivity. lia. }
  split; auto. intros id. rewrite net_app, X, free_net. lia.
Qed.

Lemma vector_remove_spec ordered l x : exists l' b log, vector_remove ordered l x = (l', b, log) /\
  (b = true <-> exists y, In y l /\ cowl_equals (r_obj x) (r_obj y) = true) /\
  (b = true -> exists y, In y l /\ cowl_equals (r_obj x) (r_obj y) = true /\ Permutation l (y :: l') /\ log = [Release (r_id x)]) /\
  (b = false -> l' = l /\ log = []) /\
  (ordered = true -> list_edit l (Some (false, x)) l').
Proof.
  unfold vector_remove. pose proof (first_equal_spec l (r_obj x)) as R. destruct (first_equal l (r_obj x)) as [i|].
  - destruct R as (l1 & y & l2 & -> & -> & E & N). eexists _, _, _. split; [reflexivity|].
    assert (Hy : In y (l1 ++ y :: l2)) by (apply in_app_iff; simpl; auto).
    split; [split; eauto|]. split; [|split; [discriminate|]].
    + intros _. exists y. split; auto. split; auto. split; auto. destruct ordered.
      * rewrite remove_at_app. symmetry. apply Permutation_middle.
      * apply unordered_remove_perm. rewrite nth_error_app2, Nat.sub_diag by lia. reflexivity.
    + intros ->. rewrite remove_at_app. now apply (le_remove _ x l1 y l2).
  - eexists _, _, _. split; [reflexivity|]. split; [split; [discriminate|]|split; [discriminate|split; [auto|]]].
    + intros (y & Hy & E). rewrite R in E by auto. discriminate.
    + intros _. now apply le_absent.
Qed.

(** Removing by the very pointer gives back the reference the vector held. *)
Lemma vector_remove_balanced ordered l x l' b log : vector_remove ordered l x = (l', b, log) ->
  (forall y, In y l -> cowl_equals (r_obj x) (r_obj y) = true -> y = x) ->
  forall id, net id log = (copies id l' - copies id l)%Z.
Proof.
  intros E U id. destruct (vector_remove_spec ordered l x) as (l1 & b1 & g1 & E1 & _ & T & F & _).
  rewrite E in E1. injection E1 as <- <- <-. destruct b.
  - destruct (T eq_refl) as (y & Hy & Ey & P & ->). rewrite (U y Hy Ey) in P. rewrite (copies_perm id _ _ P), copies_cons.
    simpl net. destruct (N.eqb (r_id x) id); lia.
  - destruct (F eq_refl) as [-> ->]. simpl. lia.
Qed.
