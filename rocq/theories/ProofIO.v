(** Proofs about writing with any writer, files, reuse of the functional writer, and start-up. *)

From Coq Require Import String NArith ZArith List Bool Lia.
From Coq Require Import ZifyBool ZifyNat ZifyN.
From Verif Require Import Bytes ModelTypes ModelObject SpecObject ModelPrefixMap ModelOntology SpecOntology ModelChange.
From Verif Require Import ModelPrtDecoder ModelFuncWriter ModelIO SpecIO.
From Verif Require Import ProofOntologyQuery ProofChange.
Import ListNotations.
Local Open Scope Z_scope.

(** * Writing with any writer *)

Lemma imports_collected o : iterate_imports store_vec o [] = IRet (vec_data (o_imports o)) 0.
Proof.
  unfold iterate_imports. set (l := vec_data (o_imports o)).
  assert (H : forall l acc, iter_loop (ref_call store_vec) l acc = IRet (acc ++ l) 0).
  { clear. induction l as [|x l IH]; intros acc; [cbn; now rewrite app_nil_r|].
    cbn [iter_loop ref_call store_vec]. change (should_stop COWL_OK) with false. cbv iota. rewrite IH. now rewrite <- app_assoc. }
  rewrite H. reflexivity.
Qed.

Section Writing.
  Variables (w : wimpl) (o : full) (imports annots axioms : list ref).
  Hypothesis Hw : streaming w.
  Hypothesis Hp : pieces o imports annots axioms.

  Lemma imports_eq : vec_data (o_imports (x_onto o)) = imports.
  Proof. exact (delivers_unique _ _ _ (deliver_imports (x_onto o)) (pc_imports _ _ _ _ Hp)). Qed.
  Lemma annots_eq : vec_data (o_annot (x_onto o)) = annots.
  Proof. exact (delivers_unique _ _ _ (deliver_annot (x_onto o)) (pc_annots _ _ _ _ Hp)). Qed.

  Lemma can_stream : can_write_stream w = true.
  Proof.
    destruct Hw as (H1 & H2 & H3 & _). unfold can_write_stream.
    destruct (wi_header w), (wi_axiom w), (wi_footer w); congruence.
  Qed.

  (** A writer's answer and the call it makes. *)
  Lemma header_answers s h : exists r, answers w s (WHeader h) r /\ write_header w s h = (s ++ [WHeader h], r).
  Proof. destruct Hw as (H1 & _). unfold write_header. cbn [answers]. destruct (wi_header w) as [f|]; [|congruence]. eauto. Qed.
  Lemma axiom_answers s a : exists r, answers w s (WAxiom a) r /\ write_axiom w s a = (s ++ [WAxiom a], r).
  Proof. destruct Hw as (_ & H1 & _). unfold write_axiom. cbn [answers]. destruct (wi_axiom w) as [f|]; [|congruence]. eauto. Qed.
  Lemma footer_answers s : exists r, answers w s WFooter r /\ write_footer w s = (s ++ [WFooter], r).
  Proof. destruct Hw as (_ & _ & H1 & _). unfold write_footer. cbn [answers]. destruct (wi_footer w) as [f|]; [|congruence]. eauto. Qed.

  (** The part of the work done before the footer. *)
  Definition stops_in (s : list wcall) (done rest : list wcall) (s' : list wcall) (r : ret) : Prop :=
    s' = s ++ done /\ makes w s (done ++ rest) s' r /\ (r = 0 -> rest = []).

  Lemma axioms_made s done s' r : called (write_axiom w) s done s' r ->
    s' = s ++ map WAxiom done /\ (r = 0 -> makes w s (map WAxiom done) s' 0) /\
    (r <> 0 -> forall rest, makes w s (map WAxiom done ++ rest) s' r).
  Proof.
    intros H. induction H as [s|s x s' r E Hr|s x s1 l s' r E H IH].
    - cbn. rewrite app_nil_r. split; [reflexivity|]. split; [intros _; constructor|congruence].
    - destruct (axiom_answers s x) as (r' & Ha & E'). rewrite E' in E. injection E as <- <-.
      split; [reflexivity|]. split; [congruence|]. intros _ rest. cbn. now apply makes_stop.
    - destruct (axiom_answers s x) as (r' & Ha & E'). rewrite E' in E. injection E as <- ->.
      destruct IH as (-> & I1 & I2). split; [cbn; now rewrite <- app_assoc|]. split.
      + intros Hr. cbn. eapply makes_next; [exact Ha|]. exact (I1 Hr).
      + intros Hr rest. cbn. eapply makes_next; [exact Ha|]. exact (I2 Hr rest).
  Qed.

  (** Everything that can happen. *)
  Inductive outcome (s : list wcall) : list wcall -> ret -> Prop :=
  | oc_header r : answers w s (header_call o imports annots) r -> r <> 0 -> outcome s (s ++ [header_call o imports annots]) r
  | oc_error done rest r : axioms = done ++ rest -> done <> [] -> answers w s (header_call o imports annots) 0 ->
      makes w (s ++ [header_call o imports annots]) (map WAxiom axioms ++ [WFooter]) ((s ++ [header_call o imports annots]) ++ map WAxiom done) r ->
      r < 0 -> outcome s ((s ++ [header_call o imports annots]) ++ map WAxiom done) r
  | oc_stop done rest r0 r : axioms = done ++ rest -> answers w s (header_call o imports annots) 0 ->
      makes w (s ++ [header_call o imports annots]) (map WAxiom axioms) ((s ++ [header_call o imports annots]) ++ map WAxiom done) r0 ->
      0 < r0 -> answers w ((s ++ [header_call o imports annots]) ++ map WAxiom done) WFooter r ->
      outcome s (((s ++ [header_call o imports annots]) ++ map WAxiom done) ++ [WFooter]) r
  | oc_all r : answers w s (header_call o imports annots) 0 ->
      makes w (s ++ [header_call o imports annots]) (map WAxiom axioms) ((s ++ [header_call o imports annots]) ++ map WAxiom axioms) 0 ->
      answers w ((s ++ [header_call o imports annots]) ++ map WAxiom axioms) WFooter r ->
      outcome s (((s ++ [header_call o imports annots]) ++ map WAxiom axioms) ++ [WFooter]) r.

  Lemma writes s : exists calls r, write_ontology w s o = Some (calls, r) /\ outcome s calls r.
  Proof.
    unfold write_ontology. destruct Hw as (_ & _ & _ & Hn). rewrite Hn, can_stream.
    unfold write_ontology_stream. rewrite imports_collected, imports_eq, annots_eq. change (is_err 0) with false. cbv iota.
    destruct (header_answers s (mkWHeader (x_pm o) (o_iri (x_onto o)) (o_version (x_onto o)) imports annots)) as (r & Ha & E).
    fold (header_call o imports annots) in Ha, E. rewrite E. destruct (r =? 0) eqn:Er; cbn [negb].
    2: { apply Z.eqb_neq in Er. eexists _, _. split; [reflexivity|]. now apply oc_header. }
    apply Z.eqb_eq in Er. subst r.
    destruct (pc_axioms _ _ _ _ Hp _ (write_axiom w) (s ++ [header_call o imports annots])) as (done & rest & s' & r & El & Hc & Ei & Hr).
    rewrite Ei. destruct (axioms_made _ _ _ _ Hc) as (-> & M0 & M1).
    destruct (is_err r) eqn:Er.
    - unfold is_err in Er. apply Z.ltb_lt in Er. eexists _, _. split; [reflexivity|]. eapply oc_error; [exact El| |exact Ha| |exact Er].
      + intros ->. assert (Hz : r = 0) by (inversion Hc; reflexivity). lia.
      + assert (Hnz : r <> 0) by lia. specialize (M1 Hnz (map WAxiom rest ++ [WFooter])).
        rewrite El, map_app, <- app_assoc. exact M1.
    - unfold is_err in Er. apply Z.ltb_ge in Er.
      destruct (footer_answers ((s ++ [header_call o imports annots]) ++ map WAxiom done)) as (rf & Hf & Ef). rewrite Ef.
      eexists _, _. split; [reflexivity|]. destruct (Z.eq_dec r 0) as [->|Hnz].
      + specialize (Hr eq_refl). subst rest. rewrite app_nil_r in El. subst done. apply oc_all; [exact Ha|exact (M0 eq_refl)|exact Hf].
      + apply (oc_stop _ done rest r); [exact El|exact Ha| |lia|exact Hf].
        rewrite El, map_app. exact (M1 Hnz _).
  Qed.

  Lemma makes_app before a b mid r : makes w before a mid 0 -> forall after, makes w mid b after r -> makes w before (a ++ b) after r.
  Proof.
    intros H. remember 0 as z eqn:Ez. induction H as [before|before c todo mid z Ha H IH|before c todo z Ha Hr]; intros after Hb.
    - exact Hb.
    - cbn. eapply makes_next; [exact Ha|]. now apply IH.
    - exfalso. exact (Hr Ez).
  Qed.

  Lemma makes_answer before todo after r : makes w before todo after r -> 0 < r -> exists b c, answers w b c r.
  Proof. intros H Hr. induction H as [|before c todo after r Ha H IH|before c todo r Ha Hn]; [cbv in Hr; discriminate| |eauto]. now apply IH. Qed.

  Theorem calls_in_order : plain_answers w ->
    exists calls r, write_ontology w [] o = Some (calls, r) /\ makes w [] (document_calls o imports annots axioms) calls r.
  Proof.
    intros Hpl. destruct (writes []) as (calls & r & E & H). exists calls, r. split; [exact E|]. unfold document_calls. destruct H as [r Ha Hr|done rest r El Hd Ha M Hr|done rest r0 r El Ha M Hr Hf|r Ha M Hf].
    - now apply makes_stop.
    - eapply makes_next; [exact Ha|exact M].
    - exfalso. destruct (makes_answer _ _ _ _ M Hr) as (b & c & Hbc). specialize (Hpl _ _ _ Hbc). lia.
    - eapply makes_next; [exact Ha|]. eapply makes_app; [exact M|]. destruct (Z.eq_dec r 0) as [->|Hn].
      + eapply makes_next; [exact Hf|]. constructor.
      + now apply makes_stop.
  Qed.

  (** A successful run is complete. *)
  Lemma makes_complete before todo after : makes w before todo after 0 -> after = before ++ todo.
  Proof.
    intros H. remember 0 as z eqn:Ez. induction H as [before|before c todo after z Ha H IH|before c todo z Ha Hr]; [now rewrite app_nil_r| |exfalso; exact (Hr Ez)].
    rewrite (IH Ez). now rewrite <- app_assoc.
  Qed.

  Theorem no_call_twice calls r : write_ontology w [] o = Some (calls, r) ->
    exists done rest, header_call o imports annots :: map WAxiom axioms = done ++ rest /\
      (calls = done \/ calls = done ++ [WFooter]).
  Proof.
    intros E. destruct (writes []) as (calls' & r' & E' & H). rewrite E in E'. injection E' as <- <-.
    destruct H as [r Ha Hr|done rest r El Hd Ha M Hr|done rest r0 r El Ha M Hr Hf|r Ha M Hf].
    - exists [header_call o imports annots], (map WAxiom axioms). cbn [app]. auto.
    - exists (header_call o imports annots :: map WAxiom done), (map WAxiom rest). rewrite El, map_app. cbn [app]. auto.
    - exists (header_call o imports annots :: map WAxiom done), (map WAxiom rest). rewrite El, map_app. cbn [app]. auto.
    - exists (header_call o imports annots :: map WAxiom axioms), []. rewrite app_nil_r. cbn [app]. auto.
  Qed.

  Lemma answers_fun s c r r' : answers w s c r -> answers w s c r' -> r = r'.
  Proof. destruct c; cbn; intros (f & E & <-) (g & E' & <-); congruence. Qed.

  (** The calls made by [makes] answered OK, but the last. *)
  Lemma makes_error before todo after r pre c post r' : makes w before todo after r -> after = before ++ pre ++ c :: post ->
    answers w (before ++ pre) c r' -> r' <> 0 -> post = [] /\ r = r'.
  Proof.
    intros H. revert pre. induction H as [before|before d todo after z Ha H IH|before d todo z Ha Hr]; intros pre E Hc Hn.
    - exfalso. apply (f_equal (@List.length _)) in E. rewrite !app_length in E. cbn in E. lia.
    - destruct pre as [|x pre].
      + exfalso. rewrite app_nil_r in Hc. cbn [app] in E.
        assert (Hd : exists l, after = before ++ d :: l).
        { clear - H. assert (G : forall b t a z, makes w b t a z -> exists l, a = b ++ l).
          { clear. induction 1 as [b|b c t a z Ha H (l & ->)|b c t z Ha Hr]; [exists []; now rewrite app_nil_r| |eauto]. exists (c :: l). now rewrite <- app_assoc. }
          destruct (G _ _ _ _ H) as (l & ->). exists l. now rewrite <- app_assoc. }
        destruct Hd as (l & ->). apply app_inv_head in E. injection E as -> _. apply Hn. exact (answers_fun _ _ _ _ Hc Ha).
      + assert (x = d).
        { assert (G : forall b t a z, makes w b t a z -> exists l, a = b ++ l).
          { clear. induction 1 as [b|b c t a z Ha H (l & ->)|b c t z Ha Hr]; [exists []; now rewrite app_nil_r| |eauto]. exists (c :: l). now rewrite <- app_assoc. }
          destruct (G _ _ _ _ H) as (l & ->). rewrite <- app_assoc in E. apply app_inv_head in E. cbn in E. congruence. }
        subst x. apply (IH pre); [rewrite <- app_assoc; exact E|rewrite <- app_assoc; exact Hc|exact Hn].
    - apply app_inv_head in E. destruct pre as [|x pre].
      + injection E as <- <-. rewrite app_nil_r in Hc. split; [reflexivity|]. exact (answers_fun _ _ _ _ Ha Hc).
      + exfalso. apply (f_equal (@List.length _)) in E. cbn in E. rewrite app_length in E. cbn in E. lia.
  Qed.

  Theorem error_is_last calls r pre c post r' : write_ontology w [] o = Some (calls, r) -> calls = pre ++ c :: post ->
    answers w pre c r' -> r' < 0 -> post = [] /\ r = r'.
  Proof.
    intros E Ec Hc Hn. destruct (writes []) as (calls' & r0 & E' & H). rewrite E in E'. injection E' as <- <-.
    assert (Hm : forall todo, makes w [] todo calls r -> post = [] /\ r = r').
    { intros todo M. exact (makes_error [] todo calls r pre c post r' M Ec Hc ltac:(lia)). }
    destruct H as [r Ha Hr|done rest r El Hd Ha M Hr|done rest r0 r El Ha M Hr Hf|r Ha M Hf].
    - apply (Hm [header_call o imports annots]). now apply makes_stop.
    - eapply Hm. eapply makes_next; [exact Ha|exact M].
    - (* the calls before the footer answered 0 or, the last of them, a positive code *)
      destruct post as [|d post] using rev_ind; [|clear IHpost].
      + apply app_inj_tail in Ec. destruct Ec as (<- & <-). split; [reflexivity|]. exact (answers_fun _ _ _ _ Hf Hc).
      + exfalso. rewrite app_comm_cons, app_assoc in Ec. apply app_inj_tail in Ec. destruct Ec as (Ec & <-).
        destruct (makes_error [] (header_call o imports annots :: map WAxiom axioms) _ r0 pre c post r' (makes_next _ _ _ _ _ _ Ha M) Ec Hc ltac:(lia)) as (_ & Hx). lia.
    - destruct post as [|d post] using rev_ind; [|clear IHpost].
      + apply app_inj_tail in Ec. destruct Ec as (<- & <-). split; [reflexivity|]. exact (answers_fun _ _ _ _ Hf Hc).
      + exfalso. rewrite app_comm_cons, app_assoc in Ec. apply app_inj_tail in Ec. destruct Ec as (Ec & <-).
        destruct (makes_error [] (header_call o imports annots :: map WAxiom axioms) _ 0 pre c post r' (makes_next _ _ _ _ _ _ Ha M) Ec Hc ltac:(lia)) as (_ & Hx). lia.
  Qed.

  (** Files. *)
  Theorem saved opened closed evs : plain_answers w ->
    write_ontology_to_path w [] opened closed o = Some (evs, 0) ->
    0 <= opened /\ closed = 0 /\ evs = [FOpen; FUse (document_calls o imports annots axioms); FClose].
  Proof.
    intros Hpl. unfold write_ontology_to_path. destruct (is_err opened) eqn:Eo; unfold is_err in Eo.
    - intros E. injection E as <- ->. cbv in Eo. discriminate.
    - destruct (calls_in_order Hpl) as (calls & r & E & M). rewrite E. intros H. injection H as <- H.
      unfold is_err in H. destruct (r <? 0) eqn:Er; [lia|]. split; [lia|]. split; [exact H|].
      assert (r = 0). { destruct (Z.eq_dec r 0) as [e|n]; [exact e|]. destruct (makes_answer _ _ _ _ M ltac:(lia)) as (b & c & Hbc). specialize (Hpl _ _ _ Hbc). lia. }
      subst r. apply makes_complete in M. cbn [app] in M. now rewrite M.
  Qed.
End Writing.

(** * Reading with any reader *)

Lemma read_plain {S} (h : change_type -> part -> S -> option (S * ret)) p : plain_results p ->
  forall s s' r, read h p s = Some (s', r) -> r <= 0.
Proof.
  induction p as [r|t x k IH]; intros Hp s s' r' E; cbn in *.
  - injection E as _ <-. exact Hp.
  - destruct (h t x s) as [[s1 r1]|]; [|discriminate]. exact (IH r1 (Hp r1) _ _ _ E).
Qed.

Theorem path_is_read visit w p opened o : plain_results p -> 0 <= opened ->
  read_ontology_from_path visit w p opened 0 o = read_ontology visit w p o.
Proof.
  intros Hp Ho. unfold read_ontology_from_path, read_ontology, read_path. destruct o as [o|]; [|reflexivity].
  unfold is_err at 1. destruct (opened <? 0) eqn:E; [lia|].
  destruct (read (change_apply visit w) p o) as [[o' r]|] eqn:Er; [|reflexivity].
  pose proof (read_plain _ _ Hp _ _ _ Er) as Hr. unfold is_err. destruct (r <? 0) eqn:E'; [now rewrite E'|].
  replace r with 0 by lia. reflexivity.
Qed.

Theorem loaded visit w p opened closed o o' r n : read_ontology_from_path visit w p opened closed o = Some (Some o', r, n) ->
  0 <= opened /\ 0 <= closed /\ r = closed /\ n = O /\ exists r', read_ontology visit w p o = Some (Some o', r', O) /\ 0 <= r'.
Proof.
  unfold read_ontology_from_path, read_ontology, read_path. destruct o as [o|]; [|discriminate].
  unfold is_err at 1. destruct (opened <? 0) eqn:E.
  - unfold is_err. rewrite E. discriminate.
  - destruct (read (change_apply visit w) p o) as [[o1 r1]|]; [|discriminate].
    unfold is_err. destruct (r1 <? 0) eqn:E1; [rewrite E1; discriminate|]. destruct (closed <? 0) eqn:E2; [discriminate|].
    intros H. injection H as <- <- <-. repeat split; try lia. exists r1. split; [reflexivity|lia].
Qed.

Theorem not_loaded visit w p opened closed o r n : read_ontology_from_path visit w p opened closed (Some o) = Some (None, r, n) ->
  n = 1%nat /\ r < 0.
Proof.
  unfold read_ontology_from_path. destruct (read_path (change_apply visit w) p opened closed o) as [[[evs o1] r1]|]; [|discriminate].
  unfold is_err. destruct (r1 <? 0) eqn:E; [|discriminate]. intros H. injection H as <- <-. split; [reflexivity|lia].
Qed.

(** The file is opened first and closed last, or not opened at all, in which case the handler is not called. *)
Theorem file_read {S} (h : change_type -> part -> S -> option (S * ret)) p opened closed s evs s' r :
  read_path h p opened closed s = Some (evs, s', r) ->
  (opened < 0 /\ evs = [] /\ s' = s /\ r = opened) \/
  (0 <= opened /\ evs = [FOpen; FUse s'; FClose] /\ exists c, read h p s = Some (s', c) /\ (r < 0 <-> c < 0 \/ closed < 0)).
Proof.
  unfold read_path, is_err. destruct (opened <? 0) eqn:E.
  - intros H. injection H as <- <- <-. left. repeat split. lia.
  - destruct (read h p s) as [[s1 c]|] eqn:Er; [|discriminate]. intros H. injection H as <- <- <-. right.
    split; [lia|]. split; [reflexivity|]. exists c. split; [reflexivity|]. destruct (c <? 0) eqn:Ec; lia.
Qed.

(** * The functional writer used for several documents *)

Local Open Scope N_scope.

(** The counts are those of [f]. *)
Definition rc_is (c : counts) (f : N -> N) : Prop :=
  NoDup (map fst c) /\ forall id, rc_get c id = if N.eqb (f id) 0 then None else Some (f id).

Lemma rc_get_none c id : rc_get c id = None <-> ~ In id (map fst c).
Proof.
  induction c as [|(i, n) c IH]; cbn; [tauto|]. destruct (N.eqb i id) eqn:E.
  - apply N.eqb_eq in E. split; [discriminate|]. intros H. exfalso. auto.
  - apply N.eqb_neq in E. rewrite IH. tauto.
Qed.

Lemma rc_get_set c id n j : rc_get (rc_set c id n) j = if N.eqb j id then match rc_get c id with None => None | Some _ => Some n end else rc_get c j.
Proof.
  induction c as [|(i, m) c IH]; cbn; [destruct (N.eqb j id); reflexivity|].
  destruct (N.eqb i id) eqn:E; cbn.
  - apply N.eqb_eq in E. subst i. rewrite (N.eqb_sym id j). destruct (N.eqb j id); reflexivity.
  - rewrite IH. destruct (N.eqb i j) eqn:E2; [|reflexivity]. apply N.eqb_eq in E2. subst j. rewrite E. reflexivity.
Qed.

Lemma rc_set_keys c id n : map fst (rc_set c id n) = map fst c.
Proof. induction c as [|(i, m) c IH]; cbn; [reflexivity|]. destruct (N.eqb i id); cbn; congruence. Qed.

Lemma rc_drop_keys c id j : In j (map fst (rc_drop c id)) -> In j (map fst c).
Proof. induction c as [|(i, m) c IH]; cbn; [tauto|]. destruct (N.eqb i id); cbn; tauto. Qed.

Lemma rc_drop_nodup c id : NoDup (map fst c) -> NoDup (map fst (rc_drop c id)).
Proof.
  induction c as [|(i, m) c IH]; cbn; [auto|]. intros H. inversion H as [|x l Hx Hl]; subst. destruct (N.eqb i id); [exact Hl|].
  cbn. constructor; [|auto]. intros Hi. apply Hx. exact (rc_drop_keys _ _ _ Hi).
Qed.

Lemma rc_get_drop c id j : NoDup (map fst c) -> rc_get (rc_drop c id) j = if N.eqb j id then None else rc_get c j.
Proof.
  induction c as [|(i, m) c IH]; cbn; [destruct (N.eqb j id); reflexivity|]. intros H. inversion H as [|x l Hx Hl]; subst.
  destruct (N.eqb i id) eqn:E.
  - apply N.eqb_eq in E. subst i. rewrite (N.eqb_sym id j). destruct (N.eqb j id) eqn:E2; [|reflexivity].
    apply N.eqb_eq in E2. subst j. now apply rc_get_none.
  - cbn. rewrite (IH Hl). destruct (N.eqb i j) eqn:E2; [|reflexivity]. apply N.eqb_eq in E2. subst j. now rewrite E.
Qed.

Lemma retain_ok c f id : rc_is c f -> f id <> 0 -> exists c', rc_retain c id = Some c' /\ rc_is c' (owns_more f id (f id + 1)).
Proof.
  intros (Hd & Hc) Hf. unfold rc_retain. rewrite Hc. destruct (N.eqb_spec (f id) 0) as [e|_]; [contradiction|].
  eexists. split; [reflexivity|]. split; [now rewrite rc_set_keys|]. intros j. rewrite rc_get_set, !Hc. unfold owns_more.
  destruct (N.eqb_spec j id) as [->|_]; [|reflexivity]. destruct (N.eqb_spec (f id) 0) as [e|_]; [contradiction|].
  destruct (N.eqb_spec (f id + 1) 0) as [e|_]; [lia|]. reflexivity.
Qed.

Lemma release_ok c f id : rc_is c f -> f id <> 0 -> exists c', rc_release c id = Some c' /\ rc_is c' (owns_more f id (f id - 1)).
Proof.
  intros (Hd & Hc) Hf. unfold rc_release. rewrite Hc. destruct (N.eqb_spec (f id) 0) as [e|_]; [contradiction|].
  eexists. split; [reflexivity|]. destruct (N.eqb_spec (f id) 1) as [e1|n1].
  - split; [now apply rc_drop_nodup|]. intros j. rewrite rc_get_drop by exact Hd. rewrite Hc. unfold owns_more.
    destruct (N.eqb_spec j id) as [->|_]; [|reflexivity]. rewrite e1. reflexivity.
  - split; [now rewrite rc_set_keys|]. intros j. rewrite rc_get_set, !Hc. unfold owns_more.
    destruct (N.eqb_spec j id) as [->|_]; [|reflexivity]. destruct (N.eqb_spec (f id) 0) as [e|_]; [contradiction|].
    destruct (N.eqb_spec (f id - 1) 0) as [e|_]; [lia|]. reflexivity.
Qed.

Lemma new_ok c f id : rc_is c f -> f id = 0 -> rc_is ((id, 1) :: c) (owns_more f id 1).
Proof.
  intros (Hd & Hc) Hf. split.
  - cbn. constructor; [|exact Hd]. apply rc_get_none. rewrite Hc, Hf. reflexivity.
  - intros j. cbn. unfold owns_more. rewrite (N.eqb_sym j id). destruct (N.eqb id j); [reflexivity|]. apply Hc.
Qed.

Lemma rc_is_ext c f g : rc_is c f -> (forall i, f i = g i) -> rc_is c g.
Proof. intros (Hd & Hc) H. split; [exact Hd|]. intros i. rewrite Hc, H. reflexivity. Qed.

Lemma rc_is_zero c : rc_is c (fun _ => 0) -> c = [].
Proof. intros (_ & H). destruct c as [|(i, n) c]; [reflexivity|]. specialize (H i). cbn in H. rewrite N.eqb_refl in H. discriminate. Qed.

Section Reuse.
  Variable visit : tbl -> tbl.

  (** One reference if the writer points to the map. *)
  Definition held (pm : option N) (id : N) : N := match pm with Some j => if N.eqb j id then 1 else 0 | None => 0 end.
  (** There was a header with a prefix map. *)
  Definition mapped (ops : list fop) : Prop := exists l1 id i v im an l2, ops = l1 ++ FHeader (Some id) i v im an :: l2.

  Record winv (ops : list fop) (s : fwriter) (own : owning) : Prop := {
    wi_rc : rc_is (fw_rc s) (fun i => own i + held (fw_pm s) i);
    wi_maps : forall id, own id + held (fw_pm s) id <> 0 -> exists pm, map_at (fw_maps s) id = Some pm;
    wi_mapped : fw_pm s <> None -> mapped ops;
    wi_off : fw_on s = false -> fw_pm s = None
  }.

  Lemma mapped_app ops op : mapped ops -> mapped (ops ++ [op]).
  Proof. intros (l1 & id & i & v & im & an & l2 & ->). exists l1, id, i, v, im, an, (l2 ++ [op]). now rewrite <- app_assoc. Qed.

  Lemma stay_mapped ops i v im an : mapped ops -> maps_stay (ops ++ [FHeader None i v im an]) -> False.
  Proof.
    intros (l1 & id & i' & v' & im' & an' & l2 & ->) H. apply (H l1 id i' v' im' an' l2 i v im an []).
    rewrite <- app_assoc. reflexivity.
  Qed.

  Lemma stay_prefix a b : maps_stay (a ++ b) -> maps_stay a.
  Proof.
    intros H l1 id i v im an l2 i' v' im' an' l3 E. apply (H l1 id i v im an l2 i' v' im' an' (l3 ++ b)). rewrite E.
    rewrite <- app_assoc. cbn [app]. rewrite <- app_assoc. reflexivity.
  Qed.

  Lemma live_contents ops s own id : winv ops s own -> own id + held (fw_pm s) id <> 0 -> exists pm, contents s id = Some pm.
  Proof.
    intros I H. unfold contents. rewrite (proj2 (wi_rc _ _ _ I)). destruct (N.eqb_spec (own id + held (fw_pm s) id) 0) as [e|_]; [contradiction|].
    exact (wi_maps _ _ _ I id H).
  Qed.

  Lemma set_map_ok ops s own pm : winv ops s own -> (forall id, pm = Some id -> own id <> 0) ->
    (pm = None -> fw_pm s = None) ->
    exists s', set_prefix_map s pm = Some s' /\ fw_pm s' = pm /\ fw_on s' = fw_on s /\ fw_maps s' = fw_maps s /\
      rc_is (fw_rc s') (fun i => own i + held pm i).
  Proof.
    intros I Ho Hn. pose proof (wi_rc _ _ _ I) as R. unfold set_prefix_map.
    destruct (fw_pm s) as [a|] eqn:Ea; destruct pm as [b|].
    - destruct (N.eqb_spec a b) as [->|Hab].
      + exists s. rewrite Ea. auto 6.
      + destruct (release_ok _ _ a R) as (c & E & Rc). { cbn. rewrite N.eqb_refl. lia. }
        rewrite E. destruct (retain_ok c _ b Rc) as (c' & E' & Rc').
        { unfold owns_more. destruct (N.eqb_spec b a) as [e|_]; [congruence|]. specialize (Ho b eq_refl). lia. }
        rewrite E'. eexists. split; [reflexivity|]. cbn [fw_pm fw_on fw_maps fw_rc]. repeat split; try exact (proj1 Rc').
        intros i. rewrite (proj2 Rc' i). set (x := owns_more _ _ _ i). set (y := own i + held (Some b) i). assert (x = y) as ->; [|reflexivity].
        subst x y. unfold owns_more, held. destruct (N.eqb_spec i b) as [->|Hib].
        * destruct (N.eqb_spec b a); [congruence|]. rewrite N.eqb_refl. destruct (N.eqb_spec a b); [congruence|]. lia.
        * destruct (N.eqb_spec b i); [congruence|]. destruct (N.eqb_spec i a) as [->|Hia].
          -- rewrite N.eqb_refl. lia.
          -- destruct (N.eqb_spec a i) as [e|_]; [congruence|]. lia.
    - specialize (Hn eq_refl). discriminate.
    - destruct (retain_ok (fw_rc s) _ b R) as (c' & E' & Rc'). { specialize (Ho b eq_refl). lia. }
      rewrite E'. eexists. split; [reflexivity|]. cbn [fw_pm fw_on fw_maps fw_rc]. repeat split; try exact (proj1 Rc').
      intros i. rewrite (proj2 Rc' i). set (x := owns_more _ _ _ i). set (y := own i + held (Some b) i). assert (x = y) as ->; [|reflexivity].
      subst x y. unfold owns_more, held. destruct (N.eqb_spec i b) as [->|Hib]; [rewrite N.eqb_refl; lia|]. destruct (N.eqb_spec b i); [congruence|]. lia.
    - exists s. rewrite Ea. auto 6.
  Qed.

  (** Allowed steps work, and keep the invariant. *)
  Lemma step_ok ops s own op own' : winv ops s own -> maps_stay (ops ++ [op]) -> may s own op own' ->
    exists s' b, f_step visit s op = Some (s', b) /\ winv (ops ++ [op]) s' own'.
  Proof.
    intros I Hs M. pose proof (wi_rc _ _ _ I) as R.
    destruct M as [id pm Hid|id Ho|id Ho|id pm Ho|pm i v im an Ho Hon|a Hon|Hon|Hon]; cbn [f_step].
    - rewrite Hid. eexists _, _. split; [reflexivity|].
      assert (Hz : own id + held (fw_pm s) id = 0). { rewrite (proj2 R) in Hid. destruct (N.eqb_spec (own id + held (fw_pm s) id) 0); [assumption|discriminate]. }
      constructor; cbn [fw_rc fw_maps fw_pm fw_on].
      + eapply rc_is_ext; [exact (new_ok _ _ id R Hz)|]. intros j. cbv beta. unfold owns_more.
        destruct (N.eqb_spec j id) as [->|_]; [lia|reflexivity].
      + intros j Hj. cbn. destruct (N.eqb_spec id j) as [->|Hn]; [eauto|]. apply (wi_maps _ _ _ I). unfold owns_more in Hj.
        destruct (N.eqb_spec j id); [congruence|exact Hj].
      + intros H. apply mapped_app. exact (wi_mapped _ _ _ I H).
      + exact (wi_off _ _ _ I).
    - destruct (retain_ok _ _ id R) as (c & E & Rc). { lia. } rewrite E. eexists _, _. split; [reflexivity|].
      constructor; cbn [fw_rc fw_maps fw_pm fw_on].
      + eapply rc_is_ext; [exact Rc|]. intros j. unfold owns_more. destruct (N.eqb_spec j id) as [e|_]; [rewrite ?e in *|]; lia.
      + intros j Hj. apply (wi_maps _ _ _ I). unfold owns_more in Hj. destruct (N.eqb_spec j id) as [e|_]; [rewrite ?e in *|]; lia.
      + intros H. apply mapped_app. exact (wi_mapped _ _ _ I H).
      + exact (wi_off _ _ _ I).
    - destruct (release_ok _ _ id R) as (c & E & Rc). { lia. } rewrite E. eexists _, _. split; [reflexivity|].
      constructor; cbn [fw_rc fw_maps fw_pm fw_on].
      + eapply rc_is_ext; [exact Rc|]. intros j. unfold owns_more. destruct (N.eqb_spec j id) as [e|_]; [rewrite ?e in *|]; lia.
      + intros j Hj. apply (wi_maps _ _ _ I). unfold owns_more in Hj. destruct (N.eqb_spec j id) as [e|_]; [rewrite ?e in *|]; lia.
      + intros H. apply mapped_app. exact (wi_mapped _ _ _ I H).
      + exact (wi_off _ _ _ I).
    - destruct (live_contents _ _ _ id I ltac:(lia)) as (c & E). rewrite E. eexists _, _. split; [reflexivity|].
      constructor; cbn [fw_rc fw_maps fw_pm fw_on].
      + exact R.
      + intros j Hj. cbn. destruct (N.eqb id j); [eauto|]. exact (wi_maps _ _ _ I j Hj).
      + intros H. apply mapped_app. exact (wi_mapped _ _ _ I H).
      + exact (wi_off _ _ _ I).
    - rewrite Hon. cbn [negb].
      assert (Hn : pm = None -> fw_pm s = None).
      { intros ->. destruct (fw_pm s) as [a|] eqn:Ea; [|reflexivity]. exfalso. apply (stay_mapped ops i v im an); [|exact Hs].
        apply (wi_mapped _ _ _ I). congruence. }
      destruct (set_map_ok _ _ _ pm I Ho Hn) as (s' & E & Ep & Eo & Em & Rs). rewrite E.
      assert (I' : winv (ops ++ [FHeader pm i v im an]) s' own).
      { constructor.
        - rewrite Ep. exact Rs.
        - rewrite Em, Ep. intros j Hj. apply (wi_maps _ _ _ I). destruct (N.eqb_spec (own j) 0) as [e|n]; [|lia].
          unfold held in Hj. destruct pm as [b|]; [|lia]. destruct (N.eqb_spec b j) as [e'|_]; [|lia]. specialize (Ho b eq_refl). rewrite e' in Ho. contradiction.
        - rewrite Ep. intros H. destruct pm as [b|]; [|congruence]. exists ops, b, i, v, im, an, []. reflexivity.
        - rewrite Eo, Hon. discriminate. }
      destruct pm as [b|].
      + destruct (live_contents _ _ _ b I') as (c & Ec). { specialize (Ho b eq_refl). lia. } rewrite Ec. eauto.
      + eauto.
    - rewrite Hon. cbn [negb]. eexists _, _. split; [reflexivity|]. constructor; [exact R|exact (wi_maps _ _ _ I)| |exact (wi_off _ _ _ I)].
      intros H. apply mapped_app. exact (wi_mapped _ _ _ I H).
    - rewrite Hon. cbn [negb]. eexists _, _. split; [reflexivity|]. constructor; [exact R|exact (wi_maps _ _ _ I)| |exact (wi_off _ _ _ I)].
      intros H. apply mapped_app. exact (wi_mapped _ _ _ I H).
    - rewrite Hon. cbn [negb]. destruct (fw_pm s) as [a|] eqn:Ea.
      + destruct (release_ok _ _ a R) as (c & E & Rc). { cbn. rewrite N.eqb_refl. lia. } rewrite E. eexists _, _. split; [reflexivity|].
        constructor; cbn [fw_rc fw_maps fw_pm fw_on]; [| |congruence|reflexivity].
        * eapply rc_is_ext; [exact Rc|]. intros j. cbn [held]. unfold owns_more. destruct (N.eqb_spec j a) as [e|Hn]; [subst j; rewrite N.eqb_refl; lia|].
          destruct (N.eqb_spec a j) as [e|_]; [congruence|lia].
        * intros j Hj. apply (wi_maps _ _ _ I). cbn [held] in Hj. lia.
      + eexists _, _. split; [reflexivity|]. constructor; cbn [fw_rc fw_maps fw_pm fw_on]; [exact R| |congruence|reflexivity].
        intros j Hj. apply (wi_maps _ _ _ I). rewrite Ea. exact Hj.
  Qed.

  Lemma session_inv ops s own : session visit ops s own -> maps_stay ops -> winv ops s own.
  Proof.
    induction 1 as [|ops s own op own' s' b H IH M E]; intros Hs.
    - constructor; cbn [f_start fw_rc fw_maps fw_pm fw_on]; [|cbn; intros; lia|congruence|discriminate]. split; [constructor|]. reflexivity.
    - specialize (IH (stay_prefix _ _ Hs)). destruct (step_ok _ _ _ _ _ IH Hs M) as (s1 & b1 & E1 & I1). rewrite E in E1. injection E1 as <- <-. exact I1.
  Qed.

  Theorem reuse_safe ops s own op own' : session visit ops s own -> may s own op own' -> maps_stay (ops ++ [op]) ->
    exists s' b, f_step visit s op = Some (s', b).
  Proof.
    intros H M Hs. destruct (step_ok _ _ _ _ _ (session_inv _ _ _ H (stay_prefix _ _ Hs)) Hs M) as (s' & b & E & _). eauto.
  Qed.

  Theorem reuse_alive ops s own id : session visit ops s own -> maps_stay ops -> own id <> 0 -> contents s id <> None.
  Proof.
    intros H Hs Ho. destruct (live_contents _ _ _ id (session_inv _ _ _ H Hs)) as (pm & E); [lia|]. congruence.
  Qed.

  Theorem reuse_no_leak ops s own : session visit ops s own -> maps_stay ops -> fw_on s = false -> (forall id, own id = 0) -> fw_rc s = [].
  Proof.
    intros H Hs Hoff Ho. pose proof (session_inv _ _ _ H Hs) as I. apply rc_is_zero. eapply rc_is_ext; [exact (wi_rc _ _ _ I)|].
    intros i. cbv beta. rewrite (wi_off _ _ _ I Hoff), Ho. reflexivity.
  Qed.

  Lemma wapp_assoc a b c : wapp (wapp a b) c = wapp a (wapp b c).
  Proof. destruct a, b, c; cbn; try reflexivity. now rewrite app_assoc. Qed.
  Lemma wapp_nil a : wapp a (put []) = a.
  Proof. destruct a; cbn; [now rewrite app_nil_r|reflexivity]. Qed.

  Lemma axioms_text s axioms : fw_on s = true ->
    f_run visit s (map FAxiom axioms ++ [FFooter]) = Some (s, wapp (w_each (map (w_axiom_by (fw_abbr visit s)) axioms)) w_footer).
  Proof.
    intros Hon. induction axioms as [|a l IH].
    - cbn [map app f_run f_step]. rewrite Hon. reflexivity.
    - cbn [map app f_run f_step]. rewrite Hon. cbn [negb]. rewrite IH. cbn [w_each]. now rewrite wapp_assoc.
  Qed.

  (** A document written by a writer with a history is the one a new writer writes. *)
  Theorem reuse_text ops s own pm iri version imports annot axioms :
    session visit ops s own -> maps_stay (ops ++ [FHeader pm iri version imports annot]) -> fw_on s = true ->
    (forall id, pm = Some id -> own id <> 0) ->
    exists s', f_run visit s (FHeader pm iri version imports annot :: map FAxiom axioms ++ [FFooter]) =
      Some (s', w_document visit (mkFHeader (match pm with None => None | Some id => contents s id end) iri version imports annot) axioms).
  Proof.
    intros H Hs Hon Ho. pose proof (session_inv _ _ _ H (stay_prefix _ _ Hs)) as I.
    assert (Hn : pm = None -> fw_pm s = None).
    { intros ->. destruct (fw_pm s) as [a|] eqn:Ea; [|reflexivity]. exfalso. apply (stay_mapped ops iri version imports annot); [|exact Hs].
      apply (wi_mapped _ _ _ I). congruence. }
    destruct (set_map_ok _ _ _ pm I Ho Hn) as (s' & E & Ep & Eo & Em & Rs). exists s'. cbn [f_run f_step]. rewrite Hon. cbn [negb]. rewrite E.
    rewrite <- Eo in Hon. destruct pm as [b|].
    - assert (Ec : contents s' b = contents s b).
      { unfold contents. rewrite Em, (proj2 Rs), (proj2 (wi_rc _ _ _ I)). specialize (Ho b eq_refl).
        destruct (N.eqb_spec (own b + held (Some b) b) 0) as [e|_]; [lia|]. destruct (N.eqb_spec (own b + held (fw_pm s) b) 0) as [e|_]; [lia|]. reflexivity. }
      destruct (live_contents _ _ _ b I) as (c & Ecc). { specialize (Ho b eq_refl). lia. }
      rewrite Ec, Ecc. rewrite (axioms_text s' axioms Hon). unfold w_document, w_header, w_axiom.
      replace (fw_abbr visit s') with (header_abbr visit (mkFHeader (Some c) iri version imports annot)).
      2: { unfold fw_abbr, header_abbr. rewrite Ep, Ec, Ecc. reflexivity. }
      reflexivity.
    - rewrite (axioms_text s' axioms Hon). unfold w_document, w_header, w_axiom.
      replace (fw_abbr visit s') with (header_abbr visit (mkFHeader None iri version imports annot)).
      2: { unfold fw_abbr, header_abbr. rewrite Ep. reflexivity. }
      reflexivity.
  Qed.
End Reuse.

(** * Start-up *)

(** What the globals hold. *)
Fixpoint lookup (l : list (component * N)) (k : component) : option N :=
  match l with [] => None | (j, i) :: l' => if component_eq_dec j k then Some i else lookup l' k end.
Fixpoint without (l : list (component * N)) (k : component) : list (component * N) :=
  match l with [] => [] | (j, i) :: l' => if component_eq_dec j k then without l' k else (j, i) :: without l' k end.

Record ginv (g : globals) (l : list (component * N)) : Prop := {
  gi_live : g_live g = map snd l;
  gi_keys : NoDup (map fst l);
  gi_below : forall p, In p l -> snd p < g_next g;
  gi_ids : NoDup (map snd l);
  gi_holds : forall k, g_holds g k = lookup l k
}.

Lemma lookup_in l k i : lookup l k = Some i -> In (k, i) l.
Proof. induction l as [|(j, n) l IH]; cbn; [discriminate|]. destruct (component_eq_dec j k) as [->|_]; [intros H; injection H as ->; auto|auto]. Qed.
Lemma without_in l k p : In p (without l k) -> In p l /\ fst p <> k.
Proof. induction l as [|(j, n) l IH]; cbn; [tauto|]. destruct (component_eq_dec j k) as [->|H]; cbn; [tauto|]. intros [<-|Hi]; [auto|tauto]. Qed.
Lemma lookup_without l k j : lookup (without l k) j = if component_eq_dec j k then None else lookup l j.
Proof.
  induction l as [|(x, n) l IH]; cbn; [destruct (component_eq_dec j k); reflexivity|].
  destruct (component_eq_dec x k) as [->|H].
  - rewrite IH. destruct (component_eq_dec j k) as [->|Hj]; [reflexivity|]. destruct (component_eq_dec k j); [congruence|reflexivity].
  - cbn. rewrite IH. destruct (component_eq_dec x j) as [->|Hx]; [|reflexivity]. destruct (component_eq_dec j k); [congruence|reflexivity].
Qed.
Lemma remove_absent i l : ~ In i l -> remove N.eq_dec i l = l.
Proof. induction l as [|x l IH]; cbn; [reflexivity|]. intros H. destruct (N.eq_dec i x) as [->|_]; [exfalso; auto|]. rewrite IH; [reflexivity|tauto]. Qed.

Lemma create_ok k g l : ginv g l -> lookup l k = None -> forall fails, fails k = false ->
  exists i, fst (create fails k g) = mkGlobals (g_initialized g) (hold g k (Some i)) (i :: g_live g) (i + 1) /\ snd (create fails k g) = true /\ ginv (fst (create fails k g)) ((k, i) :: l).
Proof.
  intros [I1 I2 I3 I4 I5] Hk fails Hf. unfold create. rewrite Hf. exists (g_next g). split; [reflexivity|]. split; [reflexivity|]. cbn [fst]. constructor; cbn [g_live g_next g_holds].
  - cbn. now rewrite I1.
  - cbn. constructor; [|exact I2]. intros Hi. clear - Hi Hk. induction l as [|(j, n) l IH]; cbn in *; [tauto|].
    destruct (component_eq_dec j k) as [e|n0]; [discriminate|]. destruct Hi as [e|Hi]; [congruence|auto].
  - intros p [<-|Hp]; [cbn; lia|]. specialize (I3 p Hp). lia.
  - cbn. constructor; [|exact I4]. intros Hi. apply in_map_iff in Hi. destruct Hi as (p & E & Hp). specialize (I3 p Hp). lia.
  - intros j. unfold hold. cbn. destruct (component_eq_dec j k) as [e|Hj]; destruct (component_eq_dec k j) as [e'|Hj']; congruence.
Qed.

Lemma dispose_ok k g l i : ginv g l -> lookup l k = Some i -> exists g', dispose k g = Some g' /\ ginv g' (without l k) /\ g_initialized g' = g_initialized g.
Proof.
  intros [I1 I2 I3 I4 I5] Hk. unfold dispose. rewrite I5, Hk. eexists. split; [reflexivity|]. split; [|reflexivity].
  constructor; cbn [g_live g_next g_holds].
  - rewrite I1. clear - I2 I4 Hk. induction l as [|(j, n) l IH]; [discriminate|]. cbn in *. inversion I2 as [|x y Hx Hy]; subst. inversion I4 as [|x y Hx' Hy']; subst.
    destruct (component_eq_dec j k) as [->|Hj].
    + injection Hk as ->. destruct (N.eq_dec i i) as [_|n]; [|congruence]. rewrite remove_absent by exact Hx'.
      assert (E : without l k = l).
      { clear - Hx. induction l as [|(j, n) l IH]; cbn in *; [reflexivity|]. destruct (component_eq_dec j k) as [->|_]; [exfalso; auto|]. rewrite IH; [reflexivity|tauto]. }
      now rewrite E.
    + cbn. destruct (N.eq_dec i n) as [->|Hn].
      * exfalso. apply Hx'. apply lookup_in in Hk. apply in_map_iff. exists (k, n). auto.
      * rewrite (IH Hy Hy' Hk). reflexivity.
  - clear - I2. induction l as [|(j, n) l IH]; cbn in *; [constructor|]. inversion I2 as [|x y Hx Hy]; subst. destruct (component_eq_dec j k); [auto|]. cbn. constructor; [|auto].
    intros H. apply Hx. apply in_map_iff in H. destruct H as (p & E & Hp). apply without_in in Hp. apply in_map_iff. exists p. tauto.
  - intros p Hp. apply without_in in Hp. apply I3. tauto.
  - clear - I4. induction l as [|(j, n) l IH]; cbn in *; [constructor|]. inversion I4 as [|x y Hx Hy]; subst. destruct (component_eq_dec j k); [auto|]. cbn. constructor; [|auto].
    intros H. apply Hx. apply in_map_iff in H. destruct H as (p & E & Hp). apply without_in in Hp. apply in_map_iff. exists p. tauto.
  - intros j. unfold hold. rewrite lookup_without, I5. reflexivity.
Qed.

Lemma create_all_ok fails ks : (forall k, fails k = false) -> NoDup ks -> forall g l, ginv g l -> (forall k, In k ks -> lookup l k = None) ->
  exists g' l', create_all fails ks g = (g', true) /\ ginv g' l' /\ g_initialized g' = g_initialized g /\
    (forall k, lookup l' k = None <-> lookup l k = None /\ ~ In k ks) /\ length l' = (length ks + length l)%nat.
Proof.
  intros Hf Hd. induction Hd as [|k ks Hk Hd IH]; intros g l I Hn.
  - exists g, l. split; [reflexivity|]. split; [exact I|]. split; [reflexivity|]. split; [|reflexivity]. intros k. cbn. tauto.
  - destruct (create_ok k g l I (Hn k (or_introl eq_refl)) fails (Hf k)) as (i & E1 & E2 & I'). cbn [create_all].
    destruct (create fails k g) as [g1 ok] eqn:E. cbn [fst snd] in E1, E2, I'. subst ok.
    assert (Hlk : forall j, lookup ((k, i) :: l) j = None <-> lookup l j = None /\ j <> k).
    { intros j. cbn. destruct (component_eq_dec k j) as [->|Hj]; [split; [discriminate|tauto]|]. split; [|tauto]. intros H. split; [exact H|congruence]. }
    destruct (IH g1 ((k, i) :: l) I') as (g' & l' & E' & I2 & E3 & H4 & H5).
    { intros j Hj. apply Hlk. split; [apply Hn; now right|]. intros ->. contradiction. }
    exists g', l'. rewrite E'. split; [reflexivity|]. split; [exact I2|]. split; [rewrite E3, E1; reflexivity|]. split; [|cbn in *; lia].
    intros j. rewrite H4, Hlk. cbn. intuition congruence.
Qed.

Lemma dispose_all_ok ks : NoDup ks -> forall g l, ginv g l -> (forall k, In k ks -> lookup l k <> None) ->
  exists g' l', dispose_all ks g = Some g' /\ ginv g' l' /\ g_initialized g' = g_initialized g /\
    (forall k, lookup l' k = if in_dec component_eq_dec k ks then None else lookup l k).
Proof.
  induction 1 as [|k ks Hk Hd IH]; intros g l I Hn.
  - exists g, l. split; [reflexivity|]. split; [exact I|]. split; [reflexivity|]. intros k. reflexivity.
  - cbn [dispose_all]. destruct (lookup l k) as [i|] eqn:Ek; [|exfalso; exact (Hn k (or_introl eq_refl) Ek)].
    destruct (dispose_ok k g l i I Ek) as (g1 & E1 & I1 & Ei). rewrite E1.
    destruct (IH g1 (without l k) I1) as (g' & l' & E' & I' & Ei' & Hl).
    { intros j Hj. rewrite lookup_without. destruct (component_eq_dec j k) as [->|_]; [contradiction|]. apply Hn. now right. }
    exists g', l'. split; [exact E'|]. split; [exact I'|]. split; [congruence|].
    intros j. rewrite Hl, lookup_without. destruct (in_dec component_eq_dec j ks) as [Hj|Hj]; destruct (in_dec component_eq_dec j (k :: ks)) as [Hj'|Hj']; cbn in Hj'; try tauto.
    + destruct (component_eq_dec j k) as [->|Hjk]; [reflexivity|]. exfalso. intuition congruence.
    + destruct (component_eq_dec j k) as [->|Hjk]; [exfalso; auto|reflexivity].
Qed.

Lemma empty_list l : (forall k, lookup l k = None) -> l = [].
Proof. intros H. destruct l as [|(k, i) l]; [reflexivity|]. specialize (H k). cbn in H. destruct (component_eq_dec k k); congruence. Qed.

(** The state between two calls. *)
Definition steady (up : bool) (g : globals) : Prop :=
  g_initialized g = up /\ exists l, ginv g l /\ (if up then length l = 9%nat /\ (forall k, lookup l k <> None) else l = []).

Lemma all_components_nodup : NoDup (defaults ++ [KEmpty] ++ vocabularies).
Proof. unfold defaults, vocabularies. cbn. repeat (constructor; [cbn; intuition congruence|]). constructor. Qed.

Lemma deinit_ok up g : steady up g -> exists g', cowl_deinit g = Some g' /\ steady false g'.
Proof.
  intros (Hi & l & I & Hl). unfold cowl_deinit. rewrite Hi. destruct up; cbn [negb].
  - destruct Hl as (_ & Hl). destruct (dispose_all_ok _ all_components_nodup g l I) as (g' & l' & E & I' & _ & H); [auto|].
    rewrite E. eexists. split; [reflexivity|]. split; [reflexivity|]. exists l'. split; [destruct I'; constructor; assumption|].
    apply empty_list. intros k. rewrite H. destruct (in_dec component_eq_dec k (defaults ++ [KEmpty] ++ vocabularies)) as [_|n]; [reflexivity|].
    exfalso. apply n. destruct k; cbn; tauto.
  - exists g. split; [reflexivity|]. split; [exact Hi|]. eauto.
Qed.

Lemma init_ok up g fails : steady up g -> (fails KEmpty = true \/ forall k, fails k = false) ->
  exists g' r, cowl_init fails g = Some (g', r) /\ steady (up || negb (fails KEmpty)) g' /\
    r = (if up || negb (fails KEmpty) then 0 else ERR_MEM)%Z.
Proof.
  intros (Hi & l & I & Hl) Hf. unfold cowl_init. rewrite Hi. destruct up; cbn [orb].
  - eexists _, _. split; [reflexivity|]. split; [|reflexivity]. split; [exact Hi|]. eauto.
  - subst l. destruct Hf as [Hf|Hf].
    + unfold string_init, create_or_undo. cbn [create_all]. unfold create. rewrite Hf. cbn [dispose_all].
      unfold dispose. cbn [g_holds]. unfold hold at 1. destruct (component_eq_dec KEmpty KEmpty); [|congruence]. cbn [has_iris and_then].
      unfold cowl_deinit. cbn [g_initialized]. rewrite Hi. cbn [negb]. eexists _, _. split; [reflexivity|]. split; [|reflexivity].
      split; [reflexivity|]. exists []. split; [|reflexivity]. destruct I as [I1 I2 I3 I4 I5]. constructor; cbn [g_live g_next g_holds]; auto.
      intros k. unfold hold. rewrite I5. destruct (component_eq_dec k KEmpty); reflexivity.
    + rewrite Hf. cbn [negb]. unfold string_init, create_or_undo.
      destruct (create_all_ok fails [KEmpty] Hf ltac:(repeat constructor; cbn; tauto) g [] I) as (g1 & l1 & E1 & I1 & Ei1 & H1 & Hl1); [reflexivity|].
      rewrite E1. cbn [and_then]. unfold vocab_init, create_or_undo.
      destruct (create_all_ok fails vocabularies Hf ltac:(unfold vocabularies; repeat (constructor; [cbn; intuition congruence|]); constructor) g1 l1 I1) as (g2 & l2 & E2 & I2 & Ei2 & H2 & Hl2).
      { intros k Hk. apply H1. split; [reflexivity|]. unfold vocabularies in Hk. cbn in *. intuition congruence. }
      rewrite E2. cbn [and_then]. unfold api_init, create_or_undo.
      destruct (create_all_ok fails defaults Hf ltac:(unfold defaults; repeat (constructor; [cbn; intuition congruence|]); constructor) g2 l2 I2) as (g3 & l3 & E3 & I3 & Ei3 & H3 & Hl3).
      { intros k Hk. apply H2. split; [apply H1; split; [reflexivity|]|]; unfold defaults in Hk; cbn in *; intuition congruence. }
      rewrite E3. eexists _, _. split; [reflexivity|]. split; [|reflexivity]. split; [reflexivity|]. exists l3.
      split; [destruct I3; constructor; assumption|]. split; [cbn in *; lia|].
      intros k Hk. apply H3 in Hk. destruct Hk as (Hk & Hk3). apply H2 in Hk. destruct Hk as (Hk & Hk2). apply H1 in Hk. destruct Hk as (_ & Hk1).
      destruct k; cbn in *; tauto.
Qed.

Theorem balanced ops : Forall none_or_first ops ->
  exists g rs, g_run g_start ops = Some (g, rs) /\ g_initialized g = running ops /\
    length (g_live g) = (if running ops then 9 else 0)%nat /\ (forall r, In r rs -> r = 0%Z \/ r = ERR_MEM).
Proof.
  intros H. unfold running.
  enough (G : forall up g, steady up g -> exists g' rs, g_run g ops = Some (g', rs) /\
    steady (fold_left (fun b op => match op with GInit fails => b || negb (fails KEmpty) | GDeinit => false end) ops up) g' /\ (forall r, In r rs -> r = 0%Z \/ r = ERR_MEM)).
  { destruct (G false g_start) as (g & rs & E & (Hi & l & I & Hl) & Hr).
    { split; [reflexivity|]. exists []. split; [|reflexivity]. constructor; cbn; try constructor; try tauto. }
    exists g, rs. split; [exact E|]. split; [exact Hi|]. split; [|exact Hr]. rewrite (gi_live _ _ I), map_length.
    destruct (fold_left _ ops false); [apply Hl|now rewrite Hl]. }
  induction H as [|op ops Hop _ IH]; intros up g Hg.
  - exists g, []. cbn. split; [reflexivity|]. split; [exact Hg|tauto].
  - destruct op as [fails|]; cbn [g_run fold_left].
    + destruct (init_ok up g fails Hg Hop) as (g1 & r & E & Hg1 & Er). rewrite E. destruct (IH _ _ Hg1) as (g' & rs & E' & Hg' & Hr). rewrite E'.
      exists g', (r :: rs). split; [reflexivity|]. split; [exact Hg'|]. intros x [<-|Hx]; [|auto]. rewrite Er. destruct (up || negb (fails KEmpty)); auto.
    + destruct (deinit_ok up g Hg) as (g1 & E & Hg1). rewrite E. destruct (IH _ _ Hg1) as (g' & rs & E' & Hg' & Hr). eauto.
Qed.

(** A failure while a vocabulary is created always ends in a NULL pointer. *)
Theorem vocabulary_failure g fails k : g_initialized g = false -> (forall j, g_holds g j = None) -> fails KEmpty = false -> In k vocabularies -> fails k = true ->
  cowl_init fails g = None.
Proof.
  intros Hi Hn H0 Hk Hf. unfold cowl_init. rewrite Hi. unfold string_init, create_or_undo. cbn [create_all]. unfold create at 1. rewrite H0.
  cbv iota beta. unfold and_then at 2. unfold vocab_init, create_or_undo. unfold vocabularies in *. cbn [create_all]. unfold create.
  destruct (fails KOwl) eqn:F1; [cbv iota beta; cbn [dispose_all]; unfold dispose; cbn; unfold hold; reflexivity|].
  destruct (fails KRdf) eqn:F2; [cbn; unfold hold; cbn; reflexivity|].
  destruct (fails KRdfs) eqn:F3; [cbn; unfold hold; cbn; reflexivity|].
  destruct (fails KXml) eqn:F4; [cbn; unfold hold; cbn; unfold dispose; cbn; rewrite Hn; reflexivity|].
  destruct (fails KXsd) eqn:F5; [cbn; unfold hold; cbn; reflexivity|].
  exfalso. cbn in Hk. intuition congruence.
Qed.

(** * Writers of other kinds *)
Local Open Scope Z_scope.

Lemma whole_writer : forall w f o, wi_ontology w = Some f -> write_ontology w [] o = Some ([WOntology o], f [] o).
Proof. intros w f o H. unfold write_ontology. rewrite H. reflexivity. Qed.

Lemma unable : forall w o, wi_ontology w = None -> wi_header w = None \/ wi_axiom w = None \/ wi_footer w = None ->
  exists r, write_ontology w [] o = Some ([], r) /\ r < 0.
Proof.
  intros w o H J. exists (-1). split; [ | reflexivity]. unfold write_ontology, can_write_stream. rewrite H.
  destruct (wi_header w), (wi_axiom w), (wi_footer w); try reflexivity.
  destruct J as [J | [J | J]]; discriminate J.
Qed.

Lemma one_call : forall w before,
  (forall h, handed w before (wi_header w) (WHeader h) (write_header w before h)) /\
  (forall a, handed w before (wi_axiom w) (WAxiom a) (write_axiom w before a)) /\
  handed w before (wi_footer w) WFooter (write_footer w before).
Proof.
  intros w before. unfold handed, write_header, write_axiom, write_footer. simpl.
  destruct (wi_header w), (wi_axiom w), (wi_footer w); simpl;
    repeat split; try intro; ((left; split; [discriminate | split; [reflexivity | eauto]]) || (right; repeat split; reflexivity)).
Qed.

Lemma file_written : forall w opened closed o evs r, write_ontology_to_path w [] opened closed o = Some (evs, r) ->
  (opened < 0 /\ evs = [] /\ r = opened) \/
  (0 <= opened /\ exists calls c, write_ontology w [] o = Some (calls, c) /\ evs = [FOpen; FUse calls; FClose] /\
     (r < 0 <-> c < 0 \/ closed < 0)).
Proof.
  intros w opened closed o evs r H. unfold write_ontology_to_path, is_err in H.
  destruct (opened <? 0) eqn:E.
  - left. apply Z.ltb_lt in E. inversion H; subst. repeat split; auto.
  - right. apply Z.ltb_ge in E. split; [exact E | ].
    destruct (write_ontology w [] o) as [[calls c]|]; [ | discriminate H].
    exists calls, c. split; [reflexivity | ]. inversion H; clear H. split; [reflexivity | ].
    destruct (c <? 0) eqn:F; [apply Z.ltb_lt in F | apply Z.ltb_ge in F]; subst; lia.
Qed.
