(** Proofs about the error information of readers. *)

From Coq Require Import NArith ZArith List Bool Lia.
From Verif Require Import Bytes ModelText ModelError SpecError ProofText.
Import ListNotations.
Local Open Scope Z_scope.

(** * Messages *)

Definition owns (r : reader) : Prop := r_live r = match e_msg (r_err r) with Some (b, _) => [b] | None => [] end.
Definition ready (r : reader) : Prop := owns r /\ Forall (fun b => (b < r_next r)%N) (r_live r).

Lemma new_ready : ready new_reader.
Proof. split; [reflexivity | constructor]. Qed.

Lemma free_buf_hd b l : free_buf b (b :: l) = Some l.
Proof. simpl. now rewrite N.eqb_refl. Qed.

Lemma free_ready r : ready r -> exists r', free_reader r = Some r' /\ r_live r' = [].
Proof.
  intros [O _]. unfold free_reader, error_deinit, owns in *. destruct (e_msg (r_err r)) as [[b t]|].
  - rewrite O, free_buf_hd. simpl. eauto.
  - eauto.
Qed.

Lemma set_error_ready c f r : ready r -> exists r', set_error c f r = Some r' /\ ready r' /\
  e_code (r_err r') = c /\ message (r_err r') = f /\ e_line (r_err r') = 0%N /\ e_col (r_err r') = 0%N /\ e_byte (r_err r') = 0%N.
Proof.
  intros [O B]. unfold set_error, cowl_error, error_deinit, owns in *.
  destruct f as [t|]; cbn; destruct (e_msg (r_err r)) as [[b m]|] eqn:E; cbn; rewrite ?E, ?O; cbn.
  - rewrite O in B. inversion_clear B as [|? ? L _].
    replace (r_next r =? b)%N with false by (symmetry; apply N.eqb_neq; lia). rewrite N.eqb_refl. cbn.
    eexists. split; [reflexivity|]. unfold ready, owns; cbn. repeat split; auto. constructor; [lia | constructor].
  - eexists. split; [reflexivity|]. unfold ready, owns; cbn. repeat split; auto. constructor; [lia | constructor].
  - rewrite N.eqb_refl. cbn. eexists. split; [reflexivity|]. unfold ready, owns; cbn. repeat split; auto.
  - eexists. split; [reflexivity|]. unfold ready, owns; cbn. repeat split; auto.
Qed.

Lemma set_line_ready n r : ready r -> ready (set_line n r).
Proof. intros [O B]. split; auto. Qed.
Lemma set_byte_ready n r : ready r -> ready (set_byte n r).
Proof. intros [O B]. split; auto. Qed.
Lemma set_code_ready n r : ready r -> ready (set_code n r).
Proof. intros [O B]. split; auto. Qed.

(** * The functional reader *)

Lemma yyerror_ready x n r : ready r -> exists r', yyerror x n r = Some r' /\ ready r' /\
  e_code (r_err r') = (if x then ERR_MEM else ERR_SYNTAX) /\ message (r_err r') = None /\ e_line (r_err r') = n.
Proof.
  intros R. unfold yyerror. destruct (set_error_ready (if x then ERR_MEM else ERR_SYNTAX) None r R) as (r' & -> & R' & C & M & _).
  exists (set_line n r'). split; [reflexivity|]. split; [now apply set_line_ready|]. auto.
Qed.

Lemma error_mem_ready y n r : ready r -> exists k r', error_mem y n r = Some (k, r') /\ ready r'.
Proof.
  intros R. unfold error_mem. destruct y.
  - destruct (yyerror_ready true n r R) as (r' & -> & R' & _). simpl. eauto.
  - destruct (set_error_ready ERR_MEM None r R) as (r' & -> & R' & _). simpl. eauto.
Qed.

Lemma yyparse_ready y l : forall r, ready r -> exists k r', yyparse y l r = Some (k, r') /\ ready r'.
Proof.
  induction l as [|s l IH]; intros r R; simpl; eauto. destruct s; eauto.
  - destruct (set_error_ready code None r R) as (r' & -> & R' & _). auto.
  - apply error_mem_ready; auto.
  - destruct (code =? ERR_MEM); [apply error_mem_ready; auto|].
    destruct (set_error_ready code None r R) as (r' & -> & R' & _). simpl. eauto.
  - destruct (set_error_ready ERR_SYNTAX (Some msg) r R) as (r' & -> & R' & _). simpl. eexists _, _. split; [reflexivity|].
    now apply set_line_ready.
  - destruct (yyerror_ready false line r R) as (r' & -> & R' & _). simpl. eauto.
  - destruct (yyerror_ready true line r R) as (r' & -> & R' & _). simpl. eauto.
Qed.

Lemma func_ready y x r : ready r -> exists c r', func_read y x r = Some (c, r') /\ ready r'.
Proof.
  intros R. unfold func_read. destruct (set_error_ready OK None r R) as (r' & -> & R' & _).
  destruct x; eauto. destruct (yyparse_ready y steps r' R') as (k & r2 & -> & R2). simpl. eauto.
Qed.

(** * The ProtocOWL reader *)

Lemma handle_ready c f r : ready r -> exists r', handle_error c f r = Some r' /\ ready r'.
Proof.
  intros R. unfold handle_error. destruct (is_err (e_code (r_err r))); eauto.
  destruct (set_error_ready c f r R) as (r' & -> & R' & _). eauto.
Qed.

Lemma steps_ready l : forall s r, ready r -> exists s' r', prt_steps l s r = Some (s', r') /\ ready r'.
Proof.
  induction l as [|x l IH]; intros s r R; simpl; eauto. destruct x; eauto.
  - destruct (handle_ready ERR_SYNTAX (Some msg) r R) as (r' & -> & R'). auto.
  - destruct (handle_ready code None r R) as (r' & -> & R'). auto.
Qed.

Lemma prt_ready x r : ready r -> exists c r', prt_read x r = Some (c, r') /\ ready r'.
Proof.
  intros R. unfold prt_read. pose proof (set_code_ready (p_init x) r R) as R1.
  assert (Q : exists s r2, (if p_init x =? OK then prt_steps (p_steps x) OK (set_code (p_init x) r) else Some (OK, set_code (p_init x) r)) = Some (s, r2) /\ ready r2).
  { destruct (p_init x =? OK); eauto. now apply steps_ready. }
  destruct Q as (s & r2 & -> & R2). eexists _, _. split; [reflexivity|]. destruct (is_err _); auto.
Qed.

(** * Histories *)

Section History.
  Context {A : Type} (read : A -> reader -> option (Z * reader)).
  Hypothesis ok : forall x r, ready r -> exists c r', read x r = Some (c, r') /\ ready r'.

  Lemma readings_exist h : forall r, ready r -> exists cs r', readings read h r cs r' /\ ready r'.
  Proof.
    induction h as [|x h IH]; intros r R; [exists [], r; split; auto; constructor|].
    destruct (ok x r R) as (c & r1 & E & R1). destruct (IH r1 R1) as (cs & r2 & H & R2).
    exists (c :: cs), r2. split; auto. econstructor; eauto.
  Qed.
  Lemma readings_ready h r cs r' : readings read h r cs r' -> ready r -> ready r'.
  Proof.
    induction 1; auto. intros R. destruct (ok x r R) as (c' & r' & E & R'). rewrite H in E. injection E as <- <-. auto.
  Qed.
  Lemma history_messages h : exists cs r r', readings read h new_reader cs r /\ free_reader r = Some r' /\ r_live r' = [] /\
    (forall e b t, last_error r = Some e -> e_msg e = Some (b, t) -> In b (r_live r)).
  Proof.
    destruct (readings_exist h new_reader new_ready) as (cs & r & H & R). destruct (free_ready r R) as (r' & F & L).
    exists cs, r, r'. repeat split; auto. intros e b t E M. injection E as <-. destruct R as [O _]. unfold owns in O.
    rewrite O, M. simpl; auto.
  Qed.
End History.

Lemma functional_messages y h : exists cs r r', readings (func_read y) h new_reader cs r /\ free_reader r = Some r' /\ r_live r' = [] /\
  (forall e b t, last_error r = Some e -> e_msg e = Some (b, t) -> In b (r_live r)).
Proof. apply history_messages. intros. now apply func_ready. Qed.
Lemma protocowl_messages h : exists cs r r', readings prt_read h new_reader cs r /\ free_reader r = Some r' /\ r_live r' = [] /\
  (forall e b t, last_error r = Some e -> e_msg e = Some (b, t) -> In b (r_live r)).
Proof. apply history_messages. intros. now apply prt_ready. Qed.

(** * What the error says *)

Lemma functional_tells y h cs r l ret r' :
  readings (func_read y) h new_reader cs r -> Forall (reported y) l -> func_read y (FParse l) r = Some (ret, r') ->
  tells ret (last_error r') /\
  (forall s, hd_error l = Some s -> ret < 0 /\ exists e, last_error r' = Some e /\ message e = said s /\ (forall n, line_of s = Some n -> e_line e = n)).
Proof.
  intros H F E. assert (R : ready r) by (eapply readings_ready; eauto using new_ready; intros; now apply func_ready).
  unfold func_read in E. destruct (set_error_ready OK None r R) as (r1 & E1 & R1 & C1 & M1 & L1 & K1 & B1). rewrite E1 in E.
  unfold tells, last_error.
  assert (MEM : forall n, y = true -> option_map (fun z => (yyparse_to_cowl_ret (fst z), snd z)) (error_mem y n r1) = Some (ret, r') ->
    ret = ERR_MEM /\ e_code (r_err r') = ERR_MEM /\ message (r_err r') = None /\ e_line (r_err r') = n).
  { intros n -> Q. unfold error_mem in Q. destruct (yyerror_ready true n r1 R1) as (r2 & Y & _ & C & M & L). rewrite Y in Q.
    simpl in Q. injection Q as <- <-. auto. }
  destruct l as [|s l]; simpl in E.
  - injection E as <- <-. split; [|discriminate]. cbn. right. exists (r_err r1). repeat split; auto. rewrite C1. apply Z.le_refl.
  - inversion_clear F as [|? ? Fs _].
    assert (G : ret < 0 /\ e_code (r_err r') = ret /\ message (r_err r') = said s /\ (forall n, line_of s = Some n -> e_line (r_err r') = n)).
    { destruct s; simpl in Fs; try contradiction.
      - destruct (MEM _ Fs E) as (-> & C & M & L). split; [reflexivity|]. repeat split; auto; intros ? [=]; congruence.
      - destruct Fs as [->|[-> Fs]].
        + change (ERR_SYNTAX =? ERR_MEM) with false in E. cbv iota in E.
          destruct (set_error_ready ERR_SYNTAX None r1 R1) as (r2 & Y & _ & C & M & L). rewrite Y in E. simpl in E.
          injection E as <- <-. split; [reflexivity|]. repeat split; auto; intros ? [=]; subst; try reflexivity; tauto.
        + change (ERR_MEM =? ERR_MEM) with true in E. destruct (MEM _ Fs E) as (-> & C & M & L). split; [reflexivity|]. repeat split; auto; intros ? [=]; congruence.
      - destruct (set_error_ready ERR_SYNTAX (Some msg) r1 R1) as (r2 & Y & _ & C & M & L). rewrite Y in E. simpl in E.
        injection E as <- <-. split; [reflexivity|]. repeat split; auto; intros ? [=]; subst; try reflexivity; tauto.
      - destruct (yyerror_ready false line r1 R1) as (r2 & Y & _ & C & M & L). rewrite Y in E. simpl in E.
        injection E as <- <-. split; [reflexivity|]. repeat split; auto; intros ? [=]; subst; try reflexivity; tauto.
      - destruct (yyerror_ready true line r1 R1) as (r2 & Y & _ & C & M & L). rewrite Y in E. simpl in E.
        injection E as <- <-. split; [reflexivity|]. repeat split; auto; intros ? [=]; subst; try reflexivity; tauto. }
    destruct G as (G & C & M & L). split.
    + replace (ret <? 0) with true by (symmetry; now apply Z.ltb_lt). eauto.
    + intros s' S. injection S as <-. eauto 6.
Qed.

(** A reader without an error. *)
Definition clean (r : reader) : Prop :=
  message (r_err r) = None /\ e_line (r_err r) = 0%N /\ e_col (r_err r) = 0%N /\ e_byte (r_err r) = 0%N.

(** After the first error nothing changes. *)
Lemma steps_after l : forall s r s' r', Forall no_stream_error l -> is_err (e_code (r_err r)) = true -> prt_steps l s r = Some (s', r') ->
  s' = s /\ r' = r.
Proof.
  induction l as [|x l IH]; intros s r s' r' F E Q; simpl in Q; [injection Q as <- <-; auto|].
  inversion_clear F as [|? ? Fx Fl].
  destruct x; simpl in Fx; try contradiction; unfold handle_error in Q; rewrite E in Q; eauto.
Qed.

Lemma steps_run l : forall r s' r', ready r -> Forall no_stream_error l -> 0 <= e_code (r_err r) -> prt_steps l OK r = Some (s', r') ->
  s' = OK /\
  match first_error l with
  | Some (c, m) => c < 0 /\ e_code (r_err r') = c /\ message (r_err r') = m /\ e_line (r_err r') = 0%N /\ e_col (r_err r') = 0%N
  | None => 0 <= e_code (r_err r') /\ ((l <> [] \/ clean r) -> clean r')
  end.
Proof.
  induction l as [|x l IH]; intros r s' r' R F C Q; simpl in Q; [injection Q as <- <-; simpl; intuition congruence|].
  inversion_clear F as [|? ? Fx Fl]. simpl. assert (NE : is_err (e_code (r_err r)) = false) by (apply Z.ltb_ge; lia).
  destruct x as [c|m|c]; simpl in Fx; [contradiction| |].
  - unfold handle_error in Q. rewrite NE in Q.
    destruct (set_error_ready ERR_SYNTAX (Some m) r R) as (r2 & E & R2 & C2 & M2 & L2 & K2 & B2). rewrite E in Q.
    destruct (steps_after l OK r2 s' r' Fl) as [-> ->]; [now rewrite C2| auto |]. split; [reflexivity|]. repeat split; auto.
  - unfold handle_error in Q. rewrite NE in Q.
    destruct (set_error_ready c None r R) as (r2 & E & R2 & C2 & M2 & L2 & K2 & B2). rewrite E in Q.
    destruct (c <? 0) eqn:N0.
    + destruct (steps_after l OK r2 s' r' Fl) as [-> ->]; [now rewrite C2| auto |]. split; [reflexivity|].
      apply Z.ltb_lt in N0. repeat split; auto.
    + apply Z.ltb_ge in N0. destruct (IH r2 s' r' R2 Fl) as [-> IH']; [now rewrite C2|auto|]. split; [reflexivity|].
      destruct (first_error l) as [[c' m']|]; auto. destruct IH' as [P I]. split; auto. intros _. apply I. right.
      repeat split; auto.
Qed.

(** Reading without errors leaves no error. *)
Lemma prt_clean x r ret r' : ready r -> prt_read x r = Some (ret, r') -> 0 <= ret -> clean r -> clean r'.
Proof.
  intros R E P C. unfold prt_read in E.
  assert (G : forall l s q s' q', ready q -> prt_steps l s q = Some (s', q') -> 0 <= e_code (r_err q') -> clean q -> clean q').
  { clear. induction l as [|x l IH]; intros s q s' q' R Q P C; simpl in Q; [injection Q as <- <-; auto|].
    destruct x as [c|m|c]; [eauto| |]; unfold handle_error in Q; destruct (is_err (e_code (r_err q))); eauto.
    - destruct (set_error_ready ERR_SYNTAX (Some m) q R) as (r2 & E & R2 & C2 & _). rewrite E in Q. exfalso.
      assert (K : forall l s q s' q', is_err (e_code (r_err q)) = true -> prt_steps l s q = Some (s', q') -> e_code (r_err q') = e_code (r_err q)).
      { clear. induction l as [|x l IH]; intros s q s' q' E Q; simpl in Q; [injection Q as <- <-; auto|].
        destruct x; [eauto| |]; unfold handle_error in Q; rewrite E in Q; eauto. }
      rewrite (K _ _ _ _ _ (f_equal is_err C2) Q), C2 in P. unfold ERR_SYNTAX in P. lia.
    - destruct (set_error_ready c None q R) as (r2 & E & R2 & C2 & M2 & L2 & K2 & B2). rewrite E in Q.
      eapply IH; eauto. repeat split; auto. }
  assert (R1 : ready (set_code (p_init x) r)) by now apply set_code_ready.
  assert (C1 : clean (set_code (p_init x) r)) by exact C.
  destruct (p_init x =? OK) eqn:I.
  - destruct (prt_steps _ _ _) as [[s r2]|] eqn:Q; [|discriminate]. injection E as <- <-.
    unfold decoder_state in *. destruct (is_err s) eqn:S.
    + apply Z.ltb_lt in S. lia.
    + replace (is_err (e_code (r_err r2))) with false by (symmetry; apply Z.ltb_ge; lia). eauto.
  - injection E as <- <-. unfold decoder_state in *. change (is_err OK) with false in *. cbn [is_err] in *.
    replace (is_err (e_code (r_err (set_code (p_init x) r)))) with false by (symmetry; apply Z.ltb_ge; auto). auto.
Qed.

Lemma history_clean h r cs r' : readings prt_read h r cs r' -> ready r -> Forall (fun c => 0 <= c) cs -> clean r -> clean r'.
Proof.
  induction 1; auto. intros R F C. inversion_clear F.
  destruct (prt_ready x r R) as (c' & q & E & R'). rewrite H in E. injection E as <- <-.
  eauto using prt_clean.
Qed.

Lemma protocowl_tells h cs r x ret r' :
  readings prt_read h new_reader cs r -> p_init x = OK -> Forall no_stream_error (p_steps x) ->
  prt_read x r = Some (ret, r') ->
  (first_error (p_steps x) <> None \/ p_steps x <> [] \/ Forall (fun c => 0 <= c) cs) ->
  tells ret (last_error r') /\
  (forall c m, first_error (p_steps x) = Some (c, m) ->
     ret = c /\ exists e, last_error r' = Some e /\ message e = m /\ e_byte e = p_bytes x /\ e_line e = 0%N /\ e_col e = 0%N) /\
  (first_error (p_steps x) = None -> 0 <= ret).
Proof.
  intros H I F E O. assert (R : ready r) by (eapply readings_ready; eauto using new_ready; intros; now apply prt_ready).
  unfold prt_read in E. rewrite I in E. change (OK =? OK) with true in E. cbv iota zeta in E.
  pose proof (set_code_ready OK r R) as R1.
  destruct (prt_steps (p_steps x) OK (set_code OK r)) as [[s r2]|] eqn:Q; [|discriminate].
  destruct (steps_run _ _ _ _ R1 F ltac:(apply Z.le_refl) Q) as [-> S]. injection E as <- <-.
  unfold decoder_state. change (is_err OK) with false. cbv iota.
  unfold tells, last_error. destruct (first_error (p_steps x)) as [[c m]|].
  - destruct S as (N0 & C & M & L & K). rewrite C.
    replace (c <? 0) with true by (symmetry; now apply Z.ltb_lt). replace (is_err c) with true by (symmetry; now apply Z.ltb_lt).
    repeat split; try discriminate.
    + eexists. split; [reflexivity|]. exact C.
    + now injection H0 as <- <-.
    + injection H0 as <- <-. eexists. split; [reflexivity|]. auto.
  - destruct S as [P S]. replace (is_err (e_code (r_err r2))) with false by (symmetry; apply Z.ltb_ge; lia).
    replace (e_code (r_err r2) <? 0) with false by (symmetry; apply Z.ltb_ge; lia).
    repeat split; try discriminate; auto. right. exists (r_err r2). split; [reflexivity|]. split; auto.
    apply S. destruct O as [O|[O|O]]; [congruence|auto|right].
    apply (history_clean h new_reader cs r H new_ready O). repeat split.
Qed.

(** * After the first error *)

Lemma steps_kept b : forall s r, is_err (e_code (r_err r)) = true -> prt_steps b s r = Some (s, r).
Proof.
  induction b as [|x b IH]; intros s r E; [reflexivity|]. destruct x; simpl.
  - unfold decoder_ok. rewrite E. rewrite andb_false_r. apply IH, E.
  - unfold handle_error. rewrite E. apply IH, E.
  - unfold handle_error. rewrite E. apply IH, E.
Qed.

Lemma steps_app a : forall b s r, prt_steps (a ++ b) s r = match prt_steps a s r with Some (s', r') => prt_steps b s' r' | None => None end.
Proof.
  induction a as [|x a IH]; intros b s r; [reflexivity|]. destruct x; simpl; auto.
  - destruct (handle_error _ _ r); auto.
  - destruct (handle_error _ _ r); auto.
Qed.

Lemma protocowl_stop h codes r a b n : readings prt_read h new_reader codes r -> Forall no_stream_error a -> first_error a <> None ->
  prt_read (mkPrt OK (a ++ b) n) r = prt_read (mkPrt OK a n) r.
Proof.
  intros H F E. assert (R : ready r) by (eapply readings_ready; eauto using new_ready; intros; now apply prt_ready).
  unfold prt_read. cbn [p_init p_steps p_bytes]. change (OK =? OK) with true. cbv iota. rewrite steps_app.
  destruct (steps_ready a OK (set_code OK r) (set_code_ready OK r R)) as (s' & r' & Q & _). rewrite Q.
  pose proof (steps_run a (set_code OK r) s' r' (set_code_ready OK r R) F) as T. cbn in T.
  destruct (T ltac:(discriminate) Q) as (-> & T2). destruct (first_error a) as [[c m]|]; [|congruence].
  rewrite steps_kept; [reflexivity|]. unfold is_err. apply Z.ltb_lt. destruct T2 as (N & <- & _). exact N.
Qed.
