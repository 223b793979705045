(** Proofs about the layout of texts in functional syntax. *)

From Coq Require Import NArith ZArith List Bool Lia.
From Verif Require Import Bytes ModelTypes ModelText SpecText ModelFuncLex SpecFunc SpecFuncTokens SpecFuncLayout ProofFuncTokens ExamplesFuncTokens.
Import ListNotations.
Local Open Scope N_scope.

(** Bytes of names, numbers and words. *)
Definition wordy (c : N) : Prop := letter c \/ non_ascii c \/ is_digit c \/ In c [95; 45; 46; 58; 64].

Lemma inner_wordy c : inner_char c -> wordy c.
Proof. unfold inner_char, wordy. cbn. intuition auto. Qed.
Lemma prefix_wordy p : prefix_name p -> Forall wordy p.
Proof.
  intros [->|(c & r & -> & Hc & Hr & _)]; constructor.
  - unfold wordy. tauto.
  - eapply Forall_impl; [|exact Hr]. exact inner_wordy.
Qed.
Lemma local_wordy p : local_name p -> Forall wordy p.
Proof.
  intros (c & r & -> & Hc & Hr & _); constructor.
  - unfold wordy; intuition (cbn; auto 8).
  - eapply Forall_impl; [|exact Hr]. exact inner_wordy.
Qed.
Lemma tag_wordy l : tag l -> Forall wordy l.
Proof.
  intros (a & ps & -> & _ & Ha & Hp). apply Forall_app. split.
  - eapply Forall_impl; [|exact Ha]. intros c Hc. left. exact Hc.
  - induction Hp as [|p ps [_ Hp] _ IH]; [constructor|]. cbn. constructor; [do 3 right; cbn; auto 9|]. apply Forall_app. split; [|exact IH].
    eapply Forall_impl; [|exact Hp]. intros c Hc. destruct Hc as [Hc|Hc]; [left|right; right; left]; exact Hc.
Qed.
Lemma word_wordy k : Forall wordy (bs (spelling k)).
Proof.
  apply Forall_forall. intros c Hc. left. unfold letter.
  assert (E : forallb (fun c => ((65 <=? c) && (c <=? 90)) || ((97 <=? c) && (c <=? 122))) (bs (spelling k)) = true) by (destruct k; vm_compute; reflexivity).
  rewrite forallb_forall in E. specialize (E c Hc). lia.
Qed.

Section Width.
  Variable w : N.
  Notation lexeme := (lexeme w).
  Notation longest := (longest w).
  Notation cut := (cut w).

  (** The kinds of lexemes, as far as layout is concerned. *)
  Inductive kind (x : bytes) : option token -> Prop :=
  | k_blank : Forall blank x -> kind x None
  | k_comment s : x = 35 :: s -> ~ In 10 s -> kind x None
  | k_iri s t : x = 60 :: s ++ [62] -> Forall iri_char s -> kind x (Some t)
  | k_wordy t : Forall wordy x -> kind x (Some t)
  | k_carets t : x = [94; 94] -> kind x (Some t)
  | k_sign c t : x = [c] -> In c [40; 41; 61] -> kind x (Some t).
  Lemma lexeme_kind x t : lexeme x t -> kind x t.
  Proof.
    intros H. destruct H as [s Hn Hs|s Hs|k|s Hn Hs|s Hs|p Hp|p l Hp Hl|l Hl|l Hl| | | |].
    - apply k_blank. exact Hs.
    - eapply k_comment; [reflexivity|exact Hs].
    - apply k_wordy. apply word_wordy.
    - apply k_wordy. eapply Forall_impl; [|exact Hs]. intros c Hc. right; right; left; exact Hc.
    - eapply k_iri; [reflexivity|exact Hs].
    - apply k_wordy. apply Forall_app. split; [apply prefix_wordy; exact Hp|]. constructor; [|constructor]. do 3 right; cbn; auto 9.
    - apply k_wordy. apply Forall_app. split; [apply prefix_wordy; exact Hp|]. constructor; [|apply local_wordy; exact Hl]. do 3 right; cbn; auto 9.
    - apply k_wordy. constructor; [do 3 right; cbn; auto 9|]. constructor; [do 3 right; cbn; tauto|]. apply local_wordy; exact Hl.
    - apply k_wordy. constructor; [do 3 right; cbn; auto 9|]. apply tag_wordy. exact Hl.
    - apply k_carets. reflexivity.
    - eapply k_sign; [reflexivity|cbn; tauto].
    - eapply k_sign; [reflexivity|cbn; tauto].
    - eapply k_sign; [reflexivity|cbn; tauto].
  Qed.

  Lemma split_prefix (x rest y u : bytes) : x ++ rest = y ++ u -> (List.length x < List.length y)%nat -> exists d v, y = x ++ d :: v /\ rest = d :: v ++ u.
  Proof.
    revert y. induction x as [|a x IH]; intros [|b y] E Hl; cbn in *; try lia.
    - exists b, y. auto.
    - injection E as -> E. destruct (IH y E ltac:(lia)) as (d & v & -> & ->). exists d, v. auto.
  Qed.

  (** Only white space and comments contain white space. *)
  Ltac chars := unfold wordy, blank, iri_char, letter, non_ascii, is_digit in *; cbn in *; lia.

  Lemma token_longest x t b : lexeme x (Some t) -> apart x b -> longest x b.
  Proof.
    intros Hx Ha y ty u Hy E. destruct (Nat.le_gt_cases (List.length y) (List.length x)) as [Hle|Hgt]; [exact Hle|exfalso].
    destruct (split_prefix _ _ _ _ E Hgt) as (d & v & -> & ->). clear E Hgt.
    pose proof (lexeme_nonempty w x _ Hx) as Hne. apply lexeme_kind in Hx. apply lexeme_kind in Hy.
    destruct x as [|c x]; [contradiction|]. clear Hne.
    inversion Hx as [| |s t0 Es Hs|t0 Hs|t0 Es|c0 t0 Es Hs]; subst t0.
    - (* an IRI: nothing longer starts with it *)
      injection Es as -> ->. inversion Hy as [Hb|s0 E|s0 t0 E Hs0|t0 Hw|t0 E|c0 t0 E Hc0]; try discriminate E.
      + inversion Hb; subst. chars.
      + injection E as E. assert (Hi : In 62 s0).
        { clear - E. rewrite <- app_assoc in E. revert s0 E. induction s as [|a s IH]; intros [|b s0] E; cbn in *; try discriminate E.
          - injection E as <- E. left. reflexivity.
          - destruct s; discriminate E.
          - injection E as -> E. right. apply IH. exact E. }
        rewrite Forall_forall in Hs0. apply Hs0 in Hi. chars.
      + inversion Hw; subst. chars.
      + destruct s; discriminate E.
    - assert (Hc : wordy c) by (inversion Hs; assumption).
      assert (Hd : blank d \/ In d [35; 40; 41; 61; 34; 60]).
      { destruct Ha as [[E|(c0 & r & E & H)]|(u0 & c0 & E & H)].
        - discriminate E.
        - injection E as -> _. exact H.
        - exfalso. rewrite E in Hs. apply Forall_app in Hs as [_ Hs]. inversion Hs; subst. chars. }
      inversion Hy as [Hb|s0 E|s0 t0 E Hs0|t0 Hw|t0 E|c0 t0 E Hc0].
      + inversion Hb; subst. chars.
      + injection E as -> _. chars.
      + injection E as -> _. chars.
      + rewrite Forall_forall in Hw. assert (Hwd : wordy d) by (apply Hw; right; apply in_or_app; right; left; reflexivity). chars.
      + injection E as -> _. chars.
      + injection E as -> _. chars.
    - injection Es as -> ->. inversion Hy as [Hb|s0 E|s0 t0 E Hs0|t0 Hw|t0 E|c0 t0 E Hc0]; try discriminate E.
      + inversion Hb; subst. chars.
      + inversion Hw; subst. chars.
    - injection Es as -> ->. inversion Hy as [Hb|s0 E|s0 t0 E Hs0|t0 Hw|t0 E|c1 t0 E Hc1].
      + inversion Hb; subst. chars.
      + injection E as -> _. chars.
      + injection E as -> _. chars.
      + inversion Hw; subst. chars.
      + injection E as -> _. chars.
      + discriminate E.
  Qed.

  Lemma blank_run b : exists g r, b = g ++ r /\ Forall blank g /\ (forall c s, r = c :: s -> ~ blank c).
  Proof.
    induction b as [|c b (g & r & -> & Hg & Hr)].
    - exists [], []. split; [reflexivity|]. split; [constructor|]. intros c s E. discriminate E.
    - destruct (is_space c) eqn:Ec.
      + exists (c :: g), r. split; [reflexivity|]. split; [constructor; [unfold is_space, blank in *; lia|exact Hg]|exact Hr].
      + exists [], (c :: g ++ r). split; [reflexivity|]. split; [constructor|]. intros c0 s E. injection E as <- _. unfold is_space, blank in *. lia.
  Qed.
  Lemma blank_longest g r : g <> [] -> Forall blank g -> (forall c s, r = c :: s -> ~ blank c) -> longest g r.
  Proof.
    intros Hn Hg Hr y ty u Hy E. destruct (Nat.le_gt_cases (List.length y) (List.length g)) as [Hle|Hgt]; [exact Hle|exfalso].
    destruct (split_prefix _ _ _ _ E Hgt) as (d & v & -> & ->). clear E Hgt. apply lexeme_kind in Hy.
    destruct g as [|c g]; [contradiction|]. inversion Hg as [|? ? Hc _]; subst.
    inversion Hy as [Hb|s0 E|s0 t0 E Hs0|t0 Hw|t0 E|c1 t0 E Hc1].
    - apply (Hr d _ eq_refl). rewrite Forall_forall in Hb. apply Hb. right. apply in_or_app. right. left. reflexivity.
    - injection E as -> _. chars.
    - injection E as -> _. chars.
    - inversion Hw; subst. chars.
    - injection E as -> _. chars.
    - injection E as -> _. chars.
  Qed.
  Lemma cut_run g r ts : Forall blank g -> (forall c s, r = c :: s -> ~ blank c) -> cut None r ts -> cut None (g ++ r) ts.
  Proof.
    intros Hg Hr H. destruct g as [|c g]; [exact H|]. apply cut_skip; [apply lx_blank; [discriminate|exact Hg]| |exact H].
    apply blank_longest; [discriminate|exact Hg|exact Hr].
  Qed.
  Lemma blank_cut c b ts : blank c -> cut None b ts -> cut None (c :: b) ts.
  Proof.
    intros Hc H. destruct (blank_run b) as (g & r & -> & Hg & Hr). destruct (cut_exists w r) as (ts' & H').
    rewrite (cut_unique w _ _ _ H (cut_run g r ts' Hg Hr H')). apply (cut_run (c :: g) r); [constructor; assumption|exact Hr|exact H'].
  Qed.
  Lemma comment_longest s r : ~ In 10 s -> (r = [] \/ exists r', r = 10 :: r') -> longest (35 :: s) r.
  Proof.
    intros Hs Hr y ty u Hy E. destruct (Nat.le_gt_cases (List.length y) (List.length (35 :: s))) as [Hle|Hgt]; [exact Hle|exfalso].
    destruct (split_prefix _ _ _ _ E Hgt) as (d & v & -> & ->). clear E Hgt. apply lexeme_kind in Hy.
    destruct Hr as [E|(r' & E)]; [discriminate E|injection E as -> _].
    inversion Hy as [Hb|s0 E Hs0|s0 t0 E Hs0|t0 Hw|t0 E|c1 t0 E Hc1]; try discriminate E.
    - inversion Hb; subst. chars.
    - injection E as <-. apply Hs0. apply in_or_app. right. left. reflexivity.
    - inversion Hw; subst. chars.
    - injection E as <- _. chars.
  Qed.
  Lemma layout_cut g b ts : layout g -> cut None b ts -> cut None (g ++ b) ts.
  Proof.
    intros Hg H. induction Hg as [|c g Hc _ IH|s g Hs _ IH]; [exact H| |].
    - apply blank_cut; assumption.
    - cbn [app]. rewrite <- app_assoc. cbn [app]. change (35 :: s ++ 10 :: g ++ b) with ((35 :: s) ++ 10 :: g ++ b).
      apply cut_skip; [apply lx_comment; exact Hs|apply comment_longest; [exact Hs|right; eexists; reflexivity]|].
      apply blank_cut; [unfold blank; lia|exact IH].
  Qed.
  Lemma escapes_cut s e b ts : escapes s e -> cut None b ts -> forall s0, cut (Some s0) (e ++ 34 :: b) (TQuoted (s0 ++ s) :: ts).
  Proof.
    intros He H. induction He as [|c s e H1 H2 _ IH|c s e Hc _ IH]; intros s0.
    - rewrite app_nil_r. apply cut_close. exact H.
    - cbn [app]. apply cut_plain; [exact H1|exact H2|]. replace (s0 ++ c :: s) with ((s0 ++ [c]) ++ s) by (rewrite <- app_assoc; reflexivity). apply IH.
    - cbn [app]. apply cut_escape; [exact Hc|]. replace (s0 ++ c :: s) with ((s0 ++ [c]) ++ s) by (rewrite <- app_assoc; reflexivity). apply IH.
  Qed.
  Theorem laid_cut ts b : laid w ts b -> cut None b ts.
  Proof.
    intros H. induction H as [g Hg|g s Hg Hs|g x t ts b Hg Hx Ha _ IH|g s e ts b Hg He _ IH].
    - rewrite <- (app_nil_r g). apply layout_cut; [exact Hg|apply cut_end].
    - apply layout_cut; [exact Hg|]. rewrite <- (app_nil_r (35 :: s)). apply cut_skip; [apply lx_comment; exact Hs|apply comment_longest; [exact Hs|left; reflexivity]|apply cut_end].
    - apply layout_cut; [exact Hg|]. apply cut_token; [exact Hx|eapply token_longest; eassumption|exact IH].
    - apply layout_cut; [exact Hg|]. apply cut_open. apply (escapes_cut s e b ts He IH []).
  Qed.
  Theorem laid_lex ts b : laid w ts b -> lex w b = Some ts.
  Proof. intros H. apply lex_cut, laid_cut, H. Qed.
End Width.
