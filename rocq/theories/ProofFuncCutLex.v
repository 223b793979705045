(** The tokens of the beginning of a text. *)

From Coq Require Import String NArith ZArith List Bool Lia.
From Coq Require Import ZifyBool ZifyNat ZifyN.
From Verif Require Import Bytes ModelTypes ModelObject ModelText SpecObject SpecText ModelFuncLex SpecFunc ProofObject ProofText ProofFuncRe ProofFuncLex.
Import ListNotations.
Local Open Scope N_scope.

Lemma picks_rule {A} (rs : list (re * A)) s a : picks rs s a -> exists r, In (r, a) rs /\ lang r s.
Proof. intros H. induction H as [r a rs s H|r b a rs s H H' (r' & Hin & Hl)]; [exists r; split; [now left|exact H]|exists r'; split; [now right|exact Hl]]. Qed.
Lemma firstn_le_app {A} n (x y : list A) : (n <= List.length x)%nat -> firstn n (x ++ y) = firstn n x.
Proof. intros H. rewrite firstn_app. replace (n - List.length x)%nat with 0%nat by lia. cbn. apply app_nil_r. Qed.
Lemma scan_spec {A} (rs : list (re * A)) s n a : scan rs s 0 None = Some (n, a) <->
  (n <= List.length s)%nat /\ picks rs (firstn n s) a /\ forall k, (n < k)%nat -> (k <= List.length s)%nat -> none rs (firstn k s).
Proof.
  split.
  - intros E. destruct (scan_inv rs s 0 None) as [[H _]|(k & b & H1 & H2 & H3 & H4)]; [congruence|].
    rewrite H2 in E. injection E as <- <-. cbn. auto.
  - intros (H1 & H2 & H3). destruct (scan_inv rs s 0 None) as [[_ H]|(k & b & K1 & K2 & K3 & K4)].
    + exfalso. exact (picks_not_none _ _ _ H2 (H n)).
    + assert (k = n) as ->.
      { destruct (Nat.lt_trichotomy k n) as [H|[H|H]]; [exfalso; exact (picks_not_none _ _ _ H2 (K4 n H H1))|exact H|exfalso; exact (picks_not_none _ _ _ K3 (H3 k H K1))]. }
      rewrite K2. cbn. f_equal. f_equal. exact (picks_fun _ _ _ _ K3 H2).
Qed.
Lemma scan_cut {A} (rs : list (re * A)) x y n a : scan rs (x ++ y) 0 None = Some (n, a) -> (n <= List.length x)%nat -> scan rs x 0 None = Some (n, a).
Proof.
  rewrite !scan_spec. intros (H1 & H2 & H3) Hn. split; [exact Hn|]. rewrite firstn_le_app in H2 by exact Hn. split; [exact H2|].
  intros k Hk Hl. rewrite <- (firstn_le_app k x y Hl). apply H3; [exact Hk|]. rewrite app_length. lia.
Qed.

Section Width.
  Variable w : N.
  Notation rules := (initial_rules w).
  Notation L := (L w).
  Notation rules_q := (rules_q w).

  Lemma L_scan q c s n a : scan (rules_q q) (c :: s) 0 None = Some (S n, a) -> (n <= List.length s)%nat ->
    L q (c :: s) = after q a (firstn (S n) (c :: s)) (fun q' => L q' (skipn (S n) (c :: s))).
  Proof.
    intros E Hn. unfold ProofFuncLex.L at 1. cbn [List.length]. rewrite (lex_loop_step w _ q c s _ _ E).
    assert (Hk : forall q', lex_loop w (List.length s) q' (skipn (S n) (c :: s)) = L q' (skipn (S n) (c :: s))).
    { intros q'. apply lex_fuel. rewrite skipn_length. cbn. lia. }
    destruct a, q; cbn [after]; rewrite ?Hk; reflexivity.
  Qed.

  Definition other (r : re) (a : action) : Prop :=
    chars r 41 = false /\ first_char r 35 = false /\ first_char r 60 = false /\
    match a with AToken mk => forall s, mk s <> TRParen /\ forall c, mk s <> TChar c | _ => True end.
  Lemma initial_cases r a : In (r, a) rules ->
    r = COMMENT /\ a = ASkip \/ r = R_IRI_REF \/ r = RDot /\ a = AToken (fun s => TChar (nth 0 s 0)) \/
    r = RStr (bs ")") /\ a = AToken (fun _ => TRParen) \/ other r a.
  Proof.
    unfold initial_rules. intros [E|H].
    { injection E as <- <-. do 4 right. repeat split; reflexivity. }
    apply in_app_or in H as [H|H].
    - do 4 right. apply in_map_iff in H as (k & E & Hin). injection E as <- <-.
      assert (G : forallb (fun k => negb (chars (RStr (bs (fst k))) 41) && negb (first_char (RStr (bs (fst k))) 35) && negb (first_char (RStr (bs (fst k))) 60)) keywords = true)
        by (vm_compute; reflexivity).
      rewrite forallb_forall in G. specialize (G k Hin). apply andb_true_iff in G as [G G3]. apply andb_true_iff in G as [G1 G2].
      apply negb_true_iff in G1, G2, G3. split; [exact G1|]. split; [exact G2|]. split; [exact G3|]. intros s. split; discriminate.
    - repeat (destruct H as [E|H]; [injection E as <- <-; first
        [left; split; reflexivity | right; left; reflexivity | right; right; left; split; reflexivity | right; right; right; left; split; reflexivity
        | do 4 right; split; [vm_compute; reflexivity|]; split; [vm_compute; reflexivity|]; split; [vm_compute; reflexivity|]; cbn; try exact Logic.I; intros s; split; discriminate]|]).
      destruct H.
  Qed.
  Lemma lang_one f s : lang (RSet f) s -> exists c, s = [c] /\ f c = true.
  Proof. apply lang_set_inv. Qed.

  (** What holds of every token. *)
  Lemma L_tokens (Q : token -> Prop) : forall s q ts,
    (forall q' r mk x a b, In (r, AToken mk) (rules_q q') -> lang r x -> s = a ++ x ++ b -> Q (mk x)) -> (forall buf, Q (TQuoted buf)) ->
    L q s = Some ts -> Forall Q ts.
  Proof.
    intros s. remember (List.length s) as k eqn:Ek. assert (Hk : (List.length s <= k)%nat) by lia. clear Ek. revert s Hk.
    induction k as [|k IH]; intros s Hk q ts HQ Hb E.
    - destruct s; [|cbn in Hk; lia]. injection E as <-. constructor.
    - destruct s as [|c s]; [injection E as <-; constructor|].
      destruct (scan_progress w q c s) as (n & a & Es & Hn & Hp). rewrite (L_scan q c s n a Es Hn) in E.
      assert (Hr : forall q' ts', L q' (skipn (S n) (c :: s)) = Some ts' -> Forall Q ts').
      { intros q' ts' E'. apply (IH (skipn (S n) (c :: s))) with (q := q'); auto; [rewrite skipn_length; cbn in *; lia|].
        intros q2 r mk x u v Hin Hl Eu. apply (HQ q2 r mk x (firstn (S n) (c :: s) ++ u) v Hin Hl). rewrite <- app_assoc, <- Eu. symmetry. apply firstn_skipn. }
      destruct a as [|mk| |j|]; cbn [after] in E.
      + eauto.
      + destruct (L q (skipn (S n) (c :: s))) as [ts'|] eqn:E'; [|discriminate]. injection E as <-. constructor; [|eauto].
        apply picks_rule in Hp as (r & Hin & Hl). apply (HQ q r mk _ [] (skipn (S n) (c :: s)) Hin Hl). cbn [app]. symmetry. apply firstn_skipn.
      + eauto.
      + destruct q; [eauto|discriminate].
      + destruct q as [buf|]; [|discriminate]. destruct (L None (skipn (S n) (c :: s))) as [ts'|] eqn:E'; [|discriminate]. injection E as <-. constructor; eauto.
  Qed.
  Lemma token_made q r mk x : In (r, AToken mk) (rules_q q) -> lang r x ->
    (mk x = TRParen -> x = [41]) /\ forall c, mk x = TChar c -> x = [c].
  Proof.
    assert (Hdot : forall mk, lang RDot x -> AToken mk = AToken (fun s => TChar (nth 0 s 0)) -> (mk x = TRParen -> x = [41]) /\ forall c, mk x = TChar c -> x = [c]).
    { intros mk' Hl [= ->]. apply lang_set_inv in Hl as (d & -> & _). split; [discriminate|]. intros c [= ->]. reflexivity. }
    intros Hin Hl. destruct q as [buf|]; cbn [ProofFuncLex.rules_q] in Hin.
    - repeat (destruct Hin as [E|Hin]; [try discriminate|]); [|destruct Hin]. injection E as <- E. apply Hdot; [exact Hl|]. rewrite E. reflexivity.
    - assert (Hr : r = R_IRI_REF -> forall s, exists z, mk s = TIriRef z).
      { intros ->. unfold initial_rules in Hin. destruct Hin as [Hin|Hin]; [discriminate|]. apply in_app_or in Hin as [Hin|Hin].
        - apply in_map_iff in Hin as (k & E & _). exfalso. injection E as E _. destruct (bs (fst k)) as [|? [|]]; discriminate.
        - repeat (destruct Hin as [E|Hin]; [first [discriminate E|injection E as <-; eauto]|]). destruct Hin. }
      destruct (initial_cases r _ Hin) as [[_ E]|[E|[[-> E]|[[-> E]|E]]]].
      + discriminate.
      + destruct (Hr E x) as [z Hz]. rewrite Hz. split; discriminate.
      + now apply Hdot.
      + injection E as ->. apply lang_str in Hl. subst x. split; [reflexivity|discriminate].
      + destruct E as (_ & _ & _ & E). destruct (E x) as [E1 E2]. split; [intros H; contradiction|]. intros c H. exfalso. exact (E2 c H).
  Qed.
  Lemma tokens_no_close s q ts : L q s = Some ts -> ~ In 41 s -> ~ In TRParen ts.
  Proof.
    intros E Hn Hin. assert (F : Forall (fun t => t <> TRParen) ts).
    { apply (L_tokens _ s q ts); [|discriminate|exact E]. intros q' r mk x a b Hr Hl Ex Et.
      destruct (token_made q' r mk x Hr Hl) as [H _]. specialize (H Et). subst x s. apply Hn. apply in_or_app. right. now left. }
    rewrite Forall_forall in F. exact (F _ Hin eq_refl).
  Qed.
  Lemma tokens_char s q ts c : L q s = Some ts -> In (TChar c) ts -> In c s.
  Proof.
    intros E Hin. assert (F : Forall (fun t => t = TChar c -> In c s) ts).
    { apply (L_tokens _ s q ts); [|discriminate|exact E]. intros q' r mk x a b Hr Hl Ex Et.
      destruct (token_made q' r mk x Hr Hl) as [_ H]. specialize (H c Et). subst x s. apply in_or_app. right. now left. }
    rewrite Forall_forall in F. exact (F _ Hin eq_refl).
  Qed.

  (** The tokens of a cut lexeme. *)
  Definition harmless (J : list token) : Prop := ~ In TRParen J \/ exists J', J = TChar 60 :: J'.
  Lemma cut_lexeme q s z a : s <> [] -> z <> [] -> picks (rules_q q) (s ++ z) a -> exists J, L q s = Some J /\ harmless J.
  Proof.
    intros Hs Hz Hp. destruct (L_total w s q) as [J EJ]. exists J. split; [exact EJ|].
    destruct (in_dec N.eq_dec 41 s) as [H41|H41]; [|left; eapply tokens_no_close; eauto].
    apply picks_rule in Hp as (r & Hin & Hl).
    assert (Hlen : (2 <= List.length (s ++ z))%nat) by (rewrite app_length; destruct s, z; try contradiction; cbn; lia).
    assert (Hdot : forall f, r = RSet f -> False).
    { intros f ->. apply lang_set_inv in Hl as (d & E & _). rewrite E in Hlen. cbn in Hlen. lia. }
    assert (Hin41 : In 41 (s ++ z)) by (apply in_or_app; now left).
    destruct q as [buf|]; cbn [ProofFuncLex.rules_q] in Hin.
    - destruct Hin as [E|[E|[E|[E|[]]]]]; injection E as <- <-.
      + assert (F : Forall plain s).
        { assert (F : Forall plain (s ++ z)); [|apply Forall_app in F; apply F]. apply Forall_forall. intros c Hc.
          pose proof (chars_ok _ _ Hl c Hc) as H. cbn in H. unfold plain. lia. }
        pose proof (L_run w buf s [] Hs F (or_introl eq_refl)) as H. rewrite app_nil_r in H. rewrite H in EJ.
        injection EJ as <-. left. intros [].
      + exfalso. pose proof (chars_ok _ _ Hl 41 Hin41) as H. vm_compute in H. discriminate.
      + exfalso. eapply Hdot. reflexivity.
      + exfalso. eapply Hdot. reflexivity.
    - destruct s as [|c s]; [contradiction|]. destruct (scan_progress w None c s) as (n & b & Es & Hn & Hp).
      rewrite (L_scan None c s n b Es Hn) in EJ. apply scan_spec in Es as (_ & _ & Hlong).
      destruct (initial_cases r a Hin) as [[-> _]|[->|[[-> _]|[[-> _]|(Hx & _)]]]].
      + (* a comment *)
        unfold COMMENT in Hl. apply lang_cat_inv in Hl as (u & v & E & Hu & Hv). apply lang_set_inv in Hu as (d & -> & Hd). apply N.eqb_eq in Hd. subst d.
        cbn in E. injection E as -> E.
        assert (Hall : lang COMMENT (35 :: s)).
        { unfold COMMENT. change (35 :: s) with ([35] ++ s). constructor; [constructor; reflexivity|].
          apply (star_forall (fun c => c <> 10)).
          - apply Forall_forall. intros d Hd. assert (In d v) by (rewrite <- E; apply in_or_app; now left).
            pose proof (chars_ok _ _ Hv d H) as Hc. cbn in Hc. lia.
          - intros d Hd. constructor. lia. }
        assert (Hn' : S n = List.length (35 :: s)).
        { destruct (Nat.eq_dec (S n) (List.length (35 :: s))) as [H|H]; [exact H|exfalso]. cbn in H.
          apply (Hlong (List.length (35 :: s)) ltac:(cbn; lia) (le_n _) COMMENT ASkip).
          - unfold initial_rules. right. apply in_or_app. right. do 11 right. left. reflexivity.
          - rewrite firstn_all. exact Hall. }
        rewrite Hn', firstn_all in Hp. rewrite Hn', skipn_all in EJ. apply picks_rule in Hp as (r & Hin' & Hl').
        assert (Hf : first_char r 35 = true) by (eapply first_ok; eauto).
        destruct (initial_cases r b Hin') as [[_ ->]|[->|[[-> _]|[[-> _]|(_ & Hx & _)]]]].
        * cbn in EJ. injection EJ as <-. left. intros [].
        * vm_compute in Hf. discriminate.
        * exfalso. apply lang_set_inv in Hl' as (d & E' & _). injection E' as _ ->. destruct H41 as [H41|[]]. discriminate.
        * vm_compute in Hf. discriminate.
        * congruence.
      + (* an IRI *)
        apply iri_ref_shape in Hl as (u & E & Hu). cbn in E. injection E as -> E.
        apply picks_rule in Hp as (r & Hin' & Hl').
        assert (Hf : first_char r 60 = true) by (eapply first_ok; [exact Hl'|reflexivity]).
        destruct (initial_cases r b Hin') as [[-> _]|[->|[[-> ->]|[[-> _]|(_ & _ & Hx & _)]]]].
        * vm_compute in Hf. discriminate.
        * exfalso. apply iri_ref_shape in Hl' as (v & E' & Hv).
          assert (H62 : In 62 s).
          { cbn [firstn] in E'. injection E' as E'. assert (In 62 (firstn n s)) by (rewrite E'; apply in_or_app; right; now left).
            rewrite <- (firstn_skipn n s). apply in_or_app. now left. }
          destruct (@exists_last _ z Hz) as (z' & d & ->). rewrite app_assoc in E. apply app_inj_tail in E as [E _].
          assert (In 62 u) by (rewrite <- E; apply in_or_app; now left). rewrite Forall_forall in Hu. specialize (Hu 62 H).
          apply iri_char_b in Hu. vm_compute in Hu. discriminate.
        * right. cbn [after] in EJ. destruct (L None (skipn (S n) (60 :: s))) as [ts|]; [|discriminate]. injection EJ as <-. eexists. reflexivity.
        * vm_compute in Hf. discriminate.
        * congruence.
      + exfalso. eapply Hdot. reflexivity.
      + exfalso. apply lang_str in Hl. rewrite Hl in Hlen. cbn in Hlen. lia.
      + exfalso. pose proof (chars_ok _ _ Hl 41 Hin41). congruence.
  Qed.

  Theorem lex_cut : forall s1 q s2, exists T J T', L q s1 = Some (T ++ J) /\ L q (s1 ++ s2) = Some (T ++ T') /\ harmless J.
  Proof.
    intros s. remember (List.length s) as k eqn:Ek. assert (Hk : (List.length s <= k)%nat) by lia. clear Ek. revert s Hk.
    induction k as [|k IH]; intros s Hk q s2.
    - destruct s; [|cbn in Hk; lia]. destruct (L_total w s2 q) as [T' E]. exists [], [], T'. split; [reflexivity|]. split; [exact E|]. left. intros [].
    - destruct s as [|c s]; [destruct (L_total w s2 q) as [T' E]; exists [], [], T'; split; [reflexivity|]; split; [exact E|]; left; intros []|].
      destruct (scan_progress w q c (s ++ s2)) as (n & a & Es & Hn & Hp).
      destruct (Compare_dec.le_lt_dec (S n) (List.length (c :: s))) as [Hle|Hlt].
      + change (c :: s ++ s2) with ((c :: s) ++ s2) in Es. pose proof (scan_cut _ _ _ _ _ Es Hle) as Es1.
        assert (E2 : L q ((c :: s) ++ s2) = after q a (firstn (S n) (c :: s)) (fun q' => L q' (skipn (S n) (c :: s) ++ s2))).
        { cbn [app] in Es |- *. rewrite (L_scan q c (s ++ s2) n a Es Hn). change (c :: s ++ s2) with ((c :: s) ++ s2).
          rewrite firstn_le_app by exact Hle. rewrite skipn_app. replace (S n - List.length (c :: s))%nat with 0%nat by lia. reflexivity. }
        rewrite E2, (L_scan q c s n a Es1 ltac:(cbn in Hle; lia)).
        assert (Hr : forall q', exists T J T', L q' (skipn (S n) (c :: s)) = Some (T ++ J) /\ L q' (skipn (S n) (c :: s) ++ s2) = Some (T ++ T') /\ harmless J).
        { intros q'. apply IH. rewrite skipn_length. cbn in *. lia. }
        pose proof (rules_fit w q) as Hfit. rewrite Forall_forall in Hfit. specialize (Hfit _ (picks_in _ _ _ Hp)).
        destruct a as [|mk| |j|]; cbn [after].
        * apply Hr.
        * destruct (Hr q) as (T & J & T' & -> & -> & HJ). exists (mk (firstn (S n) (c :: s)) :: T), J, T'. auto.
        * apply Hr.
        * destruct q; [apply Hr|contradiction].
        * destruct q as [buf|]; [|contradiction]. destruct (Hr None) as (T & J & T' & -> & -> & HJ). exists (TQuoted buf :: T), J, T'. auto.
      + destruct (L_total w ((c :: s) ++ s2) q) as [T' E'].
        assert (Hf : firstn (S n) (c :: s ++ s2) = (c :: s) ++ firstn (S n - List.length (c :: s)) s2).
        { change (c :: s ++ s2) with ((c :: s) ++ s2). rewrite firstn_app, firstn_all2 by lia. reflexivity. }
        rewrite Hf in Hp. assert (Hz : firstn (S n - List.length (c :: s)) s2 <> []).
        { intros H. apply (f_equal (@List.length _)) in H. rewrite firstn_length in H. cbn in H, Hlt, Hn. rewrite app_length in Hn. lia. }
        destruct (cut_lexeme q (c :: s) _ a ltac:(discriminate) Hz Hp) as (J & EJ & HJ). exists [], J, T'. auto.
  Qed.
End Width.
