(** The scanner of ModelFuncLex.v: it always finds tokens, and those that are meant. *)

From Coq Require Import String NArith ZArith List Bool Lia.
From Coq Require Import ZifyBool ZifyNat ZifyN.
From Verif Require Import Bytes ModelTypes ModelObject ModelText SpecObject SpecText ModelFuncLex SpecFunc ProofObject ProofText ProofFuncRe.
Import ListNotations.
Local Open Scope N_scope.

(** * Exclusion of rules by computation *)

Definition all_bytes : list N := map N.of_nat (List.seq 0 256).
Lemma all_bytes_in c : c < 256 -> In c all_bytes.
Proof.
  intros H. unfold all_bytes. apply in_map_iff. exists (N.to_nat c). split; [lia|]. apply in_seq. lia.
Qed.
Definition no_byte (F : N -> bool) (G : N -> bool) : bool := forallb (fun c => implb (F c) (negb (G c))) all_bytes.
Lemma no_byte_ok F G c : no_byte F G = true -> c < 256 -> F c = true -> G c = false.
Proof.
  intros H Hc Hf. unfold no_byte in H. rewrite forallb_forall in H. specialize (H _ (all_bytes_in _ Hc)).
  rewrite Hf in H. cbn in H. destruct (G c); [discriminate|reflexivity].
Qed.
(** No string that starts with a byte in [F], contains one in [D], ends with one in [E] and has more than [k]
    bytes matches. *)
Definition excl (F D E : N -> bool) (k : nat) (r : re) : bool :=
  no_byte F (first_char r) || no_byte D (chars r) || no_byte E (last_char r) ||
  match max_len r with Some m => Nat.leb m k | None => false end.
Definition byteset (F : N -> bool) (c : N) : bool := (c <? 256) && F c.
Lemma excl_ok F D E k r x a x' d z x'' :
  excl F D E k r = true -> x = a :: x' -> byteset F a = true -> In d x -> byteset D d = true ->
  x = x'' ++ [z] -> byteset E z = true -> (k < List.length x)%nat -> ~ lang r x.
Proof.
  unfold byteset. rewrite !andb_true_iff, !N.ltb_lt.
  intros H Hx [Ha Ha'] Hd [Hd1 Hd2] Hz [Hz1 Hz2] Hk Hl. unfold excl in H. rewrite !orb_true_iff in H.
  destruct H as [[[H|H]|H]|H].
  - pose proof (no_byte_ok _ _ _ H Ha Ha'). pose proof (first_ok _ _ Hl _ _ Hx). congruence.
  - pose proof (no_byte_ok _ _ _ H Hd1 Hd2). pose proof (chars_ok _ _ Hl _ Hd). congruence.
  - pose proof (no_byte_ok _ _ _ H Hz1 Hz2). pose proof (last_ok _ _ Hl _ _ Hz). congruence.
  - destruct (max_len r) as [m|] eqn:Em; [|discriminate]. apply Nat.leb_le in H.
    pose proof (max_len_ok _ _ Hl _ Em). lia.
Qed.
Definition nothing (c : N) : bool := false.
Definition one (a c : N) : bool := c =? a.

(** Longer matches: the next byte is in [G]. *)
Definition excl_next (F G : N -> bool) (k : nat) (r : re) : bool :=
  no_byte F (first_char r) || no_byte G (chars r) || match max_len r with Some m => Nat.leb m k | None => false end.
Lemma excl_next_ok F G k r a x c y :
  excl_next F G k r = true -> byteset F a = true -> byteset G c = true -> (k <= S (List.length x))%nat ->
  ~ lang r ((a :: x) ++ c :: y).
Proof.
  unfold byteset. rewrite !andb_true_iff, !N.ltb_lt. intros H [Ha Ha'] [Hc Hc'] Hk Hl.
  unfold excl_next in H. rewrite !orb_true_iff in H. destruct H as [[H|H]|H].
  - pose proof (no_byte_ok _ _ _ H Ha Ha'). pose proof (first_ok _ _ Hl a (x ++ c :: y) eq_refl). congruence.
  - pose proof (no_byte_ok _ _ _ H Hc Hc'). assert (In c ((a :: x) ++ c :: y)) by (apply in_or_app; right; left; reflexivity).
    pose proof (chars_ok _ _ Hl _ H1). congruence.
  - destruct (max_len r) as [m|] eqn:Em; [|discriminate]. apply Nat.leb_le in H.
    pose proof (max_len_ok _ _ Hl _ Em) as Hm. rewrite app_length in Hm. cbn in Hm. lia.
Qed.

Lemma none_forall {A} (rs : list (re * A)) (f : re -> bool) s :
  forallb f (map fst rs) = true -> (forall r, f r = true -> ~ lang r s) -> none rs s.
Proof.
  intros H Hf r a Hin. rewrite forallb_forall in H. apply Hf. apply H. apply in_map_iff. exists (r, a). auto.
Qed.
Lemma none_next {A} (rs : list (re * A)) F G k a x c y :
  forallb (excl_next F G k) (map fst rs) = true -> byteset F a = true -> byteset G c = true ->
  (k <= S (List.length x))%nat -> none rs ((a :: x) ++ c :: y).
Proof. intros H Ha Hc Hk. eapply none_forall; [exact H|]. intros r Hr. eapply excl_next_ok; eauto. Qed.

Lemma none_app {A} (l1 l2 : list (re * A)) s : none l1 s -> none l2 s -> none (l1 ++ l2) s.
Proof. intros H1 H2 r a Hin. apply in_app_or in Hin as [H|H]; eauto. Qed.
Lemma picks_at {A} (l1 l2 : list (re * A)) r a s : none l1 s -> lang r s -> picks (l1 ++ (r, a) :: l2) s a.
Proof.
  intros H Hl. induction l1 as [|[r' b] l1 IH]; cbn; [apply picks_here; exact Hl|].
  apply picks_later; [eapply H; left; reflexivity|]. apply IH. intros r'' a'' Hin. eapply H. right. exact Hin.
Qed.
Lemma picks_nth {A} (rs : list (re * A)) n r a s :
  nth_error rs n = Some (r, a) -> none (firstn n rs) s -> lang r s -> picks rs s a.
Proof.
  intros Hn H Hl. apply nth_error_split in Hn as (l1 & l2 & -> & <-).
  rewrite firstn_app, firstn_all, Nat.sub_diag in H. cbn in H. rewrite app_nil_r in H. apply picks_at; assumption.
Qed.

(** * Steps of the scanner *)

(** What may follow a match. *)
Definition starts (G : N -> bool) (s : bytes) : Prop := s = [] \/ exists c r, s = c :: r /\ G c = true.
Definition longest {A} (rs : list (re * A)) (x : bytes) (G : N -> bool) : Prop :=
  forall c y, G c = true -> none rs (x ++ c :: y).
Lemma scan_at {A} (rs : list (re * A)) x rest a G :
  picks rs x a -> longest rs x G -> starts G rest -> scan rs (x ++ rest) 0 None = Some (List.length x, a).
Proof.
  intros Hp Hl Hs. rewrite (scan_longest rs x rest 0 None a); [reflexivity|exact Hp|].
  intros k. destruct Hs as [->|(c & r & -> & Hc)]; [right; apply firstn_nil|]. left. cbn. apply Hl. exact Hc.
Qed.

Section Width.
  Variable w : N.
  Notation rules := (initial_rules w).
  Notation lex_loop := (lex_loop w).

  Definition L (q : option bytes) (s : bytes) : option (list token) := lex_loop (List.length s) q s.

  (** In both start conditions some rule matches the next byte. *)
  Lemma initial_any c : exists a, picks rules [c] a.
  Proof.
    destruct (picks_or_none rules [c]) as [H|H]; [exact H|]. exfalso.
    destruct (c =? 10) eqn:E.
    - apply (H WHITESPACE ASkip); [left; reflexivity|]. unfold WHITESPACE, RPlus.
      change [c] with ([c] ++ []). constructor; [|constructor]. constructor. unfold is_space. rewrite E. apply orb_true_r.
    - apply (H RDot (AToken (fun s => TChar (nth 0 s 0)))).
      + unfold initial_rules. right. apply in_or_app. right. repeat (first [left; reflexivity | right]).
      + constructor. rewrite E. reflexivity.
  Qed.
  Lemma qstring_any c : exists a, picks qstring_rules [c] a.
  Proof.
    destruct (picks_or_none qstring_rules [c]) as [H|H]; [exact H|]. exfalso.
    destruct (c =? 34) eqn:E1; [|destruct (c =? 92) eqn:E2].
    - apply (H QMARK AEndQuote); [cbn; auto|]. constructor. apply N.eqb_eq in E1. subst. reflexivity.
    - apply (H RDot (AToken (fun s => TChar (nth 0 s 0)))); [cbn; auto|].
      constructor. apply N.eqb_eq in E2. subst. reflexivity.
    - apply (H (RStar QSTRING_CHAR) (AAppend 0)); [cbn; auto|].
      change [c] with ([c] ++ []). constructor; [|constructor]. constructor. rewrite E1, E2. reflexivity.
  Qed.
  Definition rules_q (q : option bytes) : list (re * action) := match q with None => rules | Some _ => qstring_rules end.
  Lemma scan_progress q c s : exists n a, scan (rules_q q) (c :: s) 0 None = Some (S n, a) /\ (n <= List.length s)%nat /\
    picks (rules_q q) (firstn (S n) (c :: s)) a.
  Proof.
    assert (H : exists a, picks (rules_q q) [c] a) by (destruct q; [apply qstring_any | apply initial_any]).
    destruct H as [b Hb].
    destruct (scan_inv (rules_q q) (c :: s) 0 None) as [[_ Hn]|(k & a & Hk & E & Hp & Hl)].
    - exfalso. apply (picks_not_none _ _ _ Hb). apply (Hn 1%nat).
    - destruct k as [|k].
      + exfalso. apply (picks_not_none _ _ _ Hb). apply (Hl 1%nat); cbn; lia.
      + exists k, a. cbn in Hk. split; [exact E|]. split; [lia|exact Hp].
  Qed.

  (** Actions that belong to a start condition. *)
  Definition action_fits (q : option bytes) (a : action) : Prop :=
    match a, q with AAppend _, None | AEndQuote, None => False | _, _ => True end.
  Lemma rules_fit q : Forall (action_fits q) (map snd (rules_q q)).
  Proof.
    destruct q as [b|]; cbn [rules_q].
    - repeat constructor.
    - unfold initial_rules. cbn [map]. constructor; [exact I|]. rewrite map_app, map_map. apply Forall_app. split.
      + apply Forall_forall. intros a Ha. apply in_map_iff in Ha as (k & <- & _). exact I.
      + repeat constructor.
  Qed.

  (** One step, whatever the recursion bound. *)
  Definition after (q : option bytes) (a : action) (text : bytes) (k : option bytes -> option (list token)) : option (list token) :=
    match a, q with
    | ASkip, _ => k q
    | AToken mk, _ => option_map (cons (mk text)) (k q)
    | AQuote, _ => k (Some [])
    | AAppend n, Some buf => k (Some (buf ++ skipn n text))
    | AEndQuote, Some buf => option_map (cons (TQuoted buf)) (k None)
    | _, None => None
    end.
  Lemma lex_loop_step f q c s n a :
    scan (rules_q q) (c :: s) 0 None = Some (n, a) ->
    lex_loop (S f) q (c :: s) = after q a (firstn n (c :: s)) (fun q' => lex_loop f q' (skipn n (c :: s))).
  Proof.
    intros H. cbn [ModelFuncLex.lex_loop]. unfold rules_q in H.
    destruct q; rewrite H; destruct a; reflexivity.
  Qed.
  Lemma lex_fuel : forall f q s, (List.length s <= f)%nat -> lex_loop f q s = L q s.
  Proof.
    induction f as [|f IH]; intros q s Hf.
    - destruct s; [reflexivity | cbn in Hf; lia].
    - destruct s as [|c s]; [destruct f; reflexivity|]. unfold L. cbn [List.length].
      destruct (scan_progress q c s) as (n & a & E & Hn & _). cbn in Hf.
      rewrite (lex_loop_step f q c s _ _ E), (lex_loop_step (List.length s) q c s _ _ E).
      assert (Hl : (List.length (skipn (S n) (c :: s)) <= f)%nat) by (rewrite skipn_length; cbn; lia).
      assert (Hl' : (List.length (skipn (S n) (c :: s)) <= List.length s)%nat) by (rewrite skipn_length; cbn; lia).
      assert (Hk : forall q', lex_loop f q' (skipn (S n) (c :: s)) = lex_loop (List.length s) q' (skipn (S n) (c :: s))).
      { intros q'. rewrite IH by exact Hl. destruct (Nat.eq_dec f (List.length s)) as [<-|Hne].
        - rewrite IH by exact Hl. reflexivity.
        - assert (Hlt : (List.length s < f)%nat) by lia. clear -IH Hl' Hlt Hl. 
          unfold L. generalize dependent (skipn (S n) (c :: s)). intros t _ Ht.
          revert Ht. generalize (List.length s). intros g Hg.
          revert q' t Hg. 
          (* both have enough fuel *)
          assert (Hfix : forall g q t, (List.length t <= g)%nat -> lex_loop g q t = lex_loop (S g) q t).
          { clear. induction g as [|g IHg]; intros q t Hg.
            - destruct t; [reflexivity|cbn in Hg; lia].
            - destruct t as [|c t]; [reflexivity|].
              destruct (scan_progress q c t) as (n & a & E & Hn & _). cbn in Hg.
              rewrite (lex_loop_step g q c t _ _ E), (lex_loop_step (S g) q c t _ _ E).
              assert (Hl' : (List.length (skipn (S n) (c :: t)) <= g)%nat) by (rewrite skipn_length; cbn; lia).
              destruct a, q; cbn [after]; try reflexivity; rewrite (IHg _ _ Hl'); reflexivity. }
          intros q' t Hg. induction Hg as [|g Hg IHg']; [reflexivity|].
          rewrite <- (Hfix _ _ _ Hg). exact IHg'. }
      destruct a, q; cbn [after]; rewrite ?Hk; reflexivity.
  Qed.

  Lemma L_nil q : L q [] = Some [].
  Proof. reflexivity. Qed.
  Lemma L_step q x rest a G :
    x <> [] -> picks (rules_q q) x a -> longest (rules_q q) x G -> starts G rest ->
    L q (x ++ rest) = after q a x (fun q' => L q' rest).
  Proof.
    intros Hx Hp Hl Hs. destruct x as [|c x]; [contradiction|]. unfold L. cbn [app List.length].
    pose proof (scan_at _ _ _ _ _ Hp Hl Hs) as E. cbn [app] in E.
    rewrite (lex_loop_step _ q c (x ++ rest) _ _ E).
    change (c :: x ++ rest) with ((c :: x) ++ rest).
    rewrite firstn_app, firstn_all, Nat.sub_diag, skipn_app, skipn_all, Nat.sub_diag. cbn [firstn skipn].
    rewrite app_nil_r, app_nil_l. rewrite app_length.
    assert (Hk : forall q', lex_loop (List.length x + List.length rest) q' rest = L q' rest) by (intros; apply lex_fuel; lia).
    destruct a, q; cbn [after]; rewrite ?Hk; reflexivity.
  Qed.

  (** The scanner never fails. *)
  Lemma L_total : forall s q, exists ts, L q s = Some ts.
  Proof.
    intros s. remember (List.length s) as k eqn:Ek. assert (Hk : (List.length s <= k)%nat) by lia. clear Ek.
    revert s Hk. induction k as [|k IH]; intros s Hk q.
    - destruct s; [exists []; reflexivity | cbn in Hk; lia].
    - destruct s as [|c s]; [exists []; reflexivity|]. unfold L. cbn [List.length].
      destruct (scan_progress q c s) as (n & a & E & Hn & Hp). rewrite (lex_loop_step _ q c s _ _ E).
      assert (Hl : (List.length (skipn (S n) (c :: s)) <= List.length s)%nat) by (rewrite skipn_length; cbn; lia).
      assert (Hl' : (List.length (skipn (S n) (c :: s)) <= k)%nat) by (cbn in Hk; lia).
      assert (Hk' : forall q', exists ts, lex_loop (List.length s) q' (skipn (S n) (c :: s)) = Some ts)
        by (intros q'; rewrite lex_fuel by exact Hl; apply IH; exact Hl').
      pose proof (rules_fit q) as Hfit. rewrite Forall_forall in Hfit. specialize (Hfit _ (picks_in _ _ _ Hp)).
      destruct a, q; cbn [after action_fits] in *; try contradiction;
        match goal with
        | |- exists ts, lex_loop _ ?q' _ = Some ts => apply Hk'
        | |- exists ts, option_map _ (lex_loop _ ?q' _) = Some ts => destruct (Hk' q') as [ts ->]; eexists; reflexivity
        end.
  Qed.
  Theorem lex_total s : exists ts, lex w s = Some ts.
  Proof. apply (L_total s None). Qed.

  (** * Texts and their tokens *)

  (** The text [b] is split into the tokens [ts] whenever a byte in [G] or nothing follows. *)
  Definition reads (b : bytes) (ts : list token) (G : N -> bool) : Prop :=
    forall rest, starts G rest -> L None (b ++ rest) = option_map (app ts) (L None rest).
  Definition first_in (G : N -> bool) (b : bytes) : Prop := exists c r, b = c :: r /\ G c = true.
  Definition any (c : N) : bool := true.

  Lemma starts_any s : starts any s.
  Proof. destruct s as [|c r]; [left; reflexivity | right; exists c, r; auto]. Qed.
  Lemma first_in_app G b t : first_in G b -> first_in G (b ++ t).
  Proof. intros (c & r & -> & H). exists c, (r ++ t). auto. Qed.
  Lemma first_in_starts G b t : first_in G b -> starts G (b ++ t).
  Proof. intros (c & r & -> & H). right. exists c, (r ++ t). auto. Qed.
  Lemma option_map_app {A} (t1 t2 : list A) o : option_map (app t1) (option_map (app t2) o) = option_map (app (t1 ++ t2)) o.
  Proof. destruct o; cbn; rewrite ?app_assoc; reflexivity. Qed.

  Lemma reads_app b1 b2 t1 t2 G1 G2 : reads b1 t1 G1 -> first_in G1 b2 -> reads b2 t2 G2 -> reads (b1 ++ b2) (t1 ++ t2) G2.
  Proof.
    intros H1 Hf H2 rest Hs. rewrite <- app_assoc, H1 by (apply first_in_starts; exact Hf). rewrite H2 by exact Hs.
    apply option_map_app.
  Qed.
  Lemma reads_app_any b1 b2 t1 t2 G2 : reads b1 t1 any -> reads b2 t2 G2 -> reads (b1 ++ b2) (t1 ++ t2) G2.
  Proof.
    intros H1 H2 rest Hs. rewrite <- app_assoc, H1 by apply starts_any. rewrite H2 by exact Hs. apply option_map_app.
  Qed.
  Lemma reads_weaken b t (G G' : N -> bool) : (forall c, G' c = true -> G c = true) -> reads b t G -> reads b t G'.
  Proof.
    intros H Hr rest [->|(c & r & -> & Hc)]; apply Hr; [left; reflexivity|]. right. exists c, r. auto.
  Qed.
  Lemma reads_nil G : reads [] [] G.
  Proof. intros rest _. rewrite app_nil_l. destruct (L None rest); reflexivity. Qed.

  Lemma reads_token x mk G :
    x <> [] -> picks rules x (AToken mk) -> longest rules x G -> reads x [mk x] G.
  Proof.
    intros Hx Hp Hl rest Hs. rewrite (L_step None x rest (AToken mk) G); auto.
  Qed.

  (** Rules up to number [n] are excluded. *)
  Lemma rule_picks n F D E r a x a0 x' d z x'' :
    nth_error rules n = Some (r, a) ->
    forallb (excl F D E 0) (firstn n (map fst rules)) = true ->
    x = a0 :: x' -> byteset F a0 = true -> In d x -> byteset D d = true -> x = x'' ++ [z] -> byteset E z = true ->
    lang r x -> picks rules x a.
  Proof.
    intros Hn He Hx Ha Hd Hd' Hz Hz' Hl. eapply picks_nth; [exact Hn| |exact Hl].
    eapply none_forall.
    - rewrite <- firstn_map. exact He.
    - intros r' Hr'. eapply excl_ok; eauto. rewrite Hx. cbn. lia.
  Qed.
  Lemma last_split (x : bytes) : x <> [] -> exists u z, x = u ++ [z].
  Proof. intros H. destruct (@exists_last _ x H) as (u & z & E). exists u, z. exact E. Qed.
  Lemma rule_longest F G k a0 x' :
    forallb (excl_next F G k) (map fst rules) = true -> byteset F a0 = true -> (k <= S (List.length x'))%nat ->
    longest rules (a0 :: x') (byteset G).
  Proof. intros H Ha Hk c y Hc. eapply none_next; eauto. Qed.

  (** ** Keywords *)

  Lemma lang_str s t : lang (RStr s) t <-> t = s.
  Proof.
    revert t. induction s as [|c s IH]; intros t; cbn.
    - split; [apply lang_eps_inv | intros ->; constructor].
    - split.
      + intros H. apply lang_cat_inv in H as (u & v & -> & Hu & Hv). apply lang_set_inv in Hu as (c' & -> & Hc).
        apply N.eqb_eq in Hc. subst c'. apply IH in Hv. subst. reflexivity.
      + intros ->. change (c :: s) with ([c] ++ s). constructor; [constructor; apply N.eqb_refl | apply IH; reflexivity].
  Qed.
  Definition lpar (c : N) : bool := c =? 40.
  Definition is_letter (c : N) : bool := range 65 90 c || range 97 122 c.
  Lemma picks_keyword : forall (l : list (string * kw)) post s k,
    NoDup (map (fun e => bs (fst e)) l) -> In (s, k) l ->
    picks (map (fun k => (RStr (bs (fst k)), AToken (fun _ => TKw (snd k)))) l ++ post) (bs s) (AToken (fun _ => TKw k)).
  Proof.
    induction l as [|[s' k'] l IH]; intros post s k Hd Hin; [contradiction|]. cbn [map app fst snd].
    inversion Hd as [|x l' Hnin Hd']; subst. destruct Hin as [E|Hin].
    - injection E as -> ->. apply picks_here. apply lang_str. reflexivity.
    - apply picks_later; [|apply IH; assumption]. intros H. apply lang_str in H. apply Hnin. rewrite <- H.
      apply in_map_iff. exists (s, k). auto.
  Qed.
  Fixpoint nodup_b (l : list bytes) : bool :=
    match l with [] => true | x :: l' => negb (existsb (bytes_eqb x) l') && nodup_b l' end.
  Lemma nodup_b_ok l : nodup_b l = true -> NoDup l.
  Proof.
    induction l as [|x l IH]; intros H; constructor; cbn in H; apply andb_true_iff in H as [H1 H2]; auto.
    intros Hin. apply negb_true_iff in H1. assert (existsb (bytes_eqb x) l = true); [|congruence].
    apply existsb_exists. exists x. split; [exact Hin|]. apply bytes_eqb_eq. reflexivity.
  Qed.
  Lemma keywords_nodup : NoDup (map (fun e => bs (fst e)) keywords).
  Proof. apply nodup_b_ok. vm_compute. reflexivity. Qed.

  Lemma reads_keyword s k : In (s, k) keywords -> reads (bs s) [TKw k] lpar.
  Proof.
    intros Hin.
    assert (Hs : exists c x', bs s = c :: x' /\ byteset is_letter c = true).
    { assert (H : forallb (fun e => match bs (fst e) with c :: _ => byteset is_letter c | [] => false end) keywords = true)
        by (vm_compute; reflexivity).
      rewrite forallb_forall in H. specialize (H _ Hin). cbn [fst] in H.
      destruct (bs s) as [|c x']; [discriminate|]. exists c, x'. auto. }
    destruct Hs as (c & x' & E & Hc).
    apply (reads_token (bs s) (fun _ => TKw k)).
    - rewrite E. discriminate.
    - unfold initial_rules. apply picks_later.
      + intros H. apply (first_ok _ _ H c x') in E. cbn in E. unfold is_space in E. unfold byteset, is_letter, range in Hc. lia.
      + apply picks_keyword; [apply keywords_nodup | exact Hin].
    - rewrite E. intros d y Hd.
      refine (rule_longest is_letter lpar 1 c x' _ Hc _ d y _); [vm_compute; reflexivity | lia |].
      unfold lpar, byteset in *. lia.
  Qed.

  Definition NI : nat := 72.
  Lemma keywords_length : List.length keywords = 71%nat.
  Proof. reflexivity. Qed.

  (** What follows the tokens of an axiom. *)
  Definition ends (c : N) : bool := (c =? 32) || (c =? 41) || (c =? 10).
  Lemma ends_byte c : ends c = true -> byteset ends c = true.
  Proof. unfold ends, byteset. lia. Qed.

  Lemma star_forall f r s : Forall f s -> (forall c, f c -> lang r [c]) -> lang (RStar r) s.
  Proof.
    intros H Hr. induction H as [|c s Hc H IH]; [constructor|]. change (c :: s) with ([c] ++ s). constructor; auto.
  Qed.
  Lemma plus_forall (f : N -> Prop) r s : s <> [] -> Forall f s -> (forall c, f c -> lang r [c]) -> lang (RPlus r) s.
  Proof.
    intros Hn H Hr. destruct s as [|c s]; [contradiction|]. inversion H; subst. change (c :: s) with ([c] ++ s).
    constructor; [auto|]. eapply star_forall; eauto.
  Qed.
  Lemma forall_last (P : N -> Prop) x : x <> [] -> Forall P x -> exists u z, x = u ++ [z] /\ P z /\ Forall P u.
  Proof.
    intros Hn H. destruct (last_split x Hn) as (u & z & ->). apply Forall_app in H as [Hu Hz]. inversion Hz; subst.
    exists u, z. auto.
  Qed.

  (** ** Numbers *)
  Definition digit_b : N -> bool := range 48 57.
  Lemma reads_digits s : s <> [] -> Forall is_digit s -> reads s [TInt (str_to_uint w s)] ends.
  Proof.
    intros Hn Hd.
    destruct (forall_last _ _ Hn Hd) as (u & z & Hz & Hz' & _).
    destruct s as [|a x] eqn:Es; [contradiction|]. inversion Hd as [|? ? Ha Hx]; subst.
    assert (Ba : byteset digit_b a = true) by (unfold byteset, digit_b, range, is_digit in *; lia).
    assert (Bz : byteset digit_b z = true) by (unfold byteset, digit_b, range, is_digit in *; lia).
    apply (reads_token (a :: x) (fun s => TInt (str_to_uint w s))); [discriminate| |].
    - eapply (rule_picks NI digit_b digit_b digit_b); [reflexivity | vm_compute; reflexivity | reflexivity | exact Ba
        | left; reflexivity | exact Ba | exact Hz | exact Bz |].
      eapply plus_forall; [discriminate | exact Hd |]. intros c Hc. constructor. unfold range, is_digit in *. lia.
    - intros d y Hc. apply ends_byte in Hc. revert d y Hc. apply (rule_longest digit_b ends 1 a x); [vm_compute; reflexivity | exact Ba | lia].
  Qed.

  (** ** Names *)
  Definition name1_b (c : N) : bool := is_letter c || range 128 255 c || (c =? 95).
  Definition inner_b (c : N) : bool := name1_b c || (c =? 45) || range 48 57 c || (c =? 46).
  Lemma lang_base c : letter c \/ non_ascii c -> lang PN_CHARS_BASE [c].
  Proof.
    intros [H|H].
    - apply lang_alt_l. constructor. unfold range, letter in *. lia.
    - apply lang_alt_r. constructor. unfold range, non_ascii in *. lia.
  Qed.
  Lemma lang_u c : letter c \/ non_ascii c \/ c = 95 -> lang PN_CHARS_U [c].
  Proof.
    intros [H|[H|H]]; [apply lang_alt_l, lang_base; auto | apply lang_alt_l, lang_base; auto|].
    apply lang_alt_r. constructor. subst. reflexivity.
  Qed.
  Lemma lang_digit c : is_digit c -> lang DIGIT [c].
  Proof. intros H. constructor. unfold range, is_digit in *. lia. Qed.
  Lemma lang_inner c : inner_char c -> c <> 46 -> lang PN_CHARS [c].
  Proof.
    intros [H|[H|[H|[H|[H|H]]]]] Hn; try contradiction.
    - apply lang_alt_l, lang_alt_l, lang_u; auto.
    - apply lang_alt_l, lang_alt_l, lang_u; auto.
    - apply lang_alt_l, lang_alt_l, lang_u; auto.
    - apply lang_alt_l, lang_alt_r. constructor. subst. reflexivity.
    - apply lang_alt_r, lang_digit. exact H.
  Qed.
  Lemma lang_inner_dot c : inner_char c -> lang (RAlt PN_CHARS (RChr 46)) [c].
  Proof.
    intros H. destruct (N.eq_dec c 46) as [->|Hn]; [apply lang_alt_r; constructor; reflexivity|].
    apply lang_alt_l, lang_inner; assumption.
  Qed.
  Lemma lang_rest c r : Forall inner_char r -> no_final_dot (c :: r) ->
    lang (ROpt (RCat (RStar (RAlt PN_CHARS (RChr 46))) PN_CHARS)) r.
  Proof.
    intros H Hd. destruct r as [|a r0]; [apply lang_alt_r; constructor|].
    destruct (forall_last _ (a :: r0) ltac:(discriminate) H) as (u & z & E & Hz & Hu).
    rewrite E in *. apply lang_alt_l. constructor.
    - eapply star_forall; [exact Hu | apply lang_inner_dot].
    - apply lang_inner; [exact Hz|]. intros ->. apply (Hd (c :: u)). reflexivity.
  Qed.
  Lemma lang_local s : local_name s -> lang PN_LOCAL s.
  Proof.
    intros (c & r & -> & Hc & Hr & Hd). change (c :: r) with ([c] ++ r). constructor; [|eapply lang_rest; eauto].
    destruct Hc as [H|[H|[H|H]]]; [apply lang_alt_l, lang_u; auto .. | apply lang_alt_r, lang_digit; exact H].
  Qed.
  Lemma lang_prefix s : prefix_name s -> lang R_PNAME_NS (s ++ [58]).
  Proof.
    intros H. constructor; [|constructor; reflexivity].
    destruct H as [->|(c & r & -> & Hc & Hr & Hd)]; [apply lang_alt_r; constructor|].
    apply lang_alt_l. change (c :: r) with ([c] ++ r). constructor; [apply lang_base; exact Hc | eapply lang_rest; eauto].
  Qed.
  Lemma local_last s : local_name s -> exists u z, s = u ++ [z] /\ byteset inner_b z = true.
  Proof.
    intros (c & r & -> & Hc & Hr & Hd).
    assert (H : Forall inner_char (c :: r)).
    { constructor; [|exact Hr]. unfold inner_char. tauto. }
    destruct (forall_last _ (c :: r) ltac:(discriminate) H) as (u & z & E & Hz & _).
    exists u, z. split; [exact E|].
    unfold byteset, inner_b, name1_b, is_letter, range. unfold inner_char, letter, non_ascii, is_digit in Hz. lia.
  Qed.
  Definition pn_first (c : N) : bool := is_letter c || range 128 255 c || (c =? 58).
  Lemma prefix_first p t : prefix_name p -> exists a x, p ++ 58 :: t = a :: x /\ byteset pn_first a = true.
  Proof.
    intros [->|(c & r & -> & Hc & _)].
    - exists 58, t. auto.
    - exists c, (r ++ 58 :: t). split; [reflexivity|].
      unfold byteset, pn_first, is_letter, range. unfold letter, non_ascii in Hc. lia.
  Qed.

  Lemma reads_pname p s : prefix_name p -> local_name s -> reads (p ++ 58 :: s) [TPnameLn (p ++ 58 :: s)] ends.
  Proof.
    intros Hp Hs.
    destruct (prefix_first p s Hp) as (a & x & E & Ba).
    destruct (local_last s Hs) as (u & z & Ez & Bz).
    apply (reads_token (p ++ 58 :: s) (fun s => TPnameLn s)); [rewrite E; discriminate| |].
    - eapply (rule_picks 75 pn_first (one 58) inner_b); [reflexivity | vm_compute; reflexivity | exact E | exact Ba
        | | | | exact Bz |].
      + apply in_or_app. right. left. reflexivity.
      + reflexivity.
      + rewrite Ez. instantiate (1 := p ++ 58 :: u). rewrite <- app_assoc. reflexivity.
      + change (p ++ 58 :: s) with (p ++ [58] ++ s). rewrite app_assoc. constructor; [apply lang_prefix; exact Hp | apply lang_local; exact Hs].
    - rewrite E. intros d y Hc. apply ends_byte in Hc. revert d y Hc. apply (rule_longest pn_first ends 1 a x); [vm_compute; reflexivity | exact Ba | lia].
  Qed.
  Definition eqsign (c : N) : bool := c =? 61.
  Lemma trim_0_1 p (c : N) : trim 0 1 (p ++ [c]) = p.
  Proof.
    unfold trim. rewrite app_length. cbn [List.length skipn].
    replace (List.length p + 1 - 0 - 1)%nat with (List.length p) by lia.
    rewrite firstn_app, firstn_all, Nat.sub_diag. cbn. apply app_nil_r.
  Qed.
  Lemma reads_pname_ns p : prefix_name p -> reads (p ++ [58]) [TPnameNs p] eqsign.
  Proof.
    intros Hp. destruct (prefix_first p [] Hp) as (a & x & E & Ba).
    replace [TPnameNs p] with [(fun s => TPnameNs (trim 0 1 s)) (p ++ [58])] by (rewrite trim_0_1; reflexivity).
    apply (reads_token (p ++ [58]) (fun s => TPnameNs (trim 0 1 s))); [rewrite E; discriminate| |].
    - eapply (rule_picks 74 pn_first (one 58) (one 58)); [reflexivity | vm_compute; reflexivity | exact E | exact Ba
        | | | reflexivity | reflexivity |].
      + apply in_or_app. right. left. reflexivity.
      + reflexivity.
      + apply lang_prefix. exact Hp.
    - rewrite E. intros d y Hc. assert (Bd : byteset eqsign d = true) by (unfold byteset, eqsign in *; lia).
      revert d y Bd Hc. intros d y Bd _. revert d y Bd.
      apply (rule_longest pn_first eqsign 1 a x); [vm_compute; reflexivity | exact Ba | lia].
  Qed.
  Lemma trim_pre (a b s : bytes) n m : List.length a = n -> List.length b = m -> trim n m (a ++ s ++ b) = s.
  Proof.
    intros <- <-. unfold trim. rewrite skipn_app, skipn_all, Nat.sub_diag. cbn [skipn app].
    rewrite !app_length. replace (List.length a + (List.length s + List.length b) - List.length a - List.length b)%nat with (List.length s) by lia.
    rewrite firstn_app, firstn_all, Nat.sub_diag. cbn. apply app_nil_r.
  Qed.
  Lemma reads_blank s : local_name s -> reads (bs "_:" ++ s) [TBlank s] ends.
  Proof.
    intros Hs. destruct (local_last s Hs) as (u & z & Ez & Bz).
    replace [TBlank s] with [(fun s => TBlank (trim 2 0 s)) (bs "_:" ++ s)].
    2:{ cbn beta. rewrite <- (app_nil_r s) at 1. rewrite (trim_pre (bs "_:") [] s 2 0) by reflexivity. reflexivity. }
    apply (reads_token (bs "_:" ++ s) (fun s => TBlank (trim 2 0 s))); [discriminate| |].
    - eapply (rule_picks 76 (one 95) (one 58) inner_b); [reflexivity | vm_compute; reflexivity | reflexivity | reflexivity
        | right; left; reflexivity | reflexivity | | exact Bz |].
      + rewrite Ez. rewrite app_assoc. reflexivity.
      + change (bs "_:" ++ s) with ([95] ++ [58] ++ s). constructor; [constructor; reflexivity|].
        constructor; [constructor; reflexivity | apply lang_local; exact Hs].
    - intros d y Hc. apply ends_byte in Hc. revert d y Hc.
      apply (rule_longest (one 95) ends 1 95 (58 :: s)); [vm_compute; reflexivity | reflexivity | lia].
  Qed.

  (** ** Language tags *)
  Lemma lang_alpha c : small c -> lang ALPHA [c].
  Proof. intros H. constructor. unfold range, small in *. lia. Qed.
  Lemma reads_lang l : lang_tag l -> reads (64 :: l) [TLang l] ends.
  Proof.
    intros Hl.
    replace [TLang l] with [(fun s => TLang (trim 1 0 s)) (64 :: l)].
    2:{ cbn beta. change (64 :: l) with ([64] ++ l). rewrite <- (app_nil_r l) at 1.
        rewrite (trim_pre [64] [] l 1 0) by reflexivity. reflexivity. }
    apply (reads_token (64 :: l) (fun s => TLang (trim 1 0 s))); [discriminate| |].
    - destruct Hl as (a & ps & -> & Ha & Hs & Hp).
      assert (Hlast : exists u z, 64 :: a ++ flat_map (fun p => 45 :: p) ps = u ++ [z] /\ byteset inner_b z = true).
      { clear -Ha Hs Hp.
        assert (B : forall c, small c \/ is_digit c -> byteset inner_b c = true).
        { intros c H. unfold byteset, inner_b, name1_b, is_letter, range. unfold small, is_digit in H. lia. }
        assert (G : forall ps, Forall (fun p => p <> [] /\ Forall (fun c => small c \/ is_digit c) p) ps -> ps = [] \/
                    exists u z, flat_map (fun p => 45 :: p) ps = u ++ [z] /\ byteset inner_b z = true).
        { clear -B. induction 1 as [|p ps [Hn Hp] Hps IH]; [left; reflexivity|]. right. cbn [flat_map].
          destruct IH as [->|(u & z & -> & Hz)].
          - destruct (forall_last _ _ Hn Hp) as (u & z & -> & Hz & _). exists (45 :: u), z. cbn. rewrite app_nil_r. auto.
          - exists ((45 :: p) ++ u), z. rewrite <- app_assoc. auto. }
        destruct (G ps Hp) as [->|(u & z & -> & Hz)].
        - destruct (forall_last _ _ Ha Hs) as (u & z & -> & Hz & _). exists (64 :: u), z. cbn. rewrite app_nil_r. auto.
        - exists (64 :: a ++ u), z. cbn. rewrite <- app_assoc. auto. }
      destruct Hlast as (u & z & Ez & Bz).
      eapply (rule_picks 77 (one 64) (one 64) inner_b); [reflexivity | vm_compute; reflexivity | reflexivity | reflexivity
        | left; reflexivity | reflexivity | exact Ez | exact Bz |].
      change (64 :: a ++ flat_map (fun p => 45 :: p) ps) with ([64] ++ a ++ flat_map (fun p => 45 :: p) ps).
      constructor; [constructor; reflexivity|]. constructor.
      + eapply plus_forall; [exact Ha | exact Hs | apply lang_alpha].
      + clear -Hp. induction Hp as [|p ps [Hn Hp] Hps IH]; [constructor|].
        cbn [flat_map]. constructor; [|exact IH]. change (45 :: p) with ([45] ++ p).
        constructor; [constructor; reflexivity|]. eapply plus_forall; [exact Hn | exact Hp|].
        intros c [H|H]; [apply lang_alt_l, lang_alpha; exact H | apply lang_alt_r, lang_digit; exact H].
    - intros d y Hc. apply ends_byte in Hc. revert d y Hc.
      apply (rule_longest (one 64) ends 1 64 l); [vm_compute; reflexivity | reflexivity | lia].
  Qed.

  (** ** IRIs between angle brackets *)
  Lemma iri_char_b c : iri_char c <-> is_iri_char c = true.
  Proof.
    unfold iri_char, is_iri_char, range. cbn [existsb In].
    split; intros H; [|split]; lia.
  Qed.
  Lemma iri_ref_shape x : lang R_IRI_REF x -> exists u, x = 60 :: u ++ [62] /\ Forall iri_char u.
  Proof.
    intros H. apply lang_cat_inv in H as (a & b & -> & Ha & Hb). apply lang_set_inv in Ha as (c & -> & Hc).
    apply lang_cat_inv in Hb as (u & v & -> & Hu & Hv). apply lang_set_inv in Hv as (d & -> & Hd).
    apply N.eqb_eq in Hc, Hd. subst. exists u. split; [reflexivity|].
    apply Forall_forall. intros x Hx. apply iri_char_b. apply (chars_ok _ _ Hu x Hx).
  Qed.
  Lemma reads_iri s : Forall iri_char s -> reads (60 :: s ++ [62]) [TIriRef s] any.
  Proof.
    intros Hs.
    replace [TIriRef s] with [(fun s => TIriRef (trim 1 1 s)) (60 :: s ++ [62])].
    2:{ cbn beta. change (60 :: s ++ [62]) with ([60] ++ s ++ [62]).
        rewrite (trim_pre [60] [62] s 1 1) by reflexivity. reflexivity. }
    apply (reads_token (60 :: s ++ [62]) (fun s => TIriRef (trim 1 1 s))); [discriminate| |].
    - eapply (rule_picks 73 (one 60) (one 60) (one 62)); [reflexivity | vm_compute; reflexivity | reflexivity | reflexivity
        | left; reflexivity | reflexivity | | |].
      + instantiate (2 := 60 :: s). reflexivity.
      + reflexivity.
      + change (60 :: s ++ [62]) with ([60] ++ s ++ [62]). constructor; [constructor; reflexivity|].
        constructor; [|constructor; reflexivity]. eapply star_forall; [exact Hs|]. intros c Hc. constructor.
        apply iri_char_b. exact Hc.
    - intros c y _.
      assert (Hx : forall r, (first_char r 60 = false \/ (exists m, max_len r = Some m /\ (m <= 1)%nat) \/ r = R_IRI_REF) ->
        ~ lang r ((60 :: s ++ [62]) ++ c :: y)).
      { intros r [H|[(m & Hm & Hm1)| -> ]] Hl.
        - rewrite (first_ok _ _ Hl 60 _ eq_refl) in H. discriminate.
        - pose proof (max_len_ok _ _ Hl _ Hm) as Hlen. rewrite app_length in Hlen. cbn in Hlen. lia.
        - apply iri_ref_shape in Hl as (u & E & Hu). cbn in E. injection E as E. rewrite <- app_assoc in E. cbn in E.
          assert (Hin : In 62 u).
          { clear -E. revert u E. induction s as [|a s IH]; intros u E; cbn in E.
            - destruct u as [|b u]; [destruct y; discriminate|]. injection E as -> _. left. reflexivity.
            - destruct u as [|b u]; [injection E as _ E; destruct s; discriminate|]. injection E as -> E. right. apply IH. exact E. }
          rewrite Forall_forall in Hu. specialize (Hu _ Hin). destruct Hu as [_ Hu]. apply Hu. cbn. auto. }
      unfold initial_rules. intros r a Hin. apply Hx. clear Hx.
      destruct Hin as [E|Hin]; [injection E as <- _; left; reflexivity|].
      apply in_app_or in Hin as [Hin|Hin].
      + left. apply in_map_iff in Hin as (k & E & Hk). injection E as <- _.
        assert (H : forallb (fun k => negb (first_char (RStr (bs (fst k))) 60)) keywords = true) by (vm_compute; reflexivity).
        rewrite forallb_forall in H. specialize (H _ Hk). apply negb_true_iff in H. exact H.
      + cbn [In] in Hin.
        repeat (destruct Hin as [E|Hin]; [injection E as <- _; first [left; reflexivity | right; left; eexists; split; [reflexivity|lia]
          | right; right; reflexivity]|]). contradiction.
  Qed.

  (** ** Signs *)
  Lemma reads_sign n c x t :
    nth_error rules n = Some (RStr (c :: x), AToken (fun _ => t)) ->
    forallb (excl (one c) (one c) any 0) (firstn n (map fst rules)) = true ->
    forallb (fun r => negb (first_char r c) || match max_len r with Some m => Nat.leb m (S (List.length x)) | None => false end)
      (map fst rules) = true -> c < 256 -> (forall z, In z x -> z < 256) ->
    reads (c :: x) [t] any.
  Proof.
    intros Hn He Hl Hc Hx. apply (reads_token (c :: x) (fun _ => t)); [discriminate| |].
    - destruct (last_split (c :: x)) as (u & z & Ez); [discriminate|].
      assert (Hz : z < 256).
      { assert (Hin : In z (c :: x)) by (rewrite Ez; apply in_or_app; right; left; reflexivity).
        destruct Hin as [<-|Hin]; [exact Hc | apply Hx; exact Hin]. }
      assert (Bc : byteset (one c) c = true) by (unfold byteset, one; lia).
      eapply (rule_picks n (one c) (one c) any); [exact Hn | exact He | reflexivity | exact Bc | left; reflexivity | exact Bc | exact Ez | |].
      + unfold byteset, any. lia.
      + apply lang_str. reflexivity.
    - intros d y _. eapply none_forall; [exact Hl|]. intros r Hr Hlang. apply orb_true_iff in Hr as [Hr|Hr].
      + apply negb_true_iff in Hr. rewrite (first_ok _ _ Hlang c _ eq_refl) in Hr. discriminate.
      + destruct (max_len r) as [m|] eqn:Em; [|discriminate]. apply Nat.leb_le in Hr.
        pose proof (max_len_ok _ _ Hlang _ Em) as H. rewrite app_length in H. cbn in H. lia.
  Qed.
  Lemma reads_lpar : reads [40] [TLParen] any.
  Proof. apply (reads_sign 80 40 [] TLParen); [reflexivity | vm_compute; reflexivity | vm_compute; reflexivity | lia | intros z []]. Qed.
  Lemma reads_rpar : reads [41] [TRParen] any.
  Proof. apply (reads_sign 81 41 [] TRParen); [reflexivity | vm_compute; reflexivity | vm_compute; reflexivity | lia | intros z []]. Qed.
  Lemma reads_equals : reads [61] [TEquals] any.
  Proof. apply (reads_sign 82 61 [] TEquals); [reflexivity | vm_compute; reflexivity | vm_compute; reflexivity | lia | intros z []]. Qed.
  Lemma reads_caret : reads [94; 94] [TCaret] any.
  Proof. apply (reads_sign 79 94 [94] TCaret); [reflexivity | vm_compute; reflexivity | vm_compute; reflexivity | lia |]. intros z [<-|[]]. lia. Qed.

  (** ** Blanks *)
  Definition solid (c : N) : bool := negb (is_space c).
  Lemma reads_blank_char c : is_space c = true -> reads [c] [] solid.
  Proof.
    intros Hc rest Hs. rewrite (L_step None [c] rest ASkip solid); [| discriminate | | | exact Hs].
    - cbn [after]. destruct (L None rest); reflexivity.
    - apply picks_here. change [c] with ([c] ++ []). constructor; [constructor; exact Hc | constructor].
    - intros d y Hd r a Hin Hl. destruct Hin as [E|Hin].
      + injection E as <- _. assert (H : chars WHITESPACE d = true) by (apply (chars_ok _ _ Hl); right; left; reflexivity).
        cbn in H. unfold solid in Hd. destruct (is_space d); discriminate.
      + assert (Hx : first_char r c = false \/ exists m, max_len r = Some m /\ (m <= 1)%nat).
        { apply in_app_or in Hin as [Hin|Hin].
          - left. apply in_map_iff in Hin as (k & E & Hk). injection E as <- _.
            assert (H : forallb (fun k => match bs (fst k) with [] => false | a :: _ => is_letter a end) keywords = true) by (vm_compute; reflexivity).
            rewrite forallb_forall in H. specialize (H _ Hk). destruct (bs (fst k)) as [|b t]; [discriminate|].
            cbn. unfold is_space, is_letter, range in *. lia.
          - cbn [In] in Hin.
            assert (Hc' : c = 32 \/ c = 9 \/ c = 13 \/ c = 10) by (unfold is_space in Hc; lia).
            destruct Hc' as [-> | [-> | [-> | ->]]];
            repeat (destruct Hin as [E|Hin]; [injection E as <- _; first [left; reflexivity | right; eexists; split; [reflexivity|lia]]|]); contradiction. }
        destruct Hx as [H|(m & Hm & Hm1)].
        * rewrite (first_ok _ _ Hl c _ eq_refl) in H. discriminate.
        * pose proof (max_len_ok _ _ Hl _ Hm) as H. cbn in H. lia.
  Qed.

  (** ** Quoted strings *)
  Definition plain (c : N) : Prop := c <> 34 /\ c <> 92.
  Lemma L_run buf x rest : x <> [] -> Forall plain x -> starts (fun c => (c =? 34) || (c =? 92)) rest ->
    L (Some buf) (x ++ rest) = L (Some (buf ++ x)) rest.
  Proof.
    intros Hn Hx Hs. rewrite (L_step (Some buf) x rest (AAppend 0) (fun c => (c =? 34) || (c =? 92))); auto.
    - apply picks_here. eapply star_forall; [exact Hx|]. intros c [H1 H2]. constructor.
      apply negb_true_iff, orb_false_iff. split; apply N.eqb_neq; assumption.
    - intros d y Hd r a Hin Hl. destruct x as [|c x]; [contradiction|]. inversion Hx as [|? ? [Hc1 Hc2] _]; subst.
      destruct Hin as [E|[E|[E|[E|[]]]]]; injection E as <- _.
      + assert (H : chars (RStar QSTRING_CHAR) d = true) by (apply (chars_ok _ _ Hl); apply in_or_app; right; left; reflexivity).
        cbn in H. lia.
      + pose proof (first_ok _ _ Hl c _ eq_refl) as H. assert (E92 : (92 =? c) = false) by (apply N.eqb_neq; auto).
        unfold QSTRING_ESCAPED_CHAR, RChr in H. cbn [first_char nullable andb orb] in H. rewrite E92 in H. discriminate.
      + pose proof (max_len_ok _ _ Hl 1%nat eq_refl) as H. rewrite app_length in H. cbn in H. lia.
      + pose proof (max_len_ok _ _ Hl 1%nat eq_refl) as H. rewrite app_length in H. cbn in H. lia.
  Qed.
  Lemma L_escaped buf c rest : c = 34 \/ c = 92 -> L (Some buf) (92 :: c :: rest) = L (Some (buf ++ [c])) rest.
  Proof.
    intros Hc. change (92 :: c :: rest) with ([92; c] ++ rest).
    rewrite (L_step (Some buf) [92; c] rest (AAppend 1) any); [reflexivity | discriminate | | | apply starts_any].
    - apply picks_later.
      + intros H. pose proof (chars_ok _ _ H 92 ltac:(left; reflexivity)) as H'. discriminate.
      + apply picks_here. destruct Hc as [-> | ->]; [apply lang_alt_l | apply lang_alt_r];
          (change [92; 34] with ([92] ++ [34]) || change [92; 92] with ([92] ++ [92])); constructor; constructor; reflexivity.
    - intros d y _ r a Hin Hl.
      destruct Hin as [E|[E|[E|[E|[]]]]]; injection E as <- _.
      + pose proof (chars_ok _ _ Hl 92 ltac:(left; reflexivity)) as H. discriminate.
      + pose proof (max_len_ok _ _ Hl 2%nat eq_refl) as H. cbn in H. lia.
      + pose proof (max_len_ok _ _ Hl 1%nat eq_refl) as H. cbn in H. lia.
      + pose proof (max_len_ok _ _ Hl 1%nat eq_refl) as H. cbn in H. lia.
  Qed.
  Lemma L_quote buf rest : L (Some buf) (34 :: rest) = option_map (cons (TQuoted buf)) (L None rest).
  Proof.
    change (34 :: rest) with ([34] ++ rest).
    rewrite (L_step (Some buf) [34] rest AEndQuote any); [reflexivity | discriminate | | | apply starts_any].
    - apply picks_later; [intros H; pose proof (chars_ok _ _ H 34 ltac:(left; reflexivity)) as H'; discriminate|].
      apply picks_later; [intros H; pose proof (first_ok _ _ H 34 _ eq_refl) as H'; discriminate|].
      apply picks_here. constructor. reflexivity.
    - intros d y _ r a Hin Hl.
      destruct Hin as [E|[E|[E|[E|[]]]]]; injection E as <- _.
      + pose proof (chars_ok _ _ Hl 34 ltac:(left; reflexivity)) as H. discriminate.
      + pose proof (first_ok _ _ Hl 34 _ eq_refl) as H. discriminate.
      + pose proof (max_len_ok _ _ Hl 1%nat eq_refl) as H. cbn in H. lia.
      + pose proof (max_len_ok _ _ Hl 1%nat eq_refl) as H. cbn in H. lia.
  Qed.
  Lemma L_open rest : L None (34 :: rest) = L (Some []) rest.
  Proof.
    change (34 :: rest) with ([34] ++ rest).
    rewrite (L_step None [34] rest AQuote any); [reflexivity | discriminate | | | apply starts_any].
    - eapply (rule_picks 78 (one 34) (one 34) (one 34)); [reflexivity | vm_compute; reflexivity | reflexivity | reflexivity
        | left; reflexivity | reflexivity | | | constructor; reflexivity].
      + instantiate (2 := []). reflexivity.
      + reflexivity.
    - intros d y _. cbn [rules_q].
      assert (Hl : forallb (fun r => negb (first_char r 34) || match max_len r with Some m => Nat.leb m 1 | None => false end)
        (map fst rules) = true) by (vm_compute; reflexivity).
      eapply none_forall; [exact Hl|]. intros r Hr Hlang. apply orb_true_iff in Hr as [Hr|Hr].
      + apply negb_true_iff in Hr. rewrite (first_ok _ _ Hlang 34 _ eq_refl) in Hr. discriminate.
      + destruct (max_len r) as [m|] eqn:Em; [|discriminate]. apply Nat.leb_le in Hr.
        pose proof (max_len_ok _ _ Hlang _ Em) as H. cbn in H. lia.
  Qed.
End Width.
