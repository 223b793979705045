(** Regular expressions and longest match: the scanner of ModelFuncLex.v against the language of a pattern. *)

From Coq Require Import String NArith ZArith List Bool Lia.
From Coq Require Import ZifyBool ZifyNat ZifyN.
From Verif Require Import Bytes ModelTypes ModelObject ModelText ModelFuncLex.
Import ListNotations.
Local Open Scope N_scope.

(** * Languages *)

Inductive lang : re -> bytes -> Prop :=
| lang_eps : lang REps []
| lang_set f c : f c = true -> lang (RSet f) [c]
| lang_cat a b s t : lang a s -> lang b t -> lang (RCat a b) (s ++ t)
| lang_alt_l a b s : lang a s -> lang (RAlt a b) s
| lang_alt_r a b s : lang b s -> lang (RAlt a b) s
| lang_star_nil a : lang (RStar a) []
| lang_star_cons a s t : lang a s -> lang (RStar a) t -> lang (RStar a) (s ++ t).
#[export] Hint Constructors lang : lang.

Lemma lang_nil_inv s : lang RNil s -> False.
Proof. intros H; inversion H. Qed.
Lemma lang_eps_inv s : lang REps s -> s = [].
Proof. intros H; inversion H; reflexivity. Qed.
Lemma lang_set_inv f s : lang (RSet f) s -> exists c, s = [c] /\ f c = true.
Proof. intros H; inversion H; subst; eauto. Qed.
Lemma lang_cat_inv a b s : lang (RCat a b) s -> exists u v, s = u ++ v /\ lang a u /\ lang b v.
Proof. intros H; inversion H; subst; eauto. Qed.
Lemma lang_alt_inv a b s : lang (RAlt a b) s -> lang a s \/ lang b s.
Proof. intros H; inversion H; subst; auto. Qed.

Lemma star_nonempty a s : lang (RStar a) s -> s <> [] -> exists u v, u <> [] /\ s = u ++ v /\ lang a u /\ lang (RStar a) v.
Proof.
  intros H. remember (RStar a) as r eqn:E. induction H; try discriminate; intros Hn.
  - contradiction.
  - injection E as ->. destruct s as [|c s].
    + cbn in *. apply IHlang2; auto.
    + exists (c :: s), t. repeat split; auto. discriminate.
Qed.

Lemma nullable_spec r : nullable r = true <-> lang r [].
Proof.
  induction r; cbn.
  - split; [discriminate | intros H; inversion H].
  - split; auto with lang.
  - split; [discriminate | intros H; inversion H].
  - rewrite andb_true_iff, IHr1, IHr2. split.
    + intros [H1 H2]. apply (lang_cat r1 r2 [] []); assumption.
    + intros H. apply lang_cat_inv in H as (u & v & E & Hu & Hv). symmetry in E.
      apply app_eq_nil in E as [-> ->]. auto.
  - rewrite orb_true_iff, IHr1, IHr2. split.
    + intros [H|H]; auto with lang.
    + apply lang_alt_inv.
  - split; auto with lang.
Qed.

Lemma cat_spec a b s : lang (cat a b) s <-> lang (RCat a b) s.
Proof.
  assert (N1 : forall x t, ~ lang (RCat RNil x) t).
  { intros x t H. apply lang_cat_inv in H as (u & v & _ & Hu & _). inversion Hu. }
  assert (N2 : forall x t, ~ lang (RCat x RNil) t).
  { intros x t H. apply lang_cat_inv in H as (u & v & _ & _ & Hu). inversion Hu. }
  assert (N3 : forall t, ~ lang RNil t) by (intros t H; inversion H).
  assert (E1 : forall x t, lang (RCat REps x) t <-> lang x t).
  { intros x t. split.
    - intros H. apply lang_cat_inv in H as (u & v & -> & Hu & Hv). apply lang_eps_inv in Hu. subst. exact Hv.
    - intros H. apply (lang_cat REps x [] t); auto with lang. }
  destruct a, b; cbn [cat]; try reflexivity;
    try (split; [intros H; exfalso; eapply N3; eauto | intros H; exfalso; first [eapply N1; eassumption | eapply N2; eassumption]]);
    try (symmetry; apply E1).
Qed.
Lemma alt_spec a b s : lang (alt a b) s <-> lang (RAlt a b) s.
Proof.
  assert (N1 : forall x t, lang (RAlt RNil x) t <-> lang x t).
  { intros x t. split; [intros H; apply lang_alt_inv in H as [H|H]; [inversion H | exact H] | auto with lang]. }
  assert (N2 : forall x t, lang (RAlt x RNil) t <-> lang x t).
  { intros x t. split; [intros H; apply lang_alt_inv in H as [H|H]; [exact H | inversion H] | auto with lang]. }
  destruct a, b; cbn [alt]; try reflexivity; symmetry; first [apply N1 | apply N2].
Qed.

Lemma deriv_spec r : forall c s, lang (deriv r c) s <-> lang r (c :: s).
Proof.
  induction r; intros c s; cbn [deriv].
  - split; intros H; inversion H.
  - split; intros H; inversion H.
  - destruct (f c) eqn:E.
    + split; intros H.
      * apply lang_eps_inv in H. subst. constructor; exact E.
      * apply lang_set_inv in H as (c' & H & _). injection H as <- ->. constructor.
    + split; intros H; [inversion H|]. apply lang_set_inv in H as (c' & H & Hf). injection H as <- ->. congruence.
  - assert (Hc : lang (cat (deriv r1 c) r2) s <-> exists u v, s = u ++ v /\ lang r1 (c :: u) /\ lang r2 v).
    { rewrite cat_spec. split.
      - intros H. apply lang_cat_inv in H as (u & v & -> & Hu & Hv). exists u, v. rewrite <- IHr1. auto.
      - intros (u & v & -> & Hu & Hv). constructor; [apply IHr1; exact Hu | exact Hv]. }
    assert (Hs : lang (RCat r1 r2) (c :: s) <->
                 (exists u v, s = u ++ v /\ lang r1 (c :: u) /\ lang r2 v) \/ (lang r1 [] /\ lang r2 (c :: s))).
    { split.
      - intros H. apply lang_cat_inv in H as (u & v & E & Hu & Hv). destruct u as [|c' u].
        + cbn in E. subst. right. auto.
        + injection E as <- ->. left. exists u, v. auto.
      - intros [(u & v & -> & Hu & Hv)|[H1 H2]].
        + change (c :: u ++ v) with ((c :: u) ++ v). constructor; assumption.
        + change (c :: s) with ([] ++ c :: s). constructor; assumption. }
    destruct (nullable r1) eqn:E.
    + rewrite alt_spec, Hs. split.
      * intros H. apply lang_alt_inv in H as [H|H]; [left; apply Hc; exact H|].
        right. split; [apply nullable_spec; exact E | apply IHr2; exact H].
      * intros [H|[_ H]]; [apply lang_alt_l; apply Hc; exact H | apply lang_alt_r; apply IHr2; exact H].
    + rewrite Hc, Hs. split; [auto|]. intros [H|[H _]]; [exact H|]. apply nullable_spec in H. congruence.
  - rewrite alt_spec. split; intros H; apply lang_alt_inv in H as [H|H].
    + apply lang_alt_l, IHr1, H.
    + apply lang_alt_r, IHr2, H.
    + apply lang_alt_l, IHr1, H.
    + apply lang_alt_r, IHr2, H.
  - rewrite cat_spec. split.
    + intros H. apply lang_cat_inv in H as (u & v & -> & Hu & Hv). change (c :: u ++ v) with ((c :: u) ++ v).
      constructor; [apply IHr; exact Hu | exact Hv].
    + intros H. apply star_nonempty in H as (u & v & Hu & E & H1 & H2); [|discriminate].
      destruct u as [|c' u]; [contradiction|]. injection E as <- ->. constructor; [apply IHr; exact H1 | exact H2].
Qed.

(** * Longest match *)

Section Scan.
  Context {A : Type}.
  Implicit Types rs : list (re * A).

  Definition step_rules rs (c : N) : list (re * A) := alive_rules (map (fun r => (deriv (fst r) c, snd r)) rs).

  (** [picks rs s a]: [a] is the action of the first rule that matches [s]. *)
  Inductive picks : list (re * A) -> bytes -> A -> Prop :=
  | picks_here r a rs s : lang r s -> picks ((r, a) :: rs) s a
  | picks_later r b a rs s : ~ lang r s -> picks rs s a -> picks ((r, b) :: rs) s a.
  Definition none rs (s : bytes) : Prop := forall r a, In (r, a) rs -> ~ lang r s.

  Lemma step_picks rs c : forall s a, picks rs (c :: s) a <-> picks (step_rules rs c) s a.
  Proof.
    induction rs as [|[r b] rs IH]; intros s a.
    - split; intros H; inversion H.
    - unfold step_rules, alive_rules in *. cbn [map filter fst snd].
      assert (D : deriv r c = RNil -> ~ lang r (c :: s)).
      { intros E H. apply deriv_spec in H. rewrite E in H. inversion H. }
      assert (G : forall l, picks ((deriv r c, b) :: l) s a <-> lang r (c :: s) /\ a = b \/ ~ lang r (c :: s) /\ picks l s a).
      { intros l. split.
        - intros H. inversion H; subst; rewrite deriv_spec in *; auto.
        - intros [[H ->]|[H H']]; [apply picks_here | apply picks_later]; rewrite ?deriv_spec; assumption. }
      assert (G' : picks ((r, b) :: rs) (c :: s) a <-> lang r (c :: s) /\ a = b \/ ~ lang r (c :: s) /\ picks rs (c :: s) a).
      { split.
        - intros H. inversion H; subst; auto.
        - intros [[H ->]|[H H']]; [apply picks_here | apply picks_later]; assumption. }
      rewrite G', IH. destruct (deriv r c) eqn:E; try (rewrite G; reflexivity).
      split; [intros [[H _]|[_ H]]; [exfalso; apply (D eq_refl); exact H | exact H]|].
      intros H. right. split; [apply D; reflexivity | exact H].
  Qed.

  Lemma step_none rs c s : none rs (c :: s) <-> none (step_rules rs c) s.
  Proof.
    unfold none, step_rules, alive_rules. split.
    - intros H r a Hin. apply filter_In in Hin as [Hin _]. apply in_map_iff in Hin as ([r' a'] & E & Hin).
      injection E as <- <-. cbn. rewrite deriv_spec. eapply H; eauto.
    - intros H r a Hin Hl. apply (H (deriv r c) a).
      + apply filter_In. split.
        * apply in_map_iff. exists (r, a). auto.
        * cbn. apply deriv_spec in Hl. destruct (deriv r c); auto. inversion Hl.
      + apply deriv_spec. exact Hl.
  Qed.

  Lemma accepting_spec rs : match accepting rs with Some a => picks rs [] a | None => none rs [] end.
  Proof.
    unfold accepting. induction rs as [|[r a] rs IH]; cbn.
    - intros r a [].
    - destruct (nullable r) eqn:E.
      + apply picks_here. apply nullable_spec. exact E.
      + assert (Hr : ~ lang r []) by (intros H; apply nullable_spec in H; congruence).
        destruct (find _ rs) as [[r' a']|].
        * apply picks_later; assumption.
        * intros r' a' [Hin|Hin]; [injection Hin as <- <-; exact Hr | eapply IH; eauto].
  Qed.

  Lemma picks_fun rs s a b : picks rs s a -> picks rs s b -> a = b.
  Proof. intros H. induction H; intros H'; inversion H'; subst; auto; contradiction. Qed.
  Lemma picks_not_none rs s a : picks rs s a -> none rs s -> False.
  Proof. intros H. induction H; intros Hn; [eapply Hn; [left; reflexivity | assumption]|].
    apply IHpicks. intros r' a' Hin. apply (Hn r' a'). right; exact Hin. Qed.
  Lemma picks_or_none rs : forall s, (exists a, picks rs s a) \/ none rs s.
  Proof.
    intros s. revert rs. induction s as [|c s IH]; intros rs.
    - generalize (accepting_spec rs). destruct (accepting rs); eauto.
    - destruct (IH (step_rules rs c)) as [[a H]|H].
      + left. exists a. apply step_picks. exact H.
      + right. apply step_none. exact H.
  Qed.

  Lemma scan_none rs : forall s n best, (forall k, none rs (firstn k s)) -> scan rs s n best = best.
  Proof.
    intros s. revert rs. induction s as [|c s IH]; intros rs n best H.
    - cbn. generalize (accepting_spec rs). destruct (accepting rs) as [a|] eqn:E; intros Ha.
      + exfalso. apply (picks_not_none _ _ _ Ha). apply (H 0%nat).
      + destruct rs; reflexivity.
    - cbn. generalize (accepting_spec rs). destruct (accepting rs) as [a|] eqn:E; intros Ha.
      + exfalso. apply (picks_not_none _ _ _ Ha). apply (H 0%nat).
      + destruct rs as [|r rs]; [reflexivity|]. apply (IH (step_rules (r :: rs) c)).
        intros k. apply step_none. apply (H (S k)).
  Qed.

  (** The longest match. *)
  Lemma scan_longest rs : forall x rest n best a,
    picks rs x a ->
    (forall k, none rs (x ++ firstn (S k) rest) \/ firstn (S k) rest = []) ->
    scan rs (x ++ rest) n best = Some ((n + List.length x)%nat, a).
  Proof.
    intros x. revert rs. induction x as [|c x IH]; intros rs rest n best a Hp Hl.
    - cbn [app List.length]. generalize (accepting_spec rs). destruct (accepting rs) as [b|] eqn:E; intros Ha.
      2:{ exfalso. eapply picks_not_none; eauto. }
      assert (b = a) by (eapply picks_fun; eauto). subst b.
      assert (Hr : rs <> []) by (intros ->; inversion Hp).
      destruct rest as [|c rest].
      + cbn. rewrite E. destruct rs; [contradiction|]. f_equal. f_equal. lia.
      + cbn. rewrite E. destruct rs as [|r rs]; [contradiction|].
        replace (n + 0)%nat with n by lia.
        apply (scan_none (step_rules (r :: rs) c)). intros k. apply step_none.
        destruct (Hl k) as [H|H]; [exact H|]. cbn in H. discriminate.
    - cbn [app]. cbn [scan].
      assert (Hr : rs <> []) by (intros ->; inversion Hp).
      destruct rs as [|r rs]; [contradiction|].
      change (scan (step_rules (r :: rs) c) (x ++ rest) (S n)
        (match accepting (r :: rs) with Some b => Some (n, b) | None => best end) = Some ((n + List.length (c :: x))%nat, a)).
      rewrite (IH (step_rules (r :: rs) c) rest (S n) _ a).
      + f_equal. f_equal. cbn. lia.
      + apply step_picks. exact Hp.
      + intros k. destruct (Hl k) as [H|H]; [left|right; exact H]. apply step_none. exact H.
  Qed.

  (** What is found is the longest match, and there is one if any prefix matches. *)
  Lemma scan_inv rs : forall s n best,
    (scan rs s n best = best /\ forall k, none rs (firstn k s)) \/
    (exists k a, (k <= List.length s)%nat /\ scan rs s n best = Some ((n + k)%nat, a) /\ picks rs (firstn k s) a /\
       (forall k', (k < k')%nat -> (k' <= List.length s)%nat -> none rs (firstn k' s))).
  Proof.
    intros s. revert rs. induction s as [|c s IH]; intros rs n best.
    - cbn. generalize (accepting_spec rs). destruct (accepting rs) as [b|] eqn:E; intros Ha.
      + right. exists 0%nat, b. cbn. split; [lia|]. split; [destruct rs; f_equal; f_equal; lia|]. split; [exact Ha|]. lia.
      + left. split; [destruct rs; reflexivity|]. intros k. rewrite firstn_nil. exact Ha.
    - destruct rs as [|r0 rs0].
      { left. split; [reflexivity|]. intros k r a []. }
      remember (r0 :: rs0) as rs eqn:Ers.
      assert (Es : scan rs (c :: s) n best =
        scan (step_rules rs c) s (S n) (match accepting rs with Some a => Some (n, a) | None => best end)) by (rewrite Ers; reflexivity).
      rewrite Es. generalize (accepting_spec rs). intros Ha.
      destruct (IH (step_rules rs c) (S n) (match accepting rs with Some a => Some (n, a) | None => best end))
        as [[-> Hn]|(k & a & Hk & -> & Hp & Hl)].
      + destruct (accepting rs) as [b|].
        * right. exists 0%nat, b. split; [lia|]. split; [f_equal; f_equal; lia|]. split; [exact Ha|].
          intros k' Hk' _. destruct k' as [|k']; [lia|]. apply step_none. apply Hn.
        * left. split; [reflexivity|]. intros [|k]; [exact Ha|]. apply step_none. apply Hn.
      + right. exists (S k), a. split; [cbn; lia|]. split; [f_equal; f_equal; lia|]. split; [apply step_picks; exact Hp|].
        intros k' Hk' Hk2. destruct k' as [|k']; [lia|]. apply step_none. cbn in Hk2. apply Hl; lia.
  Qed.
  Lemma picks_in rs s a : picks rs s a -> In a (map snd rs).
  Proof. intros H. induction H; cbn; auto. Qed.
End Scan.

(** * Over-approximations *)

Fixpoint chars (r : re) (c : N) : bool :=
  match r with
  | RNil | REps => false
  | RSet f => f c
  | RCat a b | RAlt a b => chars a c || chars b c
  | RStar a => chars a c
  end.
Fixpoint first_char (r : re) (c : N) : bool :=
  match r with
  | RNil | REps => false
  | RSet f => f c
  | RCat a b => first_char a c || (nullable a && first_char b c)
  | RAlt a b => first_char a c || first_char b c
  | RStar a => first_char a c
  end.
Fixpoint last_char (r : re) (c : N) : bool :=
  match r with
  | RNil | REps => false
  | RSet f => f c
  | RCat a b => last_char b c || (nullable b && last_char a c)
  | RAlt a b => last_char a c || last_char b c
  | RStar a => last_char a c
  end.
Fixpoint max_len (r : re) : option nat :=
  match r with
  | RNil | REps => Some O
  | RSet _ => Some 1%nat
  | RCat a b => match max_len a, max_len b with Some x, Some y => Some (x + y)%nat | _, _ => None end
  | RAlt a b => match max_len a, max_len b with Some x, Some y => Some (Nat.max x y) | _, _ => None end
  | RStar _ => None
  end.

Lemma chars_ok r s : lang r s -> forall c, In c s -> chars r c = true.
Proof.
  intros H. induction H; intros x Hin; cbn.
  - contradiction.
  - destruct Hin as [<-|[]]; assumption.
  - apply in_app_or in Hin as [Hin|Hin]; apply orb_true_iff; auto.
  - apply orb_true_iff; auto.
  - apply orb_true_iff; auto.
  - contradiction.
  - apply in_app_or in Hin as [Hin|Hin]; [auto | apply (IHlang2 _ Hin)].
Qed.
Lemma first_ok r s : lang r s -> forall c t, s = c :: t -> first_char r c = true.
Proof.
  intros H. induction H; intros x u E; cbn; try discriminate.
  - injection E as <- _. assumption.
  - destruct s as [|y s].
    + cbn in E. apply orb_true_iff. right. apply andb_true_iff. split; [apply nullable_spec; assumption | eauto].
    + injection E as -> E. apply orb_true_iff. left. eauto.
  - apply orb_true_iff; eauto.
  - apply orb_true_iff; eauto.
  - destruct s as [|y s]; [apply (IHlang2 _ _ E)|]. injection E as -> E. eauto.
Qed.
Lemma last_ok r s : lang r s -> forall c t, s = t ++ [c] -> last_char r c = true.
Proof.
  intros H. induction H; intros x u E; cbn.
  - destruct u; discriminate.
  - destruct u as [|y u]; [|destruct u; discriminate]. injection E as <-. assumption.
  - destruct t as [|y t'] eqn:Et.
    + rewrite app_nil_r in E. apply orb_true_iff. right. apply andb_true_iff. split; [apply nullable_spec; assumption | eauto].
    + destruct (@exists_last _ (y :: t')) as (t1 & z & Ez); [discriminate|]. rewrite Ez in E. rewrite app_assoc in E.
      apply app_inj_tail in E as [_ <-]. apply orb_true_iff. left. eauto.
  - apply orb_true_iff; eauto.
  - apply orb_true_iff; eauto.
  - destruct u; discriminate.
  - destruct t as [|y t'] eqn:Et.
    + rewrite app_nil_r in E. eauto.
    + destruct (@exists_last _ (y :: t')) as (t1 & z & Ez); [discriminate|]. rewrite Ez in E. rewrite app_assoc in E.
      apply app_inj_tail in E as [_ <-]. cbn in IHlang2. eauto.
Qed.
Lemma max_len_ok r s : lang r s -> forall k, max_len r = Some k -> (List.length s <= k)%nat.
Proof.
  intros H. induction H; intros k E; cbn in *; try discriminate.
  - injection E as <-. lia.
  - injection E as <-. lia.
  - destruct (max_len a), (max_len b); try discriminate. injection E as <-. rewrite app_length.
    specialize (IHlang1 _ eq_refl). specialize (IHlang2 _ eq_refl). lia.
  - destruct (max_len a), (max_len b); try discriminate. injection E as <-. specialize (IHlang _ eq_refl). lia.
  - destruct (max_len a), (max_len b); try discriminate. injection E as <-. specialize (IHlang _ eq_refl). lia.
Qed.
