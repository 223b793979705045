(** Proofs about IRIs, literals and decimal conversion. *)

From Coq Require Import NArith ZArith List Bool String Lia.
From Coq Require Import ZifyBool ZifyNat ZifyN.
From Verif Require Import Bytes ModelTypes ModelObject ModelText SpecText ProofObject.
Import ListNotations.
Local Open Scope N_scope.
Ltac Zify.zify_post_hook ::= Z.div_mod_to_equations.

Lemma start_char_spec c : is_ncname_start_char c = true <-> name_start c.
Proof. unfold is_ncname_start_char, name_start. lia. Qed.

Lemma non_start_char_spec c : is_ncname_non_start_char c = true <-> (c = 45 \/ c = 46 \/ 48 <= c <= 57).
Proof. unfold is_ncname_non_start_char. lia. Qed.

Lemma name_start_dec c : name_start c \/ ~ name_start c.
Proof. unfold name_start. lia. Qed.

Lemma name_char_dec c : name_char c \/ ~ name_char c.
Proof. unfold name_char, name_start. lia. Qed.

(** What the split position satisfies, by index. *)
Definition split_at (s : bytes) (r : nat) : Prop :=
  (r <= List.length s)%nat /\
  (r = List.length s \/ name_start (nth r s 0)) /\
  (forall k, (r <= k < List.length s)%nat -> name_char (nth k s 0)) /\
  (forall j, (j < r)%nat -> name_start (nth j s 0) -> exists k, (j <= k < List.length s)%nat /\ ~ name_char (nth k s 0)).

Lemma ns_scan_split s i : forall L, (i <= L)%nat -> (L <= List.length s)%nat ->
  (forall k, (i <= k < List.length s)%nat -> name_char (nth k s 0)) ->
  (L = List.length s \/ name_start (nth L s 0)) ->
  (forall k, (i <= k < L)%nat -> ~ name_start (nth k s 0)) ->
  split_at s (ns_scan s i L).
Proof.
  induction i as [|i IH]; intros L Hi HL Hn Hs Hk; simpl.
  - split; auto. split; auto. split.
    + intros k Hk'. apply Hn. lia.
    + intros j Hj Hsj. exfalso. apply (Hk j); auto. lia.
  - destruct (is_ncname_start_char (nth i s 0)) eqn:E1.
    + apply start_char_spec in E1. apply IH; try lia; auto.
      intros k Hk'. destruct (Nat.eq_dec k i) as [->|]; [now left|]. apply Hn. lia.
    + assert (N1 : ~ name_start (nth i s 0)) by (intros H; apply start_char_spec in H; congruence).
      destruct (is_ncname_non_start_char (nth i s 0)) eqn:E2; simpl.
      * apply non_start_char_spec in E2. apply IH; try lia; auto.
        -- intros k Hk'. destruct (Nat.eq_dec k i) as [->|]; [now right|]. apply Hn. lia.
        -- intros k Hk'. destruct (Nat.eq_dec k i) as [->|]; auto. apply Hk. lia.
      * assert (N2 : ~ name_char (nth i s 0)).
        { intros [H|H]; [auto|]. apply non_start_char_spec in H. congruence. }
        split; auto. split; auto. split.
        -- intros k Hk'. apply Hn. lia.
        -- intros j Hj Hsj. exists i. destruct (Nat.le_gt_cases j i); [split; [lia|auto]|].
           exfalso. apply (Hk j); auto; lia.
Qed.

Lemma xml_ns_length_split s : split_at s (xml_ns_length s).
Proof. apply ns_scan_split; auto; intros; try lia. Qed.

Lemma split_at_unique s r r' : split_at s r -> split_at s r' -> r = r'.
Proof.
  assert (H : forall r r', split_at s r -> split_at s r' -> ~ (r < r')%nat).
  { clear. intros r r' (_ & Hs & Hn & _) (Hl' & _ & _ & Hj') Hlt.
    destruct Hs as [->|Hs]; [lia|]. destruct (Hj' r Hlt Hs) as (k & Hk & Hnk). apply Hnk. apply Hn. lia. }
  intros H1 H2. pose proof (H r r' H1 H2). pose proof (H r' r H2 H1). lia.
Qed.

Lemma xml_ns_length_le s : (xml_ns_length s <= List.length s)%nat.
Proof. apply (xml_ns_length_split s). Qed.

Lemma nth_skipn {A} (l : list A) n k d : nth k (skipn n l) d = nth (n + k) l d.
Proof.
  revert l; induction n; intros l; simpl; auto. destruct l; simpl; auto. now destruct k.
Qed.

Lemma Forall_nth_iff {A} (P : A -> Prop) l d : Forall P l <-> (forall k, (k < List.length l)%nat -> P (nth k l d)).
Proof.
  split.
  - intros H. induction H; intros k Hk; simpl in *; [lia|]. destruct k; auto. apply IHForall. lia.
  - induction l; intros H; constructor.
    + apply (H O). simpl. lia.
    + apply IHl. intros k Hk. apply (H (S k)). simpl. lia.
Qed.

Lemma ncname_nth s : ncname s <-> (s <> [] /\ name_start (nth 0 s 0) /\ forall k, (k < List.length s)%nat -> name_char (nth k s 0)).
Proof.
  split.
  - intros (c & r & -> & Hc & Hr). split; [discriminate|]. split; auto.
    intros [|k] Hk; simpl in *; [now left|]. rewrite Forall_nth_iff in Hr. apply (Hr k). lia.
  - intros (Hne & Hs & Hn). destruct s as [|c r]; [tauto|]. exists c, r. split; auto. split; auto.
    rewrite (Forall_nth_iff _ _ 0). intros k Hk. apply (Hn (S k)). simpl. lia.
Qed.

Lemma split_at_canonical s r : split_at s r -> canonical_split s (firstn r s) (skipn r s).
Proof.
  intros (Hl & Hs & Hn & Hj). split; [now rewrite firstn_skipn|]. split.
  - destruct (Nat.eq_dec r (List.length s)) as [->|Hne]; [left; apply skipn_all|].
    right. apply ncname_nth. split; [|split].
    + intros E. apply (f_equal (@List.length N)) in E. rewrite skipn_length in E. simpl in E. lia.
    + rewrite nth_skipn, Nat.add_0_r. destruct Hs; [tauto|auto].
    + intros k Hk. rewrite skipn_length in Hk. rewrite nth_skipn. apply Hn. lia.
  - intros u v -> Hv. apply ncname_nth in Hv as (Hne & Hsv & Hnv).
    rewrite skipn_length, app_length in *.
    destruct (Nat.le_gt_cases r (List.length u)); [lia|]. exfalso.
    destruct (Hj (List.length u)) as (k & Hk & Hnk); auto.
    + rewrite app_nth2 by lia. now rewrite Nat.sub_diag.
    + apply Hnk. rewrite app_nth2 by lia. apply Hnv. lia.
Qed.

Lemma get_ns_rem_split s r : (r <= List.length s)%nat -> string_get_ns_rem s r = (firstn r s, skipn r s).
Proof.
  intros H. unfold string_get_ns_rem. destruct (Nat.ltb_spec r (List.length s)); auto.
  assert (r = List.length s) as -> by lia. now rewrite firstn_all, skipn_all.
Qed.

Lemma from_string_nonempty s : s <> [] -> iri_from_string s = Some (firstn (xml_ns_length s) s, skipn (xml_ns_length s) s).
Proof.
  intros H. unfold iri_from_string, ustring_size. destruct s as [|c s]; [tauto|].
  rewrite get_ns_rem_split by apply xml_ns_length_le. reflexivity.
Qed.

Theorem iri_from_string_canonical s :
  (s = [] /\ iri_from_string s = None) \/
  (s <> [] /\ exists ns rem, iri_from_string s = Some (ns, rem) /\ canonical_split s ns rem).
Proof.
  destruct s as [|c s]; [now left|]. right. split; [discriminate|].
  rewrite from_string_nonempty by discriminate. eexists _, _. split; [reflexivity|].
  apply split_at_canonical, xml_ns_length_split.
Qed.

Lemma canonical_split_unique s ns rem ns' rem' :
  canonical_split s ns rem -> canonical_split s ns' rem' -> ns = ns' /\ rem = rem'.
Proof.
  intros (E1 & H1 & M1) (E2 & H2 & M2).
  assert (L : List.length rem = List.length rem').
  { destruct H1 as [->|H1], H2 as [->|H2]; auto.
    - specialize (M1 ns' rem' E2 H2). simpl in *. destruct rem'; simpl in *; lia.
    - specialize (M2 ns rem E1 H1). simpl in *. destruct rem; simpl in *; lia.
    - specialize (M1 ns' rem' E2 H2). specialize (M2 ns rem E1 H1). lia. }
  assert (L2 : List.length ns = List.length ns').
  { apply (f_equal (@List.length N)) in E1, E2. rewrite app_length in *. lia. }
  rewrite E1 in E2. clear -E2 L2. revert ns' L2 E2. induction ns as [|x ns IH]; intros [|y ns'] L2 E2; simpl in *; try discriminate; auto.
  injection L2 as L2. injection E2 as -> E2. destruct (IH ns' L2 E2) as [-> ->]. auto.
Qed.

Theorem iri_of_parts_text p s : fst (iri_of_parts p s) ++ snd (iri_of_parts p s) = p ++ s.
Proof.
  unfold iri_of_parts.
  destruct (Nat.ltb 0 (xml_ns_length s)); simpl.
  - now rewrite <- app_assoc, firstn_skipn.
  - destruct (Nat.ltb (xml_ns_length p) (List.length p)); simpl; auto.
    now rewrite app_assoc, firstn_skipn.
Qed.

Lemma name_continuation_dec s : name_continuation s \/ ~ name_continuation s.
Proof.
  destruct s as [|c r]; [right; intros (c & r & E & _); discriminate|].
  destruct (name_start_dec c) as [H|H]; [right; intros (c' & r' & E & H' & _); inversion E; subst; tauto|].
  assert (D : forall l, Forall name_char l \/ ~ Forall name_char l).
  { induction l as [|x l [IH|IH]]; auto.
    - destruct (name_char_dec x); [left; auto|right; intros HF; inversion HF; tauto].
    - right; intros HF; inversion HF; tauto. }
  destruct (D (c :: r)) as [HF|HF].
  - left. exists c, r. auto.
  - right. intros (c' & r' & E & _ & HF'). tauto.
Qed.

Lemma has_ncname_suffix_iff p : (exists u v, p = u ++ v /\ ncname v) <-> (xml_ns_length p < List.length p)%nat.
Proof.
  pose proof (xml_ns_length_split p) as Hsp. pose proof (split_at_canonical _ _ Hsp) as (E & H & M).
  split.
  - intros (u & v & -> & Hv). specialize (M u v eq_refl Hv). rewrite skipn_length in M.
    destruct Hv as (c & r & -> & _). simpl in *. lia.
  - intros Hlt. exists (firstn (xml_ns_length p) p), (skipn (xml_ns_length p) p). split; auto.
    destruct H as [H|H]; auto. exfalso. apply (f_equal (@List.length N)) in H. rewrite skipn_length in H. simpl in H. lia.
Qed.

Lemma zero_split_name s : xml_ns_length s = 0%nat -> s = [] \/ ncname s.
Proof.
  intros E. pose proof (xml_ns_length_split s) as (_ & Hs & Hn & _). rewrite E in *.
  destruct s as [|c s]; auto. right. apply ncname_nth. split; [discriminate|]. split.
  - destruct Hs; [discriminate|auto].
  - intros k Hk. apply Hn. lia.
Qed.

Lemma nth_app_l (p s : bytes) k : (k < List.length p)%nat -> nth k (p ++ s) 0 = nth k p 0.
Proof. intros. now apply app_nth1. Qed.
Lemma nth_app_r (p s : bytes) k : (List.length p <= k)%nat -> nth k (p ++ s) 0 = nth (k - List.length p) s 0.
Proof. intros. now apply app_nth2. Qed.

(** Splitting the concatenation when the scan of the suffix stopped inside it. *)
Lemma split_app_suffix p s : (xml_ns_length p = List.length p \/ exists k, (k < List.length s)%nat /\ ~ name_char (nth k s 0)) ->
  (0 < xml_ns_length s)%nat -> xml_ns_length (p ++ s) = (List.length p + xml_ns_length s)%nat.
Proof.
  intros Hc Hpos. apply (split_at_unique (p ++ s)); [apply xml_ns_length_split|].
  pose proof (xml_ns_length_split s) as (Hl & Hs & Hn & Hj). set (m := xml_ns_length s) in *.
  split; [rewrite app_length; lia|]. split; [|split].
  - rewrite app_length, nth_app_r by lia. replace (List.length p + m - List.length p)%nat with m by lia.
    destruct Hs; [left; lia|auto].
  - intros k Hk. rewrite app_length in Hk. rewrite nth_app_r by lia. apply Hn. lia.
  - intros j Hj' Hsj. rewrite app_length. destruct (Nat.lt_ge_cases j (List.length p)) as [Hjp|Hjp].
    + destruct Hc as [Hc|(k & Hk & Hnk)].
      * rewrite nth_app_l in Hsj by auto. pose proof (xml_ns_length_split p) as (_ & _ & _ & Hpj).
        rewrite Hc in Hpj. destruct (Hpj j Hjp Hsj) as (k & Hk & Hnk). exists k. split; [lia|].
        rewrite nth_app_l by lia. auto.
      * exists (List.length p + k)%nat. split; [lia|]. rewrite nth_app_r by lia.
        now replace (List.length p + k - List.length p)%nat with k by lia.
    + rewrite nth_app_r in Hsj by auto. destruct (Hj (j - List.length p)%nat) as (k & Hk & Hnk); [lia|auto|].
      exists (List.length p + k)%nat. split; [lia|]. rewrite nth_app_r by lia.
      now replace (List.length p + k - List.length p)%nat with k by lia.
Qed.

Lemma split_app_prefix p s : (forall k, (k < List.length s)%nat -> name_char (nth k s 0)) ->
  (xml_ns_length p < List.length p)%nat \/ s = [] \/ ncname s ->
  xml_ns_length (p ++ s) = xml_ns_length p.
Proof.
  intros Hall Hc. apply (split_at_unique (p ++ s)); [apply xml_ns_length_split|].
  pose proof (xml_ns_length_split p) as (Hl & Hs & Hn & Hj). set (m := xml_ns_length p) in *.
  split; [rewrite app_length; lia|]. split; [|split].
  - destruct (Nat.lt_ge_cases m (List.length p)) as [Hlt|Hge].
    + right. rewrite nth_app_l by auto. destruct Hs; [lia|auto].
    + assert (m = List.length p) as -> by lia. destruct Hc as [Hc|[->|Hc]]; [lia|left; now rewrite app_nil_r|].
      right. rewrite nth_app_r, Nat.sub_diag by lia. apply ncname_nth in Hc. tauto.
  - intros k Hk. rewrite app_length in Hk. destruct (Nat.lt_ge_cases k (List.length p)).
    + rewrite nth_app_l by auto. apply Hn. lia.
    + rewrite nth_app_r by auto. apply Hall. lia.
  - intros j Hj' Hsj. rewrite nth_app_l in Hsj by lia. destruct (Hj j Hj' Hsj) as (k & Hk & Hnk).
    exists k. rewrite app_length. split; [lia|]. rewrite nth_app_l by lia. auto.
Qed.

Lemma firstn_app_le {A} n (l m : list A) : (n <= List.length l)%nat -> firstn n (l ++ m) = firstn n l.
Proof. intros H. rewrite firstn_app. replace (n - List.length l)%nat with 0%nat by lia. simpl. apply app_nil_r. Qed.
Lemma skipn_app_le {A} n (l m : list A) : (n <= List.length l)%nat -> skipn n (l ++ m) = skipn n l ++ m.
Proof. intros H. rewrite skipn_app. replace (n - List.length l)%nat with 0%nat by lia. reflexivity. Qed.
Lemma firstn_app_ge {A} n (l m : list A) : firstn (List.length l + n) (l ++ m) = l ++ firstn n m.
Proof. apply firstn_app_2. Qed.
Lemma skipn_app_ge {A} n (l m : list A) : skipn (List.length l + n) (l ++ m) = skipn n m.
Proof. rewrite skipn_app. rewrite skipn_all2 by lia. simpl. f_equal. lia. Qed.

Lemma name_all_dec (s : bytes) : (forall k, (k < List.length s)%nat -> name_char (nth k s 0)) \/
  (exists k, (k < List.length s)%nat /\ ~ name_char (nth k s 0)).
Proof.
  induction s as [|c s [IH|(k & Hk & Hn)]].
  - left. simpl. intros; lia.
  - destruct (name_char_dec c).
    + left. intros [|k] Hk; simpl in *; auto. apply IH. lia.
    + right. exists 0%nat. simpl. split; [lia|auto].
  - right. exists (S k). simpl. split; [lia|auto].
Qed.

Theorem iri_parts_vs_string p s : p ++ s <> [] ->
  (iri_from_string (p ++ s) = Some (iri_of_parts p s) <->
   ~ (exists u v, p = u ++ v /\ ncname v) \/ ~ name_continuation s).
Proof.
  intros Hne. rewrite from_string_nonempty by auto. rewrite has_ncname_suffix_iff.
  unfold iri_of_parts. destruct (Nat.ltb_spec 0 (xml_ns_length s)) as [Hk|Hk].
  - destruct (name_all_dec s) as [Hall|Hex].
    + assert (Hcont : name_continuation s).
      { destruct s as [|c r].
        - simpl in Hk. pose proof (xml_ns_length_le []). simpl in *. lia.
        - exists c, r. split; auto. split.
          + intros Hc. pose proof (xml_ns_length_split (c :: r)) as (_ & _ & _ & Hj).
            destruct (Hj 0%nat Hk Hc) as (k & Hk2 & Hnk). apply Hnk. apply Hall. lia.
          + apply (Forall_nth_iff _ _ 0). auto. }
      destruct (Nat.lt_ge_cases (xml_ns_length p) (List.length p)) as [Hp|Hp].
      * split; [|intros [H|H]; tauto].
        rewrite split_app_prefix by auto. intros E. exfalso. injection E as E _.
        apply (f_equal (@List.length N)) in E. rewrite firstn_length, !app_length in E.
        pose proof (xml_ns_length_le p). lia.
      * split; [intros _; left; lia|intros _].
        rewrite split_app_suffix; auto; [|left; pose proof (xml_ns_length_le p); lia].
        now rewrite firstn_app_ge, skipn_app_ge.
    + split; [intros _; right|intros _].
      * intros (c & r & -> & _ & HF). destruct Hex as (k & Hk2 & Hnk). apply Hnk.
        rewrite (Forall_nth_iff _ _ 0) in HF. auto.
      * rewrite split_app_suffix; auto. now rewrite firstn_app_ge, skipn_app_ge.
  - assert (E0 : xml_ns_length s = 0%nat) by lia. apply zero_split_name in E0.
    split.
    + intros _. right. intros (c & r & -> & Hc & _). destruct E0 as [E0|(c' & r' & E & Hc' & _)]; [discriminate|].
      inversion E; subst. tauto.
    + intros _. rewrite split_app_prefix; auto.
      * pose proof (xml_ns_length_le p) as Hle.
        destruct (Nat.ltb_spec (xml_ns_length p) (List.length p)).
        -- rewrite firstn_app_le, skipn_app_le by auto. reflexivity.
        -- assert (xml_ns_length p = List.length p) as -> by lia.
           rewrite firstn_app_le, skipn_app_le by auto. now rewrite firstn_all, skipn_all.
      * destruct E0 as [->|E0]; [simpl; intros; lia|]. apply ncname_nth in E0. tauto.
Qed.

(** Re-assembling a canonically split IRI gives it back. *)
Theorem iri_parts_roundtrip s ns rem : iri_from_string s = Some (ns, rem) -> iri_of_parts ns rem = (ns, rem).
Proof.
  intros E. destruct (iri_from_string_canonical s) as [[_ E']|(Hne & ns' & rem' & E' & C)]; [congruence|].
  rewrite E' in E. inversion E; subst ns' rem'. destruct C as (-> & Hr & M).
  assert (H : iri_from_string (ns ++ rem) = Some (iri_of_parts ns rem)).
  { apply iri_parts_vs_string; auto. right. intros (c & r & -> & Hc & _).
    destruct Hr as [Hr|(c' & r' & Er & Hc' & _)]; [discriminate|]. inversion Er; subst. tauto. }
  rewrite E' in H. congruence.
Qed.

(** * has_iri_string *)

Lemma starts_with_spec s p : starts_with s p = true <-> exists t, s = p ++ t.
Proof.
  revert s; induction p as [|y p IH]; intros s; simpl.
  - split; eauto. destruct s; auto.
  - destruct s as [|x s]; simpl.
    + split; [discriminate|intros (t & E); discriminate].
    + rewrite andb_true_iff, N.eqb_eq, IH. split.
      * intros (-> & t & ->). now exists t.
      * intros (t & E). inversion E; subst. split; eauto.
Qed.

Lemma ends_with_spec s p : ends_with s p = true <-> exists t, s = t ++ p.
Proof.
  unfold ends_with. rewrite andb_true_iff, Nat.leb_le, bytes_eqb_eq. split.
  - intros [Hl E]. exists (firstn (List.length s - List.length p) s). rewrite <- E at 2. now rewrite firstn_skipn.
  - intros (t & ->). rewrite app_length. split; [lia|].
    replace (List.length t + List.length p - List.length p)%nat with (List.length t + 0)%nat by lia.
    rewrite skipn_app_ge. reflexivity.
Qed.

Theorem has_iri_string_spec ns rem s : has_iri_string (ns, rem) s = true <-> s = ns ++ rem.
Proof.
  unfold has_iri_string. destruct (Nat.eqb_spec (List.length s) (List.length ns + List.length rem)) as [Hl|Hl]; simpl.
  - destruct (ends_with s rem) eqn:E; simpl.
    + apply ends_with_spec in E as (t & Et). rewrite starts_with_spec. split.
      * intros (u & Eu). rewrite Et in *. rewrite app_length in Hl.
        assert (List.length t = List.length ns) by lia.
        assert (t = ns); [|congruence]. rewrite <- (firstn_all t).
        rewrite <- (firstn_app_le (List.length t) t rem) by lia. rewrite Eu, H.
        rewrite firstn_app_le by lia. apply firstn_all.
      * intros ->. eauto.
    + split; [discriminate|]. intros ->. assert (ends_with (ns ++ rem) rem = true) by (apply ends_with_spec; eauto). congruence.
  - split; [discriminate|]. intros ->. rewrite app_length in Hl. lia.
Qed.

(** * Literals *)

Lemma to_lower_char_spec c : lower_case c (to_lower_char c).
Proof. unfold lower_case, to_lower_char. destruct (Bool.reflect_dec _ _ (Bool.iff_reflect (65 <= c <= 90) ((65 <=? c) && (c <=? 90)) ltac:(lia))); [left|right]; split; auto; destruct ((65 <=? c) && (c <=? 90)) eqn:E; lia. Qed.

Lemma internalize_lang_lower l : internalize_lang l = to_lower l.
Proof. unfold internalize_lang, is_lower. destruct (bytes_eqb (to_lower l) l) eqn:E; auto. now apply bytes_eqb_eq in E. Qed.

Lemma lower_case_fun c a b : lower_case c a -> lower_case c b -> a = b.
Proof. unfold lower_case. lia. Qed.

Lemma to_lower_spec l : Forall2 lower_case l (to_lower l).
Proof. induction l; simpl; constructor; auto. apply to_lower_char_spec. Qed.

Lemma lower_case_list_fun l : forall a b, Forall2 lower_case l a -> Forall2 lower_case l b -> a = b.
Proof.
  induction l; intros a' b' H1 H2; inversion H1; inversion H2; subst; auto.
  f_equal; [eapply lower_case_fun; eauto|auto].
Qed.

Lemma index_of_last_spec s c :
  match index_of_last s c with
  | Some i => exists a b, s = a ++ c :: b /\ ~ In c b /\ List.length a = i
  | None => ~ In c s
  end.
Proof.
  induction s as [|x s IH]; simpl; auto.
  destruct (index_of_last s c) as [i|].
  - destruct IH as (a & b & -> & Hb & <-). exists (x :: a), b. auto.
  - destruct (N.eqb_spec x c) as [->|Hne].
    + exists [], s. auto.
    + intros [H|H]; auto.
Qed.

Lemma parse_lang_spec v :
  match parse_lang v with
  | (v', None) => v' = v /\ ~ exists a b, tagged v a b
  | (a, Some l) => exists b, tagged v a b /\ l = to_lower b
  end.
Proof.
  unfold parse_lang. pose proof (index_of_last_spec v 64) as H. destruct (index_of_last v 64) as [i|].
  - destruct H as (a & b & -> & Hb & <-).
    rewrite app_length. simpl List.length.
    destruct (Nat.leb_spec (List.length a + S (List.length b)) (List.length a + 1)) as [Hle|Hlt].
    + split; auto. intros (a' & b' & E & Hne & Hb').
      assert (b = []) as -> by (destruct b; simpl in *; [auto|lia]).
      assert (HI : In 64 (64 :: b')) by (simpl; auto).
      destruct b' as [|x b'] using rev_ind; [tauto|].
      replace (a' ++ 64 :: b' ++ [x]) with ((a' ++ 64 :: b') ++ [x]) in E by (now rewrite <- app_assoc).
      apply app_inj_tail in E as [_ E]. subst x. apply Hb'. apply in_app_iff; simpl; auto.
    + exists b. split.
      * split; [|split; auto].
        -- replace (List.length a + 1 - 1)%nat with (List.length a) by lia.
           rewrite firstn_app_le by lia. now rewrite firstn_all.
        -- intros ->. simpl in Hlt. lia.
      * f_equal. rewrite skipn_app_ge. reflexivity.
  - rewrite (proj2 (Nat.leb_le _ _)) by lia. split; auto. intros (a & b & -> & _).
    apply H. apply in_app_iff; simpl; auto.
Qed.

Lemma tagged_unique v a b a' b' : tagged v a b -> tagged v a' b' -> a = a' /\ b = b'.
Proof.
  intros (-> & _ & Hb) (E & _ & Hb').
  revert a' E. induction a as [|x a IH]; intros [|y a'] E; simpl in *; inversion E; subst; auto.
  - exfalso. apply Hb. apply in_app_iff; simpl; auto.
  - exfalso. apply Hb'. apply in_app_iff; simpl; auto.
  - destruct (IH a' H1); subst; auto.
Qed.

(** * Decimal conversion *)

Fixpoint lsb_value (l : bytes) : N := match l with [] => 0 | c :: l' => (c - 48) + 10 * lsb_value l' end.

Lemma digits_loop_spec fuel : forall n, n < 2 ^ N.of_nat fuel -> (0 < fuel)%nat ->
  exists l, digits_loop fuel n = Some l /\ lsb_value l = n /\ Forall is_digit l /\ l <> [] /\
            (n = 0 -> l = [48]) /\ (n <> 0 -> last l 48 <> 48).
Proof.
  induction fuel as [|f IH]; intros n Hn Hf; [lia|]. simpl.
  assert (Hd : is_digit (n mod 10 + 48)) by (unfold is_digit; lia).
  destruct (N.eqb_spec (n / 10) 0) as [E|E].
  - exists [n mod 10 + 48]. split; auto. split; [cbn [lsb_value]; lia|]. split; [auto|]. split; [discriminate|].
    split; [intros ->; reflexivity|]. intros H. cbn [last]. lia.
  - assert (Hlt : n / 10 < 2 ^ N.of_nat f).
    { rewrite Nat2N.inj_succ, N.pow_succ_r' in Hn. generalize dependent (2 ^ N.of_nat f). intros P HP. lia. }
    assert (Hf' : (0 < f)%nat). { destruct f; [|lia]. simpl in Hlt. lia. }
    destruct (IH (n / 10) Hlt Hf') as (l & -> & Hv & HF & Hne & _ & Hlast).
    eexists. split; [reflexivity|]. split; [cbn [lsb_value]; rewrite Hv; lia|]. split; [auto|]. split; [discriminate|].
    split; [intros ->; simpl in E; lia|]. intros _. destruct l; [tauto|]. simpl. apply Hlast. auto.
Qed.

Lemma set_nth_app a x b c : set_nth (a ++ x :: b) (List.length a) c = a ++ c :: b.
Proof. induction a; simpl; auto. now rewrite IHa. Qed.

Lemma nth_mid (a b : bytes) x : nth (List.length a) (a ++ x :: b) 0 = x.
Proof. rewrite nth_app_r, Nat.sub_diag by lia. reflexivity. Qed.

Lemma reverse_loop_spec fuel : forall a m b, (List.length m < fuel)%nat ->
  reverse_loop fuel (a ++ m ++ b) (List.length a) (List.length a + List.length m) = a ++ rev m ++ b.
Proof.
  induction fuel as [|f IH]; intros a m b Hf; [lia|]. cbn [reverse_loop].
  destruct m as [|x m]; [simpl; rewrite Nat.add_0_r, Nat.ltb_irrefl; reflexivity|].
  destruct (Nat.ltb_spec (List.length a) (List.length a + List.length (x :: m))) as [_|H]; [|simpl in H; lia].
  destruct m as [|y m _] using rev_ind.
  - simpl List.length. replace (List.length a + 1 - 1)%nat with (List.length a) by lia. simpl app.
    rewrite nth_mid, !set_nth_app. destruct f; simpl; auto. rewrite (proj2 (Nat.ltb_ge _ _)) by lia. reflexivity.
  - simpl List.length. rewrite app_length. simpl List.length.
    replace (List.length a + S (List.length m + 1) - 1)%nat with (List.length (a ++ x :: m)) by (rewrite app_length; simpl; lia).
    assert (E1 : a ++ (x :: m ++ [y]) ++ b = (a ++ x :: m) ++ y :: b).
    { rewrite <- !app_assoc. simpl. now rewrite <- app_assoc. }
    rewrite E1, nth_mid, set_nth_app.
    rewrite <- E1. rewrite <- !app_assoc. cbn [app]. rewrite nth_mid, set_nth_app.
    replace (S (List.length a)) with (List.length (a ++ [y])) by (rewrite app_length; simpl; lia).
    replace (List.length (a ++ x :: m)) with (List.length (a ++ [y]) + List.length m)%nat by (rewrite !app_length; simpl; lia).
    replace (a ++ y :: m ++ x :: b) with ((a ++ [y]) ++ m ++ (x :: b)) by (rewrite <- !app_assoc; reflexivity).
    rewrite IH by (simpl in Hf; rewrite app_length in Hf; simpl in Hf; lia).
    simpl. rewrite rev_app_distr. simpl. rewrite <- !app_assoc. reflexivity.
Qed.

Lemma dec_value_from_app acc a b : dec_value_from acc (a ++ b) = dec_value_from (dec_value_from acc a) b.
Proof. revert acc; induction a; intros acc; simpl; auto. Qed.

Lemma dec_value_rev l : dec_value (rev l) = lsb_value l.
Proof.
  unfold dec_value. induction l as [|c l IH]; simpl; auto.
  rewrite dec_value_from_app, IH. simpl. lia.
Qed.

Theorem str_from_uint_spec n :
  exists s, str_from_uint n = Some s /\ Forall is_digit s /\ dec_value s = n /\ (n = 0 -> s = [48]) /\ (n <> 0 -> hd 48 s <> 48).
Proof.
  unfold str_from_uint. destruct (digits_loop_spec (S (N.to_nat (N.log2 n))) n) as (l & -> & Hv & HF & Hne & H0 & Hl).
  - rewrite Nat2N.inj_succ, N2Nat.id. destruct (N.eq_dec n 0) as [->|Hn]; [reflexivity|]. apply N.log2_spec. lia.
  - lia.
  - pose proof (reverse_loop_spec (S (List.length l)) [] l []) as R. simpl app in R. rewrite !app_nil_r in R.
    change (List.length (@nil N)) with 0%nat in R. rewrite Nat.add_0_l in R. rewrite R by lia.
    exists (rev l). split; auto. split; [now apply Forall_rev|]. split; [now rewrite dec_value_rev|]. split.
    + intros E. now rewrite (H0 E).
    + intros E. specialize (Hl E). destruct l as [|x l _] using rev_ind; [tauto|].
      rewrite rev_app_distr. simpl. rewrite last_last in Hl. auto.
Qed.

Lemma to_uint_loop_digits w s : forall acc, Forall is_digit s ->
  str_to_uint_loop w s (acc mod 2 ^ w) = dec_value_from acc s mod 2 ^ w.
Proof.
  induction s as [|c s IH]; intros acc HF; simpl; auto. inversion HF; subst.
  unfold is_digit in *. replace ((c <? 48) || (57 <? c)) with false by lia.
  rewrite <- IH by auto. f_equal.
  assert (Hp : 2 ^ w <> 0) by (apply N.pow_nonzero; discriminate).
  rewrite N.add_mod, N.mul_mod, N.mod_mod, <- N.mul_mod, <- N.add_mod by exact Hp.
  f_equal. f_equal. apply N.mul_comm.
Qed.

Theorem str_to_uint_digits w s : Forall is_digit s -> str_to_uint w s = dec_value s mod 2 ^ w.
Proof.
  intros HF. unfold str_to_uint. rewrite <- (N.mod_0_l (2 ^ w)) by (apply N.pow_nonzero; discriminate).
  now apply to_uint_loop_digits.
Qed.

Theorem str_to_uint_invalid w s : Exists (fun c => ~ is_digit c) s -> str_to_uint w s = 2 ^ w - 1.
Proof.
  unfold str_to_uint. generalize 0. induction s as [|c s IH]; intros acc H; [inversion H|]. simpl.
  destruct ((c <? 48) || (57 <? c)) eqn:E; auto. apply IH.
  inversion H; subst; auto. exfalso. unfold is_digit in *. lia.
Qed.

Theorem uint_roundtrip w n : n < 2 ^ w -> exists s, str_from_uint n = Some s /\ str_to_uint w s = n.
Proof.
  intros H. destruct (str_from_uint_spec n) as (s & E & HF & Hv & _). exists s. split; auto.
  rewrite str_to_uint_digits, Hv by auto. now apply N.mod_small.
Qed.

(** * Reserved vocabulary *)

Lemma split_after_mark u c r : ~ name_char c -> r = [] \/ ncname r -> canonical_split ((u ++ [c]) ++ r) (u ++ [c]) r.
Proof.
  intros NC R. split; [reflexivity|]. split; [exact R|]. intros a b E (d & b' & -> & D & F).
  destruct (Nat.le_gt_cases (List.length (d :: b')) (List.length r)) as [L|L]; [exact L|]. exfalso. apply NC.
  assert (I : In c (d :: b')).
  { assert (A : (List.length a <= List.length u)%nat).
    { apply (f_equal (@List.length N)) in E. rewrite !app_length in E. cbn [List.length] in *. lia. }
    rewrite <- app_assoc in E. clear -A E. revert a A E. induction u as [|x u IH]; intros [|y a] A E.
    - cbn in E. rewrite <- E. now left.
    - cbn in A. lia.
    - cbn in E. rewrite <- E. right. apply in_app_iff. right. now left.
    - cbn in E, A. injection E as _ E. apply (IH a); [lia|auto]. }
  destruct I as [->|I]; [now left|]. rewrite Forall_forall in F. now apply F.
Qed.

Lemma reserved_ends n : In n reserved_namespaces -> exists u, n = u ++ [35].
Proof.
  intros H. exists (removelast n).
  repeat (destruct H as [<-|H]; [reflexivity|]). destruct H.
Qed.

Lemma hash_mark : ~ name_char 35.
Proof. unfold name_char, name_start. lia. Qed.

Lemma is_reserved_ns ns rem : iri_is_reserved (ns, rem) = true <-> In ns reserved_namespaces.
Proof.
  unfold iri_is_reserved, reserved_namespaces. cbn [fst In]. rewrite !orb_true_iff, !bytes_eqb_eq.
  change (bs "http://www.w3.org/2002/07/owl#") with owl_ns.
  change (bs "http://www.w3.org/1999/02/22-rdf-syntax-ns#") with rdf_ns.
  change (bs "http://www.w3.org/2000/01/rdf-schema#") with rdfs_ns.
  change (bs "http://www.w3.org/2001/XMLSchema#") with xsd_ns. intuition congruence.
Qed.

Theorem reserved_iff s ns rem : iri_from_string s = Some (ns, rem) ->
  (iri_is_reserved (ns, rem) = true <-> reserved_text s).
Proof.
  intros H. destruct (iri_from_string_canonical s) as [[-> E]|(Hs & ns' & rem' & E & C)]; [congruence|].
  rewrite H in E. injection E as <- <-. rewrite is_reserved_ns. split.
  - intros I. exists ns, rem. destruct C as (C1 & C2 & _). auto.
  - intros (n & r & I & -> & R). destruct (reserved_ends n I) as [u ->].
    destruct (canonical_split_unique _ _ _ _ _ C (split_after_mark u 35 r hash_mark R)) as [-> _]. exact I.
Qed.

Theorem reserved_objects o : is_reserved o = true <->
  exists ns rem, In ns reserved_namespaces /\ (o = OIri ns rem \/ exists e, o = OEnt e ns rem).
Proof.
  unfold is_reserved. split.
  - destruct o; cbn [get_iri]; try discriminate; rewrite is_reserved_ns; eauto 7.
  - intros (ns & rem & I & [->|[e ->]]); cbn [get_iri]; now apply is_reserved_ns.
Qed.
