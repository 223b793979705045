(** The lexer cuts texts into tokens by longest match. *)

From Coq Require Import String NArith ZArith List Bool Lia.
From Coq Require Import ZifyBool ZifyNat ZifyN.
From Verif Require Import Bytes ModelTypes ModelObject ModelText SpecText ModelFuncLex ModelFuncParser SpecFunc ProofText ProofFuncRe ProofFuncLex ProofFuncCutLex SpecFuncTokens.
Import ListNotations.
Local Open Scope N_scope.

(** * Languages of the patterns *)

Definition single (r : re) (P : N -> Prop) : Prop := forall x, lang r x <-> exists c, x = [c] /\ P c.
Lemma single_set f (P : N -> Prop) : (forall c, f c = true <-> P c) -> single (RSet f) P.
Proof.
  intros H x. split.
  - intros Hl. apply lang_set_inv in Hl as (c & -> & Hc). exists c. split; [reflexivity|]. apply H. exact Hc.
  - intros (c & -> & Hc). constructor. apply H. exact Hc.
Qed.
Lemma single_alt a b P Q R : single a P -> single b Q -> (forall c, P c \/ Q c <-> R c) -> single (RAlt a b) R.
Proof.
  intros Ha Hb H x. split.
  - intros Hl. apply lang_alt_inv in Hl as [Hl|Hl]; [apply Ha in Hl as (c & -> & Hc)|apply Hb in Hl as (c & -> & Hc)]; exists c; split; auto; apply H; auto.
  - intros (c & -> & Hc). apply H in Hc as [Hc|Hc]; [apply lang_alt_l, Ha|apply lang_alt_r, Hb]; eauto.
Qed.
Lemma star_single r P s : single r P -> (lang (RStar r) s <-> Forall P s).
Proof.
  intros Hr. split.
  - intros H. remember (RStar r) as r' eqn:E. induction H as [| | | | | |a u v Hu _ Hv IH]; try discriminate; [constructor|]. injection E as ->.
    apply Hr in Hu as (c & -> & Hc). cbn. constructor; auto.
  - induction 1 as [|c s Hc Hs IH]; [constructor|]. change (c :: s) with ([c] ++ s). constructor; [apply Hr; eauto|exact IH].
Qed.
Lemma plus_single r P s : single r P -> (lang (RPlus r) s <-> s <> [] /\ Forall P s).
Proof.
  intros Hr. split.
  - intros H. apply lang_cat_inv in H as (u & v & -> & Hu & Hv). apply Hr in Hu as (c & -> & Hc). apply (star_single r P v Hr) in Hv. split; [discriminate|]. constructor; assumption.
  - intros [Hn Hs]. destruct s as [|c s]; [contradiction|]. inversion Hs; subst. change (c :: s) with ([c] ++ s). constructor; [apply Hr; eauto|]. apply (star_single r P s Hr). assumption.
Qed.

Lemma single_chr d : single (RChr d) (fun c => c = d).
Proof. apply single_set. intros c. rewrite N.eqb_eq. split; auto. Qed.
Lemma single_space : single (RSet is_space) blank.
Proof. apply single_set. intros c. unfold is_space, blank. lia. Qed.
Lemma single_digit : single DIGIT is_digit.
Proof. apply single_set. intros c. unfold range, is_digit. lia. Qed.
Lemma single_alpha : single ALPHA letter.
Proof. apply single_set. intros c. unfold range, letter. lia. Qed.
Lemma single_alnum : single ALNUM (fun c => letter c \/ is_digit c).
Proof. eapply single_alt; [apply single_alpha|apply single_digit|]. tauto. Qed.
Lemma single_base : single PN_CHARS_BASE (fun c => letter c \/ non_ascii c).
Proof. eapply single_alt; [apply single_alpha|apply (single_set _ non_ascii); intros c; unfold range, non_ascii; lia|]. tauto. Qed.
Lemma single_u : single PN_CHARS_U (fun c => letter c \/ non_ascii c \/ c = 95).
Proof. eapply single_alt; [apply single_base|apply single_chr|]. cbn. intros c. tauto. Qed.
Lemma single_chars : single PN_CHARS (fun c => inner_char c /\ c <> 46).
Proof.
  eapply single_alt; [eapply (single_alt _ _ _ _ (fun c => letter c \/ non_ascii c \/ c = 95 \/ c = 45)); [apply single_u|apply single_chr|]|apply single_digit|]; cbn; intros c.
  - tauto.
  - unfold inner_char, letter, non_ascii, is_digit. lia.
Qed.
Lemma single_inner : single (RAlt PN_CHARS (RChr 46)) inner_char.
Proof. eapply single_alt; [apply single_chars|apply single_chr|]. cbn. intros c. unfold inner_char, letter, non_ascii, is_digit. lia. Qed.
Lemma single_local : single (RAlt PN_CHARS_U DIGIT) (fun c => letter c \/ non_ascii c \/ c = 95 \/ is_digit c).
Proof. eapply single_alt; [apply single_u|apply single_digit|]. cbn. intros c. tauto. Qed.

Lemma rest_lang c r : c <> 46 -> (lang (ROpt (RCat (RStar (RAlt PN_CHARS (RChr 46))) PN_CHARS)) r <-> Forall inner_char r /\ no_final_dot (c :: r)).
Proof.
  intros Hc. split.
  - intros H. apply lang_alt_inv in H as [H|H].
    + apply lang_cat_inv in H as (u & v & -> & Hu & Hv). apply (star_single _ _ _ single_inner) in Hu. apply single_chars in Hv as (d & -> & Hd & Hd'). split.
      * apply Forall_app. split; [exact Hu|]. constructor; [exact Hd|constructor].
      * intros x E. apply (f_equal (fun l => last l 0)) in E. change (c :: u ++ [d]) with ((c :: u) ++ [d]) in E. rewrite !last_last in E. contradiction.
    + apply lang_eps_inv in H. subst. split; [constructor|]. intros x E. destruct x as [|? [|]]; try discriminate. injection E as E. contradiction.
  - intros [H1 H2]. eapply lang_rest; eassumption.
Qed.
Lemma local_lang s : lang PN_LOCAL s <-> local_name s.
Proof.
  split; [|apply lang_local]. intros H. apply lang_cat_inv in H as (u & v & -> & Hu & Hv). apply single_local in Hu as (c & -> & Hc).
  apply (rest_lang c) in Hv as [H1 H2]; [|unfold letter, non_ascii, is_digit in Hc; lia]. exists c, v. auto.
Qed.
Lemma prefix_lang s : lang R_PNAME_NS s <-> exists p, s = p ++ [58] /\ prefix_name p.
Proof.
  split; [|intros (p & -> & Hp); apply lang_prefix; exact Hp]. intros H. apply lang_cat_inv in H as (u & v & -> & Hu & Hv). apply single_chr in Hv as (c & -> & ->).
  exists u. split; [reflexivity|]. apply lang_alt_inv in Hu as [Hu|Hu]; [|apply lang_eps_inv in Hu; now left].
  apply lang_cat_inv in Hu as (x & y & -> & Hx & Hy). apply single_base in Hx as (c & -> & Hc).
  apply (rest_lang c) in Hy as [H1 H2]; [|unfold letter, non_ascii in Hc; lia]. right. exists c, y. auto.
Qed.
Lemma subtags_lang s : lang (RStar (RCat (RChr 45) (RPlus ALNUM))) s <->
  exists ps, s = flat_map (fun p => 45 :: p) ps /\ Forall (fun p => p <> [] /\ Forall (fun c => letter c \/ is_digit c) p) ps.
Proof.
  split.
  - intros H. remember (RStar _) as r' eqn:E. induction H as [| | | | | |a u v Hu _ Hv IH]; try discriminate; [exists []; split; [reflexivity|constructor]|]. injection E as ->.
    destruct (IH eq_refl) as (ps & -> & Hp). apply lang_cat_inv in Hu as (x & y & -> & Hx & Hy). apply single_chr in Hx as (c & -> & ->).
    apply (plus_single _ _ _ single_alnum) in Hy. exists (y :: ps). split; [reflexivity|]. constructor; assumption.
  - intros (ps & -> & H). induction H as [|p ps Hp H IH]; [constructor|]. cbn [flat_map]. constructor; [|exact IH]. change (45 :: p) with ([45] ++ p).
    constructor; [apply single_chr; eauto|]. apply (plus_single _ _ _ single_alnum). exact Hp.
Qed.
Lemma tag_lang s : lang R_LANG_TAG s <-> exists l, s = 64 :: l /\ tag l.
Proof.
  split.
  - intros H. apply lang_cat_inv in H as (u & v & -> & Hu & Hv). apply single_chr in Hu as (c & -> & ->). apply lang_cat_inv in Hv as (x & y & -> & Hx & Hy).
    apply (plus_single _ _ _ single_alpha) in Hx as [H1 H2]. apply subtags_lang in Hy as (ps & -> & Hp). eexists. split; [reflexivity|]. exists x, ps. auto.
  - intros (l & -> & a & ps & -> & H1 & H2 & H3). change (64 :: a ++ flat_map (fun p => 45 :: p) ps) with ([64] ++ (a ++ flat_map (fun p => 45 :: p) ps)).
    constructor; [apply single_chr; eauto|]. constructor; [apply (plus_single _ _ _ single_alpha); auto|]. apply subtags_lang. eauto.
Qed.
Lemma iri_lang s : lang R_IRI_REF s <-> exists u, s = 60 :: u ++ [62] /\ Forall iri_char u.
Proof.
  split; [apply iri_ref_shape|]. intros (u & -> & H). change (60 :: u ++ [62]) with ([60] ++ (u ++ [62])). constructor; [apply single_chr; eauto|].
  constructor; [|apply single_chr; eauto]. apply (star_single _ iri_char); [|exact H]. apply single_set. intros c. symmetry. apply iri_char_b.
Qed.
Lemma comment_lang s : lang COMMENT s <-> exists u, s = 35 :: u /\ ~ In 10 u.
Proof.
  assert (Hs : single (RSet (fun c => negb (c =? 10))) (fun c => c <> 10)) by (apply single_set; intros c; lia). split.
  - intros H. apply lang_cat_inv in H as (u & v & -> & Hu & Hv). apply single_chr in Hu as (c & -> & ->). apply (star_single _ _ _ Hs) in Hv. exists v. split; [reflexivity|].
    intros Hin. rewrite Forall_forall in Hv. exact (Hv 10 Hin eq_refl).
  - intros (u & -> & H). change (35 :: u) with ([35] ++ u). constructor; [apply single_chr; eauto|]. apply (star_single _ _ _ Hs). apply Forall_forall. intros c Hin ->. contradiction.
Qed.
Lemma keywords_spelled s k : In (s, k) keywords <-> s = spelling k.
Proof.
  assert (Hf : forall e, In e keywords -> fst e = spelling (snd e)) by (apply Forall_forall; repeat constructor).
  split; [intros Hin; exact (Hf _ Hin)|]. intros ->.
  assert (H : existsb (fun e => if kw_eq_dec (snd e) k then true else false) keywords = true) by (destruct k; vm_compute; reflexivity).
  apply existsb_exists in H as ([s k'] & Hin & H). cbn in H. destruct (kw_eq_dec k' k) as [->|]; [|discriminate]. pose proof (Hf _ Hin) as E. cbn in E. rewrite <- E. exact Hin.
Qed.

Section Width.
  Variable w : N.
  Notation rules := (initial_rules w).
  Notation L := (L w).
  Notation lexeme := (lexeme w).
  Notation longest := (SpecFuncTokens.longest w).
  Notation cut := (cut w).

  (** What an action does with a lexeme. *)
  Definition acts (a : action) (x : bytes) (t : option token) : Prop :=
    match t with None => a = ASkip | Some t => exists mk, a = AToken mk /\ mk x = t end.
  Definition byte_token : action := AToken (fun s => TChar (nth 0 s 0)).

  (** Rules before the last one. *)
  Definition lexical : list (re * action) := removelast rules.
  Lemma rules_last : rules = lexical ++ [(RDot, byte_token)].
  Proof. reflexivity. Qed.

  Lemma rule_in n r a : nth_error lexical n = Some (r, a) -> In (r, a) lexical.
  Proof. apply nth_error_In. Qed.
  Lemma lexeme_rule x t : lexeme x t -> exists r a, In (r, a) lexical /\ lang r x /\ acts a x t.
  Proof.
    intros H. destruct H as [s Hn Hs|s Hs|k|s Hn Hs|s Hs|p Hp|p l Hp Hl|l Hl|l Hl| | | |].
    - exists WHITESPACE, ASkip. split; [apply (rule_in 0); reflexivity|]. split; [apply (plus_single _ _ _ single_space); auto|reflexivity].
    - exists COMMENT, ASkip. split; [apply (rule_in 83); reflexivity|]. split; [apply comment_lang; eauto|reflexivity].
    - exists (RStr (bs (spelling k))), (AToken (fun _ => TKw k)). split; [|split; [apply lang_str; reflexivity|eexists; split; reflexivity]].
      unfold lexical. assert (Hk : In (spelling k, k) keywords) by (apply keywords_spelled; reflexivity).
      apply (in_map (fun k => (RStr (bs (fst k)), AToken (fun _ => TKw (snd k))))) in Hk. right.
      change (In (RStr (bs (spelling k)), AToken (fun _ => TKw k)) (map (fun k => (RStr (bs (fst k)), AToken (fun _ => TKw (snd k)))) keywords ++ skipn 72 lexical)).
      apply in_or_app. left. exact Hk.
    - exists R_NON_NEGATIVE_INTEGER, (AToken (fun s => TInt (str_to_uint w s))). split; [apply (rule_in 72); reflexivity|].
      split; [apply (plus_single _ _ _ single_digit); auto|]. eexists. split; [reflexivity|]. cbn. rewrite str_to_uint_digits by exact Hs. reflexivity.
    - exists R_IRI_REF, (AToken (fun s => TIriRef (trim 1 1 s))). split; [apply (rule_in 73); reflexivity|]. split; [apply iri_lang; eauto|].
      eexists. split; [reflexivity|]. cbn beta. f_equal. apply (trim_pre [60] [62] s); reflexivity.
    - exists R_PNAME_NS, (AToken (fun s => TPnameNs (trim 0 1 s))). split; [apply (rule_in 74); reflexivity|]. split; [apply prefix_lang; eauto|].
      eexists. split; [reflexivity|]. cbn beta. f_equal. apply trim_0_1.
    - exists R_PNAME_LN, (AToken (fun s => TPnameLn s)). split; [apply (rule_in 75); reflexivity|]. split; [|eexists; split; reflexivity].
      change (p ++ 58 :: l) with (p ++ [58] ++ l). rewrite app_assoc. constructor; [apply prefix_lang; eauto|apply local_lang; exact Hl].
    - exists R_BLANK_NODE_LABEL, (AToken (fun s => TBlank (trim 2 0 s))). split; [apply (rule_in 76); reflexivity|]. split.
      + change (95 :: 58 :: l) with ([95] ++ [58] ++ l). constructor; [apply single_chr; eauto|]. constructor; [apply single_chr; eauto|apply local_lang; exact Hl].
      + eexists. split; [reflexivity|]. cbn beta. f_equal. pose proof (trim_pre [95; 58] [] l 2 0 eq_refl eq_refl) as E. rewrite app_nil_r in E. exact E.
    - exists R_LANG_TAG, (AToken (fun s => TLang (trim 1 0 s))). split; [apply (rule_in 77); reflexivity|]. split; [apply tag_lang; eauto|].
      eexists. split; [reflexivity|]. cbn beta. f_equal. pose proof (trim_pre [64] [] l 1 0 eq_refl eq_refl) as E. rewrite app_nil_r in E. exact E.
    - exists (RStr (bs "^^")), (AToken (fun _ => TCaret)). split; [apply (rule_in 79); reflexivity|]. split; [apply lang_str; reflexivity|eexists; split; reflexivity].
    - exists (RStr (bs "(")), (AToken (fun _ => TLParen)). split; [apply (rule_in 80); reflexivity|]. split; [apply lang_str; reflexivity|eexists; split; reflexivity].
    - exists (RStr (bs ")")), (AToken (fun _ => TRParen)). split; [apply (rule_in 81); reflexivity|]. split; [apply lang_str; reflexivity|eexists; split; reflexivity].
    - exists (RStr (bs "=")), (AToken (fun _ => TEquals)). split; [apply (rule_in 82); reflexivity|]. split; [apply lang_str; reflexivity|eexists; split; reflexivity].
  Qed.
  Lemma rule_lexeme r a x : In (r, a) lexical -> lang r x -> (exists t, lexeme x t /\ acts a x t) \/ (x = [34] /\ a = AQuote).
  Proof.
    intros Hin Hl. change lexical with ((WHITESPACE, ASkip) :: map (fun k => (RStr (bs (fst k)), AToken (fun _ => TKw (snd k)))) keywords ++ skipn 72 lexical) in Hin.
    destruct Hin as [E|Hin].
    { injection E as <- <-. left. exists None. apply (plus_single _ _ _ single_space) in Hl as [H1 H2]. split; [apply lx_blank; assumption|reflexivity]. }
    apply in_app_or in Hin as [Hin|Hin].
    { apply in_map_iff in Hin as ([s k] & E & Hk). injection E as <- <-. apply keywords_spelled in Hk as ->. apply lang_str in Hl as ->. left. eexists. split; [apply lx_word|].
      eexists. split; reflexivity. }
    cbn in Hin. destruct Hin as [E|[E|[E|[E|[E|[E|[E|[E|[E|[E|[E|[E|[]]]]]]]]]]]]]; injection E as <- <-.
    - apply (plus_single _ _ _ single_digit) in Hl as [H1 H2]. left. eexists. split; [apply lx_number; assumption|]. eexists. split; [reflexivity|]. cbn. rewrite str_to_uint_digits by exact H2. reflexivity.
    - apply iri_lang in Hl as (u & -> & Hu). left. eexists. split; [apply lx_iri; exact Hu|]. eexists. split; [reflexivity|]. cbn beta. f_equal. apply (trim_pre [60] [62] u); reflexivity.
    - apply prefix_lang in Hl as (p & -> & Hp). left. eexists. split; [apply lx_prefix; exact Hp|]. eexists. split; [reflexivity|]. cbn beta. f_equal. apply trim_0_1.
    - apply lang_cat_inv in Hl as (u & v & -> & Hu & Hv). apply prefix_lang in Hu as (p & -> & Hp). apply local_lang in Hv. rewrite <- app_assoc. cbn [app].
      left. eexists. split; [apply lx_short; assumption|]. eexists. split; reflexivity.
    - apply lang_cat_inv in Hl as (u & v & -> & Hu & Hv). apply single_chr in Hu as (? & -> & ->). apply lang_cat_inv in Hv as (u & l & -> & Hu & Hv). apply single_chr in Hu as (? & -> & ->).
      apply local_lang in Hv. left. eexists. split; [apply lx_node; exact Hv|]. eexists. split; [reflexivity|]. cbn beta. f_equal.
      pose proof (trim_pre [95; 58] [] l 2 0 eq_refl eq_refl) as E. rewrite app_nil_r in E. exact E.
    - apply tag_lang in Hl as (l & -> & Hl). left. eexists. split; [apply lx_tag; exact Hl|]. eexists. split; [reflexivity|]. cbn beta. f_equal.
      pose proof (trim_pre [64] [] l 1 0 eq_refl eq_refl) as E. rewrite app_nil_r in E. exact E.
    - apply single_chr in Hl as (? & -> & ->). right. auto.
    - apply (lang_str (bs "^^")) in Hl as ->. left. eexists. split; [apply lx_carets|]. eexists. split; reflexivity.
    - apply (lang_str (bs "(")) in Hl as ->. left. eexists. split; [apply lx_lparen|]. eexists. split; reflexivity.
    - apply (lang_str (bs ")")) in Hl as ->. left. eexists. split; [apply lx_rparen|]. eexists. split; reflexivity.
    - apply (lang_str (bs "=")) in Hl as ->. left. eexists. split; [apply lx_equals|]. eexists. split; reflexivity.
    - apply comment_lang in Hl as (u & -> & Hu). left. eexists. split; [apply lx_comment; exact Hu|reflexivity].
  Qed.

  (** ** A lexeme is one token *)

  Definition lexeme_class (x : bytes) : N :=
    match x with
    | [] => 0
    | c :: _ => if is_space c then 1 else if c =? 35 then 2 else if range 48 57 c then 3 else if c =? 60 then 4 else if c =? 95 then 5 else if c =? 64 then 6
        else if c =? 94 then 7 else if c =? 40 then 8 else if c =? 41 then 9 else if c =? 61 then 10
        else if existsb (N.eqb 58) x then if last x 0 =? 58 then 11 else 12 else 13
    end.
  Inductive classed : N -> bytes -> option token -> Prop :=
  | cl1 s : classed 1 s None
  | cl2 s : classed 2 s None
  | cl3 s : classed 3 s (Some (TInt (dec_value s mod 2 ^ w)))
  | cl4 s : classed 4 (60 :: s ++ [62]) (Some (TIriRef s))
  | cl5 l : classed 5 (95 :: 58 :: l) (Some (TBlank l))
  | cl6 l : classed 6 (64 :: l) (Some (TLang l))
  | cl7 s : classed 7 s (Some TCaret)
  | cl8 s : classed 8 s (Some TLParen)
  | cl9 s : classed 9 s (Some TRParen)
  | cl10 s : classed 10 s (Some TEquals)
  | cl11 p : classed 11 (p ++ [58]) (Some (TPnameNs p))
  | cl12 s : classed 12 s (Some (TPnameLn s))
  | cl13 k : classed 13 (bs (spelling k)) (Some (TKw k)).
  Lemma name_first c x : letter c \/ non_ascii c \/ c = 58 -> lexeme_class (c :: x) =
    if existsb (N.eqb 58) (c :: x) then if last (c :: x) 0 =? 58 then 11 else 12 else 13.
  Proof.
    intros Hc. unfold lexeme_class. unfold letter, non_ascii in Hc.
    replace (is_space c) with false by (unfold is_space; lia). replace (c =? 35) with false by lia. replace (range 48 57 c) with false by (unfold range; lia).
    replace (c =? 60) with false by lia. replace (c =? 95) with false by lia. replace (c =? 64) with false by lia. replace (c =? 94) with false by lia.
    replace (c =? 40) with false by lia. replace (c =? 41) with false by lia. replace (c =? 61) with false by lia. reflexivity.
  Qed.
  Lemma existsb_58 p l : existsb (N.eqb 58) (p ++ 58 :: l) = true.
  Proof. apply existsb_exists. exists 58. split; [apply in_or_app; right; now left|reflexivity]. Qed.
  Lemma short_first p l : prefix_name p -> exists c x, p ++ 58 :: l = c :: x /\ (letter c \/ non_ascii c \/ c = 58).
  Proof. intros [->|(c & r & -> & Hc & _)]; [exists 58, l; split; [reflexivity|auto]|exists c, (r ++ 58 :: l); split; [reflexivity|tauto]]. Qed.
  Lemma word_class k : lexeme_class (bs (spelling k)) = 13.
  Proof. destruct k; vm_compute; reflexivity. Qed.
  Lemma local_end p l : local_name l -> last (p ++ 58 :: l) 0 =? 58 = false.
  Proof.
    intros H. destruct (local_last l H) as (u & z & -> & Hz). replace (p ++ 58 :: u ++ [z]) with ((p ++ 58 :: u) ++ [z]) by (rewrite <- app_assoc; reflexivity).
    rewrite last_last. unfold byteset, inner_b, name1_b, is_letter, range in Hz. lia.
  Qed.
  Lemma lexeme_classed x t : lexeme x t -> classed (lexeme_class x) x t.
  Proof.
    intros H. destruct H as [s Hn Hs|s Hs|k|s Hn Hs|s Hs|p Hp|p l Hp Hl|l Hl|l Hl| | | |]; try (constructor; fail).
    - destruct s as [|c s]; [contradiction|]. inversion Hs as [|? ? Hc _]; subst. assert (E : is_space c = true) by (unfold is_space, blank in *; lia). cbn [lexeme_class]. rewrite E. constructor.
    - rewrite word_class. constructor.
    - destruct s as [|c s]; [contradiction|]. inversion Hs as [|? ? Hc _]; subst. cbn [lexeme_class]. unfold is_digit in Hc. replace (is_space c) with false by (unfold is_space; lia).
      replace (c =? 35) with false by lia. replace (range 48 57 c) with true by (unfold range; lia). constructor.
    - destruct (short_first p [] Hp) as (c & x & E & Hc). rewrite E at 1. rewrite (name_first c x Hc), <- E, existsb_58, last_last. cbn. constructor.
    - destruct (short_first p l Hp) as (c & x & E & Hc). rewrite E at 1. rewrite (name_first c x Hc), <- E, existsb_58, local_end by exact Hl. constructor.
  Qed.
  Lemma spelling_inj k k' : bs (spelling k) = bs (spelling k') -> k = k'.
  Proof.
    intros E. assert (H : In (spelling k, k) keywords) by (apply keywords_spelled; reflexivity). assert (H' : In (spelling k', k') keywords) by (apply keywords_spelled; reflexivity).
    pose proof (picks_keyword keywords [] _ _ keywords_nodup H) as P. pose proof (picks_keyword keywords [] _ _ keywords_nodup H') as P'.
    rewrite <- E in P'. pose proof (picks_fun _ _ _ _ P P') as Ea. apply (f_equal (fun a => match a with AToken mk => mk [] | _ => TLParen end)) in Ea. injection Ea as ->. reflexivity.
  Qed.
  Lemma lexeme_fun x t t' : lexeme x t -> lexeme x t' -> t = t'.
  Proof.
    intros H H'. apply lexeme_classed in H. apply lexeme_classed in H'. remember (lexeme_class x) as n eqn:En. clear En. revert H'.
    destruct H; intros H'; inversion H'; subst; try reflexivity.
    - f_equal. f_equal. apply app_inj_tail in H. symmetry. apply H.
    - f_equal. f_equal. apply app_inj_tail in H. symmetry. apply H.
    - f_equal. f_equal. apply spelling_inj. symmetry. assumption.
  Qed.
  Lemma lexeme_nonempty x t : lexeme x t -> x <> [].
  Proof.
    intros H. destruct H as [s Hn Hs|s Hs|k|s Hn Hs|s Hs|p Hp|p l Hp Hl|l Hl|l Hl| | | |]; try assumption; try discriminate.
    - destruct k; discriminate.
    - destruct p; discriminate.
    - destruct p; discriminate.
  Qed.
  Lemma lexeme_quote u t : ~ lexeme (34 :: u) t.
  Proof.
    intros H. destruct (lexeme_rule _ _ H) as (r & a & Hin & Hl & Ha).
    assert (E : forallb (fun e => negb (first_char (fst e) 34) || match snd e with AQuote => true | _ => false end) lexical = true) by (vm_compute; reflexivity).
    rewrite forallb_forall in E. specialize (E _ Hin). cbn [fst snd] in E. rewrite (first_ok _ _ Hl 34 u eq_refl) in E. cbn in E.
    destruct a; try discriminate. destruct t; cbn in Ha; [destruct Ha as (? & ? & _)|]; discriminate.
  Qed.

  (** ** What the rules pick *)

  Lemma picks_last {A} (rs : list (re * A)) r a b x : picks (rs ++ [(r, a)]) x b -> picks rs x b \/ (none rs x /\ lang r x /\ a = b).
  Proof.
    induction rs as [|[r' a'] rs IH]; cbn [app]; intros H; inversion H; subst.
    - right. split; [intros ? ? []|]. auto.
    - match goal with H : picks [] _ _ |- _ => inversion H end.
    - left. constructor. assumption.
    - destruct (IH ltac:(assumption)) as [H1|(H1 & H2 & ->)]; [left; apply picks_later; assumption|]. right. split; [|auto].
      intros r2 a2 [E|Hin]; [injection E as -> ->; assumption|eapply H1; exact Hin].
  Qed.
  Lemma picks_lexeme x a t : lexeme x t -> picks rules x a -> acts a x t.
  Proof.
    intros H P. rewrite rules_last in P. destruct (lexeme_rule _ _ H) as (r0 & a0 & Hin0 & Hl0 & _). apply picks_last in P as [P|(P & _)].
    - apply picks_rule in P as (r & Hin & Hl). destruct (rule_lexeme _ _ _ Hin Hl) as [(t' & H' & Ha)|[-> _]].
      + rewrite (lexeme_fun _ _ _ H H'). exact Ha.
      + exfalso. exact (lexeme_quote _ _ H).
    - exfalso. exact (P _ _ Hin0 Hl0).
  Qed.
  Lemma picks_cases x a : picks rules x a -> (exists t, lexeme x t /\ acts a x t) \/ (x = [34] /\ a = AQuote) \/
    (exists c, x = [c] /\ a = byte_token /\ c <> 34 /\ forall t, ~ lexeme x t).
  Proof.
    intros P. rewrite rules_last in P. apply picks_last in P as [P|(P & Hl & <-)].
    - apply picks_rule in P as (r & Hin & Hl). destruct (rule_lexeme _ _ _ Hin Hl) as [H|H]; auto.
    - right. right. apply lang_set_inv in Hl as (c & -> & _). exists c. split; [reflexivity|]. split; [reflexivity|]. split.
      + intros ->. apply (P QMARK AQuote); [apply (rule_in 78); reflexivity|]. apply single_chr. eauto.
      + intros t H. destruct (lexeme_rule _ _ H) as (r0 & a0 & Hin0 & Hl0 & _). exact (P _ _ Hin0 Hl0).
  Qed.
  Lemma rules_match x : ~ none rules x <-> (exists t, lexeme x t) \/ (exists c, x = [c]).
  Proof.
    split.
    - intros H. destruct (picks_or_none rules x) as [[a P]|P]; [|contradiction]. destruct (picks_cases _ _ P) as [(t & Ht & _)|[[-> _]|(c & -> & _)]]; eauto.
    - intros [[t H]|[c ->]] P.
      + destruct (lexeme_rule _ _ H) as (r & a & Hin & Hl & _). apply (P r a); [|exact Hl]. rewrite rules_last. apply in_or_app. now left.
      + destruct (initial_any w c) as [a Pa]. exact (picks_not_none _ _ _ Pa P).
  Qed.

  (** * Cutting *)

  Lemma app_firstn {A} (x rest : list A) : firstn (List.length x) (x ++ rest) = x.
  Proof. rewrite firstn_app, firstn_all, Nat.sub_diag. cbn. apply app_nil_r. Qed.
  Lemma app_skipn {A} (x rest : list A) : skipn (List.length x) (x ++ rest) = rest.
  Proof. rewrite skipn_app, skipn_all, Nat.sub_diag. reflexivity. Qed.
  Lemma prefix_firstn {A} (y u s : list A) : s = y ++ u -> y = firstn (List.length y) s.
  Proof. intros ->. symmetry. apply app_firstn. Qed.
  (** One step outside strings. *)
  Lemma L_at x rest a : x <> [] -> picks rules x a -> longest x rest -> L None (x ++ rest) = after None a x (fun q => L q rest).
  Proof.
    intros Hx P Hl. assert (E : scan (rules_q w None) (x ++ rest) 0 None = Some (List.length x, a)).
    { apply scan_spec. split; [rewrite app_length; lia|]. split; [rewrite app_firstn; exact P|]. intros k Hk Hk'.
      assert (Hd : List.length (firstn k (x ++ rest)) = k) by (apply firstn_length_le; exact Hk').
      destruct (picks_or_none (initial_rules w) (firstn k (x ++ rest))) as [[b Pb]|Pn]; [|exact Pn]. exfalso.
      assert (Hx1 : (1 <= List.length x)%nat) by (destruct x; [contradiction|cbn; lia]).
      destruct (picks_cases _ _ Pb) as [(t & Ht & _)|[[E _]|(c & E & _)]].
      - specialize (Hl _ t (skipn k (x ++ rest)) Ht). rewrite firstn_skipn in Hl. specialize (Hl eq_refl). lia.
      - rewrite E in Hd. cbn in Hd. lia.
      - rewrite E in Hd. cbn in Hd. lia. }
    destruct x as [|c x]; [contradiction|]. cbn [app] in *. cbn [List.length] in E.
    rewrite (L_scan w None c (x ++ rest) _ _ E) by (rewrite app_length; lia).
    change (c :: x ++ rest) with ((c :: x) ++ rest). change (S (List.length x)) with (List.length (c :: x)). rewrite app_firstn, app_skipn. reflexivity.
  Qed.
  Lemma L_some c s : exists x rest a, c :: s = x ++ rest /\ x <> [] /\ picks rules x a /\ longest x rest /\
    (forall y t u, lexeme y t -> c :: s = y ++ u -> (List.length y <= List.length x)%nat).
  Proof.
    destruct (scan_progress w None c s) as (n & a & E & Hn & _). pose proof E as E'. apply scan_spec in E' as (H1 & H2 & H3).
    exists (firstn (S n) (c :: s)), (skipn (S n) (c :: s)), a. rewrite firstn_skipn. split; [reflexivity|]. split; [discriminate|]. split; [exact H2|].
    assert (Hm : forall y t u, lexeme y t -> c :: s = y ++ u -> (List.length y <= List.length (firstn (S n) (c :: s)))%nat).
    { intros y t u Hy Ey. rewrite (firstn_length_le (c :: s) H1). destruct (Nat.le_gt_cases (List.length y) (S n)) as [|Hgt]; [assumption|]. exfalso.
      assert (Hlen : (List.length y <= List.length (c :: s))%nat) by (rewrite Ey, app_length; lia).
      specialize (H3 _ Hgt Hlen). rewrite <- (prefix_firstn _ _ _ Ey) in H3. apply (proj2 (rules_match y)); [left; eauto|exact H3]. }
    split; [|exact Hm]. intros y t u Hy Ey. rewrite firstn_skipn in Ey. eapply Hm; eassumption.
  Qed.

  (** One step inside strings. *)
  Lemma plain_run s : exists x rest, s = x ++ rest /\ Forall plain x /\ starts (fun c => (c =? 34) || (c =? 92)) rest.
  Proof.
    induction s as [|c s (x & rest & -> & Hx & Hr)]; [exists [], []; split; [reflexivity|]; split; [constructor|now left]|].
    destruct (N.eq_dec c 34) as [->|H34]; [exists [], (34 :: x ++ rest); split; [reflexivity|]; split; [constructor|right; eexists; eexists; split; reflexivity]|].
    destruct (N.eq_dec c 92) as [->|H92]; [exists [], (92 :: x ++ rest); split; [reflexivity|]; split; [constructor|right; eexists; eexists; split; reflexivity]|].
    exists (c :: x), rest. split; [reflexivity|]. split; [constructor; [split; assumption|exact Hx]|exact Hr].
  Qed.
  Lemma L_plain buf c rest : c <> 34 -> c <> 92 -> L (Some buf) (c :: rest) = L (Some (buf ++ [c])) rest.
  Proof.
    intros H1 H2. destruct (plain_run rest) as (x & r & -> & Hx & Hr).
    change (c :: x ++ r) with ((c :: x) ++ r). rewrite (L_run w buf (c :: x) r); [|discriminate|constructor; [split; assumption|exact Hx]|exact Hr].
    destruct x as [|d x]; [reflexivity|]. assert (Hne : d :: x <> []) by discriminate. pose proof (L_run w (buf ++ [c]) (d :: x) r Hne Hx Hr) as E. rewrite <- app_assoc in E. symmetry. exact E.
  Qed.
  Lemma L_stray buf rest : (forall c r, rest = c :: r -> c <> 34 /\ c <> 92) -> L (Some buf) (92 :: rest) = option_map (cons (TChar 92)) (L (Some buf) rest).
  Proof.
    intros Hr. assert (E : scan (rules_q w (Some buf)) (92 :: rest) 0 None = Some (1%nat, byte_token)).
    { apply scan_spec. split; [cbn; lia|]. split.
      - cbn [firstn rules_q]. apply picks_later; [intros H; pose proof (chars_ok _ _ H 92 ltac:(left; reflexivity)) as H'; discriminate|].
        apply picks_later; [intros H; apply lang_alt_inv in H as [H|H]; apply lang_cat_inv in H as (u & v & E & Hu & Hv); apply single_chr in Hu as (? & -> & ->);
          apply single_chr in Hv as (? & -> & ->); discriminate|].
        apply picks_later; [intros H; apply single_chr in H as (? & E & ->); discriminate|].
        apply picks_here. constructor. reflexivity.
      - intros k Hk Hk' r a Hin Hl. destruct k as [|[|k]]; [lia|lia|]. destruct rest as [|d rest]; [cbn in Hk'; lia|]. destruct (Hr d rest eq_refl) as [Hd1 Hd2].
        cbn [firstn] in Hl. destruct Hin as [Ei|[Ei|[Ei|[Ei|[]]]]]; injection Ei as <- _.
        + pose proof (chars_ok _ _ Hl 92 ltac:(left; reflexivity)) as H. discriminate.
        + apply lang_alt_inv in Hl as [H|H]; apply lang_cat_inv in H as (u & v & E & Hu & Hv); apply single_chr in Hu as (? & -> & ->);
          apply single_chr in Hv as (? & -> & ->); injection E as E _; contradiction.
        + pose proof (max_len_ok _ _ Hl 1%nat eq_refl) as H. cbn in H. lia.
        + pose proof (max_len_ok _ _ Hl 1%nat eq_refl) as H. cbn in H. lia. }
    rewrite (L_scan w (Some buf) 92 rest 0 _ E) by lia. reflexivity.
  Qed.

  Theorem L_cut q b ts : cut q b ts -> L q b = Some ts.
  Proof.
    induction 1 as [q|x rest ts Hx Hl H IH|x t rest ts Hx Hl H IH|c rest ts Hc Hn H IH|rest ts H IH|s c rest ts H1 H2 H IH|s c rest ts Hc H IH|s rest ts Hr H IH|s rest ts H IH].
    - apply L_nil.
    - destruct (picks_or_none rules x) as [[a P]|P]; [|exfalso; apply (proj2 (rules_match x)); [left; eauto|exact P]].
      rewrite (L_at x rest a (lexeme_nonempty _ _ Hx) P Hl). rewrite (picks_lexeme _ _ _ Hx P). exact IH.
    - destruct (picks_or_none rules x) as [[a P]|P]; [|exfalso; apply (proj2 (rules_match x)); [left; eauto|exact P]].
      rewrite (L_at x rest a (lexeme_nonempty _ _ Hx) P Hl). destruct (picks_lexeme _ _ _ Hx P) as (mk & -> & <-). cbn [after]. rewrite IH. reflexivity.
    - destruct (initial_any w c) as [a P]. change (c :: rest) with ([c] ++ rest). rewrite (L_at [c] rest a); [|discriminate|exact P|].
      + destruct (picks_cases _ _ P) as [(t & Ht & _)|[[E _]|(d & E & -> & _)]].
        * exfalso. exact (Hn _ _ rest Ht eq_refl).
        * injection E as E. contradiction.
        * unfold byte_token; cbn [after nth]. rewrite IH. reflexivity.
      + intros y t u Hy E. exfalso. exact (Hn _ _ _ Hy E).
    - rewrite L_open. exact IH.
    - rewrite L_plain; assumption.
    - rewrite L_escaped; assumption.
    - rewrite L_stray by exact Hr. rewrite IH. reflexivity.
    - rewrite L_quote, IH. reflexivity.
  Qed.
  Theorem cut_L : forall n q b, (List.length b <= n)%nat -> exists ts, cut q b ts.
  Proof.
    intros n. induction n as [|n IH]; intros q b Hb.
    { destruct b; [|cbn in Hb; lia]. exists []. apply cut_end. }
    destruct b as [|c b]; [exists []; apply cut_end|]. cbn [List.length] in Hb. destruct q as [buf|].
    - destruct (N.eq_dec c 34) as [->|H34]; [destruct (IH None b ltac:(lia)) as [ts H]; eexists; apply cut_close; exact H|].
      destruct (N.eq_dec c 92) as [->|H92]; [|destruct (IH (Some (buf ++ [c])) b ltac:(lia)) as [ts H]; eexists; apply cut_plain; eassumption].
      assert (Hd : (exists d b', b = d :: b' /\ (d = 34 \/ d = 92)) \/ (forall d b', b = d :: b' -> d <> 34 /\ d <> 92)).
      { destruct b as [|d b]; [right; discriminate|]. destruct (N.eq_dec d 34); [left; eauto|]. destruct (N.eq_dec d 92); [left; eauto|]. right. intros ? ? [= <- _]. auto. }
      destruct Hd as [(d & b' & -> & Hd)|Hd].
      + destruct (IH (Some (buf ++ [d])) b') as [ts H]; [cbn in Hb; lia|]. eexists. apply cut_escape; eassumption.
      + destruct (IH (Some buf) b ltac:(lia)) as [ts H]. eexists. apply cut_stray; eassumption.
    - destruct (L_some c b) as (x & rest & a & E & Hx & P & Hl & Hm).
      assert (Hr : (List.length rest <= n)%nat).
      { apply (f_equal (@List.length _)) in E. rewrite app_length in E. destruct x; [contradiction|]. cbn in E. lia. }
      destruct (picks_cases _ _ P) as [(t & Ht & _)|[[-> _]|(d & -> & _ & Hd & Hn)]].
      + destruct (IH None rest Hr) as [ts H]. rewrite E. destruct t as [t|]; eexists; [eapply cut_token|eapply cut_skip]; eassumption.
      + injection E as -> ->. destruct (IH (Some []) rest Hr) as [ts H]. eexists. apply cut_open. exact H.
      + injection E as -> ->. destruct (IH None rest Hr) as [ts H]. eexists. apply cut_byte; [exact Hd| |exact H].
        intros y t u Hy Ey. pose proof (Hm _ _ _ Hy Ey) as Hlen. cbn in Hlen. pose proof (lexeme_nonempty _ _ Hy) as Hne.
        destruct y as [|e [|]]; [contradiction| |cbn in Hlen; lia]. injection Ey as <- _. exact (Hn _ Hy).
  Qed.
  Theorem lex_cut b ts : lex w b = Some ts <-> cut None b ts.
  Proof.
    split; [|apply L_cut]. intros E. destruct (cut_L _ None b (le_n _)) as [ts' H]. pose proof (L_cut _ _ _ H) as E'. change (lex w b) with (L None b) in E.
    rewrite E in E'. injection E' as ->. exact H.
  Qed.
End Width.
