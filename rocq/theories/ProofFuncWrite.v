(** What the functional writer writes is split into the intended tokens. *)

From Coq Require Import String NArith ZArith List Bool Lia.
From Coq Require Import ZifyBool ZifyNat ZifyN.
From Verif Require Import Bytes ModelTypes ModelObject ModelText SpecObject SpecText ModelFuncLex ModelFuncParser ModelFuncWriter
  SpecFunc ProofObject ProofText ProofFuncRe ProofFuncLex.
Import ListNotations.
Local Open Scope N_scope.

(** * Escaping *)

Lemma run_split (v : bytes) : exists x v', v = x ++ v' /\ Forall plain x /\ (v' = [] \/ exists c t, v' = c :: t /\ (c = 34 \/ c = 92)).
Proof.
  induction v as [|c v (x & v' & -> & Hx & Hv)].
  - exists [], []. auto.
  - destruct (N.eq_dec c 34) as [->|H1]; [|destruct (N.eq_dec c 92) as [->|H2]].
    + exists [], (34 :: x ++ v'). repeat split; auto. right. eauto.
    + exists [], (92 :: x ++ v'). repeat split; auto. right. eauto.
    + exists (c :: x), v'. repeat split; auto. constructor; [split; assumption | assumption].
Qed.
Lemma escape_app x v : Forall plain x -> ~ In 0 x -> escape (x ++ v) = x ++ escape v.
Proof.
  intros H. induction H as [|c x [H1 H2] H IH]; intros Hn; [reflexivity|]. cbn [app escape].
  destruct (N.eqb_spec c 0) as [->|_]; [exfalso; apply Hn; left; reflexivity|].
  destruct (N.eqb_spec c 34); [contradiction|]. destruct (N.eqb_spec c 92); [contradiction|].
  cbn [orb]. f_equal. apply IH. intros Hin. apply Hn. right. exact Hin.
Qed.
Lemma escape_special c v : c = 34 \/ c = 92 -> escape (c :: v) = 92 :: c :: escape v.
Proof. intros [-> | ->]; reflexivity. Qed.

Lemma L_escape w : forall v buf rest, value_ok v ->
  L w (Some buf) (escape v ++ 34 :: rest) = option_map (cons (TQuoted (buf ++ v))) (L w None rest).
Proof.
  intros v. remember (List.length v) as k eqn:Ek. assert (Hk : (List.length v <= k)%nat) by lia. clear Ek.
  revert v Hk. induction k as [|k IH]; intros v Hk buf rest Hv.
  - destruct v; [|cbn in Hk; lia]. rewrite app_nil_r. apply L_quote.
  - destruct (run_split v) as (x & v' & -> & Hx & Hc).
    assert (Hx0 : ~ In 0 x) by (intros H; apply Hv; apply in_or_app; auto).
    assert (Hv0 : value_ok v') by (intros H; apply Hv; apply in_or_app; auto).
    rewrite (escape_app x v' Hx Hx0).
    assert (Hrun : L w (Some buf) ((x ++ escape v') ++ 34 :: rest) = L w (Some (buf ++ x)) (escape v' ++ 34 :: rest)).
    { destruct x as [|a x]; [rewrite app_nil_r; reflexivity|]. rewrite <- app_assoc. apply L_run; [discriminate|exact Hx|].
      right. destruct Hc as [->|(c & t & -> & Hc)].
      - exists 34, rest. auto.
      - rewrite (escape_special c t Hc). exists 92, (c :: escape t ++ 34 :: rest). auto. }
    rewrite Hrun. destruct Hc as [->|(c & t & -> & Hc)].
    + cbn [escape app]. rewrite L_quote, app_nil_r. reflexivity.
    + rewrite (escape_special c t Hc). cbn [app]. rewrite (L_escaped w _ c _ Hc). rewrite IH.
      * rewrite <- !app_assoc. reflexivity.
      * rewrite app_length in Hk. cbn in Hk. lia.
      * intros H. apply Hv0. right. exact H.
Qed.
Lemma reads_quoted w v : value_ok v -> reads w (34 :: escape v ++ [34]) [TQuoted v] any.
Proof.
  intros Hv rest _.
  replace ((34 :: escape v ++ [34]) ++ rest) with (34 :: (escape v ++ 34 :: rest)) by (cbn; rewrite <- app_assoc; reflexivity).
  rewrite L_open. exact (L_escape w v [] rest Hv).
Qed.

(** * Objects *)

Section Object.
  Variable w : N.
  Variable short : bytes -> option bytes.
  Hypothesis short_legal : forall ns p, short ns = Some p -> prefix_name p.
  Let abbr (ns : bytes) : option (option bytes) := Some (short ns).
  Notation tokens := (tokens short).
  Notation expressible := (expressible w short).
  Notation w_obj := (w_obj abbr).

  Definition rpar (c : N) : bool := c =? 41.
  (** The output is split into these tokens before a blank, a parenthesis or a line end. *)
  Definition good (x : wt_out) (ts : list token) : Prop := exists b, x = Some b /\ reads w b ts ends /\ first_in solid b.
  (** Likewise before a closing parenthesis; the output may be empty. *)
  Definition inner (x : wt_out) (ts : list token) : Prop := exists b, x = Some b /\ reads w b ts rpar.

  Lemma good_inner x ts : good x ts -> inner x ts.
  Proof.
    intros (b & E & Hr & _). exists b. split; [exact E|]. eapply reads_weaken; [|exact Hr].
    unfold rpar, ends. intros c H. lia.
  Qed.
  Lemma inner_nil : inner (put []) [].
  Proof. exists []. split; [reflexivity | apply reads_nil]. Qed.
  Lemma reads_ends b ts : reads w b ts any -> reads w b ts ends.
  Proof. apply reads_weaken. reflexivity. Qed.

  Lemma good_sep x t y u : good x t -> good y u -> good (x +++ put [32] +++ y) (t ++ u).
  Proof.
    intros (b & -> & Hr & Hf) (c & -> & Hr' & Hf'). exists (b ++ [32] ++ c). split; [reflexivity|]. split.
    - eapply reads_app; [exact Hr | exists 32, c; split; reflexivity |].
      change u with ([] ++ u). eapply reads_app; [apply reads_blank_char; reflexivity | exact Hf' | exact Hr'].
    - apply first_in_app. exact Hf.
  Qed.
  Lemma kw_bytes b k : existsb (fun e => bytes_eqb (bs (fst e)) b && if kw_eq_dec (snd e) k then true else false) keywords = true ->
    reads w b [TKw k] lpar /\ first_in solid b.
  Proof.
    intros H. apply existsb_exists in H as ([s k'] & Hin & H). cbn [fst snd] in H. apply andb_true_iff in H as [H1 H2].
    apply bytes_eqb_eq in H1. subst b. destruct (kw_eq_dec k' k) as [->|]; [|discriminate].
    split; [apply reads_keyword; exact Hin|].
    assert (H : forallb (fun e => match bs (fst e) with c :: _ => solid c | [] => false end) keywords = true)
      by (vm_compute; reflexivity).
    rewrite forallb_forall in H. specialize (H _ Hin). cbn [fst] in H.
    destruct (bs s) as [|c x]; [discriminate|]. exists c, x. auto.
  Qed.
  Lemma good_call b k i t :
    existsb (fun e => bytes_eqb (bs (fst e)) b && if kw_eq_dec (snd e) k then true else false) keywords = true ->
    inner i t -> good (w_call b i) (TKw k :: in_parens t).
  Proof.
    intros Hk (c & -> & Hr). destruct (kw_bytes _ _ Hk) as [Hb Hf].
    exists (b ++ [40] ++ c ++ [41]). split; [reflexivity|]. split; [|apply first_in_app; exact Hf].
    change (TKw k :: in_parens t) with ([TKw k] ++ [TLParen] ++ t ++ [TRParen]).
    eapply reads_app; [exact Hb | exists 40, (c ++ [41]); split; reflexivity |].
    apply reads_app_any; [apply reads_lpar|].
    eapply reads_app; [exact Hr | exists 41, []; split; reflexivity | apply reads_ends, reads_rpar].
  Qed.
  Lemma good_parens i t : inner i t -> good (w_call [] i) (in_parens t).
  Proof.
    intros (c & -> & Hr). exists ([] ++ [40] ++ c ++ [41]). split; [reflexivity|]. split; [|exists 40, (c ++ [41]); split; reflexivity].
    change (in_parens t) with ([TLParen] ++ t ++ [TRParen]). rewrite app_nil_l.
    apply reads_app_any; [apply reads_lpar|].
    eapply reads_app; [exact Hr | exists 41, []; split; reflexivity | apply reads_ends, reads_rpar].
  Qed.

  Lemma good_tail l : Forall (fun p => good (fst p) (snd p)) l -> forall x t, good x t ->
    good (x +++ w_tail (map fst l)) (t ++ flat_map snd l).
  Proof.
    intros H. induction H as [|[y u] l Hy Hl IH]; intros x t Hx; cbn [map w_tail flat_map fst snd].
    - rewrite app_nil_r. destruct Hx as (b & -> & H). exists b. split; [cbn; rewrite app_nil_r; reflexivity | exact H].
    - apply good_sep; [exact Hx|]. apply IH. exact Hy.
  Qed.
  Lemma good_list l : l <> [] -> Forall (fun p => good (fst p) (snd p)) l -> good (w_list (map fst l)) (flat_map snd l).
  Proof.
    intros Hn H. destruct l as [|[x t] l]; [contradiction|]. inversion H; subst. cbn [map w_list flat_map fst snd].
    apply good_tail; assumption.
  Qed.
  Lemma good_items (f : obj -> wt_out) (g : obj -> list token) l : l <> [] -> Forall (fun o => good (f o) (g o)) l ->
    good (w_list (map f l)) (flat_map g l).
  Proof.
    intros Hn H. pose proof (good_list (map (fun o => (f o, g o)) l)) as G.
    rewrite map_map in G. cbn [fst] in G. rewrite flat_map_concat_map, map_map in G. cbn [snd] in G.
    rewrite flat_map_concat_map. apply G.
    - destruct l; [contradiction|discriminate].
    - apply Forall_map. exact H.
  Qed.

  (** IRIs *)
  Lemma first_solid_prefix p t : prefix_name p -> first_in solid (p ++ 58 :: t).
  Proof.
    intros [->|(c & r & -> & Hc & _)]; [exists 58, t; split; reflexivity|].
    exists c, (r ++ 58 :: t). split; [reflexivity|]. unfold solid, is_space. unfold letter, non_ascii in Hc. lia.
  Qed.
  Lemma good_full ns rem : Forall iri_char (ns ++ rem) -> good (w_full_iri ns rem) [TIriRef (ns ++ rem)].
  Proof.
    intros H. exists (60 :: (ns ++ rem) ++ [62]). split; [unfold w_full_iri, put, wapp; cbn; rewrite <- app_assoc; reflexivity|].
    split; [apply reads_ends, reads_iri; exact H | exists 60, ((ns ++ rem) ++ [62]); split; reflexivity].
  Qed.
  Lemma good_iri ns rem : iri_ok short ns rem -> good (w_iri abbr ns rem) [iri_token short ns rem].
  Proof.
    intros (_ & _ & H). unfold w_iri, iri_token, abbr. destruct rem as [|c rem]; [apply good_full; exact H|].
    destruct (short ns) as [p|] eqn:E; [|apply good_full; exact H].
    pose proof (short_legal _ _ E) as Hp. exists (p ++ 58 :: c :: rem). split; [reflexivity|].
    split; [apply reads_pname; assumption | apply first_solid_prefix; exact Hp].
  Qed.
  Lemma good_anon id : local_name id -> good (put (bs "_:") +++ put id) [TBlank id].
  Proof.
    intros H. exists (bs "_:" ++ id). split; [reflexivity|]. split; [apply reads_blank; exact H|].
    exists 95, (58 :: id). split; reflexivity.
  Qed.
  Lemma w_literal_shape v x : put [34] +++ put (escape v) +++ put [34] +++ Some x = Some ((34 :: escape v ++ [34]) ++ x).
  Proof. unfold put, wapp. cbn. rewrite <- app_assoc. reflexivity. Qed.
  Lemma good_literal o : (exists v ns rem, o = OLit v ns rem) \/ (exists v l, o = OLang v l) -> expressible o ->
    good (w_literal abbr o) (literal_tokens short o).
  Proof.
    intros [(v & ns & rem & ->)|(v & l & ->)] He.
    - destruct He as (Hv & Hl & _ & Hi). unfold w_literal. cbn [literal_get_value literal_get_datatype].
      assert (E1 : prim_eqb (OEnt ET_DATATYPE ns rem) rdf_lang_string = false).
      { destruct (prim_eqb (OEnt ET_DATATYPE ns rem) rdf_lang_string) eqn:E; [|reflexivity]. exfalso. apply Hl.
        unfold rdf_lang_string in *. cbn in E. apply andb_true_iff in E as [E1 E2].
        apply bytes_eqb_eq in E1, E2. subst. reflexivity. }
      rewrite E1. cbn [prim_eqb literal_tokens].
      change (otype_eqb (etype_otype ET_DATATYPE) (etype_otype ET_DATATYPE)) with true. cbn [andb].
      destruct (bytes_eqb ns xsd_ns && bytes_eqb rem xsd_string_rem).
      + unfold put at 4. rewrite w_literal_shape, app_nil_r. eexists. split; [reflexivity|]. split.
        * apply reads_ends, reads_quoted. exact Hv.
        * exists 34, (escape v ++ [34]). split; reflexivity.
      + destruct (good_iri _ _ Hi) as (b & -> & Hr & Hf).
        replace (put (bs "^^") +++ Some b) with (Some (bs "^^" ++ b)) by reflexivity.
        rewrite w_literal_shape. eexists. split; [reflexivity|]. split.
        * change [TQuoted v; TCaret; iri_token short ns rem] with ([TQuoted v] ++ [TCaret] ++ [iri_token short ns rem]).
          apply reads_app_any; [apply reads_quoted; exact Hv|]. apply reads_app_any; [apply reads_caret | exact Hr].
        * exists 34, ((escape v ++ [34]) ++ bs "^^" ++ b). split; reflexivity.
    - destruct He as (Hv & Hl). unfold w_literal. cbn [literal_get_value literal_get_datatype literal_get_lang].
      change (prim_eqb rdf_lang_string rdf_lang_string) with true. unfold rdf_lang_string. cbn match.
      replace (put [64] +++ Some l) with (Some (64 :: l)) by reflexivity.
      rewrite w_literal_shape. eexists. split; [reflexivity|]. split.
      + change (literal_tokens short (OLang v l)) with ([TQuoted v] ++ [TLang l]).
        apply reads_app_any; [apply reads_quoted; exact Hv | apply reads_lang; exact Hl].
      + exists 34, ((escape v ++ [34]) ++ 64 :: l). split; reflexivity.
  Qed.

  Lemma ncname_b s : match s with [] => false | c :: r => is_ncname_start_char c &&
    forallb (fun c => is_ncname_start_char c || is_ncname_non_start_char c) r end = true -> ncname s.
  Proof. clear short_legal.
    destruct s as [|c r]; [discriminate|]. rewrite andb_true_iff, forallb_forall. intros [H1 H2].
    exists c, r. split; [reflexivity|]. split; [apply start_char_spec; exact H1|]. apply Forall_forall. intros x Hx.
    specialize (H2 x Hx). apply orb_true_iff in H2 as [H|H]; [left; apply start_char_spec; exact H|].
    right. apply non_start_char_spec. exact H.
  Qed.
  Lemma local_name_b s : match s with [] => false | c :: r => (name1_b c || range 48 57 c) && forallb inner_b r &&
    negb (last s 0 =? 46) end = true -> local_name s.
  Proof. clear short_legal.
    destruct s as [|c r]; [discriminate|]. rewrite !andb_true_iff, forallb_forall, negb_true_iff. intros [[H1 H2] H3].
    exists c, r. split; [reflexivity|]. split; [|split].
    - unfold name1_b, is_letter, range in H1. unfold letter, non_ascii, is_digit. lia.
    - apply Forall_forall. intros x Hx. specialize (H2 x Hx). unfold inner_b, name1_b, is_letter, range in H2.
      unfold inner_char, letter, non_ascii, is_digit. lia.
    - intros u E. rewrite E, last_last in H3. discriminate.
  Qed.
  Lemma thing_ok : iri_ok short owl_ns (bs "Thing").
  Proof. clear short_legal.
    split; [discriminate|]. split.
    - apply (split_after_mark (bs "http://www.w3.org/2002/07/owl") 35 (bs "Thing") hash_mark).
      right. apply ncname_b. vm_compute. reflexivity.
    - destruct (short owl_ns).
      + apply local_name_b. vm_compute. reflexivity.
      + apply Forall_forall. intros c Hc. apply iri_char_b.
        assert (H : forallb is_iri_char (owl_ns ++ bs "Thing") = true) by (vm_compute; reflexivity).
        rewrite forallb_forall in H. apply H. exact Hc.
  Qed.
  Lemma rdfs_literal_ok : iri_ok short rdfs_ns (bs "Literal").
  Proof. clear short_legal.
    split; [discriminate|]. split.
    - apply (split_after_mark (bs "http://www.w3.org/2000/01/rdf-schema") 35 (bs "Literal") hash_mark).
      right. apply ncname_b. vm_compute. reflexivity.
    - destruct (short rdfs_ns).
      + apply local_name_b. vm_compute. reflexivity.
      + apply Forall_forall. intros c Hc. apply iri_char_b.
        assert (H : forallb is_iri_char (rdfs_ns ++ bs "Literal") = true) by (vm_compute; reflexivity).
        rewrite forallb_forall in H. apply H. exact Hc.
  Qed.

  Lemma good_uint n : n < 2 ^ w -> good (w_uint n) [TInt n].
  Proof.
    intros Hn. destruct (uint_roundtrip w n Hn) as (s & E & Hs). unfold w_uint. rewrite E.
    destruct (str_from_uint_spec n) as (s' & E' & Hd & _ & H0 & H1). rewrite E in E'. injection E' as <-.
    assert (Hne : s <> []).
    { intros ->. destruct (N.eq_dec n 0) as [Hz|Hz]; [specialize (H0 Hz); discriminate | apply (H1 Hz); reflexivity]. }
    exists s. split; [reflexivity|]. split; [rewrite <- Hs; apply reads_digits; assumption|].
    destruct s as [|c s]; [contradiction|]. exists c, s. split; [reflexivity|]. inversion Hd; subst.
    unfold solid, is_space. unfold is_digit in *. lia.
  Qed.

  (** ** The whole object *)

  Definition nonempty_vec (o : obj) : Prop := match o with OVec _ [] => False | _ => True end.
  Definition writes (o : obj) : Prop :=
    forall s, wt s o = true -> expressible o -> (nonempty_vec o -> good (w_obj o) (tokens o)) /\ inner (w_obj o) (tokens o).

  Lemma writes_good o : (expressible o -> good (w_obj o) (tokens o)) -> writes o.
  Proof. intros H s _ He. split; [intros _; apply H; exact He | apply good_inner, H; exact He]. Qed.

  Lemma expressible_list l : fold_right (fun x P => expressible x /\ P) True l <-> Forall expressible l.
  Proof. induction l as [|x l IH]; cbn; [split; auto | rewrite IH; split; [intros [H1 H2]; constructor; auto | intros H; inversion H; auto]]. Qed.

  Lemma before_fields opt x t e :
    match opt with None => e = [] | Some y => good y e end -> good x t -> good (w_before opt +++ x) (e ++ t).
  Proof.
    intros Ho Hx. destruct opt as [y|]; cbn [w_before].
    - destruct Hx as (b & -> & Hx). destruct Ho as (c & -> & Ho).
      pose proof (good_sep (Some c) e (Some b) t (ex_intro _ c (conj eq_refl Ho)) (ex_intro _ b (conj eq_refl Hx))) as G.
      cbn in *. rewrite <- app_assoc. exact G.
    - subst e. destruct Hx as (b & -> & Hx). exists b. split; [reflexivity | exact Hx].
  Qed.
  Lemma after_fields opt x t e :
    match opt with None => e = [] | Some y => good y e end -> good x t -> good (x +++ w_after opt) (t ++ e).
  Proof.
    intros Ho Hx. destruct opt as [y|]; cbn [w_after].
    - apply good_sep; assumption.
    - subst e. rewrite app_nil_r. destruct Hx as (b & -> & Hx). exists b. split; [cbn; rewrite app_nil_r; reflexivity | exact Hx].
  Qed.

  (** Keywords that are written are those that are read. *)
  Definition named (b : bytes) (k : kw) : bool :=
    existsb (fun e => bytes_eqb (bs (fst e)) b && if kw_eq_dec (snd e) k then true else false) keywords.
  Lemma type_named t : (match construct_sig t with Some _ => negb (otype_eqb t OT_FACET_RESTR) | None => false end ||
    existsb (fun e => otype_eqb t (etype_otype e)) all_etypes) = true -> named (type_name t) (keyword t) = true.
  Proof. destruct t; intros H; vm_compute; try reflexivity; vm_compute in H; discriminate. Qed.
  Lemma entity_named e : named (type_name (etype_otype e)) (keyword (etype_otype e)) = true.
  Proof. destruct e; vm_compute; reflexivity. Qed.
  Lemma sig_nonempty t ss os : construct_sig t = Some (ss, os) -> ss <> [].
  Proof. destruct t; cbn; intros H; inversion H; discriminate. Qed.

  Lemma writes_all o : writes o.
  Proof.
    induction o as [i s|ns rem|e ns rem|id|v ns rem|v l|ord l IH|t fs opt n IH IHo] using obj_ind'.
    - intros s' H. discriminate.
    - apply writes_good. apply good_iri.
    - apply writes_good. apply good_iri.
    - apply writes_good. apply good_anon.
    - apply writes_good. intros He. apply good_literal; eauto 6.
    - apply writes_good. intros He. apply good_literal; eauto 6.
    - intros s Hw He. cbn [SpecFunc.expressible] in He. apply expressible_list in He. cbn [w_obj SpecFunc.tokens].
      assert (G : l <> [] -> good (w_list (map w_obj l)) (flat_map tokens l)).
      { intros Hn. apply good_items; [exact Hn|].
        assert (Hi : exists i, Forall (fun x => wt (SOne i) x = true) l).
        { cbn [wt] in Hw. destruct s as [i|ord' i|]; [discriminate| |]; apply andb_true_iff in Hw as [_ Hw];
            eexists; apply Forall_forall; rewrite forallb_forall in Hw; exact Hw. }
        destruct Hi as [i Hi]. rewrite Forall_forall in *. intros x Hx.
        apply (IH x Hx (SOne i)); [apply Hi; exact Hx | apply He; exact Hx |].
        specialize (Hi x Hx). destruct x; cbn in *; auto. discriminate. }
      split.
      + intros Hn. apply G. intros ->. exact Hn.
      + destruct l as [|x l]; [apply inner_nil|]. apply good_inner, G. discriminate.
    - intros s Hw He.
      assert (G : good (w_obj (OComp t fs opt n)) (tokens (OComp t fs opt n))); [|split; [auto | apply good_inner; exact G]].
      pose proof Hw as Hwt. apply wt_comp_inv in Hw as (ss & os & Hsig & Hfs & Hopt & Hn).
      pose proof (sig_nonempty _ _ _ Hsig) as Hss.
      destruct He as (Hef & Heo & Hlen & Hn2 & Hsub). apply expressible_list in Hef.
      assert (Hfn : fs <> []) by (intros ->; inversion Hfs; subst; contradiction).
      assert (Ho : match option_map w_obj opt with None => match opt with Some x => tokens x | None => [] end = []
                   | Some y => good y (match opt with Some x => tokens x | None => [] end) end).
      { destruct opt as [p|]; [|reflexivity]. cbn [option_map]. specialize (Hopt p eq_refl).
        assert (Hp : exists s, wt s p = true) by (destruct os; [contradiction| |]; eauto).
        destruct Hp as [sp Hp]. apply (IHo p eq_refl sp Hp Heo).
        cbn [wt] in Hwt. rewrite Hsig in Hwt. rewrite !andb_true_iff in Hwt. destruct Hwt as [_ [[_ Hwt] _]].
        destruct os as [| |i d]; [discriminate| |]; apply andb_true_iff in Hwt as [Hw1 Hw2].
        - destruct p as [| | | | | |ord l|]; cbn; auto. destruct l; [discriminate|exact I].
        - destruct p as [| | | | | |ord l|]; cbn; auto; discriminate. }
      assert (Hin : Forall (fun f => inner (w_obj f) (tokens f) /\ (nonempty_vec f -> good (w_obj f) (tokens f))) fs).
      { clear -IH Hfs Hef. revert IH Hef. induction Hfs as [|f s' fs ss Hf Hfs IHf]; intros IH Hef; [constructor|].
        inversion IH; subst. inversion Hef; subst. constructor; [|apply IHf; assumption].
        destruct (H1 _ Hf H3) as [Hg Hi]. split; [exact Hi | exact Hg]. }
      assert (Hgood : (1 <= least t)%nat -> Forall (fun f => good (w_obj f) (tokens f)) fs).
      { intros Hl. rewrite Forall_forall in *. intros f Hf. destruct (Hin f Hf) as [_ Hg]. apply Hg.
        specialize (Hlen f Hf). destruct f as [| | | | | |ord l|]; cbn; auto. destruct l; [cbn in Hlen; lia | exact I]. }
      assert (Hfields : (1 <= least t)%nat -> good (w_fields (map w_obj fs)) (flat_map tokens fs)).
      { intros Hl. unfold w_fields. destruct (map w_obj fs) eqn:E; [destruct fs; [contradiction|discriminate]|]. rewrite <- E.
        apply good_items; [exact Hfn | apply Hgood; exact Hl]. }
      assert (Hname : otype_eqb t OT_FACET_RESTR = false -> named (type_name t) (keyword t) = true).
      { intros E. apply type_named. rewrite Hsig, E. reflexivity. }
      assert (Hplain : good (w_fields (map w_obj fs) +++ w_after (option_map w_obj opt))
          (flat_map tokens fs ++ match opt with Some x => tokens x | None => [] end) \/ least t = 0%nat).
      { destruct (least t) eqn:El; [right; reflexivity|left]. apply after_fields; [exact Ho | apply Hfields; lia]. }
      assert (Hax : forall x tx, good x tx -> good (w_before (option_map w_obj opt) +++ x)
          (match opt with Some x => tokens x | None => [] end ++ tx)) by (intros x tx Hx; apply before_fields; [exact Ho | exact Hx]).
      assert (Hcard : forall x tx, good x tx -> good (w_uint n +++ put [32] +++ x) ([TInt n] ++ tx))
        by (intros x tx Hx; apply good_sep; [apply good_uint; exact Hn2 | exact Hx]).
      destruct t; try (cbn in Hsig; discriminate);
        cbn [ModelFuncWriter.w_obj SpecFunc.tokens otype_eqb type_is_axiom is_card_restr orb];
        try (apply good_call; [apply Hname; reflexivity|]; apply good_inner; apply Hax; apply Hfields; cbn; lia);
        try (destruct opt as [p|]; cbn [option_map] in *; apply good_call; [apply Hname; reflexivity| |apply Hname; reflexivity|]; apply good_inner;
             (destruct Hplain as [Hplain|]; [exact Hplain | discriminate]));
        try (destruct opt as [p|]; cbn [option_map] in *; apply good_call; [apply Hname; reflexivity| |apply Hname; reflexivity|]; apply good_inner;
             apply Hcard; (destruct Hplain as [Hplain|]; [exact Hplain | discriminate])).
      (* facet restriction *)
      + cbn in Hsig. injection Hsig as <- <-. destruct opt as [p|]; [destruct (Hopt p eq_refl)|].
        destruct Hplain as [Hplain|]; [|discriminate]. rewrite app_nil_r in Hplain. exact Hplain.
      (* declaration *)
      + cbn in Hsig. injection Hsig as <- <-. inversion Hfs as [|f s' fs' ss' Hf Hfs']; subst. inversion Hfs'; subst.
        inversion Hef; subst.
        destruct f as [| |e ns rem| | | | |t' ? ? ?]; try discriminate; [|destruct t'; discriminate].
        apply good_call; [apply Hname; reflexivity|]. apply good_inner. apply Hax.
        apply good_call; [apply entity_named|]. apply good_inner, good_iri. assumption.
      (* sub-property *)
      + cbn in Hsig. injection Hsig as <- <-. inversion Hfs as [|f s' fs' ss' Hf Hfs']; subst.
        inversion Hfs' as [|f2 s2 fs2 ss2 Hf2 Hfs2]; subst. inversion Hfs2; subst.
        specialize (Hgood ltac:(cbn; lia)). inversion Hgood as [|? ? G1 G2]; subst. inversion G2 as [|? ? G3 _]; subst.
        cbn [map]. inversion Hin as [|? ? [Hi1 _] _]; subst.
        destruct f as [| |e ns rem| | | |ord l|t' ? ? ?]; try discriminate; [| |contradiction].
        * cbn [flat_map]. apply good_call; [apply Hname; reflexivity|]. apply good_inner. apply Hax.
          cbn [w_entity]. change (ModelFuncWriter.w_obj abbr (OEnt e ns rem)) with (w_iri abbr ns rem) in G1.
          rewrite app_nil_r. apply good_sep; assumption.
        * apply good_call; [apply Hname; reflexivity|]. apply good_inner. apply Hax.
          change (TKw OBJECT_PROPERTY_CHAIN :: in_parens (flat_map tokens l) ++ tokens f2) with
            ((TKw OBJECT_PROPERTY_CHAIN :: in_parens (flat_map tokens l)) ++ tokens f2).
          apply good_sep; [|exact G3]. apply good_call; [vm_compute; reflexivity | exact Hi1].
      (* key *)
      + cbn in Hsig. injection Hsig as <- <-. inversion Hfs as [|f s' fs' ss' Hf Hfs']; subst.
        inversion Hfs' as [|f2 s2 fs2 ss2 Hf2 Hfs2]; subst. inversion Hfs2 as [|f3 s3 fs3 ss3 Hf3 Hfs3]; subst. inversion Hfs3; subst.
        inversion Hin as [|? ? [_ G1] Hin2]; subst. inversion Hin2 as [|? ? [G2 _] Hin3]; subst. inversion Hin3 as [|? ? [G3 _] _]; subst.
        cbn [map]. apply good_call; [apply Hname; reflexivity|]. apply good_inner. apply Hax.
        apply good_sep; [apply G1; destruct f; cbn in *; auto; discriminate|].
        apply good_sep; apply good_parens; assumption.
      (* quantified restrictions *)
      + cbn in Hsig; injection Hsig as <- <-; inversion Hfs as [|f s' fs' ss' Hf Hfs']; subst; inversion Hfs'; subst;
        specialize (Hgood ltac:(cbn; lia)); inversion Hgood as [|? ? G1 G2]; subst; cbn [map flat_map app]; rewrite app_nil_r;
        destruct opt as [p|]; cbn [option_map] in *; apply good_call; try (apply Hname; reflexivity); apply good_inner;
        apply good_sep; try assumption; cbn [quant_filler owl_thing rdfs_literal]; apply good_iri; first [apply thing_ok | apply rdfs_literal_ok].
      + cbn in Hsig; injection Hsig as <- <-; inversion Hfs as [|f s' fs' ss' Hf Hfs']; subst; inversion Hfs'; subst;
        specialize (Hgood ltac:(cbn; lia)); inversion Hgood as [|? ? G1 G2]; subst; cbn [map flat_map app]; rewrite app_nil_r;
        destruct opt as [p|]; cbn [option_map] in *; apply good_call; try (apply Hname; reflexivity); apply good_inner;
        apply good_sep; try assumption; cbn [quant_filler owl_thing rdfs_literal]; apply good_iri; first [apply thing_ok | apply rdfs_literal_ok].
      + cbn in Hsig; injection Hsig as <- <-; inversion Hfs as [|f s' fs' ss' Hf Hfs']; subst; inversion Hfs'; subst;
        specialize (Hgood ltac:(cbn; lia)); inversion Hgood as [|? ? G1 G2]; subst; cbn [map flat_map app]; rewrite app_nil_r;
        destruct opt as [p|]; cbn [option_map] in *; apply good_call; try (apply Hname; reflexivity); apply good_inner;
        apply good_sep; try assumption; cbn [quant_filler owl_thing rdfs_literal]; apply good_iri; first [apply thing_ok | apply rdfs_literal_ok].
      + cbn in Hsig; injection Hsig as <- <-; inversion Hfs as [|f s' fs' ss' Hf Hfs']; subst; inversion Hfs'; subst;
        specialize (Hgood ltac:(cbn; lia)); inversion Hgood as [|? ? G1 G2]; subst; cbn [map flat_map app]; rewrite app_nil_r;
        destruct opt as [p|]; cbn [option_map] in *; apply good_call; try (apply Hname; reflexivity); apply good_inner;
        apply good_sep; try assumption; cbn [quant_filler owl_thing rdfs_literal]; apply good_iri; first [apply thing_ok | apply rdfs_literal_ok].
  Qed.
End Object.
