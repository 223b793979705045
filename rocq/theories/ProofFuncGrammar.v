(** The functional parser accepts exactly the tokens that the grammar derives. *)

From Coq Require Import String NArith ZArith List Bool Lia.
From Coq Require Import ZifyBool ZifyNat ZifyN.
From Verif Require Import Bytes ModelTypes ModelObject ModelText SpecObject SpecText ModelChange ModelPrtDecoder ModelFuncLex ModelFuncParser
  SpecFunc SpecFuncDoc SpecFuncGrammar ProofObject ProofText ProofLiteral ProofPrefixSafe ProofFuncWrite ProofFuncParse ProofFuncSafe.
Import ListNotations.
Local Open Scope N_scope.

Scheme reads_ind3 := Induction for reads Sort Prop
  with reads_all_ind3 := Induction for reads_all Sort Prop
  with operands_ind3 := Induction for operands Sort Prop.
Combined Scheme reads_mutind from reads_ind3, reads_all_ind3, operands_ind3.

Section Grammar.
  Variable m : pmap.

  (** * IRIs and literals *)

  Lemma binds_ns p n : pmap_ns m p = Some n <-> binds m p n.
  Proof.
    unfold pmap_ns, binds. induction m as [|[q k] l IH]; cbn.
    - split; [discriminate|]. intros ([|] & b & E & _); discriminate.
    - destruct (bytes_eqb q p) eqn:E.
      + apply bytes_eqb_eq in E. subst q. split.
        * intros [= ->]. exists [], l. split; [reflexivity|]. intros [].
        * intros ([|x a] & b & Eq & Hn); injection Eq as Eq1 Eq2; [congruence|]. exfalso. apply Hn. subst x. now left.
      + assert (Hq : q <> p) by (intros ->; rewrite bytes_eqb_refl in E; discriminate). rewrite IH. split.
        * intros (a & b & -> & Hn). exists ((q, k) :: a), b. split; [reflexivity|]. intros [H|H]; [contradiction|contradiction].
        * intros ([|x a] & b & Eq & Hn); injection Eq as Eq1 Eq2; [congruence|]. exists a, b. split; [exact Eq2|]. intros H. apply Hn. now right.
  Qed.
  Lemma colon_split p r : ~ In 58 p -> firstn (index_of (p ++ 58 :: r) 58) (p ++ 58 :: r) = p /\ skipn (S (index_of (p ++ 58 :: r) 58)) (p ++ 58 :: r) = r.
  Proof.
    intros H. rewrite (index_of_app p r H). split.
    - rewrite firstn_app, firstn_all, Nat.sub_diag. cbn. apply app_nil_r.
    - replace (S (List.length p)) with (List.length (p ++ [58])) by (rewrite app_length; cbn; lia).
      change (p ++ 58 :: r) with (p ++ [58] ++ r). rewrite app_assoc, skipn_app, skipn_all, Nat.sub_diag. reflexivity.
  Qed.
  Lemma colon_first s : In 58 s -> exists p r, s = p ++ 58 :: r /\ ~ In 58 p.
  Proof.
    induction s as [|c s IH]; intros H; [contradiction|]. destruct (N.eq_dec c 58) as [->|Hc].
    - exists [], s. split; [reflexivity|]. intros [].
    - destruct H as [H|H]; [contradiction|]. destruct (IH H) as (p & r & -> & Hp). exists (c :: p), r. split; [reflexivity|].
      intros [H'|H']; contradiction.
  Qed.
  Lemma names_parse t ns rem rest : names m t ns rem -> parse_iri m (t :: rest) = POk (ns, rem) rest.
  Proof.
    intros [s n r Hs Hc|p r n Hp Hb]; cbn [parse_iri].
    - pose proof Hc as (-> & _). rewrite (canonical_from n r Hs Hc). reflexivity.
    - destruct (colon_split p r Hp) as [-> ->]. apply binds_ns in Hb. rewrite Hb. now destruct (iri_of_parts n r).
  Qed.
  Lemma parse_names ts i rest : Forall token_ok ts -> parse_iri m ts = POk i rest -> exists t, ts = t :: rest /\ names m t (fst i) (snd i).
  Proof.
    intros Ht E. destruct ts as [|t ts]; [discriminate|]. inversion Ht as [|? ? H1 H2]; subst.
    destruct t as [| | | |s| |s| | | | | |]; try discriminate; cbn [parse_iri] in E.
    - destruct (colon_first s H1) as (p & r & -> & Hp). destruct (colon_split p r Hp) as [E1 E2]. rewrite E1, E2 in E.
      destruct (pmap_ns m p) as [n|] eqn:En; [|discriminate]. injection E as <- <-. eexists. split; [reflexivity|].
      apply names_short; [exact Hp|]. apply binds_ns. exact En.
    - destruct (iri_from_string s) as [[n r]|] eqn:Es; [|discriminate]. injection E as <- <-. eexists. split; [reflexivity|].
      destruct (iri_from_string_canonical s) as [[-> E]|(Hs & n' & r' & E & Hc)]; [rewrite E in Es; discriminate|].
      rewrite E in Es. injection Es as -> ->. apply names_full; assumption.
  Qed.
  Lemma literal_parse ts o rest : literal m ts o -> calm rest -> parse_literal m (ts ++ rest) = POk o rest.
  Proof.
    intros [v|v t ns rem Hn Hl|v a b l t ns rem Hn Hl Hv Hb|v l l' Hl Hb] Hr; cbn [app].
    - destruct rest as [|[] rest]; try contradiction; reflexivity.
    - cbn [parse_literal]. unfold pbind. rewrite (names_parse t ns rem rest Hn). cbn [fst snd]. unfold cowl_literal.
      destruct (is_lang_datatype ns rem) eqn:E; [apply is_lang_datatype_spec in E; contradiction|]. reflexivity.
    - cbn [parse_literal]. unfold pbind. rewrite (names_parse t ns rem rest Hn). cbn [fst snd]. unfold cowl_literal.
      assert (E : is_lang_datatype ns rem = true) by (apply is_lang_datatype_spec; exact Hl). rewrite E.
      unfold literal_parse_lang_alloc. pose proof (parse_lang_spec v) as Hp. destruct (parse_lang v) as [a' [l'|]].
      + destruct Hp as (b' & Ht & ->). destruct (tagged_unique _ _ _ _ _ Hv Ht) as [<- <-]. cbn.
        rewrite (lower_case_list_fun _ _ _ (to_lower_spec b) Hb). reflexivity.
      + destruct Hp as [_ Hp]. exfalso. apply Hp. eauto.
    - cbn [parse_literal cowl_literal]. unfold literal_lang_alloc. rewrite internalize_lang_lower, (lower_case_list_fun _ _ _ (to_lower_spec l) Hb).
      destruct l; [contradiction|]. reflexivity.
  Qed.
  Lemma parse_literal_reads ts o rest : Forall token_ok ts -> parse_literal m ts = POk o rest -> exists u, ts = u ++ rest /\ literal m u o.
  Proof.
    intros Ht E. destruct ts as [|t ts]; [discriminate|]. destruct t as [|v| | | | | | | | | | |]; try discriminate.
    inversion Ht as [|? ? _ Ht']; subst.
    assert (Hs : literal_value (cowl_literal (Some v) DLNull) ts = POk o rest -> exists u, TQuoted v :: ts = u ++ rest /\ literal m u o).
    { cbn. intros [= <- <-]. exists [TQuoted v]. split; [reflexivity|]. apply literal_plain. }
    destruct ts as [|t ts]; [exact (Hs E)|]. inversion Ht' as [|? ? Ht1 Ht2]; subst.
    destruct t as [| | | | |l| | | | | | |]; try exact (Hs E).
    - cbn [parse_literal cowl_literal] in E. unfold literal_lang_alloc in E. cbn in Ht1. destruct l as [|c l]; [contradiction|].
      cbn [List.length Nat.eqb literal_value] in E. injection E as <- <-. exists [TQuoted v; TLang (c :: l)]. split; [reflexivity|].
      apply literal_tag; [discriminate|]. rewrite internalize_lang_lower. apply to_lower_spec.
    - cbn [parse_literal] in E. unfold pbind in E. destruct (parse_iri m ts) as [i r| | |] eqn:Ei; try discriminate.
      destruct (parse_names ts i r Ht2 Ei) as (t & -> & Hn). unfold cowl_literal in E.
      destruct (is_lang_datatype (fst i) (snd i)) eqn:El.
      + unfold literal_parse_lang_alloc in E. pose proof (parse_lang_spec v) as Hp. destruct (parse_lang v) as [a [l|]]; [|discriminate].
        destruct Hp as (b & Hv & ->). cbn in E. injection E as <- <-. exists [TQuoted v; TCaret; t]. split; [reflexivity|].
        eapply literal_in_value; [exact Hn|apply is_lang_datatype_spec; exact El|exact Hv|apply to_lower_spec].
      + cbn in E. injection E as <- <-. exists [TQuoted v; TCaret; t]. split; [reflexivity|]. eapply literal_typed; [exact Hn|].
        intros H. apply is_lang_datatype_spec in H. rewrite H in El. discriminate.
  Qed.

  (** * First tokens *)

  Lemma names_opens t ns rem : names m t ns rem -> opens [t].
  Proof. intros []; exact I. Qed.
  Lemma names_plain t ns rem : names m t ns rem -> (exists s, t = TIriRef s) \/ (exists s, t = TPnameLn s).
  Proof. intros []; eauto. Qed.
  Lemma literal_first ts o : literal m ts o -> exists v r, ts = TQuoted v :: r.
  Proof. intros []; eauto. Qed.
  Lemma reads_opens i ts o : reads m i ts o -> opens ts.
  Proof.
    intros H. destruct H; try exact I; try (eapply names_opens; eassumption);
      try (match goal with H : literal m _ _ |- _ => destruct (literal_first _ _ H) as (? & ? & ->); exact I end).
  Qed.
  Lemma keyword_annotation' t ss os : construct_sig t = Some (ss, os) -> t <> OT_FACET_RESTR -> isort_has SAnnot t = false -> keyword t <> ANNOTATION.
  Proof. destruct t; cbn; intros H1 H2 H3; try discriminate; try contradiction; discriminate. Qed.
  Definition annotates (i : isort) : bool := isort_has i OT_ANNOTATION.
  Lemma reads_noann i ts o rest : reads m i ts o -> annotates i = false -> noann (ts ++ rest).
  Proof.
    intros H Hi.
    assert (Hk : forall t us, isort_has i t = true -> (exists p, construct_sig t = Some p) -> noann (TKw (keyword t) :: us)).
    { intros t us Ht [p Hp]. cbn. destruct (keyword t) eqn:E; auto. destruct t; cbn in E, Hp; try discriminate. unfold annotates in Hi. rewrite Hi in Ht. discriminate. }
    destruct H; try exact I; try (match goal with H : names m ?t _ _ |- _ => destruct (names_plain _ _ _ H) as [[? ->]|[? ->]]; exact I end);
      try (match goal with H : literal m _ _ |- _ => destruct (literal_first _ _ H) as (? & ? & ->); exact I end);
      try (cbn [app]; apply Hk; eauto; fail).
    destruct e; exact I.
  Qed.
  Lemma reads_all_calm i ts l rest : reads_all m i ts l -> calm rest -> calm (ts ++ rest).
  Proof.
    intros H Hr. destruct H as [|i ts o us l H H']; [exact Hr|]. rewrite <- app_assoc. apply opens_calm. eapply reads_opens; exact H.
  Qed.
  Lemma reads_all_noann i ts l rest : reads_all m i ts l -> annotates i = false -> noann rest -> noann (ts ++ rest).
  Proof.
    intros H Hi Hr. destruct H as [|i ts o us l H H']; [exact Hr|]. rewrite <- app_assoc. eapply reads_noann; eassumption.
  Qed.
  Lemma reads_all_length i ts l : reads_all m i ts l -> (List.length l <= List.length ts)%nat.
  Proof.
    induction 1 as [|i ts o us l H H' IH]; [cbn; lia|]. rewrite app_length. apply reads_opens in H. destruct ts; [contradiction|]. cbn. lia.
  Qed.
  Lemma operands_calm t ss ts fs rest : operands m t ss ts fs -> calm rest -> calm (ts ++ rest).
  Proof.
    induction 1 as [|t i ss ts o us fs H1 H2 IH|t i ss ts l us fs Ht H1 Hl H2 IH|i ss ts l us fs H1 H2 IH|t ss ts o us fs H1 H2 IH|t ss ts l us fs H1 Hl H2 IH];
      intros Hr; auto; try exact I; rewrite <- app_assoc.
    - apply opens_calm. eapply reads_opens; exact H1.
    - eapply reads_all_calm; [exact H1|auto].
    - apply opens_calm. eapply reads_opens; exact H1.
  Qed.
  Definition plain_sort (s : sort) : bool := match s with SOne i | SMany _ i => negb (annotates i) | SSubProp => true end.
  Lemma operands_noann t ss ts fs rest : operands m t ss ts fs -> forallb plain_sort ss = true -> noann rest -> noann (ts ++ rest).
  Proof.
    induction 1 as [|t i ss ts o us fs H1 H2 IH|t i ss ts l us fs Ht H1 Hl H2 IH|i ss ts l us fs H1 H2 IH|t ss ts o us fs H1 H2 IH|t ss ts l us fs H1 Hl H2 IH];
      cbn [forallb plain_sort]; intros Hs Hr; auto; try exact I; rewrite <- app_assoc; apply andb_true_iff in Hs as [Hs Hs'].
    - apply negb_true_iff in Hs. eapply reads_noann; eassumption.
    - apply negb_true_iff in Hs. eapply reads_all_noann; eauto.
    - eapply reads_noann; [exact H1|reflexivity].
  Qed.

  (** * What the grammar derives is accepted *)

  Definition all_one (ss : list sort) : bool := forallb (fun s => match s with SOne _ => true | _ => false end) ss.
  Fixpoint lists_ok (t : otype) (ss : list sort) : bool :=
    match ss with
    | [] => true
    | SMany _ _ :: r => (otype_eqb t OT_A_HAS_KEY || match r with [] => true | _ => false end) && lists_ok t r
    | _ :: r => lists_ok t r
    end.
  Lemma sig_shape t ss os : construct_sig t = Some (ss, os) -> lists_ok t ss = true /\
    match os with
    | OptFiller i d => (exists s, ss = [SOne s]) /\ (forall x, d = Some x -> x = filler_default t)
    | OptAnnots => forallb plain_sort ss = true
    | NoOpt => True
    end.
  Proof.
    intros Hs. destruct t; cbn in Hs; try discriminate; injection Hs as <- <-; split; try reflexivity; try exact I;
      (split; [eexists; reflexivity|]); intros x Hx; first [discriminate Hx | injection Hx as <-; reflexivity].
  Qed.
  Lemma rule_run f n k p body rest l o :
    rule_for (rules_of n) k = Some p ->
    parse_syms (parse m f) (p_syms p) (body ++ TRParen :: rest) = POk l (TRParen :: rest) ->
    run_ctor (p_ctor p) l = Some o ->
    parse m (S f) n ((TKw k :: in_parens body) ++ rest) = POk o rest.
  Proof.
    intros Hr Hs Hc. unfold in_parens. cbn [app]. rewrite <- app_assoc. cbn [app parse parse_step].
    unfold parse_step. rewrite Hr. unfold parse_prod, pbind. cbn [tok_lparen]. rewrite Hs. cbn [tok_rparen]. rewrite Hc. reflexivity.
  Qed.
  Lemma otype_eqb_neq t u : t <> u -> otype_eqb t u = false.
  Proof. destruct (otype_eqb t u) eqn:E; auto. intros H. exfalso. apply H. apply otype_eqb_eq. exact E. Qed.
  Lemma parse_syms_app self l1 : forall l2 ts vs1 r1 vs2 r2, parse_syms self l1 ts = POk vs1 r1 -> parse_syms self l2 r1 = POk vs2 r2 ->
    parse_syms self (l1 ++ l2) ts = POk (vs1 ++ vs2) r2.
  Proof.
    induction l1 as [|y l1 IH]; intros l2 ts vs1 r1 vs2 r2 H1 H2; cbn [parse_syms app] in *.
    - injection H1 as <- <-. exact H2.
    - unfold pbind, pret in *. destruct (parse_sym self y ts) as [v r| | |]; try discriminate.
      destruct (parse_syms self l1 r) as [vs r'| | |] eqn:E; try discriminate. injection H1 as <- <-.
      rewrite (IH l2 r vs r' vs2 r2 E H2). reflexivity.
  Qed.

  Definition done1 (i : isort) (ts : list token) (o : obj) : Prop := forall f rest, calm rest -> (List.length ts < f)%nat ->
    parse m f (nt_of i) (ts ++ rest) = POk o rest.
  Definition done2 (i : isort) (ts : list token) (l : list obj) : Prop :=
    (forall f fuel rest, closes rest -> (List.length ts < f)%nat -> (List.length l <= fuel)%nat ->
       items fuel (parse m f (nt_of i)) (ts ++ rest) = POk l rest) /\
    (i = SAnnot -> forall f fuel rest, calm rest -> noann rest -> (List.length ts < f)%nat -> (List.length l <= fuel)%nat ->
       annots fuel (parse m f N_annotation) (ts ++ rest) = POk l rest).
  Definition done3 (t : otype) (ss : list sort) (ts : list token) (fs : list obj) : Prop :=
    forall f rest, lists_ok t ss = true -> calm rest -> (all_one ss = true \/ closes rest) -> (List.length ts < f)%nat ->
      parse_syms (parse m f) (map (sym_of t) ss) (ts ++ rest) = POk (map GObj fs) rest.

  Lemma parens_length ts : List.length (in_parens ts) = S (S (List.length ts)).
  Proof. unfold in_parens. cbn. rewrite app_length. cbn. lia. Qed.
  Lemma at_least_done i f k ts l rest : reads_all m i ts l -> done2 i ts l -> (k <= List.length l)%nat -> closes rest -> (List.length ts < f)%nat ->
    at_least k (parse m f (nt_of i)) (ts ++ rest) = POk l rest.
  Proof.
    intros H [Hd _] Hk Hr Hf. unfold at_least, pbind. pose proof (reads_all_length _ _ _ H). rewrite Hd; auto.
    - destruct (Nat.ltb_spec (List.length l) k); [lia|]. reflexivity.
    - rewrite app_length. lia.
  Qed.
  Lemma parens_done i f k ord ts l rest : reads_all m i ts l -> done2 i ts l -> (k <= List.length l)%nat -> (List.length ts < f)%nat ->
    (get _ <- tok_lparen;; get l <- at_least k (parse m f (nt_of i));; get _ <- tok_rparen;; pret (GObj (OVec ord l))) (in_parens ts ++ rest) =
    POk (GObj (OVec ord l)) rest.
  Proof.
    intros H Hd Hk Hf. unfold in_parens. cbn [app]. rewrite <- app_assoc. unfold pbind. cbn [tok_lparen].
    rewrite (at_least_done i f k ts l ([TRParen] ++ rest) H Hd Hk I Hf). reflexivity.
  Qed.
  Lemma name_case i t ns rem f rest o : names m t ns rem ->
    (forall us, match us with TIriRef _ :: _ | TPnameLn _ :: _ => True | _ => False end ->
       parse_flat m (nt_of i) us = (get x <- parse_iri m;; pret (o x)) us) ->
    (0 < f)%nat -> parse m f (nt_of i) ([t] ++ rest) = POk (o (ns, rem)) rest.
  Proof.
    intros Hn Hf Hl. destruct f as [|f]; [lia|]. pose proof (names_parse t ns rem rest Hn) as E. cbn [app parse]. unfold parse_step.
    destruct (names_plain _ _ _ Hn) as [[x ->]|[x ->]]; rewrite Hf by exact I; unfold pbind; rewrite E; reflexivity.
  Qed.

  Lemma complete : (forall i ts o, reads m i ts o -> done1 i ts o) /\ (forall i ts l, reads_all m i ts l -> done2 i ts l) /\
    (forall t ss ts fs, operands m t ss ts fs -> done3 t ss ts fs).
  Proof.
    apply (reads_mutind m (fun i ts o _ => done1 i ts o) (fun i ts l _ => done2 i ts l) (fun t ss ts fs _ => done3 t ss ts fs)).
    - intros t ns rem Hn f rest _ Hl. apply (name_case SIri t ns rem f rest (fun x => OIri (fst x) (snd x)) Hn); [intros; reflexivity|cbn in Hl; lia].
    - intros e t ns rem Hn f rest _ Hl. apply (name_case (SEnt e) t ns rem f rest (fun x => OEnt e (fst x) (snd x)) Hn); [intros; reflexivity|cbn in Hl; lia].
    - intros t ns rem Hn f rest _ Hl. apply (name_case SCls t ns rem f rest (fun x => OEnt ET_CLASS (fst x) (snd x)) Hn); [intros; reflexivity|cbn in Hl; lia].
    - intros t ns rem Hn f rest _ Hl. apply (name_case SRange t ns rem f rest (fun x => OEnt ET_DATATYPE (fst x) (snd x)) Hn); [intros; reflexivity|cbn in Hl; lia].
    - intros t ns rem Hn f rest _ Hl. apply (name_case SObjProp t ns rem f rest (fun x => OEnt ET_OBJ_PROP (fst x) (snd x)) Hn); [intros; reflexivity|cbn in Hl; lia].
    - intros t ns rem Hn f rest _ Hl. apply (name_case SInd t ns rem f rest (fun x => OEnt ET_NAMED_IND (fst x) (snd x)) Hn);
        [intros [|[] us] H; try contradiction; reflexivity|cbn in Hl; lia].
    - intros id f rest _ Hl. destruct f as [|f]; [cbn in Hl; lia|]. reflexivity.
    - intros ts o H f rest Hr Hl. destruct f as [|f]; [lia|]. destruct (literal_first _ _ H) as (v & r & Ev).
      pose proof (literal_parse ts o rest H Hr) as E. cbn [parse]. unfold parse_step. rewrite Ev in *. exact E.
    - intros t ns rem Hn f rest _ Hl. apply (name_case SAnnotVal t ns rem f rest (fun x => OIri (fst x) (snd x)) Hn);
        [intros [|[] us] H; try contradiction; reflexivity|cbn in Hl; lia].
    - intros id f rest _ Hl. destruct f as [|f]; [cbn in Hl; lia|]. reflexivity.
    - intros ts o H f rest Hr Hl. destruct f as [|f]; [lia|]. destruct (literal_first _ _ H) as (v & r & Ev).
      pose proof (literal_parse ts o rest H Hr) as E. cbn [parse]. unfold parse_step. rewrite Ev in *. exact E.
    - intros t ns rem Hn f rest _ Hl. apply (name_case SAnnotSubj t ns rem f rest (fun x => OIri (fst x) (snd x)) Hn);
        [intros [|[] us] H; try contradiction; reflexivity|cbn in Hl; lia].
    - intros id f rest _ Hl. destruct f as [|f]; [cbn in Hl; lia|]. reflexivity.
    - intros e t ns rem Hn f rest _ Hl. cbn [List.length] in Hl. rewrite parens_length in Hl. destruct f as [|f]; [lia|].
      eapply (rule_run f N_entity (keyword (etype_otype e)) (mkProd (keyword (etype_otype e)) [Y_one (N_entity_of e)] K_inner) [t] rest [GObj (OEnt e ns rem)]).
      + destruct e; reflexivity.
      + cbn [p_syms parse_syms parse_sym]. unfold pbind, pret.
        pose proof (name_case (SEnt e) t ns rem f (TRParen :: rest) (fun x => OEnt e (fst x) (snd x)) Hn) as E. cbn [nt_of] in E.
        rewrite E by (intros; try reflexivity; cbn in Hl; lia).
        reflexivity.
      + reflexivity.
    - intros t ns rem ts o Hn H f rest Hr Hl. destruct f as [|f]; [lia|]. pose proof (names_parse t ns rem (ts ++ rest) Hn) as E.
      pose proof (literal_parse ts o rest H Hr) as E2. cbn [app parse]. unfold parse_step.
      destruct (names_plain _ _ _ Hn) as [[x ->]|[x ->]]; cbn [nt_of parse_flat]; unfold pbind; rewrite E, E2; reflexivity.
    - intros i t ss ts fs Hi Ht Hs _ IH f rest Hr Hl. cbn [List.length] in Hl. rewrite parens_length in Hl. destruct f as [|f]; [lia|].
      pose proof (sig_shape _ _ _ Hs) as [Hlo _].
      eapply rule_run; [eapply rule_found; [exact Hs|apply otype_eqb_neq; exact Ht|exact Hi]| |].
      + cbn [rule_of p_syms]. apply IH; [exact Hlo|exact I|right; exact I|lia].
      + cbn [rule_of p_ctor run_ctor]. rewrite run_fields_eq. reflexivity.
    - intros i t ss ann l ts fs Hi Hs Ha [_ IHa] Ho IH f rest Hr Hl. cbn [List.length] in Hl. rewrite parens_length, app_length in Hl. destruct f as [|f]; [lia|].
      pose proof (sig_shape _ _ _ Hs) as [Hlo Hpl].
      assert (Hnf : otype_eqb t OT_FACET_RESTR = false) by (apply otype_eqb_neq; intros ->; discriminate).
      eapply rule_run; [eapply rule_found; [exact Hs|exact Hnf|exact Hi]| |].
      + cbn [rule_of p_syms parse_syms parse_sym]. unfold pbind, pret. rewrite <- app_assoc.
        rewrite (IHa eq_refl); [|eapply operands_calm; [exact Ho|exact I]|eapply operands_noann; [exact Ho|exact Hpl|exact I]|lia|
          rewrite app_length; pose proof (reads_all_length _ _ _ Ha); lia].
        rewrite IH; [reflexivity|exact Hlo|exact I|right; exact I|lia].
      + cbn [rule_of p_ctor]. destruct l as [|a l]; cbn [run_ctor]; rewrite run_fields_eq; reflexivity.
    - intros i t ss j d ts fs us x opt Hi Hs Ho IH Hx IHx Hopt f rest Hr Hl. cbn [List.length] in Hl. rewrite parens_length, app_length in Hl. destruct f as [|f]; [lia|].
      pose proof (sig_shape _ _ _ Hs) as [Hlo [[s Es] Hd]]. specialize (Hd d eq_refl).
      assert (Hnf : otype_eqb t OT_FACET_RESTR = false) by (apply otype_eqb_neq; intros ->; discriminate).
      eapply rule_run; [eapply rule_found; [exact Hs|exact Hnf|exact Hi]| |].
      + cbn [rule_of p_syms]. rewrite <- app_assoc. eapply parse_syms_app.
        * apply IH; [exact Hlo|apply opens_calm; eapply reads_opens; exact Hx|left; rewrite Es; reflexivity|lia].
        * cbn [parse_syms parse_sym]. unfold pbind, pret. rewrite IHx by (auto; try exact I; lia). reflexivity.
      + cbn [rule_of p_ctor]. subst ss. inversion Ho as [|? ? ? ? y ? ? ? Ho2| | | |]; subst. inversion Ho2; subst. cbn [map app run_ctor]. unfold mk_quant.
        fold (filler_default t). destruct (prim_eqb x (filler_default t)) eqn:E.
        * assert (x = filler_default t).
          { unfold filler_default in *. destruct t; try discriminate; destruct x; try discriminate; apply prim_eqb_eq_ent in E; rewrite <- E; reflexivity. }
          destruct Hopt as [[_ ->]|[Hne _]]; [reflexivity|contradiction].
        * destruct Hopt as [[-> _]|[_ ->]]; [|reflexivity]. exfalso. revert E. unfold filler_default. destruct t; discriminate.
    - intros i t ss j n ts fs Hi Hs Ho IH f rest Hr Hl. cbn in Hl. rewrite app_length in Hl. cbn in Hl. destruct f as [|f]; [lia|].
      pose proof (sig_shape _ _ _ Hs) as [Hlo [[s Es] _]].
      assert (Hnf : otype_eqb t OT_FACET_RESTR = false) by (apply otype_eqb_neq; intros ->; discriminate).
      eapply rule_run; [eapply rule_found; [exact Hs|exact Hnf|exact Hi]| |].
      + cbn [rule_of p_syms parse_syms parse_sym app]. unfold pbind, pret. cbv beta iota. erewrite (parse_syms_app (parse m f) (map (sym_of t) ss)).
        * unfold pbind, pret. reflexivity.
        * apply IH; [exact Hlo|exact I|left; rewrite Es; reflexivity|lia].
        * reflexivity.
      + cbn [rule_of p_ctor]. subst ss. inversion Ho as [|? ? ? ? y ? ? ? Ho2| | | |]; subst. inversion Ho2; subst. reflexivity.
    - intros i t ss j n ts fs us x Hi Hs Ho IH Hx IHx f rest Hr Hl. cbn in Hl. rewrite !app_length in Hl. cbn in Hl. destruct f as [|f]; [lia|].
      pose proof (sig_shape _ _ _ Hs) as [Hlo [[s Es] _]].
      assert (Hnf : otype_eqb t OT_FACET_RESTR = false) by (apply otype_eqb_neq; intros ->; discriminate).
      pose proof (reads_opens _ _ _ Hx) as Hop.
      eapply rule_run; [eapply rule_found; [exact Hs|exact Hnf|exact Hi]| |].
      + cbn [rule_of p_syms parse_syms parse_sym app]. unfold pbind, pret. cbv beta iota. rewrite <- app_assoc. erewrite (parse_syms_app (parse m f) (map (sym_of t) ss)).
        * unfold pbind, pret. reflexivity.
        * apply IH; [exact Hlo|apply opens_calm; exact Hop|left; rewrite Es; reflexivity|lia].
        * cbn [parse_syms parse_sym]. pose proof (IHx f (TRParen :: rest) I) as E.
          destruct us as [|u us]; [contradiction|]. cbn [app] in E |- *. unfold pbind, pret. rewrite E by lia. destruct u; try contradiction; reflexivity.
      + cbn [rule_of p_ctor]. subst ss. inversion Ho as [|? ? ? ? y ? ? ? Ho2| | | |]; subst. inversion Ho2; subst. reflexivity.
    - intros i. split.
      + intros f fuel rest Hr _ _. destruct rest as [|[] rest]; try contradiction. destruct fuel; reflexivity.
      + intros _ f fuel rest _ Hn _ _. destruct fuel; cbn; (destruct rest as [|tk rest]; [reflexivity|]; destruct tk as [| | | | | | | | | | |k|]; try reflexivity;
          destruct k; try reflexivity; contradiction).
    - intros i ts o us l Ho IHo Hl [IH1 IH2]. pose proof (reads_opens _ _ _ Ho) as Hop. split.
      + intros f fuel rest Hr Hf Hn. rewrite app_length in Hf. cbn in Hn. destruct fuel as [|fuel]; [lia|]. rewrite <- app_assoc.
        assert (E : parse m f (nt_of i) (ts ++ us ++ rest) = POk o (us ++ rest)).
        { apply IHo; [eapply reads_all_calm; [exact Hl|apply closes_calm; exact Hr]|lia]. }
        destruct ts as [|t ts]; [contradiction|]. cbn [app] in *. cbn [items]. unfold pbind, pret. rewrite E, IH1 by (auto; lia).
        destruct t; try reflexivity. contradiction.
      + intros -> f fuel rest Hr Hn Hf Hfu. rewrite app_length in Hf. cbn in Hfu. destruct fuel as [|fuel]; [lia|]. rewrite <- app_assoc.
        assert (E : parse m f (nt_of SAnnot) (ts ++ us ++ rest) = POk o (us ++ rest)).
        { apply IHo; [eapply reads_all_calm; [exact Hl|exact Hr]|lia]. }
        assert (Et : exists r, ts = TKw ANNOTATION :: r).
        { inversion Ho; subst;
            match goal with H : isort_has SAnnot ?t = true |- _ => destruct t; try discriminate H end; eexists; reflexivity. }
        destruct Et as [r ->]. cbn [app] in *. cbn [annots]. unfold pbind, pret. cbn [nt_of] in E. rewrite E, (IH2 eq_refl) by (auto; lia). reflexivity.
    - intros t f rest _ _ _ _. reflexivity.
    - intros t i ss ts o us fs Ho IHo Hs IHs f rest Hlo Hr Hc Hf. rewrite app_length in Hf. cbn in Hlo, Hc.
      cbn [map sym_of parse_syms parse_sym]. unfold pbind, pret. rewrite <- app_assoc.
      rewrite IHo by (try lia; eapply operands_calm; eassumption). rewrite IHs by (auto; lia). reflexivity.
    - intros t i ss ts l us fs Ht Hl IHl Hk Hs IHs f rest Hlo Hr Hc Hf. rewrite app_length in Hf. cbn [lists_ok] in Hlo.
      rewrite (otype_eqb_neq t OT_A_HAS_KEY Ht) in Hlo. cbn [orb] in Hlo. destruct ss as [|]; [|discriminate]. inversion Hs; subst.
      destruct Hc as [Hc|Hc]; [discriminate|]. cbn [map sym_of]. rewrite (otype_eqb_neq t OT_A_HAS_KEY Ht). rewrite app_nil_r.
      cbn [parse_syms parse_sym]. unfold pbind, pret. rewrite (at_least_done i f (least t) ts l rest) by (auto; lia). reflexivity.
    - intros i ss ts l us fs Hl IHl Hs IHs f rest Hlo Hr Hc Hf. rewrite app_length, parens_length in Hf. cbn [lists_ok] in Hlo.
      apply andb_true_iff in Hlo as [_ Hlo]. cbn [map]. change (sym_of OT_A_HAS_KEY (SMany false i)) with (Y_star (nt_of i)).
      cbn [parse_syms]. unfold pbind at 1. unfold parse_sym. rewrite <- app_assoc. rewrite (parens_done i f 0 false ts l) by (auto; lia).
      unfold pbind, pret. rewrite IHs; [reflexivity|exact Hlo|exact Hr| |lia]. destruct Hc as [Hc|Hc]; [discriminate|now right].
    - intros t ss ts o us fs Ho IHo Hs IHs f rest Hlo Hr Hc Hf. rewrite app_length in Hf. cbn in Hlo.
      destruct Hc as [Hc|Hc]; [discriminate|].
      cbn [map sym_of parse_syms]. unfold pbind at 1. rewrite <- app_assoc.
      assert (E : parse_sym (parse m f) Y_sub_prop (ts ++ us ++ rest) = POk (GObj o) (us ++ rest)).
      { pose proof (IHo f (us ++ rest)) as E. pose proof (reads_opens _ _ _ Ho) as Hop. cbn [parse_sym]. unfold pbind, pret. cbn [nt_of] in E.
        assert (Hn : forall r, ts ++ us ++ rest <> TKw OBJECT_PROPERTY_CHAIN :: r).
        { intros r. inversion Ho; subst;
            try (match goal with H : names m _ _ _ |- _ => destruct (names_plain _ _ _ H) as [[? ->]|[? ->]]; discriminate end);
            match goal with H : isort_has SObjProp ?t = true |- _ => destruct t; discriminate end. }
        rewrite E by (try lia; eapply operands_calm; eassumption).
        destruct (ts ++ us ++ rest) as [|tk r]; [reflexivity|]. destruct tk as [| | | | | | | | | | |k|]; try reflexivity.
        destruct k; try reflexivity. exfalso. now apply (Hn r). }
      rewrite E. unfold pbind, pret. rewrite IHs by (auto; lia). reflexivity.
    - intros t ss ts l us fs Hl IHl Hk Hs IHs f rest Hlo Hr Hc Hf. rewrite app_length in Hf. cbn [List.length] in Hf. rewrite parens_length in Hf. cbn in Hlo.
      destruct Hc as [Hc|Hc]; [discriminate|].
      cbn [map sym_of parse_syms]. unfold pbind at 1. rewrite <- app_assoc. cbn [app parse_sym].
      pose proof (parens_done SObjProp f 2 true ts l (us ++ rest) Hl IHl Hk) as E. cbn [nt_of] in E. rewrite E by lia. unfold pbind, pret.
      rewrite IHs by (auto; lia). reflexivity.
  Qed.
End Grammar.
