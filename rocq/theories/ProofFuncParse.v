(** The functional parser rebuilds an object from its tokens. *)

From Coq Require Import String NArith ZArith List Bool Lia.
From Coq Require Import ZifyBool ZifyNat ZifyN.
From Verif Require Import Bytes ModelTypes ModelObject ModelText SpecObject SpecText ModelFuncLex ModelFuncParser
  SpecFunc ProofObject ProofText ProofLiteral ProofPrefixSafe ProofFuncWrite.
Import ListNotations.
Local Open Scope N_scope.

(** * Tables *)

Definition sym_of (t : otype) (s : sort) : sym :=
  match s with
  | SOne i => Y_one (nt_of i)
  | SMany _ i => if otype_eqb t OT_A_HAS_KEY then Y_star (nt_of i) else Y_list (least t) (nt_of i)
  | SSubProp => Y_sub_prop
  end.
Definition rule_of (t : otype) (ss : list sort) (os : optsort) : prod :=
  let syms := map (sym_of t) ss in
  match os with
  | OptAnnots => mkProd (keyword t) (Y_annots :: syms) (K_annot t)
  | NoOpt => mkProd (keyword t) syms (K_plain t)
  | OptFiller i (Some _) => mkProd (keyword t) (syms ++ [Y_one (nt_of i)]) (K_quant t)
  | OptFiller i None => mkProd (keyword t) (Y_num :: syms ++ [Y_opt (nt_of i)]) (K_card t)
  end.
Lemma rule_found t ss os i :
  construct_sig t = Some (ss, os) -> otype_eqb t OT_FACET_RESTR = false -> isort_has i t = true ->
  rule_for (rules_of (nt_of i)) (keyword t) = Some (rule_of t ss os).
Proof.
  intros Hs Hf Hi. destruct t; cbn [construct_sig] in Hs; try discriminate; injection Hs as <- <-;
    destruct i; try (vm_compute in Hi; discriminate); try reflexivity; destruct e; vm_compute in Hi; discriminate.
Qed.

Definition opens (ts : list token) : Prop :=
  match ts with TKw _ :: _ | TIriRef _ :: _ | TPnameLn _ :: _ | TBlank _ :: _ | TQuoted _ :: _ => True | _ => False end.
Lemma opens_calm ts rest : opens ts -> calm (ts ++ rest).
Proof. destruct ts as [|[] ts]; cbn; auto; contradiction. Qed.
Lemma opens_app ts rest : opens ts -> opens (ts ++ rest).
Proof. destruct ts as [|[] ts]; cbn; auto; contradiction. Qed.

Section Parse.
  Variable w : N.
  Variable short : bytes -> option bytes.
  Variable m : pmap.
  Hypothesis short_known : forall ns p, short ns = Some p -> ~ In 58 p /\ pmap_ns m p = Some ns.
  Notation tokens := (tokens short).
  Notation expressible := (expressible w short).
  Notation iri_token := (iri_token short).

  (** ** IRIs and literals *)

  Lemma canonical_from ns rem : ns ++ rem <> [] -> canonical_split (ns ++ rem) ns rem -> iri_from_string (ns ++ rem) = Some (ns, rem).
  Proof.
    intros Hn Hc. destruct (iri_from_string_canonical (ns ++ rem)) as [[E _]|(_ & ns' & rem' & E & Hc')]; [contradiction|].
    destruct (canonical_split_unique _ _ _ _ _ Hc Hc') as [<- <-]. exact E.
  Qed.
  Lemma parse_iri_ok ns rem rest : iri_ok short ns rem -> parse_iri m (iri_token ns rem :: rest) = POk (ns, rem) rest.
  Proof.
    intros (Hn & Hc & _). pose proof (canonical_from _ _ Hn Hc) as E. unfold SpecFunc.iri_token.
    assert (G : parse_iri m (TIriRef (ns ++ rem) :: rest) = POk (ns, rem) rest) by (cbn; rewrite E; reflexivity).
    destruct rem as [|c rem]; [destruct (short ns); exact G|]. destruct (short ns) as [p|] eqn:Es; [|exact G].
    destruct (short_known _ _ Es) as [Hp Hm]. cbn [parse_iri]. rewrite (index_of_app p (c :: rem) Hp).
    rewrite firstn_app, firstn_all, Nat.sub_diag. cbn [firstn]. rewrite app_nil_r, Hm.
    replace (skipn (S (List.length p)) (p ++ 58 :: c :: rem)) with (c :: rem).
    - rewrite (iri_parts_roundtrip _ _ _ E). reflexivity.
    - replace (S (List.length p)) with (List.length (p ++ [58])) by (rewrite app_length; cbn; lia).
      change (p ++ 58 :: c :: rem) with (p ++ [58] ++ c :: rem). rewrite app_assoc, skipn_app, skipn_all, Nat.sub_diag. reflexivity.
  Qed.
  Lemma iri_token_not_kw ns rem : opens [iri_token ns rem].
  Proof. unfold SpecFunc.iri_token. destruct rem; [|destruct (short ns)]; exact I. Qed.
  Lemma iri_token_cases ns rem : (exists s, iri_token ns rem = TIriRef s) \/ (exists s, iri_token ns rem = TPnameLn s).
  Proof. unfold SpecFunc.iri_token. destruct rem; [|destruct (short ns)]; eauto. Qed.

  Lemma lower_tag l : lang_tag l -> l <> [] /\ internalize_lang l = l.
  Proof.
    intros (a & ps & -> & Ha & Hs & Hp). split; [destruct a; [contradiction|discriminate]|].
    rewrite internalize_lang_lower.
    assert (Hl : Forall (fun c => ~ 65 <= c <= 90) (a ++ flat_map (fun p => 45 :: p) ps)).
    { apply Forall_app. split.
      - eapply Forall_impl; [|exact Hs]. unfold small. intros c H. lia.
      - apply Forall_flat_map. eapply Forall_impl; [|exact Hp]. intros p [_ H]. constructor; [lia|].
        eapply Forall_impl; [|exact H]. unfold small, is_digit. intros c Hc. lia. }
    generalize (to_lower_spec (a ++ flat_map (fun p => 45 :: p) ps)). generalize (to_lower (a ++ flat_map (fun p => 45 :: p) ps)).
    revert Hl. generalize (a ++ flat_map (fun p => 45 :: p) ps). clear.
    intros l Hl l' H. induction H as [|c c' l l' Hc H IH]; [reflexivity|]. inversion Hl; subst.
    f_equal; [destruct Hc as [[H1 _]|[_ H1]]; [contradiction | exact H1] | apply IH; assumption].
  Qed.
  Definition a_literal (o : obj) : Prop := match o with OLit _ _ _ | OLang _ _ => True | _ => False end.
  Lemma parse_literal_ok o rest : a_literal o -> expressible o -> calm rest ->
    parse_literal m (literal_tokens short o ++ rest) = POk o rest.
  Proof.
    intros Ht He Hr. destruct o as [| | | |v ns rem|v l| |]; try contradiction.
    - destruct He as (Hv & H1 & H2 & Hi). cbn [literal_tokens].
      destruct (bytes_eqb ns xsd_ns && bytes_eqb rem xsd_string_rem) eqn:E.
      + apply andb_true_iff in E as [E1 E2]. apply bytes_eqb_eq in E1, E2. subst.
        destruct rest as [|[] rest]; cbn in *; try contradiction; reflexivity.
      + cbn [app parse_literal]. unfold pbind. rewrite (parse_iri_ok _ _ _ Hi). cbn [fst snd literal_value].
        unfold cowl_literal. destruct (is_lang_datatype ns rem) eqn:El; [|reflexivity]. exfalso.
        apply is_lang_datatype_spec in El as [-> [-> | ->]]; [apply H1 | apply H2]; reflexivity.
    - destruct He as (Hv & Hl). destruct (lower_tag _ Hl) as [Hn Hi]. cbn. unfold literal_lang_alloc. rewrite Hi.
      destruct l; [contradiction|]. reflexivity.
  Qed.

  (** ** First tokens *)

  Definition noann (ts : list token) : Prop := match ts with TKw ANNOTATION :: _ => False | _ => True end.
  Definition is_vec (o : obj) : bool := match o with OVec _ _ => true | _ => false end.
  Lemma one_not_vec i o : wt (SOne i) o = true -> is_vec o = false.
  Proof. destruct o; cbn; auto; discriminate. Qed.
  Lemma tokens_comp t fs opt n : otype_eqb t OT_FACET_RESTR = false -> exists body, tokens (OComp t fs opt n) = TKw (keyword t) :: in_parens body.
  Proof. intros E. cbn [SpecFunc.tokens]. rewrite E. eexists. reflexivity. Qed.
  Lemma keyword_annotation t ss os : construct_sig t = Some (ss, os) -> keyword t = ANNOTATION -> t = OT_ANNOTATION.
  Proof. destruct t; cbn; intros H1 H2; try discriminate; reflexivity. Qed.
  Lemma facet_inv s fs opt n : wt s (OComp OT_FACET_RESTR fs opt n) = true ->
    exists ns rem l, fs = [OIri ns rem; l] /\ a_literal l /\ opt = None /\ n = 0.
  Proof.
    intros H. apply wt_comp_inv in H as (ss & os & Hs & Hf & Ho & Hn). cbn in Hs. injection Hs as <- <-.
    inversion Hf as [|f1 s1 fs1 ss1 H1 Hf1]; subst. inversion Hf1 as [|f2 s2 fs2 ss2 H2 Hf2]; subst. inversion Hf2; subst.
    destruct f1 as [|ns rem|e ns rem| | | | |t ? ? ?]; try discriminate; [|destruct e; discriminate|].
    2:{ apply andb_true_iff in H1 as [H1 H1']. destruct t; discriminate. }
    exists ns, rem, f2. split; [reflexivity|]. split; [|split].
    - destruct f2 as [| |e ? ?| | | | |t ? ? ?]; try discriminate; try exact I; [destruct e; discriminate|].
      apply andb_true_iff in H2 as [H2 H2']. destruct t; discriminate.
    - destruct opt as [p|]; [destruct (Ho p eq_refl) | reflexivity].
    - apply Hn. reflexivity.
  Qed.
  Lemma tokens_open s o : wt s o = true -> is_vec o = false -> opens (tokens o).
  Proof.
    intros Hw Hv. destruct o as [|ns rem|e ns rem| | | | |t fs opt n]; try discriminate; try exact I.
    - apply iri_token_not_kw.
    - apply iri_token_not_kw.
    - destruct (otype_eqb t OT_FACET_RESTR) eqn:E.
      + assert (t = OT_FACET_RESTR) by (destruct t; vm_compute in E; try discriminate; reflexivity). subst t.
        destruct (facet_inv _ _ _ _ Hw) as (ns & rem & l & -> & _ & -> & ->). cbn [SpecFunc.tokens flat_map].
        change (opens ([iri_token ns rem] ++ tokens l ++ [])). apply opens_app, iri_token_not_kw.
      + destruct (tokens_comp t fs opt n E) as [b ->]. exact I.
  Qed.
  Lemma tokens_noann s o rest : wt s o = true -> is_vec o = false -> get_type o <> OT_ANNOTATION -> noann (tokens o ++ rest).
  Proof.
    intros Hw Hv Ht. destruct o as [|ns rem|e ns rem| |v ns rem| | |t fs opt n]; try discriminate; try exact I.
    - cbn. destruct (iri_token_cases ns rem) as [[x ->]|[x ->]]; exact I.
    - cbn. destruct (iri_token_cases ns rem) as [[x ->]|[x ->]]; exact I.
    - destruct (otype_eqb t OT_FACET_RESTR) eqn:E.
      + assert (t = OT_FACET_RESTR) by (destruct t; vm_compute in E; try discriminate; reflexivity). subst t.
        destruct (facet_inv _ _ _ _ Hw) as (ns & rem & l & -> & _ & -> & ->). cbn [SpecFunc.tokens flat_map].
        change (noann ([iri_token ns rem] ++ tokens l ++ [] ++ rest)).
        destruct (iri_token_cases ns rem) as [[x ->]|[x ->]]; exact I.
      + destruct (tokens_comp t fs opt n E) as [b ->]. cbn [app noann].
        destruct (keyword t) eqn:Ek; auto. exfalso. apply Ht. cbn.
        apply wt_comp_inv in Hw as (ss & os & Hs & _). eapply keyword_annotation; eauto.
  Qed.

  (** ** Objects *)

  Definition parses (o : obj) : Prop :=
    forall i f rest, wt (SOne i) o = true -> i <> SEntity -> expressible o -> calm rest ->
      (List.length (tokens o) < f)%nat -> parse m f (nt_of i) (tokens o ++ rest) = POk o rest.
  Definition parses_all (o : obj) : Prop := match o with OVec _ l => Forall parses l | _ => parses o end.

  Definition closes (ts : list token) : Prop := match ts with TRParen :: _ => True | _ => False end.
  Lemma closes_calm ts : closes ts -> calm ts.
  Proof. destruct ts as [|[] ts]; cbn; auto. Qed.
  Lemma calm_list i l rest : Forall (fun x => wt (SOne i) x = true) l -> calm rest -> calm (flat_map tokens l ++ rest).
  Proof.
    intros H Hr. destruct H as [|x l Hx H]; [exact Hr|]. cbn [flat_map]. rewrite <- app_assoc. apply opens_calm.
    eapply tokens_open; [exact Hx | eapply one_not_vec; exact Hx].
  Qed.

  Lemma parse_items i f : i <> SEntity -> forall l fuel rest,
    Forall parses l -> Forall (fun x => wt (SOne i) x = true) l -> Forall expressible l -> closes rest ->
    (List.length (flat_map tokens l) < f)%nat -> (List.length l <= fuel)%nat ->
    items fuel (parse m f (nt_of i)) (flat_map tokens l ++ rest) = POk l rest.
  Proof.
    intros Hi l. induction l as [|x l IH]; intros fuel rest Hp Hw He Hr Hl Hf.
    - destruct rest as [|[] rest]; try contradiction. destruct fuel; reflexivity.
    - inversion Hp; inversion Hw; inversion He; subst. destruct fuel as [|fuel]; [cbn in Hf; lia|].
      cbn [flat_map] in *. rewrite app_length in Hl. rewrite <- app_assoc.
      pose proof (tokens_open _ _ H5 (one_not_vec _ _ H5)) as Ho.
      assert (E : parse m f (nt_of i) (tokens x ++ flat_map tokens l ++ rest) = POk x (flat_map tokens l ++ rest)).
      { apply H1; auto; [apply (calm_list i); [assumption | apply closes_calm; exact Hr] | lia]. }
      destruct (tokens x ++ flat_map tokens l ++ rest) as [|tk ts] eqn:Et.
      { destruct (tokens x); [contradiction|discriminate]. }
      assert (Hnr : tk <> TRParen) by (intros ->; destruct (tokens x) as [|tk' ?]; [contradiction|]; injection Et as -> _; contradiction).
      cbn [items]. unfold pbind, pret. rewrite E, (IH fuel rest) by (auto; cbn in Hf; lia).
      destruct tk; try reflexivity. contradiction.
  Qed.
  Lemma length_items i l : Forall (fun x => wt (SOne i) x = true) l -> (List.length l <= List.length (flat_map tokens l))%nat.
  Proof.
    induction 1 as [|x l Hx H IH]; [cbn; lia|]. cbn [flat_map List.length]. rewrite app_length.
    pose proof (tokens_open _ _ Hx (one_not_vec _ _ Hx)) as Ho. destruct (tokens x); [contradiction|]. cbn. lia.
  Qed.
  Lemma parse_at_least i f k l rest : i <> SEntity ->
    Forall parses l -> Forall (fun x => wt (SOne i) x = true) l -> Forall expressible l -> closes rest ->
    (List.length (flat_map tokens l) < f)%nat -> (k <= List.length l)%nat ->
    at_least k (parse m f (nt_of i)) (flat_map tokens l ++ rest) = POk l rest.
  Proof.
    intros Hi Hp Hw He Hr Hl Hk. unfold at_least, pbind. rewrite parse_items; auto.
    - destruct (Nat.ltb_spec (List.length l) k); [lia|]. reflexivity.
    - rewrite app_length. pose proof (length_items _ _ Hw). lia.
  Qed.
  Lemma annotation_tokens o : wt (SOne SAnnot) o = true -> exists body, tokens o = TKw ANNOTATION :: in_parens body.
  Proof.
    intros H. destruct o as [| |e ? ?| | | | |t fs opt n]; try discriminate; [destruct e; discriminate|].
    cbn [wt] in H. apply andb_true_iff in H as [H _].
    assert (t = OT_ANNOTATION) by (destruct t; vm_compute in H; try discriminate; reflexivity). subst t.
    apply tokens_comp. reflexivity.
  Qed.
  Lemma parse_annots f : forall l fuel rest,
    Forall parses l -> Forall (fun x => wt (SOne SAnnot) x = true) l -> Forall expressible l -> calm rest -> noann rest ->
    (List.length (flat_map tokens l) < f)%nat -> (List.length l <= fuel)%nat ->
    annots fuel (parse m f N_annotation) (flat_map tokens l ++ rest) = POk l rest.
  Proof.
    intros l. induction l as [|x l IH]; intros fuel rest Hp Hw He Hr Hn Hl Hf.
    - destruct fuel; cbn; (destruct rest as [|tk rest]; [reflexivity|]; destruct tk as [| | | | | | | | | | |k|]; try reflexivity;
        destruct k; try reflexivity; contradiction).
    - inversion Hp; inversion Hw; inversion He; subst. destruct fuel as [|fuel]; [cbn in Hf; lia|].
      cbn [flat_map] in *. rewrite app_length in Hl. rewrite <- app_assoc.
      assert (E : parse m f N_annotation (tokens x ++ flat_map tokens l ++ rest) = POk x (flat_map tokens l ++ rest)).
      { apply (H1 SAnnot); auto; [discriminate | apply (calm_list SAnnot); assumption | lia]. }
      destruct (annotation_tokens x H5) as [body Eb]. rewrite Eb in *. cbn [app] in *. cbn [annots]. unfold pbind, pret.
      rewrite E, (IH fuel rest) by (auto; cbn in Hf; lia). reflexivity.
  Qed.

  (** *** Rules *)

  Lemma parse_rule f n k p body rest l o :
    rule_for (rules_of n) k = Some p ->
    parse_syms (parse m f) (p_syms p) (body ++ TRParen :: rest) = POk l (TRParen :: rest) ->
    run_ctor (p_ctor p) l = Some o ->
    parse m (S f) n ((TKw k :: in_parens body) ++ rest) = POk o rest.
  Proof.
    intros Hr Hs Hc. unfold in_parens. cbn [app]. rewrite <- app_assoc. cbn [app parse parse_step].
    unfold parse_step. rewrite Hr. unfold parse_prod, pbind. cbn [tok_lparen]. rewrite Hs. cbn [tok_rparen]. rewrite Hc. reflexivity.
  Qed.
  Lemma run_fields fs : (fix fields l := match l with [] => Some [] | GObj o :: l' => option_map (cons o) (fields l') | _ => None end)
    (map GObj fs) = Some fs.
  Proof. induction fs as [|x fs IH]; [reflexivity|]. cbn [map]. rewrite IH. reflexivity. Qed.

  (** Lists are last. *)
  Fixpoint lists_last (ss : list sort) : bool :=
    match ss with
    | [] => true
    | SOne i :: r => (match i with SEntity => false | _ => true end) && lists_last r
    | SMany false i :: [] => match i with SEntity => false | _ => true end
    | _ => false
    end.
  Lemma calm_fields t ss fs rest : lists_last ss = true -> Forall2 (fun f s => wt s f = true) fs ss ->
    Forall (fun f => match f with OVec _ l => (least t <= List.length l)%nat | _ => True end) fs -> (1 <= least t)%nat ->
    closes rest -> calm (flat_map tokens fs ++ rest).
  Proof.
    intros Hl H Hlen Ht Hr. destruct H as [|x s fs ss Hx H]; [apply closes_calm; exact Hr|].
    cbn [flat_map]. rewrite <- app_assoc. destruct (is_vec x) eqn:Ev.
    - destruct x as [| | | | | |ord l|]; try discriminate. inversion Hlen as [|? ? Hlx _]; subst.
      destruct l as [|y l]; [cbn in Hlx; lia|]. cbn [SpecFunc.tokens flat_map]. rewrite <- app_assoc. apply opens_calm.
      assert (Hy : exists i, wt (SOne i) y = true).
      { cbn [wt] in Hx. destruct s as [|ord' i|]; [discriminate| |]; apply andb_true_iff in Hx as [_ Hx]; cbn [forallb] in Hx;
          apply andb_true_iff in Hx as [Hx _]; eauto. }
      destruct Hy as [i Hy]. eapply tokens_open; [exact Hy | eapply one_not_vec; exact Hy].
    - apply opens_calm. eapply tokens_open; eauto.
  Qed.
  Lemma parse_fields t f : otype_eqb t OT_A_HAS_KEY = false -> (1 <= least t)%nat -> forall ss fs rest,
    lists_last ss = true -> Forall2 (fun f s => wt s f = true) fs ss -> Forall parses_all fs -> Forall expressible fs ->
    Forall (fun f => match f with OVec _ l => (least t <= List.length l)%nat | _ => True end) fs -> closes rest ->
    (List.length (flat_map tokens fs) < f)%nat ->
    parse_syms (parse m f) (map (sym_of t) ss) (flat_map tokens fs ++ rest) = POk (map GObj fs) rest.
  Proof.
    intros Hk Ht ss. induction ss as [|s ss IH]; intros fs rest Hl H Hp He Hlen Hr Hf.
    - inversion H; subst. reflexivity.
    - inversion H as [|x s' fs' ss' Hx H']; subst. inversion Hp as [|? ? Hpx Hp']; subst. inversion He as [|? ? Hex He']; subst.
      inversion Hlen as [|? ? Hlx Hlen']; subst. cbn [flat_map] in *. rewrite app_length in Hf. rewrite <- app_assoc.
      destruct s as [i|ord i|]; [| |discriminate].
      + cbn [lists_last] in Hl. apply andb_true_iff in Hl as [Hi Hl].
        assert (Hi' : i <> SEntity) by (intros ->; discriminate).
        pose proof (one_not_vec _ _ Hx) as Hv.
        assert (Hpx' : parses x) by (destruct x; try exact Hpx; discriminate).
        assert (E : parse m f (nt_of i) (tokens x ++ flat_map tokens fs' ++ rest) = POk x (flat_map tokens fs' ++ rest)).
        { apply Hpx'; auto; [eapply calm_fields; eauto | lia]. }
        cbn [map sym_of parse_syms parse_sym]. unfold pbind, pret. rewrite E, (IH fs' rest) by (auto; lia). reflexivity.
      + destruct ord; [discriminate|]. destruct ss; [|discriminate]. inversion H'; subst.
        assert (Hi' : i <> SEntity) by (intros ->; discriminate).
        destruct x as [| | | | | |ord l|]; try discriminate. cbn [wt] in Hx. apply andb_true_iff in Hx as [Eo Hx].
        destruct ord; [discriminate|]. rewrite forallb_forall in Hx. rewrite <- Forall_forall in Hx.
        cbn [map sym_of]. rewrite Hk. cbn [parse_syms parse_sym SpecFunc.tokens flat_map app]. unfold pbind, pret.
        cbn [SpecFunc.tokens] in Hf. assert (Hel : Forall expressible l) by (apply expressible_list; exact Hex).
        rewrite (parse_at_least i f (least t) l rest) by (auto; lia). reflexivity.
  Qed.

  Lemma forallb_wt i l : forallb (fun x => wt (SOne i) x) l = true -> Forall (fun x => wt (SOne i) x = true) l.
  Proof. rewrite forallb_forall, Forall_forall. auto. Qed.

  (** Annotations before the operands of an axiom. *)
  Lemma parse_axiom_rule t ss f i fs opt n body rest :
    construct_sig t = Some (ss, OptAnnots) -> otype_eqb t OT_FACET_RESTR = false -> isort_has i t = true ->
    n = 0 ->
    (forall p, opt = Some p -> parses_all p /\ expressible p /\ wt (SMany false SAnnot) p = true /\ p <> OVec false []) ->
    (List.length (match opt with Some x => tokens x | None => [] end) < f)%nat ->
    parse_syms (parse m f) (map (sym_of t) ss) (body ++ TRParen :: rest) = POk (map GObj fs) (TRParen :: rest) ->
    calm (body ++ TRParen :: rest) -> noann (body ++ TRParen :: rest) ->
    parse m (S f) (nt_of i) ((TKw (keyword t) :: in_parens (match opt with Some x => tokens x | None => [] end ++ body)) ++ rest) =
      POk (OComp t fs opt n) rest.
  Proof.
    intros Hs Hf Hi -> Ho Hl Hb Hc Hn.
    eapply parse_rule; [eapply rule_found; eassumption| |].
    - cbn [rule_of p_syms parse_syms parse_sym]. unfold pbind, pret.
      assert (E : annots (List.length ((match opt with Some x => tokens x | None => [] end ++ body) ++ TRParen :: rest))
        (parse m f N_annotation) ((match opt with Some x => tokens x | None => [] end ++ body) ++ TRParen :: rest) =
        POk (match opt with Some (OVec _ l) => l | _ => [] end) (body ++ TRParen :: rest)).
      { rewrite <- app_assoc. destruct opt as [p|].
        - destruct (Ho p eq_refl) as (Hp & He & Hw & Hne). destruct p as [| | | | | |ord l|]; try discriminate.
          cbn [wt] in Hw. apply andb_true_iff in Hw as [_ Hw]. apply forallb_wt in Hw.
          cbn [SpecFunc.tokens]. assert (Hel : Forall expressible l) by (apply expressible_list; exact He).
          apply parse_annots; auto. rewrite !app_length. pose proof (length_items _ _ Hw). lia.
        - apply (parse_annots f [] _ (body ++ TRParen :: rest)); auto; cbn; lia. }
      rewrite E, Hb. reflexivity.
    - cbn [rule_of p_ctor].
      destruct opt as [p|].
      + destruct (Ho p eq_refl) as (Hp & He & Hw & Hne). destruct p as [| | | | | |ord l|]; try discriminate.
        cbn [wt] in Hw. apply andb_true_iff in Hw as [Ew _]. destruct ord; [discriminate|].
        destruct l as [|x l]; [contradiction|]. cbn [run_ctor]. rewrite run_fields. reflexivity.
      + cbn [run_ctor]. rewrite run_fields. reflexivity.
  Qed.

  Lemma parse_one i f o rest : parses_all o -> wt (SOne i) o = true -> i <> SEntity -> expressible o -> calm rest ->
    (List.length (tokens o) < f)%nat -> parse m f (nt_of i) (tokens o ++ rest) = POk o rest.
  Proof.
    intros Hp Hw Hi He Hr Hl. pose proof (one_not_vec _ _ Hw) as Hv. destruct o; try discriminate; apply Hp; assumption.
  Qed.

  Lemma parses_prim o : (match o with OIri _ _ | OEnt _ _ _ | OAnon _ | OLit _ _ _ | OLang _ _ => True | _ => False end) -> parses o.
  Proof.
    intros Hp i f rest Hw Hi He Hr Hl. destruct f as [|f]; [lia|]. cbn [parse]. unfold parse_step.
    destruct o as [|ns rem|e ns rem|id|v ns rem|v l| |]; try contradiction.
    - cbn [SpecFunc.tokens app expressible] in *. pose proof (parse_iri_ok ns rem rest He) as E.
      destruct (iri_token_cases ns rem) as [[x Ex]|[x Ex]]; rewrite Ex in *;
      destruct i; try (cbn in Hw; discriminate); try (destruct e; discriminate); try contradiction;
        cbn [nt_of parse_flat parse_anon]; unfold pbind; rewrite E; reflexivity.
    - cbn [SpecFunc.tokens app expressible] in *. pose proof (parse_iri_ok ns rem rest He) as E.
      destruct (iri_token_cases ns rem) as [[x Ex]|[x Ex]]; rewrite Ex in *;
      (destruct i as [e'| | | | | | | | | | | |]; [destruct e', e; try (vm_compute in Hw; discriminate) | contradiction |
        destruct e; try (vm_compute in Hw; discriminate) ..]);
        cbn [nt_of parse_flat parse_anon]; unfold parse_entity_of, pbind; rewrite E; reflexivity.
    - destruct i; try (vm_compute in Hw; discriminate); try contradiction; try (destruct e; vm_compute in Hw; discriminate); reflexivity.
    - pose proof (parse_literal_ok (OLit v ns rem) rest I He Hr) as E.
      cbn [SpecFunc.tokens literal_tokens app] in *.
      destruct i; try (vm_compute in Hw; discriminate); try contradiction; try (destruct e; vm_compute in Hw; discriminate); exact E.
    - pose proof (parse_literal_ok (OLang v l) rest I He Hr) as E.
      cbn [SpecFunc.tokens literal_tokens app] in *.
      destruct i; try (vm_compute in Hw; discriminate); try contradiction; try (destruct e; vm_compute in Hw; discriminate); exact E.
  Qed.

  Definition special (t : otype) : bool :=
    match t with OT_FACET_RESTR | OT_A_DECL | OT_A_SUB_OBJ_PROP | OT_A_HAS_KEY => true | _ => false end.
  Definition extra (opt : option obj) : list token := match opt with Some x => tokens x | None => [] end.
  Lemma tokens_shape t ss os fs opt n : construct_sig t = Some (ss, os) -> special t = false ->
    tokens (OComp t fs opt n) = TKw (keyword t) :: in_parens
      (match os with
       | OptAnnots => extra opt ++ flat_map tokens fs
       | NoOpt => flat_map tokens fs ++ extra opt
       | OptFiller _ None => [TInt n] ++ flat_map tokens fs ++ extra opt
       | OptFiller _ (Some d) => flat_map tokens fs ++ match opt with Some x => tokens x | None => tokens d end
       end).
  Proof.
    intros Hs Hp. destruct t; cbn in Hs; try discriminate; injection Hs as <- <-; try discriminate;
      destruct opt as [p|]; reflexivity.
  Qed.
  Lemma tokens_special t ss os fs opt n : construct_sig t = Some (ss, os) -> t = OT_A_DECL \/ t = OT_A_SUB_OBJ_PROP \/ t = OT_A_HAS_KEY ->
    os = OptAnnots /\
    tokens (OComp t fs opt n) = TKw (keyword t) :: in_parens (extra opt ++
      match t, fs with
      | OT_A_DECL, [OEnt e ns rem] => TKw (keyword (etype_otype e)) :: in_parens [iri_token ns rem]
      | OT_A_SUB_OBJ_PROP, [OVec _ l; super] => TKw OBJECT_PROPERTY_CHAIN :: in_parens (flat_map tokens l) ++ tokens super
      | OT_A_HAS_KEY, [c; op; dp] => tokens c ++ in_parens (tokens op) ++ in_parens (tokens dp)
      | _, _ => flat_map tokens fs
      end).
  Proof. intros Hs [-> |[-> | ->]]; cbn in Hs; injection Hs as <- <-; split; reflexivity. Qed.
  Lemma sig_lists t ss os : construct_sig t = Some (ss, os) -> special t = false ->
    lists_last ss = true /\ (1 <= least t)%nat /\ otype_eqb t OT_A_HAS_KEY = false /\ otype_eqb t OT_FACET_RESTR = false.
  Proof.
    intros Hs Hp. destruct t; cbn in Hs; try discriminate; injection Hs as <- <-; try discriminate;
      repeat split; try reflexivity; cbn; lia.
  Qed.
  Lemma sig_filler t ss i d : construct_sig t = Some (ss, OptFiller i d) ->
    (exists s, ss = [SOne s] /\ s <> SEntity) /\ i <> SEntity /\
    (forall x, d = Some x -> x = (match t with OT_CE_OBJ_SOME | OT_CE_OBJ_ALL => owl_thing | _ => rdfs_literal end) /\
       wt (SOne i) x = true /\ expressible x /\ parses x) /\ is_card_restr t = match d with None => true | Some _ => false end.
  Proof.
    intros Hs. destruct t; cbn in Hs; try discriminate; injection Hs as <- <- <-;
      (split; [eexists; split; [reflexivity | discriminate]|]; split; [discriminate|]; split; [|reflexivity];
       intros x Hx; first [discriminate Hx | injection Hx as <-; split; [reflexivity|]; split; [reflexivity|]; split;
       [first [apply thing_ok | apply rdfs_literal_ok] | apply parses_prim; exact I]]).
  Qed.
  Lemma noann_fields i t ss fs rest : construct_sig t = Some (ss, OptAnnots) -> special t = false ->
    Forall2 (fun f s => wt s f = true) fs ss ->
    Forall (fun f => match f with OVec _ l => (least t <= List.length l)%nat | _ => True end) fs -> i = rest ->
    noann (flat_map tokens fs ++ rest).
  Proof.
    intros Hs Hp H Hlen ->. destruct (sig_lists _ _ _ Hs Hp) as (_ & Hl & _).
    assert (Hann : forall s, In s ss -> match s with SOne i | SMany _ i => isort_has i OT_ANNOTATION = false | SSubProp => True end).
    { clear -Hs Hp. destruct t; cbn in Hs; try discriminate; injection Hs as <-; intros s Hin; cbn [In] in Hin;
        repeat (destruct Hin as [<-|Hin]; [exact I || reflexivity|]); contradiction. }
    assert (Hty : forall i o, wt (SOne i) o = true -> isort_has i OT_ANNOTATION = false -> get_type o <> OT_ANNOTATION).
    { clear. intros i o Hw Hi E. destruct o as [| | | | | | |t]; try discriminate; cbn [get_type] in E.
      - destruct e; discriminate.
      - subst t. cbn [wt] in Hw. rewrite Hi in Hw. discriminate. }
    destruct ss as [|s ss]; [destruct t; cbn in Hs; discriminate|].
    inversion H as [|x s' fs' ss' Hx H']; subst. inversion Hlen as [|? ? Hlx _]; subst. cbn [flat_map]. rewrite <- app_assoc.
    specialize (Hann s (or_introl eq_refl)).
    destruct s as [i|ord i|].
    - eapply tokens_noann; [exact Hx | eapply one_not_vec; exact Hx | eapply Hty; eauto].
    - destruct x as [| | | | | |ord' l|]; try discriminate. cbn [wt] in Hx. apply andb_true_iff in Hx as [_ Hx].
      destruct l as [|y l]; [cbn in Hlx; lia|]. cbn [forallb] in Hx. apply andb_true_iff in Hx as [Hy _].
      cbn [SpecFunc.tokens flat_map]. rewrite <- app_assoc.
      eapply tokens_noann; [exact Hy | eapply one_not_vec; exact Hy | eapply Hty; eauto].
    - destruct t; cbn in Hs; discriminate.
  Qed.

  Lemma parses_all_ok o : parses_all o.
  Proof.
    induction o as [i s|ns rem|e ns rem|id|v ns rem|v l|ord l IH|t fs opt n IH IHo] using obj_ind';
      try (apply parses_prim; exact I).
    - intros i' f rest Hw. discriminate.
    - cbn. rewrite Forall_forall in *. intros x Hx i f rest Hw. specialize (IH x Hx).
      pose proof (one_not_vec _ _ Hw) as Hv. destruct x; try discriminate; apply IH; exact Hw.
    - intros i f rest Hw Hi He Hr Hl. pose proof Hw as Hwt.
      apply wt_comp_inv in Hw as (ss & os & Hsig & Hfs & Hopt & Hn).
      pose proof He as Hexp. destruct He as (Hef & Heo & Hlen & Hn2 & Hsub). apply expressible_list in Hef.
      assert (Hit : isort_has i t = true) by (cbn [wt] in Hwt; apply andb_true_iff in Hwt as [H _]; exact H).
      assert (Hnv : forall p, opt = Some p -> os = OptAnnots -> p <> OVec false []).
      { intros p -> -> ->. cbn [wt] in Hwt. rewrite Hsig in Hwt. rewrite !andb_true_iff in Hwt. destruct Hwt as [_ [[_ [_ H]] _]]. discriminate. }
      assert (Hdf : forall p j d, opt = Some p -> os = OptFiller j (Some d) -> prim_eqb p d = false).
      { intros p j d -> ->. cbn [wt] in Hwt. rewrite Hsig in Hwt. rewrite !andb_true_iff in Hwt. destruct Hwt as [_ [[_ [_ H]] _]].
        apply negb_true_iff in H. exact H. }
      destruct f as [|f]; [lia|].
      destruct (special t) eqn:Esp.
      + (* special cases *)
        assert (Hcl : closes (TRParen :: rest)) by exact I.
        assert (Hann : forall p, os = OptAnnots -> opt = Some p ->
          parses_all p /\ expressible p /\ wt (SMany false SAnnot) p = true /\ p <> OVec false []).
        { intros p -> ->. specialize (Hopt p eq_refl). specialize (Hnv p eq_refl eq_refl). repeat split; auto. }
        destruct t; try discriminate.
        * (* facet *)
          destruct (facet_inv _ _ _ _ Hwt) as (ns & rem & l & -> & Hlit & -> & ->).
          inversion Hef as [|? ? H1 Hef']; subst. inversion Hef' as [|? ? H2 _]; subst.
          destruct i; try (vm_compute in Hit; discriminate); [destruct e; vm_compute in Hit; discriminate|].
          change (tokens (OComp OT_FACET_RESTR [OIri ns rem; l] None 0)) with (iri_token ns rem :: tokens l ++ []).
          rewrite app_nil_r. cbn [app parse nt_of]. unfold parse_step.
          pose proof (parse_iri_ok ns rem (tokens l ++ rest) H1) as E1.
          pose proof (parse_literal_ok l rest Hlit H2 Hr) as E2.
          assert (E3 : tokens l = literal_tokens short l) by (destruct l; try contradiction; reflexivity). rewrite E3 in *.
          destruct (iri_token_cases ns rem) as [[x Ex]|[x Ex]]; rewrite Ex in *;
            cbn [parse_flat]; unfold pbind; rewrite E1, E2; reflexivity.
        * (* declaration *)
          destruct (tokens_special OT_A_DECL ss os fs opt n Hsig ltac:(auto)) as [-> Et]. rewrite Et in *. clear Et.
          cbn in Hsig. injection Hsig as <-. inversion Hfs as [|x s' fs' ss' Hx Hfs']; subst. inversion Hfs'; subst.
          inversion Hef as [|? ? H1 _]; subst.
          destruct x as [| |e ns rem| | | | |t' ? ? ?]; try discriminate; [|destruct t'; discriminate].
          cbn [List.length in_parens] in Hl. rewrite !app_length in Hl. cbn [List.length in_parens app] in Hl. 
          assert (Hn0 : n = 0) by (apply Hn; reflexivity).
          refine (parse_axiom_rule OT_A_DECL _ f i _ opt n _ rest eq_refl eq_refl Hit Hn0 (fun p E => Hann p eq_refl E) _ _ _ _); [unfold extra in Hl; lia| | |].
          2,3: destruct e; exact I.
          cbn [map sym_of nt_of parse_syms parse_sym]. unfold pbind, pret.
          destruct f as [|f]; [lia|]. destruct f as [|f]; [lia|].
          assert (E : parse m (S (S f)) N_entity ((TKw (keyword (etype_otype e)) :: in_parens [iri_token ns rem]) ++ TRParen :: rest) =
            POk (OEnt e ns rem) (TRParen :: rest)).
          { pose proof (parses_prim (OEnt e ns rem) I (SEnt e) (S f) (TRParen :: TRParen :: rest) ltac:(destruct e; reflexivity)
              ltac:(discriminate) H1 I ltac:(cbn; lia)) as E.
            destruct e; (eapply parse_rule; [reflexivity| |]; [cbn [p_syms parse_syms parse_sym app]; unfold pbind, pret;
              cbn [nt_of SpecFunc.tokens app] in E; rewrite E; reflexivity | reflexivity]). }
          rewrite E. reflexivity.
        * (* sub-property *)
          destruct (tokens_special OT_A_SUB_OBJ_PROP ss os fs opt n Hsig ltac:(auto)) as [-> Et]. rewrite Et in *. clear Et.
          cbn in Hsig. injection Hsig as <-. inversion Hfs as [|x s' fs' ss' Hx Hfs']; subst.
          inversion Hfs' as [|y s2 fs2 ss2 Hy Hfs2]; subst. inversion Hfs2; subst.
          inversion Hef as [|? ? H1 Hef']; subst. inversion Hef' as [|? ? H2 _]; subst.
          inversion IH as [|? ? P1 IH']; subst. inversion IH' as [|? ? P2 _]; subst. inversion Hlen as [|? ? Hlx _]; subst.
          cbn [List.length in_parens] in Hl. rewrite !app_length in Hl.
          assert (Ey : forall r, calm r -> (List.length (tokens y) < f)%nat -> parse m f N_obj_prop_exp (tokens y ++ r) = POk y r)
            by (intros r Hcr Hlr; apply (parse_one SObjProp); auto; discriminate).
          destruct x as [| |e ns rem| | | |ord l|]; try discriminate; [| |contradiction].
          -- cbn [flat_map List.length app SpecFunc.tokens] in *. rewrite app_nil_r in *. cbn [List.length] in Hl.
             assert (Hn0 : n = 0) by (apply Hn; reflexivity).
          refine (parse_axiom_rule OT_A_SUB_OBJ_PROP _ f i _ opt n _ rest eq_refl eq_refl Hit Hn0 (fun p E => Hann p eq_refl E) _ _ _ _); [unfold extra in Hl; lia| | |].
             ++ cbn [map sym_of nt_of parse_syms parse_sym app]. unfold pbind, pret.
                pose proof (parse_one SObjProp f (OEnt e ns rem) (tokens y ++ TRParen :: rest) P1 Hx ltac:(discriminate) H1
                  ltac:(apply opens_calm; eapply tokens_open; [exact Hy | eapply one_not_vec; exact Hy]) ltac:(cbn; lia)) as E.
                cbn [nt_of SpecFunc.tokens app] in E.
                destruct (iri_token_cases ns rem) as [[z Ez]|[z Ez]]; rewrite Ez in *; rewrite E, Ey by (exact I || lia); reflexivity.
             ++ cbn [app]. destruct (iri_token_cases ns rem) as [[z Ez]|[z Ez]]; rewrite Ez; exact I.
             ++ cbn [app]. destruct (iri_token_cases ns rem) as [[z Ez]|[z Ez]]; rewrite Ez; exact I.
          -- cbn [List.length in_parens app] in Hl. rewrite !app_length in Hl. cbn [List.length in_parens app] in Hl. 
             rewrite ?app_length in Hl. cbn [List.length] in Hl.
             assert (Hn0 : n = 0) by (apply Hn; reflexivity).
          refine (parse_axiom_rule OT_A_SUB_OBJ_PROP _ f i _ opt n _ rest eq_refl eq_refl Hit Hn0 (fun p E => Hann p eq_refl E) _ _ _ _); [unfold extra in Hl; lia| | |]. 2,3: exact I.
             cbn [map sym_of nt_of parse_syms parse_sym app]. unfold pbind, pret. cbn [in_parens app tok_lparen].
             cbn [wt] in Hx. apply andb_true_iff in Hx as [Eo Hx]. subst ord. apply forallb_wt in Hx.
             assert (Hel : Forall expressible l) by (apply expressible_list; exact H1).
             rewrite <- !app_assoc.
             pose proof (parse_at_least SObjProp f 2 l ([TRParen] ++ tokens y ++ TRParen :: rest) ltac:(discriminate) P1 Hx Hel I
               ltac:(lia) Hlx) as E. cbn [nt_of] in E. rewrite E. cbn [app tok_rparen]. rewrite Ey by (exact I || lia). reflexivity.
        * (* key *)
          destruct (tokens_special OT_A_HAS_KEY ss os fs opt n Hsig ltac:(auto)) as [-> Et]. rewrite Et in *. clear Et.
          cbn in Hsig. injection Hsig as <-. inversion Hfs as [|x s' fs' ss' Hx Hfs']; subst.
          inversion Hfs' as [|y s2 fs2 ss2 Hy Hfs2]; subst. inversion Hfs2 as [|z s3 fs3 ss3 Hz Hfs3]; subst. inversion Hfs3; subst.
          inversion Hef as [|? ? H1 Hef']; subst. inversion Hef' as [|? ? H2 Hef2]; subst. inversion Hef2 as [|? ? H3 _]; subst.
          inversion IH as [|? ? P1 IH']; subst. inversion IH' as [|? ? P2 IH2]; subst. inversion IH2 as [|? ? P3 _]; subst.
          destruct y as [| | | | | |oy ly|]; try discriminate. destruct z as [| | | | | |oz lz|]; try discriminate.
          cbn [wt] in Hy, Hz. apply andb_true_iff in Hy as [Ey Hy]. apply andb_true_iff in Hz as [Ez Hz].
          destruct oy; [discriminate|]. destruct oz; [discriminate|]. apply forallb_wt in Hy, Hz.
          assert (Hel : Forall expressible ly) by (apply expressible_list; exact H2).
          assert (Hel' : Forall expressible lz) by (apply expressible_list; exact H3).
          cbn [List.length in_parens SpecFunc.tokens] in Hl. rewrite !app_length in Hl. cbn [List.length in_parens app] in Hl.
          rewrite !app_length in Hl. cbn [List.length in_parens app] in Hl. rewrite ?app_length in Hl. cbn [List.length] in Hl.
          assert (Ho : opens (tokens x)) by (eapply tokens_open; [exact Hx | eapply one_not_vec; exact Hx]).
          assert (Hn0 : n = 0) by (apply Hn; reflexivity).
          refine (parse_axiom_rule OT_A_HAS_KEY _ f i _ opt n _ rest eq_refl eq_refl Hit Hn0 (fun p E => Hann p eq_refl E) _ _ _ _); [unfold extra in Hl; lia| | |].
          -- cbn [map sym_of nt_of parse_syms parse_sym SpecFunc.tokens]. unfold pbind, pret. rewrite <- !app_assoc.
             pose proof (parse_one SCls f x (in_parens (flat_map tokens ly) ++ in_parens (flat_map tokens lz) ++ TRParen :: rest)
               P1 Hx ltac:(discriminate) H1 I ltac:(lia)) as E. cbn [nt_of] in E. rewrite E.
             change (otype_eqb OT_A_HAS_KEY OT_A_HAS_KEY) with true. cbn match. cbn [parse_sym]. unfold pbind, pret. cbn [in_parens app tok_lparen].
             rewrite <- !app_assoc.
             cbn [app].
             pose proof (parse_at_least SObjProp f 0 ly (TRParen :: TLParen :: flat_map tokens lz ++ TRParen :: TRParen :: rest)
               ltac:(discriminate) P2 Hy Hel I ltac:(lia) ltac:(lia)) as E2. cbn [nt_of] in E2. rewrite E2. cbn [tok_rparen tok_lparen].
             pose proof (parse_at_least (SEnt ET_DATA_PROP) f 0 lz (TRParen :: TRParen :: rest)
               ltac:(discriminate) P3 Hz Hel' I ltac:(lia) ltac:(lia)) as E3. cbn [nt_of app] in E3. cbn [app]. rewrite E3.
             cbn [tok_rparen]. reflexivity.
          -- rewrite <- !app_assoc. apply opens_calm. exact Ho.
          -- rewrite <- !app_assoc. eapply tokens_noann; [exact Hx | eapply one_not_vec; exact Hx|].
             intros E. destruct x as [| |e ? ?| | | | |t' ? ? ?]; try discriminate; [destruct e; discriminate|]. cbn in E. subst t'. discriminate.
      + destruct (sig_lists _ _ _ Hsig Esp) as (Hll & Hle & Hhk & Hfa).
        rewrite (tokens_shape t ss os fs opt n Hsig Esp) in *. cbn [List.length in_parens] in Hl. rewrite app_length in Hl.
        destruct os as [| |j d].
        * (* no option *)
          destruct opt as [p|]; [specialize (Hopt p eq_refl); try contradiction; try discriminate|]. cbn [extra] in *. rewrite app_nil_r in *.
          assert (n = 0) by (apply Hn; destruct t; cbn in Hsig; try discriminate; injection Hsig; try discriminate; reflexivity). subst n.
          eapply parse_rule; [eapply rule_found; eassumption| |].
          -- cbn [rule_of p_syms]. apply parse_fields; auto; try exact I; lia.
          -- cbn [rule_of p_ctor run_ctor]. rewrite run_fields. reflexivity.
        * (* annotations *)
          assert (n = 0) by (apply Hn; destruct t; cbn in Hsig; try discriminate; reflexivity). subst n.
          rewrite app_length in Hl.
          eapply parse_axiom_rule; eauto.
          -- intros p ->. specialize (Hopt p eq_refl). specialize (Hnv p eq_refl eq_refl). repeat split; auto.
          -- unfold extra in Hl. lia.
          -- apply parse_fields; auto; try exact I; lia.
          -- eapply calm_fields; eauto; exact I.
          -- eapply noann_fields; eauto.
        * destruct (sig_filler _ _ _ _ Hsig) as ((s & -> & Hs) & Hj & Hd & Hcard).
          inversion Hfs as [|x s' fs' ss' Hx Hfs']; subst. inversion Hfs'; subst. inversion IH as [|? ? P1 _]; subst.
          inversion Hef as [|? ? H1 _]; subst. cbn [flat_map] in *. rewrite app_nil_r in *.
          destruct d as [d|].
          -- (* quantified *)
             destruct (Hd d eq_refl) as (Ed & Wd & Xd & Pd).
             assert (n = 0) by (apply Hn; exact Hcard). subst n. rewrite app_length in Hl.
             set (y := match opt with Some x => x | None => d end).
             assert (Hy : wt (SOne j) y = true /\ expressible y /\ parses_all y).
             { unfold y. destruct opt as [p|]; [split; [apply (Hopt p eq_refl)|]; split; [exact Heo | apply IHo; reflexivity]|].
               split; [exact Wd|]. split; [exact Xd|]. pose proof (one_not_vec _ _ Wd). destruct d; try discriminate; exact Pd. }
             destruct Hy as (Wy & Xy & Py).
             replace (match opt with Some x => tokens x | None => tokens d end) with (tokens y) in * by (unfold y; destruct opt; reflexivity).
             eapply parse_rule; [eapply rule_found; eassumption| |].
             ++ cbn [rule_of p_syms map sym_of app parse_syms parse_sym]. unfold pbind, pret. rewrite <- app_assoc.
                rewrite (parse_one s f x (tokens y ++ TRParen :: rest)); auto.
                ** rewrite (parse_one j f y (TRParen :: rest)); auto; [exact I|lia].
                ** apply opens_calm. eapply tokens_open; [exact Wy | eapply one_not_vec; exact Wy].
                ** lia.
             ++ cbn [rule_of p_ctor run_ctor]. unfold mk_quant. rewrite <- Ed. unfold y. destruct opt as [p|].
                ** rewrite (Hdf p j d eq_refl eq_refl). reflexivity.
                ** replace (prim_eqb d d) with true; [reflexivity|]. rewrite Ed. destruct t; reflexivity.
          -- (* cardinality *)
             cbn [app List.length] in Hl. rewrite app_length in Hl. 
             eapply parse_rule with (l := [GNum n; GObj x; match opt with Some p => GObj p | None => GNull end]); [eapply rule_found; eassumption| |].
             ++ cbn [rule_of p_syms map sym_of app parse_syms parse_sym]. unfold pbind, pret. rewrite <- app_assoc.
                rewrite (parse_one s f x (extra opt ++ TRParen :: rest)); auto; [| |lia].
                ** destruct opt as [p|]; cbn [extra app].
                   --- pose proof (Hopt p eq_refl) as Wp. pose proof (tokens_open _ _ Wp (one_not_vec _ _ Wp)) as Op.
                       pose proof (parse_one j f p (TRParen :: rest) (IHo p eq_refl) Wp Hj Heo I ltac:(cbn [extra] in Hl; lia)) as Ep.
                       destruct (tokens p) as [|tk ts]; [contradiction|]. cbn [app] in *.
                       destruct tk; try contradiction; rewrite Ep; reflexivity.
                   --- reflexivity.
                ** destruct opt as [p|]; cbn [extra]; [|exact I]. pose proof (Hopt p eq_refl) as Wp. apply opens_calm.
                   eapply tokens_open; [exact Wp | eapply one_not_vec; exact Wp].
             ++ cbn [rule_of p_ctor]. destruct opt; reflexivity.
  Qed.
End Parse.
