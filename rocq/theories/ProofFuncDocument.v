(** The functional reader accepts exactly the documents of the grammar. *)

From Coq Require Import String NArith ZArith List Bool Lia.
From Coq Require Import ZifyBool ZifyNat ZifyN.
From Verif Require Import Bytes ModelTypes ModelObject ModelText SpecObject SpecText ModelChange ModelPrtDecoder ModelFuncLex ModelFuncParser
  SpecFunc SpecFuncDoc ProofObject ProofText ProofFuncRe ProofFuncLex ProofFuncCutLex ProofFuncWrite ProofFuncParse ProofFuncSafe ProofFuncRead
  ProofFuncGrammar ProofFuncDerive SpecFuncGrammar.
Import ListNotations.
Local Open Scope N_scope.

(** * Tokens *)

Lemma lex_token_ok w b ts : lex w b = Some ts -> Forall token_ok ts.
Proof.
  intros E. apply (L_tokens w token_ok b None ts); [|intros buf; exact I|exact E]. intros q r mk x a b' Hr Hl _.
  destruct q as [buf|]; cbn [rules_q] in Hr.
  - cbn [qstring_rules In] in Hr. destruct Hr as [E1|[E1|[E1|[E1|[]]]]]; try discriminate. injection E1 as <- <-. exact I.
  - unfold initial_rules in Hr. destruct Hr as [E1|Hr]; [discriminate|]. apply in_app_or in Hr as [Hr|Hr].
    + apply in_map_iff in Hr as (k & E1 & _). injection E1 as <- <-. exact I.
    + cbn [In] in Hr. destruct Hr as [E1|[E1|[E1|[E1|[E1|[E1|[E1|[E1|[E1|[E1|[E1|[E1|[E1|[]]]]]]]]]]]]]]; try discriminate; injection E1 as <- <-; try exact I.
      * cbn. apply lang_cat_inv in Hl as (y & z & -> & Hy & _). apply lang_cat_inv in Hy as (y1 & y2 & -> & _ & Hy). apply lang_set_inv in Hy as (c & -> & Hc).
        apply N.eqb_eq in Hc as <-. apply in_or_app. left. apply in_or_app. right. now left.
      * cbn. apply lang_cat_inv in Hl as (y & z & -> & Hy & Hz). apply lang_set_inv in Hy as (c & -> & _). apply lang_cat_inv in Hz as (z1 & z2 & -> & Hz & _).
        apply lang_cat_inv in Hz as (z3 & z4 & -> & Hz & _). unfold trim. cbn [app skipn List.length].
        assert (Hz3 : z3 <> []) by (intros ->; apply lang_set_inv in Hz as (? & ? & _); discriminate).
        destruct z3; [contradiction|]. cbn. discriminate.
Qed.

Section Doc.
  Variable m : pmap.
  Variable signed : bool.
  Notation fine_handler := (fun _ : list dchange => COWL_OK).
  Definition added (ps : list dpart) : list dchange := map (fun p => (CHANGE_ADD, p)) ps.
  Lemma added_cons p ps : added (p :: ps) = (CHANGE_ADD, p) :: added ps.
  Proof. reflexivity. Qed.
  Lemma added_app a b : added (a ++ b) = added a ++ added b.
  Proof. apply map_app. Qed.
  Definition ends (x : list token) : Prop := is_eof signed x = true.

  Lemma axiom_keyword t : isort_has SAxiom t = true -> keyword t <> IMPORT /\ keyword t <> ANNOTATION.
  Proof. destruct t; cbn; intros H; try discriminate; split; discriminate. Qed.
  Lemma annot_keyword t : isort_has SAnnot t = true -> keyword t = ANNOTATION.
  Proof. destruct t; cbn; intros H; try discriminate; reflexivity. Qed.
  Lemma reads_kw_axiom ts o : reads m SAxiom ts o -> exists k r, ts = TKw k :: r /\ k <> IMPORT /\ k <> ANNOTATION.
  Proof.
    intros H. inversion H; subst; (match goal with H : isort_has _ ?t = true |- _ => destruct (axiom_keyword t H) end; eexists; eexists; split; [reflexivity|split; assumption]).
  Qed.
  Lemma reads_kw_annot ts o : reads m SAnnot ts o -> exists r, ts = TKw ANNOTATION :: r.
  Proof.
    intros H. inversion H; subst; (match goal with H : isort_has _ ?t = true |- _ => rewrite (annot_keyword t H) end; eexists; reflexivity).
  Qed.
  Lemma axioms_step t f log r : t <> TRParen -> parse_axioms fine_handler signed (S f) m log (t :: r) =
    then_doc log (parse_nt m N_axiom (t :: r)) (fun o r => parse_axioms fine_handler signed f m (log ++ [(CHANGE_ADD, DAxiom o)]) r).
  Proof. intros H. destruct t; try reflexivity. contradiction. Qed.
  Lemma axioms_done ax l : reads_all m SAxiom ax l -> forall f log x, (List.length ax < f)%nat -> ends x ->
    parse_axioms fine_handler signed f m log (ax ++ TRParen :: x) = FRet COWL_OK (log ++ added (map DAxiom l)).
  Proof.
    intros H. remember SAxiom as i eqn:Ei. induction H as [i|i ts o us l H H' IH]; subst; intros f log x Hf Hx.
    - cbn [app map added]. destruct f as [|f]; [lia|]. cbn [parse_axioms]. rewrite Hx, app_nil_r. reflexivity.
    - destruct (reads_kw_axiom _ _ H) as (k & r & -> & _). rewrite <- app_assoc. cbn [app]. cbn [app List.length] in Hf. destruct f as [|f]; [lia|].
      rewrite axioms_step by discriminate. pose proof (proj1 (complete m) _ _ _ H (S (List.length (TKw k :: r ++ us ++ TRParen :: x))) (us ++ TRParen :: x)) as E.
      cbn [nt_of app] in E. unfold parse_nt. rewrite E; [|eapply reads_all_calm; [exact H'|exact I]|cbn; rewrite app_length; lia]. cbn [then_doc].
      rewrite IH; [|reflexivity|rewrite app_length in Hf; lia|exact Hx]. cbn [map]. rewrite added_cons, <- app_assoc. reflexivity.
  Qed.
  Lemma axioms_read : forall f log ts log', Forall token_ok ts -> parse_axioms fine_handler signed f m log ts = FRet COWL_OK log' ->
    exists ax l x, ts = ax ++ TRParen :: x /\ reads_all m SAxiom ax l /\ ends x /\ log' = log ++ added (map DAxiom l).
  Proof.
    intros f. induction f as [|f IH]; intros log ts log' Ht E.
    - destruct ts as [|[] ts]; try discriminate. cbn in E. destruct (is_eof signed ts) eqn:Ee; [|discriminate]. injection E as <-.
      exists [], [], ts. split; [reflexivity|]. split; [apply all_nil|]. split; [exact Ee|]. cbn. now rewrite app_nil_r.
    - assert (Hgo : then_doc log (parse_nt m N_axiom ts) (fun o r => parse_axioms fine_handler signed f m (log ++ [(CHANGE_ADD, DAxiom o)]) r) = FRet COWL_OK log' ->
        exists ax l x, ts = ax ++ TRParen :: x /\ reads_all m SAxiom ax l /\ ends x /\ log' = log ++ added (map DAxiom l)).
      { unfold parse_nt. destruct (parse m _ N_axiom ts) as [o r|c| |] eqn:Ep; cbn [then_doc]; try discriminate.
        - destruct (parse_reads m _ _ _ _ _ Ht Ep) as (u & -> & Hu). intros H. destruct (IH _ _ _ (token_tail _ _ Ht) H) as (ax & l & x & -> & Hl & Hx & ->).
          exists (u ++ ax), (o :: l), x. rewrite <- app_assoc. split; [reflexivity|]. split; [apply all_cons; assumption|]. split; [exact Hx|].
          cbn [map]. rewrite added_cons, <- app_assoc. reflexivity.
        - intros [= -> <-]. exfalso. pose proof (fine_nt m N_axiom ts) as Hf. unfold parse_nt in Hf. rewrite Ep in Hf. cbn in Hf. destruct Hf as [Hf|Hf]; discriminate. }
      destruct ts as [|t ts]; [exact (Hgo E)|]. destruct t; try exact (Hgo E).
      cbn in E. destruct (is_eof signed ts) eqn:Ee; [|discriminate]. injection E as <-.
      exists [], [], ts. split; [reflexivity|]. split; [apply all_nil|]. split; [exact Ee|]. cbn. now rewrite app_nil_r.
  Qed.

  Lemma iri_doc log ts k log' : Forall token_ok ts -> then_doc log (parse_iri m ts) k = FRet COWL_OK log' ->
    exists t ns rem r, ts = t :: r /\ names m t ns rem /\ k (ns, rem) r = FRet COWL_OK log'.
  Proof.
    intros Ht E. destruct (parse_iri m ts) as [[ns rem] r|c| |] eqn:Ei; cbn [then_doc] in E; try discriminate.
    - destruct (parse_names m _ _ _ Ht Ei) as (t & -> & Hn). exists t, ns, rem, r. auto.
    - injection E as -> _. exfalso. destruct ts as [|t ts]; [discriminate|]. destruct t; try discriminate; cbn [parse_iri] in Ei.
      + destruct (pmap_ns m _); discriminate.
      + destruct (_ : option (bytes * bytes)) in Ei; discriminate.
  Qed.
  Lemma head_step_annot f log r : parse_head fine_handler signed (S f) m log (TKw ANNOTATION :: r) =
    then_doc log (parse_nt m N_annotation (TKw ANNOTATION :: r)) (fun o r => parse_head fine_handler signed f m (log ++ [(CHANGE_ADD, DAnnot o)]) r).
  Proof. reflexivity. Qed.
  Lemma head_step_import f log t ns rem r : names m t ns rem ->
    parse_head fine_handler signed (S f) m log (TKw IMPORT :: TLParen :: t :: TRParen :: r) = parse_head fine_handler signed f m (log ++ [(CHANGE_ADD, DImport (OIri ns rem))]) r.
  Proof.
    intros H. cbn [parse_head]. unfold pbind, pret. cbn [tok_lparen]. rewrite (names_parse m t ns rem _ H). reflexivity.
  Qed.
  Definition past (ts : list token) : Prop := match ts with TKw IMPORT :: _ | TKw ANNOTATION :: _ => False | _ => True end.
  Lemma head_past f log ts : past ts -> parse_head fine_handler signed f m log ts = parse_axioms fine_handler signed (S (List.length ts)) m log ts.
  Proof. intros H. destruct f, ts as [|[] ts]; try reflexivity; destruct k; try reflexivity; contradiction. Qed.
  Lemma past_axioms ax l x : reads_all m SAxiom ax l -> past (ax ++ TRParen :: x).
  Proof.
    intros H. inversion H as [|i ts o us l' H1 H2]; subst; [exact I|]. destruct (reads_kw_axiom _ _ H1) as (k & r & -> & Hk & Hk'). cbn. destruct k; auto.
  Qed.
  Lemma head_done hd qs : heads m hd qs -> forall f log ax l x, (List.length hd <= f)%nat -> reads_all m SAxiom ax l -> ends x ->
    parse_head fine_handler signed f m log (hd ++ ax ++ TRParen :: x) = FRet COWL_OK (log ++ added (qs ++ map DAxiom l)).
  Proof.
    intros H. induction H as [|t ns rem ts ps Hn H IH|us o ts ps Ho H IH]; intros f log ax l x Hf Hax Hx.
    - cbn [app]. rewrite head_past by (eapply past_axioms; exact Hax). apply axioms_done; [exact Hax|rewrite app_length; lia|exact Hx].
    - cbn [app in_parens] in *. cbn [List.length] in Hf. destruct f as [|f]; [lia|].
      change (parse_head fine_handler signed (S f) m log (TKw IMPORT :: TLParen :: t :: TRParen :: ts ++ ax ++ TRParen :: x) = FRet COWL_OK (log ++ added (DImport (OIri ns rem) :: ps ++ map DAxiom l))).
      rewrite (head_step_import _ _ _ _ _ _ Hn), (IH f _ ax l x); [|cbn in Hf; lia|exact Hax|exact Hx]. rewrite added_cons, <- app_assoc. reflexivity.
    - destruct (reads_kw_annot _ _ Ho) as (r & ->). rewrite <- app_assoc. cbn [app]. cbn [app List.length] in Hf. destruct f as [|f]; [lia|].
      rewrite head_step_annot. set (rest := ts ++ ax ++ TRParen :: x).
      pose proof (proj1 (complete m) _ _ _ Ho (S (List.length (TKw ANNOTATION :: r ++ rest))) rest) as E.
      cbn [nt_of app] in E. unfold parse_nt. rewrite E; [|subst rest|cbn; rewrite app_length; lia].
      + cbn [then_doc]. subst rest. rewrite (IH f _ ax l x); [|rewrite app_length in Hf; lia|exact Hax|exact Hx]. cbn [app]. rewrite added_cons, <- app_assoc. reflexivity.
      + destruct H as [|t ns rem ts ps Hn H|us o' ts ps Ho' H]; cbn [app]; [eapply reads_all_calm; [exact Hax|exact I]|exact I|].
        rewrite <- app_assoc. apply opens_calm. eapply reads_opens; exact Ho'.
  Qed.
  Lemma head_read : forall f log ts log', Forall token_ok ts -> parse_head fine_handler signed f m log ts = FRet COWL_OK log' ->
    exists hd qs ax l x, ts = hd ++ ax ++ TRParen :: x /\ heads m hd qs /\ reads_all m SAxiom ax l /\ ends x /\ log' = log ++ added (qs ++ map DAxiom l).
  Proof.
    intros f. induction f as [|f IH]; intros log ts log' Ht E.
    - assert (Hp : past ts) by (destruct ts as [|[] ts]; try exact I; destruct k; try exact I; discriminate).
      rewrite head_past in E by exact Hp. destruct (axioms_read _ _ _ _ Ht E) as (ax & l & x & -> & Hl & Hx & ->).
      exists [], [], ax, l, x. split; [reflexivity|]. split; [apply heads_nil|]. auto.
    - assert (Hgo : past ts -> exists hd qs ax l x, ts = hd ++ ax ++ TRParen :: x /\ heads m hd qs /\ reads_all m SAxiom ax l /\ ends x /\ log' = log ++ added (qs ++ map DAxiom l)).
      { intros Hp. rewrite head_past in E by exact Hp. destruct (axioms_read _ _ _ _ Ht E) as (ax & l & x & -> & Hl & Hx & ->).
        exists [], [], ax, l, x. split; [reflexivity|]. split; [apply heads_nil|]. auto. }
      destruct ts as [|t ts]; [exact (Hgo I)|]. destruct t as [| | | | | | | | | | |k|]; try exact (Hgo I). destruct k; try exact (Hgo I); clear Hgo.
      + cbn [parse_head] in E. inversion Ht as [|? ? _ Ht1]; subst. unfold pbind, pret in E. destruct ts as [|[] ts]; try discriminate. cbn [tok_lparen] in E.
        inversion Ht1 as [|? ? _ Ht2]; subst. destruct (parse_iri m ts) as [[ns rem] r|c| |] eqn:Ei; try discriminate.
        * destruct (parse_names m _ _ _ Ht2 Ei) as (t & -> & Hn). destruct r as [|[] r]; try discriminate. cbn in E.
          inversion Ht2 as [|? ? _ Ht3]; subst. inversion Ht3 as [|? ? _ Ht4]; subst.
          destruct (IH _ _ _ Ht4 E) as (hd & qs & ax & l & x & -> & Hh & Hl & Hx & ->).
          exists ((TKw IMPORT :: in_parens [t]) ++ hd), (DImport (OIri ns rem) :: qs), ax, l, x. split; [reflexivity|]. split; [apply heads_import; assumption|].
          split; [exact Hl|]. split; [exact Hx|]. cbn [app]. rewrite added_cons, <- app_assoc. reflexivity.
        * cbn in E. exfalso. assert (Ef : then_doc log (parse_iri m ts) (fun _ _ => FFuel) = FRet COWL_OK log') by (rewrite Ei; exact E).
          destruct (iri_doc _ _ _ _ Ht2 Ef) as (? & ? & ? & ? & _ & _ & Hbad). discriminate.
      + rewrite head_step_annot in E. unfold parse_nt in E. destruct (parse m _ N_annotation _) as [o r|c| |] eqn:Ep; cbn [then_doc] in E; try discriminate.
        * destruct (parse_reads m _ _ _ _ _ Ht Ep) as (u & Eu & Hu). rewrite Eu in Ht |- *. destruct (IH _ _ _ (token_tail _ _ Ht) E) as (hd & qs & ax & l & x & -> & Hh & Hl & Hx & ->).
          exists (u ++ hd), (DAnnot o :: qs), ax, l, x. rewrite <- app_assoc. split; [reflexivity|]. split; [apply heads_annot; assumption|].
          split; [exact Hl|]. split; [exact Hx|]. cbn [app]. rewrite added_cons, <- app_assoc. reflexivity.
        * injection E as -> _. exfalso. pose proof (fine_nt m N_annotation (TKw ANNOTATION :: ts)) as Hf. unfold parse_nt in Hf. rewrite Ep in Hf. cbn in Hf. destruct Hf as [Hf|Hf]; discriminate.
  Qed.
  Lemma names_starts t ns rem r : names m t ns rem -> starts_iri (t :: r) = true.
  Proof. intros H. destruct (names_plain m _ _ _ H) as [[s ->]|[s ->]]; reflexivity. Qed.
  Lemma heads_start hd qs ax l x : heads m hd qs -> reads_all m SAxiom ax l -> starts_iri (hd ++ ax ++ TRParen :: x) = false.
  Proof.
    intros H Ha. destruct H as [|t ns rem ts ps Hn H|us o ts ps Ho H]; cbn [app]; [|reflexivity|].
    - inversion Ha as [|i ts o us l' H1 H2]; subst; [reflexivity|]. destruct (reads_kw_axiom _ _ H1) as (k & r & -> & _). reflexivity.
    - destruct (reads_kw_annot _ _ Ho) as (r & ->). reflexivity.
  Qed.
  Lemma id_done id ps hd qs ax l x log : ontology_id m id ps -> heads m hd qs -> reads_all m SAxiom ax l -> ends x ->
    parse_id fine_handler signed m log (id ++ hd ++ ax ++ TRParen :: x) = FRet COWL_OK (log ++ added (ps ++ qs ++ map DAxiom l)).
  Proof.
    intros H Hh Ha Hx. pose proof (heads_start _ _ _ _ x Hh Ha) as Hs.
    assert (Hgo : forall log, parse_head fine_handler signed (List.length (hd ++ ax ++ TRParen :: x)) m log (hd ++ ax ++ TRParen :: x) = FRet COWL_OK (log ++ added (qs ++ map DAxiom l))).
    { intros log'. apply head_done; auto. rewrite app_length. lia. }
    destruct H as [|t ns rem Hn|t ns rem t' ns' rem' Hn Hn']; unfold parse_id; cbn [app].
    - rewrite Hs. apply Hgo.
    - rewrite (names_starts _ _ _ _ Hn), (names_parse m _ _ _ _ Hn). cbn [negb then_doc fst snd]. rewrite Hs. cbn [negb]. unfold add_or_fail, handle_add. cbn [Z.eqb COWL_OK].
      rewrite Hgo, added_cons, <- app_assoc. reflexivity.
    - rewrite (names_starts _ _ _ _ Hn), (names_parse m _ _ _ _ Hn). cbn [negb then_doc fst snd]. rewrite (names_starts _ _ _ _ Hn'), (names_parse m _ _ _ _ Hn').
      cbn [negb then_doc fst snd]. unfold handle_add. cbn [Z.eqb COWL_OK andb]. rewrite Hgo, !added_cons, <- !app_assoc. reflexivity.
  Qed.
  Lemma id_read log ts log' : Forall token_ok ts -> parse_id fine_handler signed m log ts = FRet COWL_OK log' ->
    exists id ps hd qs ax l x, ts = id ++ hd ++ ax ++ TRParen :: x /\ ontology_id m id ps /\ heads m hd qs /\ reads_all m SAxiom ax l /\ ends x /\
      log' = log ++ added (ps ++ qs ++ map DAxiom l).
  Proof.
    intros Ht E. unfold parse_id in E. destruct (starts_iri ts); cbn [negb] in E.
    - destruct (iri_doc _ _ _ _ Ht E) as (t & ns & rem & r & -> & Hn & E'). clear E. inversion Ht as [|? ? _ Ht1]; subst. destruct (starts_iri r); cbn [negb] in E'.
      + destruct (iri_doc _ _ _ _ Ht1 E') as (t' & ns' & rem' & r' & -> & Hn' & E2). clear E'. inversion Ht1 as [|? ? _ Ht2]; subst.
        unfold handle_add in E2. cbn [Z.eqb COWL_OK andb fst snd] in E2. destruct (head_read _ _ _ _ Ht2 E2) as (hd & qs & ax & l & x & -> & Hh & Hl & Hx & ->).
        exists [t; t'], [DIri (OIri ns rem); DVersion (OIri ns' rem')], hd, qs, ax, l, x. split; [reflexivity|]. split; [apply id_version; assumption|].
        split; [exact Hh|]. split; [exact Hl|]. split; [exact Hx|]. cbn [app]. rewrite !added_cons, <- !app_assoc. reflexivity.
      + unfold add_or_fail, handle_add in E'. cbn [Z.eqb COWL_OK fst snd] in E'. destruct (head_read _ _ _ _ Ht1 E') as (hd & qs & ax & l & x & -> & Hh & Hl & Hx & ->).
        exists [t], [DIri (OIri ns rem)], hd, qs, ax, l, x. split; [reflexivity|]. split; [apply id_iri; assumption|].
        split; [exact Hh|]. split; [exact Hl|]. split; [exact Hx|]. cbn [app]. rewrite !added_cons, <- !app_assoc. reflexivity.
    - destruct (head_read _ _ _ _ Ht E) as (hd & qs & ax & l & x & -> & Hh & Hl & Hx & ->). exists [], [], hd, qs, ax, l, x.
      split; [reflexivity|]. split; [apply id_none|]. auto.
  Qed.
End Doc.

(** * Documents *)

Lemma adds_added ds : adds ds = added (map (fun d => DPrefix (fst d) (snd d)) ds).
Proof. unfold adds, added. rewrite map_map. reflexivity. Qed.
Lemma decls_done signed : forall ds m f log r, (List.length ds <= f)%nat ->
  parse_document (fun _ => COWL_OK) signed f m log (flat_map decl_tokens ds ++ TKw ONTOLOGY :: TLParen :: r) =
  parse_id (fun _ => COWL_OK) signed (m ++ ds) (log ++ adds ds) r.
Proof.
  intros ds. induction ds as [|[p ns] ds IH]; intros m f log r Hf.
  - cbn. rewrite !app_nil_r. destruct f; reflexivity.
  - destruct f as [|f]; [cbn in Hf; lia|]. cbn [flat_map decl_tokens app fst snd parse_document]. unfold handle_add. cbn [Z.ltb COWL_OK Z.compare].
    rewrite IH by (cbn in Hf; lia). unfold adds. cbn [map fst snd]. rewrite <- !app_assoc. reflexivity.
Qed.
Lemma decls_length ds : (List.length ds <= List.length (flat_map decl_tokens ds))%nat.
Proof. induction ds as [|d ds IH]; [cbn; lia|]. cbn [flat_map]. rewrite app_length. cbn. lia. Qed.

Lemma ending_eof signed x : ending signed x <-> is_eof signed x = true.
Proof.
  split.
  - intros [->|(c & x' & -> & [->|[-> Hc]])]; try reflexivity. cbn. apply orb_true_iff. right. apply N.leb_le. exact Hc.
  - destruct x as [|t x]; [now left|]. destruct t; try discriminate. intros H. right. exists c, x. split; [reflexivity|]. cbn in H.
    apply orb_true_iff in H as [H|H]; [left; apply N.eqb_eq; exact H|]. apply andb_true_iff in H as [-> H]. right. split; [reflexivity|]. apply N.leb_le. exact H.
Qed.

Theorem reads_documents signed w m b log : func_read (fun _ => COWL_OK) signed w m b = FRet COWL_OK log <->
  exists ts x ps, lex w b = Some (ts ++ x) /\ document m ts ps /\ ending signed x /\ log = map (fun p => (CHANGE_ADD, p)) ps.
Proof.
  unfold func_read. split.
  - destruct (lex w b) as [ts|] eqn:El; [|discriminate]. pose proof (lex_token_ok _ _ _ El) as Ht. intros E.
    destruct (document_split (fun _ => COWL_OK) signed (List.length ts) m [] ts (le_n _)) as (ds & body & -> & [(e & ds' & c & _ & E1 & [->| ->] & _)|(_ & _ & [(r & -> & E1)|[E1 _]])]);
      rewrite E1 in E; try discriminate. clear E1. apply token_tail in Ht. inversion Ht as [|? ? _ Ht1]; subst. inversion Ht1 as [|? ? _ Ht2]; subst.
    destruct (id_read _ _ _ _ _ Ht2 E) as (id & qs & hd & rs & ax & l & x & -> & Hi & Hh & Hl & Hx & Elog). cbn [app] in Elog. rewrite adds_added, <- added_app in Elog.
    exists (flat_map decl_tokens ds ++ [TKw ONTOLOGY; TLParen] ++ id ++ hd ++ ax ++ [TRParen]), x, (map (fun d => DPrefix (fst d) (snd d)) ds ++ qs ++ rs ++ map DAxiom l). split; [|split; [|split]].
    + f_equal. rewrite <- !app_assoc. reflexivity.
    + apply document_of; assumption.
    + apply ending_eof. exact Hx.
    + exact Elog.
  - intros (ts & x & ps & -> & H & Hx & ->). destruct H as [ds id qs hd rs ax l Hi Hh Hl].
    replace ((flat_map decl_tokens ds ++ [TKw ONTOLOGY; TLParen] ++ id ++ hd ++ ax ++ [TRParen]) ++ x) with
      (flat_map decl_tokens ds ++ TKw ONTOLOGY :: TLParen :: id ++ hd ++ ax ++ TRParen :: x) by (rewrite <- !app_assoc; reflexivity).
    rewrite decls_done by (rewrite app_length; pose proof (decls_length ds); lia). cbn [app]. erewrite id_done; [|exact Hi|exact Hh|exact Hl|apply ending_eof; exact Hx].
    rewrite adds_added, <- added_app. reflexivity.
Qed.
