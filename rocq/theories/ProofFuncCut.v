(** Texts that were accepted, and what may come after them. *)

From Coq Require Import String NArith ZArith List Bool Lia.
From Coq Require Import ZifyBool ZifyNat ZifyN.
From Verif Require Import Bytes ModelTypes ModelObject ModelText SpecObject SpecText ModelChange ModelPrtDecoder ModelFuncLex ModelFuncParser
  SpecFunc SpecFuncDoc SpecFuncRead ProofFuncRe ProofFuncLex ProofFuncSafe ProofFuncRead ProofFuncLocal ProofFuncCutLex.
Import ListNotations.
Local Open Scope N_scope.

Section Doc.
  Variable handler : list dchange -> ret.
  Variable signed : bool.
  Notation parse_axioms := (parse_axioms handler signed).
  Notation parse_head := (parse_head handler signed).
  Notation parse_id := (parse_id handler signed).
  Notation parse_document := (parse_document handler signed).

  (** Accepted input ends with a parenthesis, and what follows it only decides about acceptance. *)
  Definition closes (k : nat -> list token -> fres) (ts : list token) (log : list dchange) : Prop :=
    exists u x, ts = u ++ TRParen :: x /\ Forall proper u /\ is_eof signed x = true /\
      forall y f, (List.length u <= f)%nat -> k f (u ++ TRParen :: y) = FRet (if is_eof signed y then COWL_OK else ERR_SYNTAX) log.

  Lemma then_ok {A} m n log log' (r : pres A) ts k Q : fine m ts r Q -> n = COWL_OK -> then_doc log r k = FRet n log' -> exists a rest, r = POk a rest /\ k a rest = FRet n log'.
  Proof.
    intros H -> E. destruct r as [a rest|c| |]; cbn in *; try discriminate; [eauto|]. injection E as -> ->. destruct H as [H|H]; discriminate.
  Qed.
  Lemma add_ok log p k log' : add_or_fail handler log p k = FRet COWL_OK log' -> k (log ++ [(CHANGE_ADD, p)]) = FRet COWL_OK log' /\
    forall k', add_or_fail handler log p k' = k' (log ++ [(CHANGE_ADD, p)]).
  Proof.
    unfold add_or_fail, handle_add. match goal with |- context [if ?b then _ else _] => destruct b end; [auto|discriminate].
  Qed.

  Lemma axioms_close m : forall f log ts log', parse_axioms f m log ts = FRet COWL_OK log' ->
    closes (fun f => parse_axioms f m log) ts log'.
  Proof.
    intros f. induction f as [|f IH]; intros log ts log' E.
    - destruct ts as [|[] ts]; try discriminate. cbn in E. exists [], ts. destruct (is_eof signed ts) eqn:Ee; [|discriminate]. injection E as ->.
      split; [reflexivity|]. split; [constructor|]. split; [reflexivity|]. intros y f _. destruct f; cbn; destruct (is_eof signed y); reflexivity.
    - destruct (match ts with TRParen :: _ => true | _ => false end) eqn:Ek.
      + destruct ts as [|[] ts]; try discriminate. cbn in E. exists [], ts. destruct (is_eof signed ts) eqn:Ee; [|discriminate]. injection E as ->.
        split; [reflexivity|]. split; [constructor|]. split; [reflexivity|]. intros y g _. destruct g; cbn; destruct (is_eof signed y); reflexivity.
      + assert (D : forall f z, match z with TRParen :: _ => true | _ => false end = false ->
          parse_axioms (S f) m log z = then_doc log (parse_nt m N_axiom z) (fun o r => add_or_fail handler log (DAxiom o) (fun log => parse_axioms f m log r)))
          by (intros g [|[] z] Hz; try reflexivity; discriminate).
        rewrite D in E by exact Ek. apply (then_ok m _ _ _ _ ts _ _ (fine_nt m N_axiom ts) eq_refl) in E as (o & r & E1 & E2).
        destruct (local_nt m _ _ _ _ E1) as (u & -> & F & N0 & G). apply add_ok in E2 as [E2 E3]. cbn beta in E2.
        destruct (IH _ _ _ E2) as (v & x & -> & F' & Ee & G'). exists (u ++ v), x. split; [now rewrite app_assoc|]. split; [now apply Forall_app|]. split; [exact Ee|].
        intros y g Hg. destruct u as [|t0 u]; [exfalso; now apply N0|]. destruct g as [|g]; [cbn in Hg; lia|].
        rewrite D by exact Ek. rewrite <- app_assoc.
        assert (Hn : parse_nt m N_axiom ((t0 :: u) ++ v ++ TRParen :: y) = POk o (v ++ TRParen :: y)).
        { destruct v as [|t' v]; cbn [app]; [apply (G TRParen x y eq_refl)|apply (G t' (v ++ TRParen :: x) (v ++ TRParen :: y) eq_refl)]. }
        rewrite Hn. cbn [then_doc]. rewrite E3. apply G'. cbn in Hg. rewrite app_length in Hg. lia.
  Qed.

  Lemma head_close m : forall f log ts log', parse_head f m log ts = FRet COWL_OK log' ->
    closes (fun f => parse_head f m log) ts log'.
  Proof.
    assert (Hax : forall f log ts log', (match ts with TKw IMPORT :: _ | TKw ANNOTATION :: _ => true | _ => false end) = false ->
      parse_head f m log ts = FRet COWL_OK log' -> closes (fun f => parse_head f m log) ts log').
    { intros f log ts log' Ek E.
      assert (D : forall f z, (match z with TKw IMPORT :: _ | TKw ANNOTATION :: _ => true | _ => false end) = false ->
        parse_head f m log z = parse_axioms (S (List.length z)) m log z).
      { intros g [|t z] Hz; [destruct g; reflexivity|]. destruct t as [| | | | | | | | | | |kw|]; try (destruct g; reflexivity). destruct kw; try discriminate; destruct g; reflexivity. }
      rewrite D in E by exact Ek. destruct (axioms_close m _ _ _ _ E) as (u & x & -> & F & Ee & G). exists u, x. split; [reflexivity|]. split; [exact F|]. split; [exact Ee|].
      intros y g Hg. rewrite D; [apply G; rewrite app_length; lia|]. destruct u; [reflexivity|exact Ek]. }
    intros f. induction f as [|f IH]; intros log ts log' E.
    - destruct (match ts with TKw IMPORT :: _ | TKw ANNOTATION :: _ => true | _ => false end) eqn:Ek; [|eapply Hax; eauto].
      destruct ts as [|t z]; try discriminate. destruct t as [| | | | | | | | | | |kw|]; try discriminate. destruct kw; try discriminate.
    - destruct (match ts with TKw IMPORT :: _ | TKw ANNOTATION :: _ => true | _ => false end) eqn:Ek; [|eapply Hax; eauto].
      destruct ts as [|t z]; try discriminate. destruct t as [| | | | | | | | | | |kw|]; try discriminate. destruct kw; try discriminate.
      + cbn [ModelFuncParser.parse_head] in E. set (p := get _ <- tok_lparen;; get i <- parse_iri m;; get _ <- tok_rparen;; pret i) in E.
        assert (L : local true (S (S (S (S (S (List.length z)))))) p p).
        { unfold p. apply (local_bind true false); [apply local_lparen|]. intros _. apply (local_weaken true false (S (S (S (S (S (List.length z)))))) (S (S (S (S (S (List.length z))))))); auto.
          apply (local_bind true false); [apply local_iri|]. intros i. apply (local_weaken true false (S (S (S (S (S (List.length z)))))) (S (S (S (S (S (List.length z))))))); auto.
          apply (local_map true _ tok_rparen tok_rparen (fun _ => i)), local_rparen. }
        destruct (p z) as [i r|c| |] eqn:Ep; cbn [then_doc] in E; try discriminate.
        2: { exfalso. injection E as -> _. unfold p, pbind, pret in Ep. destruct z as [|[] z]; try discriminate. cbn in Ep.
             pose proof (fine_iri m z) as Hi. destruct (parse_iri m z) as [i r|c| |]; cbn in Hi; try discriminate.
             - destruct r as [|[] r]; discriminate.
             - injection Ep as ->. destruct Hi; discriminate. }
        destruct (L z i r Ep) as (u & -> & F & N0 & G). apply add_ok in E as [E2 E3]. cbn beta in E2.
        destruct (IH _ _ _ E2) as (v & x & -> & F' & Ee & G'). exists (TKw IMPORT :: u ++ v), x. split; [cbn; now rewrite <- app_assoc|].
        split; [constructor; [exact Logic.I|now apply Forall_app]|]. split; [exact Ee|].
        intros y g Hg. destruct g as [|g]; [cbn in Hg; lia|]. cbn [app ModelFuncParser.parse_head]. fold p.
        assert (Hn : p ((u ++ v) ++ TRParen :: y) = POk i (v ++ TRParen :: y)).
        { rewrite <- app_assoc. destruct v as [|t' v]; cbn [app]; [apply (G ltac:(rewrite app_length; lia) TRParen x y eq_refl)|apply (G ltac:(rewrite app_length; lia) t' (v ++ TRParen :: x) (v ++ TRParen :: y) eq_refl)]. }
        rewrite Hn. cbn [then_doc]. rewrite E3. apply G'. cbn in Hg. rewrite app_length in Hg. lia.
      + cbn [ModelFuncParser.parse_head] in E. apply (then_ok m _ _ _ _ (TKw ANNOTATION :: z) _ _ (fine_nt m N_annotation _) eq_refl) in E as (o & r & E1 & E2).
        destruct (local_nt m _ _ _ _ E1) as (u & Eu & F & N0 & G). apply add_ok in E2 as [E2 E3]. cbn beta in E2.
        destruct (IH _ _ _ E2) as (v & x & -> & F' & Ee & G'). exists (u ++ v), x. split; [now rewrite <- app_assoc|]. split; [now apply Forall_app|]. split; [exact Ee|].
        intros y g Hg. destruct u as [|t0 u]; [exfalso; now apply N0|]. injection Eu as <- Eu. destruct g as [|g]; [cbn in Hg; lia|].
        assert (Hn : parse_nt m N_annotation (((TKw ANNOTATION :: u) ++ v) ++ TRParen :: y) = POk o (v ++ TRParen :: y)).
        { rewrite <- app_assoc. destruct v as [|t' v]; [apply (G TRParen x y eq_refl)|apply (G t' (v ++ TRParen :: x) (v ++ TRParen :: y) eq_refl)]. }
        cbn [app] in Hn |- *. cbn [ModelFuncParser.parse_head]. rewrite Hn. cbn [then_doc]. rewrite E3. apply G'. cbn in Hg. rewrite app_length in Hg. lia.
  Qed.

  Lemma id_close m log ts log' : parse_id m log ts = FRet COWL_OK log' -> closes (fun _ => parse_id m log) ts log'.
  Proof.
    assert (Hs : forall (u : list token) x y, starts_iri (u ++ TRParen :: x) = starts_iri (u ++ TRParen :: y)) by (intros [|t u]; reflexivity).
    intros E. unfold ModelFuncParser.parse_id in E. destruct (starts_iri ts) eqn:Es; cbn [negb] in E.
    2: { destruct (head_close m _ _ _ _ E) as (u & x & -> & F & Ee & G). exists u, x. split; [reflexivity|]. split; [exact F|]. split; [exact Ee|].
         intros y _ _. unfold ModelFuncParser.parse_id. rewrite (Hs u y x), Es. cbn [negb]. apply G. rewrite app_length. lia. }
    apply (then_ok m _ _ _ _ ts _ _ (fine_iri m ts) eq_refl) in E as (i & r & E1 & E2).
    destruct (iri_one m _ _ _ E1) as (t & -> & Ht & _ & G1). destruct (starts_iri r) eqn:Es'; cbn [negb] in E2.
    2: { apply add_ok in E2 as [E2 E3]. cbn beta in E2. destruct (head_close m _ _ _ _ E2) as (u & x & -> & F & Ee & G).
         exists (t :: u), x. split; [reflexivity|]. split; [now constructor|]. split; [exact Ee|]. intros y _ _.
         unfold ModelFuncParser.parse_id. change ((t :: u) ++ TRParen :: y) with (t :: u ++ TRParen :: y).
         assert (Et : starts_iri (t :: u ++ TRParen :: y) = true) by exact Es. rewrite Et. cbn [negb]. rewrite G1. cbn [then_doc].
         rewrite (Hs u y x), Es'. cbn [negb]. rewrite E3. apply G. rewrite app_length. lia. }
    apply (then_ok m _ _ _ _ r _ _ (fine_iri m r) eq_refl) in E2 as (v & r' & E3 & E4).
    destruct (iri_one m _ _ _ E3) as (t' & -> & Ht' & _ & G2). unfold handle_add in E4.
    match type of E4 with (if ?b then _ else _) = _ => destruct b eqn:Eb end; [|discriminate].
    destruct (head_close m _ _ _ _ E4) as (u & x & -> & F & Ee & G).
    exists (t :: t' :: u), x. split; [reflexivity|]. split; [now repeat constructor|]. split; [exact Ee|]. intros y _ _.
    unfold ModelFuncParser.parse_id. change ((t :: t' :: u) ++ TRParen :: y) with (t :: t' :: u ++ TRParen :: y).
    assert (Et : starts_iri (t :: t' :: u ++ TRParen :: y) = true) by exact Es. rewrite Et. cbn [negb]. rewrite G1. cbn [then_doc].
    assert (Et' : starts_iri (t' :: u ++ TRParen :: y) = true) by exact Es'. rewrite Et'. cbn [negb]. rewrite G2. cbn [then_doc].
    unfold handle_add. rewrite Eb. apply G. rewrite app_length. lia.
  Qed.

  Lemma document_close : forall f m log ts log', parse_document f m log ts = FRet COWL_OK log' ->
    closes (fun f => parse_document f m log) ts log'.
  Proof.
    assert (Hid : forall m log z log', parse_id m log z = FRet COWL_OK log' -> closes (fun f => parse_document f m log) (TKw ONTOLOGY :: TLParen :: z) log').
    { intros m log z log' E.
      destruct (id_close m _ _ _ E) as (u & x & -> & F & Ee & G). exists (TKw ONTOLOGY :: TLParen :: u), x. split; [reflexivity|]. split; [now repeat constructor|]. split; [exact Ee|].
      intros y g _. pose proof (G y (List.length u) (le_n _)) as H. cbn beta in H. destruct g; exact H. }
    intros f. induction f as [|f IH]; intros m log ts log' E.
    - destruct ts as [|t z]; try discriminate. destruct t as [| | | | | | | | | | |kw|]; try discriminate. destruct kw; try discriminate.
      destruct z as [|[] z]; try discriminate. apply Hid. exact E.
    - destruct ts as [|t z]; try discriminate. destruct t as [| | | | | | | | | | |kw|]; try discriminate. destruct kw; try discriminate.
      2: { cbn [ModelFuncParser.parse_document] in E. destruct z as [|[] z]; try discriminate. destruct z as [|[| | |p| | | | | | | | |] z]; try discriminate.
        destruct z as [|[] z]; try discriminate. destruct z as [|[| | | | | |ns| | | | | |] z]; try discriminate. destruct z as [|[] z]; try discriminate.
        unfold handle_add in E. match type of E with (if ?b then _ else _) = _ => destruct b eqn:Eb end.
        { exfalso. match type of E with FRet (if ?b then _ else _) _ = _ => destruct b end; discriminate. }
        destruct (IH _ _ _ _ E) as (u & x & -> & F & Ee & G).
        exists (TKw PREFIX :: TLParen :: TPnameNs p :: TEquals :: TIriRef ns :: TRParen :: u), x. split; [reflexivity|]. split; [now repeat constructor|]. split; [exact Ee|].
        intros y g Hg. destruct g as [|g]; [cbn in Hg; lia|]. cbn [app ModelFuncParser.parse_document]. unfold handle_add. rewrite Eb. apply G. cbn in Hg. lia. }
      destruct z as [|[] z]; try discriminate. apply Hid. exact E.
  Qed.
End Doc.

(** An accepted text has a last closing parenthesis, and nothing but the end of the input after it. *)
Theorem accepted_closed handler signed w m b log : func_read handler signed w m b = FRet COWL_OK log ->
  exists u x, lex w b = Some (u ++ TRParen :: x) /\ Forall proper u /\ is_eof signed x = true.
Proof.
  destruct (lex_total w b) as [ts E]. unfold func_read. rewrite E. intros H.
  destruct (document_close _ _ _ _ _ _ _ H) as (u & x & -> & F & Ee & _). eauto.
Qed.
Lemma eof_shape signed w b u x : lex w b = Some (u ++ TRParen :: x) -> is_eof signed x = true ->
  x = [] \/ exists c x', x = TChar c :: x' /\ In c b /\ (c = 0 \/ signed = true /\ 128 <= c).
Proof.
  intros E Hx. destruct x as [|t x]; [now left|]. right. destruct t; try discriminate. cbn in Hx. exists c, x. split; [reflexivity|].
  split; [apply (tokens_char w b None _ c E); apply in_or_app; right; right; now left|].
  apply orb_true_iff in Hx as [Hx|Hx]; [left; now apply N.eqb_eq|right]. apply andb_true_iff in Hx as [-> Hx]. split; [reflexivity|]. now apply N.leb_le.
Qed.
Theorem accepted_complete handler signed w m b log : func_read handler signed w m b = FRet COWL_OK log ->
  exists ds u x, lex w b = Some (flat_map decl_tokens ds ++ [TKw ONTOLOGY; TLParen] ++ u ++ [TRParen] ++ x) /\
    (x = [] \/ exists c x', x = TChar c :: x' /\ In c b /\ (c = 0 \/ signed = true /\ 128 <= c)).
Proof.
  intros H. destruct (lex_total w b) as [ts E]. unfold func_read in H. rewrite E in H.
  destruct (document_split handler signed _ m [] ts (le_n _)) as (ds & body & Eb & D). exists ds.
  destruct D as [(e & ds' & c & _ & D & Hc & _)|(_ & _ & [(r & -> & D)|[D _]])].
  - rewrite D in H. injection H as -> _. destruct Hc; discriminate.
  - rewrite D in H. destruct (id_close _ _ _ _ _ _ H) as (v & x & -> & _ & Ex & _).
    assert (E2 : lex w b = Some ((flat_map decl_tokens ds ++ TKw ONTOLOGY :: TLParen :: v) ++ TRParen :: x)) by (rewrite E, Eb, <- app_assoc; reflexivity).
    exists v, x. split; [rewrite E, Eb; reflexivity|]. eapply eof_shape; eauto.
  - rewrite D in H. discriminate.
Qed.

(** What comes after an accepted text does not change what was read. *)
Theorem read_longer handler signed w m b1 b2 log : func_read handler signed w m b1 = FRet COWL_OK log ->
  func_read handler signed w m (b1 ++ b2) = FRet COWL_OK log \/ func_read handler signed w m (b1 ++ b2) = FRet ERR_SYNTAX log.
Proof.
  intros H. destruct (lex_cut w b1 None b2) as (T & J & T' & E1 & E2 & HJ). unfold func_read in *.
  change (lex w b1 = Some (T ++ J)) in E1. change (lex w (b1 ++ b2) = Some (T ++ T')) in E2. rewrite E1 in H. rewrite E2.
  destruct (document_close _ _ _ _ _ _ _ H) as (u & x & Eu & F & _ & G).
  assert (Hsplit : exists t, T = u ++ TRParen :: t).
  { clear -Eu HJ F. revert T J Eu HJ. induction u as [|a u IH]; intros T J Eu HJ.
    - destruct T as [|t0 T]; [|injection Eu as -> _; eexists; reflexivity]. exfalso. cbn in Eu. destruct HJ as [HJ|[J' HJ]].
      + apply HJ. rewrite Eu. now left.
      + congruence.
    - inversion F as [|? ? Fa F']; subst. destruct T as [|t0 T].
      + exfalso. cbn in Eu. destruct HJ as [HJ|[J' HJ]].
        * apply HJ. rewrite Eu. right. apply in_or_app. right. now left.
        * rewrite HJ in Eu. injection Eu as <- _. exact Fa.
      + injection Eu as -> Eu. destruct (IH F' T J Eu HJ) as [t ->]. exists t. reflexivity. }
  destruct Hsplit as [t ->]. rewrite <- app_assoc. cbn [app].
  pose proof (G (t ++ T') (List.length (u ++ TRParen :: t ++ T')) ltac:(rewrite app_length; lia)) as E. cbn beta in E. rewrite E. destruct (is_eof signed (t ++ T')); auto.
Qed.
