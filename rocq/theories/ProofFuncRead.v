(** The functional reader on arbitrary texts. *)

From Coq Require Import String NArith ZArith List Bool Lia.
From Coq Require Import ZifyBool ZifyNat ZifyN.
From Verif Require Import Bytes ModelTypes ModelObject ModelText SpecObject SpecText ModelChange ModelPrtDecoder ModelFuncLex ModelFuncParser
  SpecFunc SpecFuncDoc SpecFuncRead ProofObject ProofText ProofFuncRe ProofFuncLex ProofFuncWrite ProofFuncParse ProofFuncSafe.
Import ListNotations.
Local Open Scope N_scope.

Section Read.
  Variable handler : list dchange -> ret.
  Variable signed : bool.
  Notation parse_axioms := (parse_axioms handler signed).
  Notation parse_head := (parse_head handler signed).
  Notation parse_id := (parse_id handler signed).
  Notation parse_document := (parse_document handler signed).

  (** What the handler was given after [log], when the reader returned [c]. *)
  Definition obeys (c : ret) (log new : list dchange) : Prop :=
    forall a x b, new = a ++ x :: b -> (handler (log ++ a ++ [x]) < 0)%Z ->
      (c = ERR_SYNTAX \/ c = ERR_MEM) /\ (b = [] \/ exists i v, snd x = DIri i /\ map snd b = [DVersion v]).
  Definition outcome (m : pmap) (ts : list token) (low : nat) (log : list dchange) (r : fres) : Prop :=
    match r with
    | FRet c log' => (c = COWL_OK \/ c = ERR_SYNTAX \/ c = ERR_MEM) /\
        exists new, log' = log ++ new /\ Forall sound_change new /\ Forall (fun x => (low <= rank (snd x))%nat) new /\
          in_document_order new /\ obeys c log new
    | FCrash log' => untagged m ts /\
        exists new, log' = log ++ new /\ Forall sound_change new /\ Forall (fun x => (low <= rank (snd x))%nat) new /\
          in_document_order new /\ obeys COWL_OK log new
    | FFuel => False
    end.
  Lemma obeys_nil c log : obeys c log [].
  Proof. intros [|] x b E; discriminate. Qed.
  Lemma order_nil : in_document_order [].
  Proof. split; [constructor|]. intros [|] a l2 b l3 E; discriminate. Qed.
  Lemma order_cons x new : in_document_order new -> Forall (fun y => (rank (snd x) < rank (snd y))%nat \/ (rank (snd x) = rank (snd y) /\ (2 < rank (snd x) \/ rank (snd x) = 0)%nat)) new ->
    in_document_order (x :: new).
  Proof.
    intros [H1 H2] Hx. split; [constructor; [|exact H1]; eapply Forall_impl; [|exact Hx]; cbn beta; intros; lia|].
    intros [|y l1] a l2 b l3 E He; cbn in E; injection E as -> E.
    - rewrite Forall_forall in Hx. assert (Hb : In b new) by (rewrite E; apply in_or_app; right; now left). specialize (Hx b Hb). lia.
    - eapply H2; eauto.
  Qed.
  Lemma outcome_ret m ts low log c : c = ERR_SYNTAX \/ c = ERR_MEM \/ c = COWL_OK -> outcome m ts low log (FRet c log).
  Proof.
    intros Hc. split; [tauto|]. exists []. rewrite app_nil_r. split; [reflexivity|]. split; [constructor|]. split; [constructor|].
    split; [apply order_nil|apply obeys_nil].
  Qed.
  Lemma outcome_from m ts ts' low log r : tail_of ts ts' -> outcome m ts' low log r -> outcome m ts low log r.
  Proof. intros H. destruct r; cbn; auto. intros [H1 H2]. split; auto. eapply untagged_tail; eauto. Qed.
  Lemma outcome_low m ts low low' log r : (low' <= low)%nat -> outcome m ts low log r -> outcome m ts low' log r.
  Proof.
    intros Hl. destruct r; cbn; auto; intros [H1 (new & H2 & H3 & H4 & H5)]; (split; [exact H1|]); exists new; (split; [exact H2|]); (split; [exact H3|]);
      (split; [|exact H5]); (eapply Forall_impl; [|exact H4]; cbn beta; intros; lia).
  Qed.
  (** One more change, after which the reader goes on. *)
  Lemma outcome_step m ts low low' log p r : sound_change (CHANGE_ADD, p) -> (low <= rank p)%nat ->
    ((rank p < low')%nat \/ (rank p = low' /\ (2 < low' \/ low' = 0)%nat)) ->
    (0 <= handler (log ++ [(CHANGE_ADD, p)]))%Z -> outcome m ts low' (log ++ [(CHANGE_ADD, p)]) r -> outcome m ts low log r.
  Proof.
    intros Hs Hp Hl Hh. set (x := (CHANGE_ADD, p)).
    assert (G : forall c log', (exists new, log' = (log ++ [x]) ++ new /\ Forall sound_change new /\ Forall (fun y => (low' <= rank (snd y))%nat) new /\
        in_document_order new /\ obeys c (log ++ [x]) new) ->
      exists new, log' = log ++ new /\ Forall sound_change new /\ Forall (fun y => (low <= rank (snd y))%nat) new /\ in_document_order new /\ obeys c log new).
    { intros c log' (new & -> & H3 & H4 & H5 & H6). exists (x :: new). split; [rewrite <- app_assoc; reflexivity|]. split; [constructor; auto|].
      split; [constructor; [exact Hp|]; eapply Forall_impl; [|exact H4]; cbn beta; intros; lia|].
      split; [apply order_cons; [exact H5|]; eapply Forall_impl; [|exact H4]; cbn beta; change (rank (snd x)) with (rank p); intros; lia|].
      intros [|y a] z b E Hz; cbn in E; injection E as <- E.
      - exfalso. exact (Z.lt_irrefl _ (Z.lt_le_trans _ _ _ Hz Hh)).
      - apply (H6 a z b E). rewrite <- app_assoc. exact Hz. }
    destruct r; cbn; auto; intros [H1 H2]; (split; [exact H1|]); apply G; exact H2.
  Qed.
  (** One more change, after which it stops. *)
  Lemma outcome_last m ts low log p c : sound_change (CHANGE_ADD, p) -> (low <= rank p)%nat -> c = ERR_SYNTAX \/ c = ERR_MEM ->
    outcome m ts low log (FRet c (log ++ [(CHANGE_ADD, p)])).
  Proof.
    intros Hs Hp Hc. split; [tauto|]. exists [(CHANGE_ADD, p)]. split; [reflexivity|]. split; [repeat constructor; auto; apply Hs|].
    split; [repeat constructor; exact Hp|]. split; [apply order_cons; [apply order_nil|constructor]|].
    intros a x b E Hz. split; [exact Hc|]. left. destruct a as [|? [|]]; [|discriminate|discriminate]. injection E as _ <-. reflexivity.
  Qed.
  Lemma outcome_add m ts low low' log p k : sound_change (CHANGE_ADD, p) -> (low <= rank p)%nat ->
    ((rank p < low')%nat \/ (rank p = low' /\ (2 < low' \/ low' = 0)%nat)) ->
    outcome m ts low' (log ++ [(CHANGE_ADD, p)]) (k (log ++ [(CHANGE_ADD, p)])) -> outcome m ts low log (add_or_fail handler log p k).
  Proof.
    intros Hs Hp Hl Hk. unfold add_or_fail, handle_add. match goal with |- outcome _ _ _ _ (if ?b then _ else _) => destruct b eqn:E end.
    - apply Z.eqb_eq in E. apply (outcome_step m ts low low' log p); auto. apply Z.eq_le_incl. symmetry. exact E.
    - apply outcome_last; auto.
  Qed.
  Lemma outcome_then {A} m ts low log (r : pres A) k : fine m ts r (fun a rest => tail_of ts rest /\ outcome m rest low log (k a rest)) ->
    outcome m ts low log (then_doc log r k).
  Proof.
    destruct r as [a rest|c| |]; cbn [fine then_doc].
    - intros [H1 H2]. eapply outcome_from; eauto.
    - intros H. apply outcome_ret. tauto.
    - intros H. split; [exact H|]. exists []. rewrite app_nil_r. split; [reflexivity|]. split; [constructor|]. split; [constructor|].
      split; [apply order_nil|apply obeys_nil].
    - contradiction.
  Qed.

  Lemma axioms_outcome m : forall f log ts, (List.length ts < f)%nat -> outcome m ts 4 log (parse_axioms f m log ts).
  Proof.
    intros f. induction f as [|f IH]; intros log ts Hf; [lia|].
    assert (Hgo : outcome m ts 4 log (then_doc log (parse_nt m N_axiom ts) (fun o r => add_or_fail handler log (DAxiom o) (fun log => parse_axioms f m log r)))).
    { apply outcome_then. eapply fine_weaken; [apply fine_nt|]. cbn beta. intros o r [Hr Hw]. split; [now apply shorter_tail|].
      pose proof (shorter_length _ _ Hr). apply (outcome_add m r 4 4); [split; [reflexivity|exact Hw]|cbn; lia|cbn; lia|]. apply IH. lia. }
    destruct ts as [|t ts]; [exact Hgo|]. destruct t; try exact Hgo. cbn [ModelFuncParser.parse_axioms].
    destruct (is_eof signed ts); apply outcome_ret; tauto.
  Qed.
  Lemma head_outcome m : forall f log ts, (List.length ts <= f)%nat -> outcome m ts 3 log (parse_head f m log ts).
  Proof.
    intros f. induction f as [|f IH]; intros log ts Hf.
    - destruct ts; [|cbn in Hf; lia]. apply (outcome_low m [] 4 3); [lia|]. apply (axioms_outcome m 1 log []). cbn. lia.
    - assert (Hax : outcome m ts 3 log (parse_axioms (S (List.length ts)) m log ts)).
      { apply (outcome_low m ts 4 3); [lia|]. apply axioms_outcome. lia. }
      cbn [ModelFuncParser.parse_head]. destruct ts as [|t ts]; [exact Hax|]. destruct t as [| | | | | | | | | | |kw|]; try exact Hax.
      destruct kw; try exact Hax.
      + cbn [List.length] in Hf. eapply outcome_from; [apply shorter_tail, shorter_cons|]. apply outcome_then.
        apply fine_bind. eapply fine_weaken; [apply fine_lparen|]. cbn beta. intros _ r Hr. split; [now apply shorter_tail|].
        apply fine_bind. eapply fine_weaken; [apply fine_iri|]. cbn beta. intros i r2 Hr2. split; [now apply shorter_tail|].
        apply fine_bind. eapply fine_weaken; [apply fine_rparen|]. cbn beta. intros _ r3 Hr3. split; [now apply shorter_tail|].
        apply fine_ret. pose proof (shorter_length _ _ Hr). pose proof (shorter_length _ _ Hr2). pose proof (shorter_length _ _ Hr3).
        split; [eapply tail_trans; [apply shorter_tail; exact Hr|]; eapply tail_trans; apply shorter_tail; eassumption|].
        apply (outcome_add m r3 3 3); [split; reflexivity|cbn; lia|cbn; lia|]. apply IH. lia.
      + apply outcome_then. eapply fine_weaken; [apply fine_nt|]. cbn beta. intros o r [Hr Hw]. split; [now apply shorter_tail|].
        pose proof (shorter_length _ _ Hr). apply (outcome_add m r 3 3); [split; [reflexivity|exact Hw]|cbn; lia|cbn; lia|]. apply IH. cbn [List.length] in *. lia.
  Qed.
  Lemma id_outcome m log ts : outcome m ts 1 log (parse_id m log ts).
  Proof.
    assert (Hgo : forall low log ts, (low <= 3)%nat -> outcome m ts low log (parse_head (List.length ts) m log ts)).
    { intros low l us Hl. eapply outcome_low; [exact Hl|]. apply head_outcome. lia. }
    unfold ModelFuncParser.parse_id. destruct (starts_iri ts); cbn [negb]; [|apply Hgo; lia].
    apply outcome_then. eapply fine_weaken; [apply fine_iri|]. cbn beta. intros i r Hr. split; [now apply shorter_tail|].
    destruct (starts_iri r); cbn [negb]; [|apply (outcome_add m r 1 2); [split; reflexivity|cbn; lia|cbn; lia|apply Hgo; lia]].
    apply outcome_then. eapply fine_weaken; [apply fine_iri|]. cbn beta. intros v r' Hr'. split; [now apply shorter_tail|].
    unfold handle_add. set (x := (CHANGE_ADD, DIri (OIri (fst i) (snd i)))). set (y := (CHANGE_ADD, DVersion (OIri (fst v) (snd v)))).
    match goal with |- outcome _ _ _ _ (if ?b && _ then _ else _) => destruct b eqn:E; [apply Z.eqb_eq in E|] end; cbn [andb].
    - apply (outcome_step m r' 1 2 log (DIri (OIri (fst i) (snd i)))); [split; reflexivity|cbn; lia|cbn; lia|apply Z.eq_le_incl; symmetry; exact E|]. fold x.
      match goal with |- outcome _ _ _ _ (if ?b then _ else _) => destruct b eqn:E2; [apply Z.eqb_eq in E2|] end.
      + apply (outcome_step m r' 2 3 (log ++ [x]) (DVersion (OIri (fst v) (snd v)))); [split; reflexivity|cbn; lia|cbn; lia|apply Z.eq_le_incl; symmetry; exact E2|].
        apply Hgo. lia.
      + apply outcome_last; [split; reflexivity|cbn; lia|tauto].
    - split; [tauto|]. exists [x; y]. split; [rewrite <- app_assoc; reflexivity|]. split; [repeat constructor|].
      split; [repeat constructor|]. split; [apply order_cons; [apply order_cons; [apply order_nil|constructor]|repeat constructor]|].
      intros a z b E' Hz. split; [tauto|]. destruct a as [|? [|? [|]]]; try discriminate.
      + injection E' as <- <-. right. exists (OIri (fst i) (snd i)), (OIri (fst v) (snd v)). split; reflexivity.
      + injection E' as _ _ <-. now left.
  Qed.

  (** The declarations at the start. *)
  Definition adds (ds : list (bytes * bytes)) : list dchange := map (fun e => (CHANGE_ADD, DPrefix (fst e) (snd e))) ds.
  Definition undeclared (body : list token) : Prop := forall e rest, body <> decl_tokens e ++ rest.
  Lemma document_split : forall f m log ts, (List.length ts <= f)%nat ->
    exists ds body, ts = flat_map decl_tokens ds ++ body /\
      ((exists e ds' c, ds = ds' ++ [e] /\ parse_document f m log ts = FRet c (log ++ adds ds) /\ (c = ERR_SYNTAX \/ c = ERR_MEM) /\
          (handler (log ++ adds ds) < 0)%Z /\ (forall a b, a ++ b = ds' -> a <> [] -> 0 <= handler (log ++ adds a))%Z) \/
       (undeclared body /\ (forall a b, a ++ b = ds -> a <> [] -> 0 <= handler (log ++ adds a))%Z /\
         ((exists r, body = TKw ONTOLOGY :: TLParen :: r /\ parse_document f m log ts = parse_id (m ++ ds) (log ++ adds ds) r) \/
          parse_document f m log ts = FRet ERR_SYNTAX (log ++ adds ds) /\ forall r, body <> TKw ONTOLOGY :: TLParen :: r))).
  Proof.
    intros f. induction f as [|f IH]; intros m log ts Hf.
    { destruct ts; [|cbn in Hf; lia]. exists [], []. split; [reflexivity|]. right. split; [intros e rest E; discriminate|].
      split; [intros a b E Ha; apply app_eq_nil in E as [-> _]; contradiction|]. right. cbn. rewrite app_nil_r. split; [reflexivity|discriminate]. }
    assert (Hstop : forall us, us = ts -> undeclared ts -> parse_document (S f) m log ts = FRet ERR_SYNTAX log -> (forall r, ts <> TKw ONTOLOGY :: TLParen :: r) ->
      exists ds body, ts = flat_map decl_tokens ds ++ body /\
      ((exists e ds' c, ds = ds' ++ [e] /\ parse_document (S f) m log ts = FRet c (log ++ adds ds) /\ (c = ERR_SYNTAX \/ c = ERR_MEM) /\
          (handler (log ++ adds ds) < 0)%Z /\ (forall a b, a ++ b = ds' -> a <> [] -> 0 <= handler (log ++ adds a))%Z) \/
       (undeclared body /\ (forall a b, a ++ b = ds -> a <> [] -> 0 <= handler (log ++ adds a))%Z /\
         ((exists r, body = TKw ONTOLOGY :: TLParen :: r /\ parse_document (S f) m log ts = parse_id (m ++ ds) (log ++ adds ds) r) \/
          parse_document (S f) m log ts = FRet ERR_SYNTAX (log ++ adds ds) /\ forall r, body <> TKw ONTOLOGY :: TLParen :: r)))).
    { intros us _ Hu E Hn. exists [], ts. split; [reflexivity|]. right. split; [exact Hu|].
      split; [intros a b Ea Ha; apply app_eq_nil in Ea as [-> _]; contradiction|]. right. cbn [adds map]. rewrite app_nil_r. auto. }
    specialize (Hstop ts eq_refl).
    destruct ts as [|t ts]; [apply Hstop; [intros e rest E; discriminate|reflexivity|discriminate]|].
    destruct t as [| | | | | | | | | | |kw|]; try (apply Hstop; [intros e rest E; discriminate|reflexivity|discriminate]).
    destruct kw; try (apply Hstop; [intros e rest E; discriminate|reflexivity|discriminate]).
    - destruct ts as [|t ts]; [apply Hstop; [intros e rest E; discriminate|reflexivity|discriminate]|].
      destruct t; try (apply Hstop; [intros e rest E; discriminate|reflexivity|discriminate]).
      exists [], (TKw ONTOLOGY :: TLParen :: ts). split; [reflexivity|]. right. split; [intros e rest E; discriminate|].
      split; [intros a b Ea Ha; apply app_eq_nil in Ea as [-> _]; contradiction|]. left. exists ts. split; [reflexivity|].
      cbn [adds map]. rewrite !app_nil_r. reflexivity.
    - destruct ts as [|t1 ts]; [apply Hstop; [intros e rest E; discriminate|reflexivity|discriminate]|].
      destruct t1; try (apply Hstop; [intros e rest E; discriminate|reflexivity|discriminate]).
      destruct ts as [|t2 ts]; [apply Hstop; [intros e rest E; discriminate|reflexivity|discriminate]|].
      destruct t2 as [| | |p| | | | | | | | |]; try (apply Hstop; [intros e rest E; discriminate|reflexivity|discriminate]).
      destruct ts as [|t3 ts]; [apply Hstop; [intros e rest E; discriminate|reflexivity|discriminate]|].
      destruct t3; try (apply Hstop; [intros e rest E; discriminate|reflexivity|discriminate]).
      destruct ts as [|t4 ts]; [apply Hstop; [intros e rest E; discriminate|reflexivity|discriminate]|].
      destruct t4 as [| | | | | |ns| | | | | |]; try (apply Hstop; [intros e rest E; discriminate|reflexivity|discriminate]).
      destruct ts as [|t5 ts]; [apply Hstop; [intros e rest E; discriminate|reflexivity|discriminate]|].
      destruct t5; try (apply Hstop; [intros e rest E; discriminate|reflexivity|discriminate]).
      clear Hstop. cbn [List.length] in Hf.
      set (x := (CHANGE_ADD, DPrefix p ns)).
      assert (Ed : parse_document (S f) m log (TKw PREFIX :: TLParen :: TPnameNs p :: TEquals :: TIriRef ns :: TRParen :: ts) =
        if (handler (log ++ [x]) <? 0)%Z then FRet (if (handler (log ++ [x]) =? ERR_MEM)%Z then ERR_MEM else ERR_SYNTAX) (log ++ [x])
        else parse_document f (m ++ [(p, ns)]) (log ++ [x]) ts) by reflexivity.
      rewrite Ed. destruct (Z.ltb_spec (handler (log ++ [x])) 0) as [Hh|Hh].
      + exists [(p, ns)], ts. split; [reflexivity|]. left. exists (p, ns), []. eexists. split; [reflexivity|]. split; [reflexivity|].
        split; [destruct (handler (log ++ [x]) =? ERR_MEM)%Z; tauto|]. split; [exact Hh|].
        intros a b Ea Ha; apply app_eq_nil in Ea as [-> _]; contradiction.
      + destruct (IH (m ++ [(p, ns)]) (log ++ [x]) ts) as (ds & body & -> & H); [lia|].
        assert (El : forall l, (log ++ [x]) ++ adds l = log ++ adds ((p, ns) :: l)) by (intros l; rewrite <- app_assoc; reflexivity).
        assert (Ha : forall l, (forall a b, a ++ b = l -> a <> [] -> 0 <= handler ((log ++ [x]) ++ adds a))%Z ->
          (forall a b, a ++ b = (p, ns) :: l -> a <> [] -> 0 <= handler (log ++ adds a))%Z).
        { intros l Hl [|y a] b E Hne; [contradiction|]. injection E as -> E. destruct a as [|z a]; [exact Hh|].
          rewrite <- El. apply (Hl (z :: a) b); [exact E|discriminate]. }
        exists ((p, ns) :: ds), body. split; [reflexivity|]. rewrite !El in H. destruct H as [(e & ds' & c & -> & E & Hc & Hneg & Hpos)|(Hu & Hpos & H)].
        * left. exists e, ((p, ns) :: ds'), c. split; [reflexivity|]. split; [exact E|]. split; [exact Hc|]. split; [exact Hneg|]. apply Ha. exact Hpos.
        * right. split; [exact Hu|]. split; [apply Ha; exact Hpos|]. destruct H as [(r & -> & E)|[E Hn]].
          -- left. exists r. split; [reflexivity|]. rewrite E. rewrite <- app_assoc. reflexivity.
          -- right. auto.
  Qed.
  Lemma outcome_adds m ts : forall ds log r, (forall a b, a ++ b = ds -> a <> [] -> 0 <= handler (log ++ adds a))%Z ->
    outcome m ts 0 (log ++ adds ds) r -> outcome m ts 0 log r.
  Proof.
    intros ds. induction ds as [|[p ns] ds IH]; intros log r Hp H; [cbn in H; rewrite app_nil_r in H; exact H|].
    apply (outcome_step m ts 0 0 log (DPrefix p ns)); [split; [reflexivity|exact I]|cbn; lia|cbn; lia|apply (Hp [(p, ns)] ds); [reflexivity|discriminate]|].
    apply IH.
    - intros a b E Ha. rewrite <- app_assoc. apply (Hp ((p, ns) :: a) b); [cbn; now rewrite E|discriminate].
    - rewrite <- app_assoc. exact H.
  Qed.
  Lemma adds_app a b : adds (a ++ b) = adds a ++ adds b.
  Proof. apply map_app. Qed.
End Read.

(** Every outcome of reading a text. *)
Theorem read_outcome handler signed w m b : exists ts ds body, lex w b = Some ts /\ ts = flat_map decl_tokens ds ++ body /\
  outcome handler (m ++ ds) ts 0 [] (func_read handler signed w m b).
Proof.
  destruct (lex_total w b) as [ts E]. unfold func_read. rewrite E.
  destruct (document_split handler signed (List.length ts) m [] ts) as (ds & body & Ets & H); [lia|].
  exists ts, ds, body. split; [reflexivity|]. split; [exact Ets|].
  destruct H as [(e & ds' & c & -> & -> & Hc & Hneg & Hpos)|(Hu & Hpos & [(r & Eb & ->)|[-> _]])].
  - rewrite adds_app. apply (outcome_adds handler (m ++ ds' ++ [e]) ts ds' [] _ Hpos). cbn [adds map]. apply outcome_last; [split; [reflexivity|exact I]|cbn; lia|exact Hc].
  - apply (outcome_adds handler (m ++ ds) ts ds [] _ Hpos). apply (outcome_low handler (m ++ ds) ts 1); [lia|].
    apply (outcome_from handler (m ++ ds) ts r); [|apply id_outcome].
    rewrite Ets, Eb. exists (flat_map decl_tokens ds ++ [TKw ONTOLOGY; TLParen]). rewrite <- app_assoc. reflexivity.
  - apply (outcome_adds handler (m ++ ds) ts ds [] _ Hpos). apply outcome_ret. tauto.
Qed.
