(** What the functional parser accepts is derived by the grammar; documents. *)

From Coq Require Import String NArith ZArith List Bool Lia.
From Coq Require Import ZifyBool ZifyNat ZifyN.
From Verif Require Import Bytes ModelTypes ModelObject ModelText SpecObject SpecText ModelChange ModelPrtDecoder ModelFuncLex ModelFuncParser
  SpecFunc SpecFuncDoc SpecFuncGrammar ProofObject ProofText ProofFuncWrite ProofFuncParse ProofFuncSafe ProofFuncRead ProofFuncGrammar.
Import ListNotations.
Local Open Scope N_scope.

Section Derive.
  Variable m : pmap.

  (** What a symbol of a rule stands for. *)
  Inductive sym_reads : sym -> list token -> gval -> Prop :=
  | sr_annots ts l : reads_all m SAnnot ts l -> sym_reads Y_annots ts (match l with [] => GNull | _ => GObj (OVec false l) end)
  | sr_one n ts o : reads m (so n) ts o -> sym_reads (Y_one n) ts (GObj o)
  | sr_list k n ts l : reads_all m (so n) ts l -> (k <= List.length l)%nat -> sym_reads (Y_list k n) ts (GObj (OVec false l))
  | sr_star n ts l : reads_all m (so n) ts l -> sym_reads (Y_star n) (in_parens ts) (GObj (OVec false l))
  | sr_num n : sym_reads Y_num [TInt n] (GNum n)
  | sr_none n : sym_reads (Y_opt n) [] GNull
  | sr_some n ts o : reads m (so n) ts o -> sym_reads (Y_opt n) ts (GObj o)
  | sr_prop ts o : reads m SObjProp ts o -> sym_reads Y_sub_prop ts (GObj o)
  | sr_chain ts l : reads_all m SObjProp ts l -> (2 <= List.length l)%nat ->
      sym_reads Y_sub_prop (TKw OBJECT_PROPERTY_CHAIN :: in_parens ts) (GObj (OVec true l)).
  Inductive syms_read : list sym -> list token -> list gval -> Prop :=
  | ss_nil : syms_read [] [] []
  | ss_cons y l ts us v vs : sym_reads y ts v -> syms_read l us vs -> syms_read (y :: l) (ts ++ us) (v :: vs).

  Lemma syms_operands t : forall ss ts vs, plain_sorts ss -> syms_read (map (sym_of t) ss) ts vs -> (otype_eqb t OT_A_HAS_KEY = true -> t = OT_A_HAS_KEY) ->
    exists fs, vs = map GObj fs /\ operands m t ss ts fs.
  Proof.
    intros ss. induction ss as [|s ss IH]; intros ts vs Hp H Ht; inversion H as [|y l ts' us v vs' Hy Hs]; subst.
    - exists []. split; [reflexivity|apply ops_nil].
    - inversion Hp as [|? ? Hp1 Hp2]; subst. destruct (IH us vs' Hp2 Hs Ht) as (fs & -> & Ho). destruct s as [i|ord i|]; cbn [sym_of] in Hy.
      + inversion Hy as [|n ts o Hr| | | | | | |]; subst. rewrite so_nt in Hr. exists (o :: fs). split; [reflexivity|]. apply ops_one; assumption.
      + destruct ord; [contradiction|]. destruct (otype_eqb t OT_A_HAS_KEY) eqn:E.
        * rewrite (Ht eq_refl) in *. inversion Hy as [| | |n ts l Hr| | | | |]; subst. rewrite so_nt in Hr. exists (OVec false l :: fs). split; [reflexivity|].
          apply ops_key; assumption.
        * inversion Hy as [| |k n ts l Hr Hk| | | | | |]; subst. rewrite so_nt in Hr. exists (OVec false l :: fs). split; [reflexivity|].
          apply ops_list; auto. intros ->. discriminate.
      + inversion Hy as [| | | | | | |ts o Hr|ts l Hr Hk]; subst.
        * exists (o :: fs). split; [reflexivity|]. apply ops_prop; assumption.
        * exists (OVec true l :: fs). split; [reflexivity|]. apply ops_chain; assumption.
  Qed.
  Lemma syms_app l1 : forall l2 ts vs, syms_read (l1 ++ l2) ts vs -> exists t1 t2 v1 v2, ts = t1 ++ t2 /\ vs = v1 ++ v2 /\ syms_read l1 t1 v1 /\ syms_read l2 t2 v2.
  Proof.
    induction l1 as [|y l1 IH]; intros l2 ts vs H; cbn [app] in H.
    - exists [], ts, [], vs. repeat split; auto. constructor.
    - inversion H as [|? ? t us v vs' Hy Hs]; subst. destruct (IH _ _ _ Hs) as (t1 & t2 & v1 & v2 & -> & -> & H1 & H2).
      exists (t ++ t1), t2, (v :: v1), v2. rewrite app_assoc. repeat split; auto. constructor; assumption.
  Qed.
  Lemma entity_rule p : In p entity_rules -> exists e, p = mkProd (keyword (etype_otype e)) [Y_one (N_entity_of e)] K_inner.
  Proof.
    unfold entity_rules. cbn [In]. intros [<-|[<-|[<-|[<-|[<-|[<-|[]]]]]]].
    - exists ET_CLASS. reflexivity.
    - exists ET_DATATYPE. reflexivity.
    - exists ET_OBJ_PROP. reflexivity.
    - exists ET_DATA_PROP. reflexivity.
    - exists ET_ANNOT_PROP. reflexivity.
    - exists ET_NAMED_IND. reflexivity.
  Qed.
  Lemma facet_unruled n p : In p (rules_of n) -> forall ss os, p <> rule_of OT_FACET_RESTR ss os.
  Proof.
    intros Hin ss os E. assert (Hk : p_kw p = ONTOLOGY) by (rewrite E; destruct os as [| |i [d|]]; reflexivity).
    destruct n; cbn [rules_of] in Hin; try contradiction;
      unfold entity_rules, obj_prop_exp_rules, data_range_rules, cls_exp_rules, axiom_rules, annotation_rules in Hin; cbn [In] in Hin;
      repeat (destruct Hin as [<-|Hin]; [cbn in Hk; discriminate|]); contradiction.
  Qed.
  Lemma prim_default t o : prim_eqb o (filler_default t) = true <-> o = filler_default t.
  Proof.
    assert (H : exists e ns rem, filler_default t = OEnt e ns rem) by (destruct t; cbn; repeat eexists). destruct H as (e & ns & rem & ->).
    split; [|intros ->; apply prim_eqb_eq_ent; reflexivity]. intros H. destruct o; try discriminate. apply prim_eqb_eq_ent in H. symmetry. exact H.
  Qed.
  Lemma rule_reads n p ts vs o : In p (rules_of n) -> syms_read (p_syms p) ts vs -> run_ctor (p_ctor p) vs = Some o ->
    reads m (so n) (TKw (p_kw p) :: in_parens ts) o.
  Proof.
    intros Hin Hs Hr. pose proof (rules_typed n) as Ht. rewrite Forall_forall in Ht. destruct (Ht p Hin) as [(e & -> & _)|(t & ss & os & Hsig & Hp & Hi & Hpl & Hos & Hc)]; clear Ht.
    - destruct (entity_rule p Hin) as [e' ->]. cbn [p_syms p_kw p_ctor] in *. inversion Hs as [|? ? us ws v vs' Hv Hn]; subst. inversion Hn; subst.
      inversion Hv as [|? us' x Hx| | | | | | |]; subst. cbn in Hr. injection Hr as <-. cbn [so] in *. inversion Hx; subst; try (match goal with H : isort_has _ ?t = true, H2 : construct_sig ?t = _ |- _ => destruct e', t; discriminate end).
      rewrite app_nil_r. apply rd_entity. assumption.
    - pose proof (facet_unruled n p Hin) as Hf. assert (Hnf : t <> OT_FACET_RESTR) by (intros ->; exact (Hf ss os Hp)). clear Hf.
      assert (Hkey : otype_eqb t OT_A_HAS_KEY = true -> t = OT_A_HAS_KEY) by (intros E; apply otype_eqb_eq; exact E).
      rewrite Hp in Hs, Hr |- *. clear Hp Hin p. destruct os as [| |i [d|]]; cbn [rule_of p_syms p_ctor p_kw] in *.
      + destruct (syms_operands t ss ts vs Hpl Hs Hkey) as (fs & -> & Ho). cbn [run_ctor] in Hr. rewrite run_fields_eq in Hr. injection Hr as <-.
        eapply rd_plain; eassumption.
      + inversion Hs as [|? ? us ws v vs' Hv Hn]; subst. destruct (syms_operands t ss ws vs' Hpl Hn Hkey) as (fs & -> & Ho).
        inversion Hv as [us' l Hl| | | | | | | |]; subst. destruct l as [|a l]; cbn [run_ctor] in Hr; rewrite run_fields_eq in Hr; injection Hr as <-.
        * exact (rd_annotated m (so n) t ss us [] ws fs Hi Hsig Hl Ho).
        * exact (rd_annotated m (so n) t ss us (a :: l) ws fs Hi Hsig Hl Ho).
      + destruct Hos as [-> Hlen]. destruct (syms_app _ _ _ _ Hs) as (t1 & t2 & v1 & v2 & -> & -> & H1 & H2).
        destruct (syms_operands t ss t1 v1 Hpl H1 Hkey) as (fs & -> & Ho). inversion H2 as [|? ? us ws v vs' Hv Hn]; subst. inversion Hn; subst.
        inversion Hv as [|? us' x Hx| | | | | | |]; subst. rewrite so_nt in Hx.
        assert (Hfs : exists y, fs = [y]).
        { destruct ss as [|s [|]]; try discriminate. inversion Ho; subst;
            match goal with H : operands m _ [] _ _ |- _ => inversion H; subst; eexists; reflexivity end. }
        destruct Hfs as [y ->]. cbn [map app run_ctor] in Hr. injection Hr as <-. rewrite app_nil_r. unfold mk_quant. fold (filler_default t).
        destruct (prim_eqb x (filler_default t)) eqn:E.
        * eapply rd_quant; [exact Hi|exact Hsig|exact Ho|exact Hx|left]. split; [apply prim_default; exact E|reflexivity].
        * eapply rd_quant; [exact Hi|exact Hsig|exact Ho|exact Hx|right]. split; [|reflexivity]. intros H. apply prim_default in H. rewrite H in E. discriminate.
      + destruct Hos as [Hcard Hlen]. inversion Hs as [|? ? us ws v vs' Hv Hn]; subst. inversion Hv; subst.
        destruct (syms_app _ _ _ _ Hn) as (t1 & t2 & v1 & v2 & -> & -> & H1 & H2).
        destruct (syms_operands t ss t1 v1 Hpl H1 Hkey) as (fs & -> & Ho). inversion H2 as [|? ? us ws v vs' Hv2 Hn2]; subst. inversion Hn2; subst.
        assert (Hfs : exists y, fs = [y]).
        { destruct ss as [|s [|]]; try discriminate. inversion Ho; subst;
            match goal with H : operands m _ [] _ _ |- _ => inversion H; subst; eexists; reflexivity end. }
        destruct Hfs as [y ->]. inversion Hv2 as [| | | | | |? us' x Hx| |]; subst; cbn [map app run_ctor] in Hr; injection Hr as <-; rewrite app_nil_r; unfold mk_card.
        * cbn [app]. eapply rd_card; eassumption.
        * rewrite so_nt in Hx. cbn [app]. eapply rd_qualified; eassumption.
  Qed.

  (** * Accepted tokens *)

  Lemma token_tail a b : Forall token_ok (a ++ b) -> Forall token_ok b.
  Proof. intros H. apply Forall_app in H. apply H. Qed.

  Section Rec.
    Variable self : nt -> P obj.
    Hypothesis self_ok : forall n ts o r, Forall token_ok ts -> self n ts = POk o r -> exists u, ts = u ++ r /\ reads m (so n) u o.

    Lemma items_read n : forall fuel ts l r, Forall token_ok ts -> items fuel (self n) ts = POk l r -> exists u, ts = u ++ r /\ reads_all m (so n) u l.
    Proof.
      intros fuel. induction fuel as [|fuel IH]; intros ts l r Ht E.
      - assert (E' : ts = r /\ l = []) by (destruct ts as [|[] ts]; cbn in E; try discriminate; injection E as <- <-; auto). destruct E' as [-> ->].
        exists []. split; [reflexivity|apply all_nil].
      - assert (Hgo : (get o <- self n;; get l <- items fuel (self n);; pret (o :: l)) ts = POk l r -> exists u, ts = u ++ r /\ reads_all m (so n) u l).
        { unfold pbind, pret. destruct (self n ts) as [o r1| | |] eqn:E1; try discriminate. destruct (self_ok _ _ _ _ Ht E1) as (u & -> & Hu).
          destruct (items fuel (self n) r1) as [l' r2| | |] eqn:E2; try discriminate. intros [= <- <-].
          destruct (IH _ _ _ (token_tail _ _ Ht) E2) as (u' & -> & Hu'). exists (u ++ u'). split; [apply app_assoc|]. apply all_cons; assumption. }
        destruct ts as [|t ts]; [exact (Hgo E)|]. destruct t; try exact (Hgo E). cbn in E. injection E as <- <-. exists []. split; [reflexivity|apply all_nil].
    Qed.
    Lemma annots_read : forall fuel ts l r, Forall token_ok ts -> annots fuel (self N_annotation) ts = POk l r -> exists u, ts = u ++ r /\ reads_all m SAnnot u l.
    Proof.
      intros fuel. induction fuel as [|fuel IH]; intros ts l r Ht E.
      - assert (E' : ts = r /\ l = []).
        { cbn in E. destruct ts as [|t ts]; [injection E as <- <-; auto|]. destruct t as [| | | | | | | | | | |k|]; try (injection E as <- <-; auto).
          destruct k; try (injection E as <- <-; auto). discriminate. }
        destruct E' as [-> ->]. exists []. split; [reflexivity|apply all_nil].
      - assert (Hgo : (get o <- self N_annotation;; get l <- annots fuel (self N_annotation);; pret (o :: l)) ts = POk l r -> exists u, ts = u ++ r /\ reads_all m SAnnot u l).
        { unfold pbind, pret. destruct (self N_annotation ts) as [o r1| | |] eqn:E1; try discriminate. destruct (self_ok _ _ _ _ Ht E1) as (u & -> & Hu).
          destruct (annots fuel (self N_annotation) r1) as [l' r2| | |] eqn:E2; try discriminate. intros [= <- <-].
          destruct (IH _ _ _ (token_tail _ _ Ht) E2) as (u' & -> & Hu'). exists (u ++ u'). split; [apply app_assoc|]. apply all_cons; assumption. }
        assert (Hno : POk [] ts = POk l r -> exists u, ts = u ++ r /\ reads_all m SAnnot u l).
        { intros [= <- <-]. exists []. split; [reflexivity|apply all_nil]. }
        cbn [annots] in E. destruct ts as [|t ts]; [exact (Hno E)|]. destruct t as [| | | | | | | | | | |k|]; try exact (Hno E). destruct k; try exact (Hno E). exact (Hgo E).
    Qed.
    Lemma at_least_read k n ts l r : Forall token_ok ts -> at_least k (self n) ts = POk l r -> exists u, ts = u ++ r /\ reads_all m (so n) u l /\ (k <= List.length l)%nat.
    Proof.
      intros Ht. unfold at_least, pbind. destruct (items _ (self n) ts) as [l' r'| | |] eqn:E; try discriminate.
      destruct (Nat.ltb_spec (List.length l') k); [discriminate|]. intros [= <- <-].
      destruct (items_read n _ _ _ _ Ht E) as (u & -> & Hu). exists u. auto.
    Qed.
    Lemma parens_read k n ord ts v r : Forall token_ok ts ->
      (get _ <- tok_lparen;; get l <- at_least k (self n);; get _ <- tok_rparen;; pret (GObj (OVec ord l))) ts = POk v r ->
      exists u l, ts = in_parens u ++ r /\ v = GObj (OVec ord l) /\ reads_all m (so n) u l /\ (k <= List.length l)%nat.
    Proof.
      intros Ht. unfold pbind, pret. destruct ts as [|[] ts]; try discriminate. cbn [tok_lparen]. inversion Ht as [|? ? _ Ht']; subst.
      destruct (at_least k (self n) ts) as [l r1| | |] eqn:E; try discriminate. destruct (at_least_read _ _ _ _ _ Ht' E) as (u & -> & Hu & Hk).
      destruct r1 as [|[] r1]; try discriminate. cbn. intros [= <- <-]. exists u, l. split; [|auto]. unfold in_parens. cbn. rewrite <- app_assoc. reflexivity.
    Qed.
    Lemma sym_read y ts v r : Forall token_ok ts -> parse_sym self y ts = POk v r -> exists u, ts = u ++ r /\ sym_reads y u v.
    Proof.
      intros Ht.
      assert (Hone : forall n, (get o <- self n;; pret (GObj o)) ts = POk v r -> exists u o, ts = u ++ r /\ v = GObj o /\ reads m (so n) u o).
      { intros n. unfold pbind, pret. destruct (self n ts) as [o r1| | |] eqn:E; try discriminate. intros [= <- <-].
        destruct (self_ok _ _ _ _ Ht E) as (u & -> & Hu). eauto 6. }
      destruct y as [|n|k n|n| |n|]; cbn [parse_sym]; intros E.
      - unfold pbind, pret in E. destruct (annots _ _ ts) as [l r1| | |] eqn:E1; try discriminate. injection E as <- <-.
        destruct (annots_read _ _ _ _ Ht E1) as (u & -> & Hu). exists u. split; [reflexivity|]. apply sr_annots. exact Hu.
      - destruct (Hone n E) as (u & o & -> & -> & Hu). exists u. split; [reflexivity|]. apply sr_one. exact Hu.
      - unfold pbind, pret in E. destruct (at_least k (self n) ts) as [l r1| | |] eqn:E1; try discriminate. injection E as <- <-.
        destruct (at_least_read _ _ _ _ _ Ht E1) as (u & -> & Hu & Hk). exists u. split; [reflexivity|]. apply sr_list; assumption.
      - destruct (parens_read _ _ _ _ _ _ Ht E) as (u & l & -> & -> & Hu & _). exists (in_parens u). split; [reflexivity|]. apply sr_star. exact Hu.
      - destruct ts as [|[] ts]; try discriminate. injection E as <- <-. eexists [_]. split; [reflexivity|]. apply sr_num.
      - assert (Hgo : (get o <- self n;; pret (GObj o)) ts = POk v r -> exists u, ts = u ++ r /\ sym_reads (Y_opt n) u v).
        { intros H. destruct (Hone n H) as (u & o & -> & -> & Hu). exists u. split; [reflexivity|]. apply sr_some. exact Hu. }
        destruct ts as [|t ts]; [exact (Hgo E)|]. destruct t; try exact (Hgo E). injection E as <- <-. exists []. split; [reflexivity|]. apply sr_none.
      - assert (Hgo : (get o <- self N_obj_prop_exp;; pret (GObj o)) ts = POk v r -> exists u, ts = u ++ r /\ sym_reads Y_sub_prop u v).
        { intros H. destruct (Hone _ H) as (u & o & -> & -> & Hu). exists u. split; [reflexivity|]. apply sr_prop. exact Hu. }
        destruct ts as [|t ts]; [exact (Hgo E)|]. destruct t as [| | | | | | | | | | |k|]; try exact (Hgo E). destruct k; try exact (Hgo E).
        inversion Ht as [|? ? _ Ht']; subst. destruct (parens_read _ _ _ _ _ _ Ht' E) as (u & l & -> & -> & Hu & Hk).
        exists (TKw OBJECT_PROPERTY_CHAIN :: in_parens u). split; [reflexivity|]. apply sr_chain; assumption.
    Qed.
    Lemma syms_read_ok : forall l ts vs r, Forall token_ok ts -> parse_syms self l ts = POk vs r -> exists u, ts = u ++ r /\ syms_read l u vs.
    Proof.
      intros l. induction l as [|y l IH]; intros ts vs r Ht E; cbn [parse_syms] in E; unfold pbind, pret in E.
      - injection E as <- <-. exists []. split; [reflexivity|constructor].
      - destruct (parse_sym self y ts) as [v r1| | |] eqn:E1; try discriminate. destruct (sym_read _ _ _ _ Ht E1) as (u & -> & Hu).
        destruct (parse_syms self l r1) as [vs' r2| | |] eqn:E2; try discriminate. injection E as <- <-.
        destruct (IH _ _ _ (token_tail _ _ Ht) E2) as (u' & -> & Hu'). exists (u ++ u'). split; [apply app_assoc|]. constructor; assumption.
    Qed.
    Lemma iri_read (f : bytes * bytes -> obj) ts o r : Forall token_ok ts -> (get i <- parse_iri m;; pret (f i)) ts = POk o r ->
      exists t ns rem, ts = [t] ++ r /\ names m t ns rem /\ o = f (ns, rem).
    Proof.
      intros Ht. unfold pbind, pret. destruct (parse_iri m ts) as [[ns rem] r'| | |] eqn:E; try discriminate. intros [= <- <-].
      destruct (parse_names m _ _ _ Ht E) as (t & -> & Hn). exists t, ns, rem. auto.
    Qed.
    Lemma flat_read n ts o r : Forall token_ok ts -> parse_flat m n ts = POk o r -> exists u, ts = u ++ r /\ reads m (so n) u o.
    Proof.
      intros Ht E. destruct n as [|e| | | | | | | | | | |]; cbn [parse_flat so] in *; try discriminate.
      - destruct (iri_read (fun i => OIri (fst i) (snd i)) _ _ _ Ht E) as (t & ns & rem & -> & Hn & ->). exists [t]. split; [reflexivity|]. apply rd_iri. exact Hn.
      - destruct (iri_read (fun i => OEnt e (fst i) (snd i)) _ _ _ Ht E) as (t & ns & rem & -> & Hn & ->). exists [t]. split; [reflexivity|]. apply rd_ent. exact Hn.
      - assert (Hgo : parse_entity_of m ET_NAMED_IND ts = POk o r -> exists u, ts = u ++ r /\ reads m SInd u o).
        { intros H. destruct (iri_read (fun i => OEnt ET_NAMED_IND (fst i) (snd i)) _ _ _ Ht H) as (t & ns & rem & -> & Hn & ->). exists [t]. split; [reflexivity|]. apply rd_named. exact Hn. }
        destruct ts as [|t ts]; [exact (Hgo E)|]. destruct t; try exact (Hgo E). injection E as <- <-. eexists [_]. split; [reflexivity|]. apply rd_anon.
      - destruct (parse_literal_reads m _ _ _ Ht E) as (u & -> & Hu). exists u. split; [reflexivity|]. apply rd_lit. exact Hu.
      - destruct (iri_read (fun i => OEnt ET_OBJ_PROP (fst i) (snd i)) _ _ _ Ht E) as (t & ns & rem & -> & Hn & ->). exists [t]. split; [reflexivity|]. apply rd_obj_prop. exact Hn.
      - destruct (iri_read (fun i => OEnt ET_DATATYPE (fst i) (snd i)) _ _ _ Ht E) as (t & ns & rem & -> & Hn & ->). exists [t]. split; [reflexivity|]. apply rd_datatype. exact Hn.
      - unfold pbind, pret in E. destruct (parse_iri m ts) as [[ns rem] r1| | |] eqn:E1; try discriminate.
        destruct (parse_names m _ _ _ Ht E1) as (t & -> & Hn). destruct (parse_literal m r1) as [l r2| | |] eqn:E2; try discriminate. injection E as <- <-.
        inversion Ht as [|? ? _ Ht']; subst. destruct (parse_literal_reads m _ _ _ Ht' E2) as (u & -> & Hu). exists (t :: u). split; [reflexivity|].
        apply rd_facet; assumption.
      - destruct (iri_read (fun i => OEnt ET_CLASS (fst i) (snd i)) _ _ _ Ht E) as (t & ns & rem & -> & Hn & ->). exists [t]. split; [reflexivity|]. apply rd_class. exact Hn.
      - assert (Hgo : (get i <- parse_iri m;; pret (OIri (fst i) (snd i))) ts = POk o r -> exists u, ts = u ++ r /\ reads m SAnnotVal u o).
        { intros H. destruct (iri_read (fun i => OIri (fst i) (snd i)) _ _ _ Ht H) as (t & ns & rem & -> & Hn & ->). exists [t]. split; [reflexivity|]. apply rd_value_iri. exact Hn. }
        destruct ts as [|t ts]; [exact (Hgo E)|]. destruct t; try exact (Hgo E).
        + destruct (parse_literal_reads m _ _ _ Ht E) as (u & -> & Hu). exists u. split; [reflexivity|]. apply rd_value_lit. exact Hu.
        + injection E as <- <-. eexists [_]. split; [reflexivity|]. apply rd_value_anon.
      - assert (Hgo : (get i <- parse_iri m;; pret (OIri (fst i) (snd i))) ts = POk o r -> exists u, ts = u ++ r /\ reads m SAnnotSubj u o).
        { intros H. destruct (iri_read (fun i => OIri (fst i) (snd i)) _ _ _ Ht H) as (t & ns & rem & -> & Hn & ->). exists [t]. split; [reflexivity|]. apply rd_subject_iri. exact Hn. }
        destruct ts as [|t ts]; [exact (Hgo E)|]. destruct t; try exact (Hgo E). injection E as <- <-. eexists [_]. split; [reflexivity|]. apply rd_subject_anon.
    Qed.
    Lemma step_read n ts o r : Forall token_ok ts -> parse_step m self n ts = POk o r -> exists u, ts = u ++ r /\ reads m (so n) u o.
    Proof.
      intros Ht E. destruct ts as [|t ts]; [exact (flat_read _ _ _ _ Ht E)|]. destruct t as [| | | | | | | | | | |k|]; try exact (flat_read _ _ _ _ Ht E).
      cbn [parse_step] in E. unfold rule_for in E. destruct (find _ (rules_of n)) as [p|] eqn:Ef; [|discriminate].
      apply List.find_some in Ef as [Hin Hk]. destruct (kw_eq_dec (p_kw p) k) as [<-|]; [|discriminate].
      unfold parse_prod, pbind in E. inversion Ht as [|? ? _ Ht']; subst. destruct ts as [|[] ts]; try discriminate. cbn [tok_lparen] in E.
      inversion Ht' as [|? ? _ Ht2]; subst. destruct (parse_syms self (p_syms p) ts) as [vs r1| | |] eqn:E1; try discriminate.
      destruct (syms_read_ok _ _ _ _ Ht2 E1) as (u & -> & Hu). destruct r1 as [|[] r1]; try discriminate. cbn [tok_rparen] in E.
      destruct (run_ctor (p_ctor p) vs) as [o'|] eqn:Er; [|discriminate]. injection E as <- <-.
      exists (TKw (p_kw p) :: in_parens u). split; [unfold in_parens; cbn; rewrite <- app_assoc; reflexivity|]. eapply rule_reads; eassumption.
    Qed.
  End Rec.
  Lemma parse_reads : forall f n ts o r, Forall token_ok ts -> parse m f n ts = POk o r -> exists u, ts = u ++ r /\ reads m (so n) u o.
  Proof.
    intros f. induction f as [|f IH]; intros n ts o r Ht E; [discriminate|]. eapply step_read; [exact IH|exact Ht|exact E].
  Qed.

  (** ** The parser and the grammar *)

  Theorem parser_grammar i ts o rest : Forall token_ok ts -> Forall token_ok rest -> calm rest ->
    (parse_nt m (nt_of i) (ts ++ rest) = POk o rest <-> reads m i ts o).
  Proof.
    intros Ht Hr Hc. split.
    - intros E. destruct (parse_reads _ _ _ _ _ (proj2 (Forall_app _ _ _) (conj Ht Hr)) E) as (u & Eu & Hu). rewrite so_nt in Hu.
      apply app_inv_tail in Eu. subst u. exact Hu.
    - intros H. unfold parse_nt. apply (proj1 (complete m) i ts o H); [exact Hc|]. rewrite app_length. lia.
  Qed.
  Theorem grammar_unambiguous i ts o o' : reads m i ts o -> reads m i ts o' -> o = o'.
  Proof.
    intros H H'. pose proof (proj1 (complete m) i ts o H (S (List.length ts)) [] I) as E. pose proof (proj1 (complete m) i ts o' H' (S (List.length ts)) [] I) as E'.
    rewrite E in E' by lia. specialize (E' ltac:(lia)). congruence.
  Qed.
  Theorem prefix_free i ts o u rest : reads m i ts o -> calm rest -> forall ts', ts ++ rest = ts' ++ u -> calm u -> forall o', reads m i ts' o' -> ts = ts' /\ o = o'.
  Proof.
    intros H Hc ts' E Hu o' H'. pose proof (proj1 (complete m) i ts o H (S (List.length (ts ++ rest))) rest Hc) as E1.
    pose proof (proj1 (complete m) i ts' o' H' (S (List.length (ts' ++ u))) u Hu) as E2. rewrite E in E1. rewrite E1 in E2.
    - assert (Ep : POk o rest = POk o' u) by (apply E2; rewrite app_length; lia). injection Ep as <- <-. split; [|reflexivity]. eapply app_inv_tail; exact E.
    - rewrite <- E, app_length. lia.
  Qed.
End Derive.
