(** The functional parser on arbitrary tokens: it ends, what it returns is well-formed, and it dereferences NULL only
    for a literal that has a language datatype and no language tag. *)

From Coq Require Import String NArith ZArith List Bool Lia.
From Coq Require Import ZifyBool ZifyNat ZifyN.
From Verif Require Import Bytes ModelTypes ModelObject ModelText SpecObject SpecText ModelChange ModelPrtDecoder ModelFuncLex ModelFuncParser
  SpecFunc SpecFuncRead ProofObject ProofText ProofLiteral ProofFuncWrite ProofFuncParse.
Import ListNotations.
Local Open Scope N_scope.

(** * Rules *)

Definition so (n : nt) : isort :=
  match n with
  | N_entity_of e => SEnt e | N_entity => SEntity | N_iri => SIri | N_individual => SInd | N_literal => SLit
  | N_cls_exp => SCls | N_data_range => SRange | N_obj_prop_exp => SObjProp | N_facet => SFacet | N_annotation => SAnnot
  | N_annot_value => SAnnotVal | N_annot_subject => SAnnotSubj | N_axiom => SAxiom
  end.
Lemma so_nt i : so (nt_of i) = i.
Proof. destruct i; reflexivity. Qed.

Definition gty (y : sym) (v : gval) : Prop :=
  match y with
  | Y_annots => v = GNull \/ exists l, v = GObj (OVec false l) /\ l <> [] /\ Forall (fun x => wt (SOne SAnnot) x = true) l
  | Y_one n => exists o, v = GObj o /\ wt (SOne (so n)) o = true
  | Y_list _ n | Y_star n => exists l, v = GObj (OVec false l) /\ Forall (fun x => wt (SOne (so n)) x = true) l
  | Y_num => exists k, v = GNum k
  | Y_opt n => v = GNull \/ exists o, v = GObj o /\ wt (SOne (so n)) o = true
  | Y_sub_prop => exists o, v = GObj o /\ wt SSubProp o = true
  end.

Definition filler_default (t : otype) : obj := match t with OT_CE_OBJ_SOME | OT_CE_OBJ_ALL => owl_thing | _ => rdfs_literal end.
Definition plain_sorts (ss : list sort) : Prop := Forall (fun s => match s with SMany true _ => False | _ => True end) ss.
Definition rule_ok (n : nt) (p : prod) : Prop :=
  (exists e, n = N_entity /\ p_syms p = [Y_one (N_entity_of e)] /\ p_ctor p = K_inner) \/
  exists t ss os, construct_sig t = Some (ss, os) /\ p = rule_of t ss os /\ isort_has (so n) t = true /\ plain_sorts ss /\
    match os with
    | OptFiller _ (Some d) => d = filler_default t /\ List.length ss = 1%nat
    | OptFiller _ None => is_card_restr t = true /\ List.length ss = 1%nat
    | _ => True
    end /\ (is_card_restr t = true -> match os with OptFiller _ None => True | _ => False end).
Lemma rules_typed n : Forall (rule_ok n) (rules_of n).
Proof.
  destruct n; cbn [rules_of]; try apply Forall_nil;
  unfold entity_rules, obj_prop_exp_rules, data_range_rules, cls_exp_rules, axiom_rules, annotation_rules;
  repeat (apply Forall_cons; [|]); try apply Forall_nil;
  match goal with
  | |- rule_ok N_entity _ => left; eexists; repeat split
  | |- rule_ok _ {| p_kw := _; p_syms := _; p_ctor := K_plain ?t |} => right; exists t
  | |- rule_ok _ {| p_kw := _; p_syms := _; p_ctor := K_quant ?t |} => right; exists t
  | |- rule_ok _ {| p_kw := _; p_syms := _; p_ctor := K_card ?t |} => right; exists t
  | |- rule_ok _ (arule _ _ ?t) => right; exists t
  end;
  try (eexists; eexists; split; [reflexivity|]; split; [reflexivity|]; split; [reflexivity|]; split; [repeat constructor|]; repeat split;
       cbn; intros H; discriminate H).
Qed.

Lemma wt_one_intro i t ss os fs opt n : construct_sig t = Some (ss, os) -> isort_has i t = true ->
  Forall2 (fun f s => wt s f = true) fs ss ->
  match os, opt with
  | _, None => true
  | NoOpt, Some _ => false
  | OptAnnots, Some v => wt (SMany false SAnnot) v && match v with OVec _ [] => false | _ => true end
  | OptFiller i d, Some v => wt (SOne i) v && match d with Some x => negb (prim_eqb v x) | None => true end
  end = true -> (is_card_restr t = false -> n = 0) -> wt (SOne i) (OComp t fs opt n) = true.
Proof.
  intros Es Ei Hf Ho Hn. cbn [wt]. rewrite Ei, Es. cbn [andb].
  assert (E : forall2b (fun f s' => wt s' f) fs ss = true) by (apply forall2b_Forall2; exact Hf). rewrite E, Ho. cbn [andb].
  destruct (is_card_restr t); [reflexivity|]. apply N.eqb_eq. auto.
Qed.

(** Values of the symbols of operands. *)
Lemma fields_ok t : forall ss vs, plain_sorts ss -> Forall2 gty (map (sym_of t) ss) vs ->
  exists fs, vs = map GObj fs /\ Forall2 (fun f s => wt s f = true) fs ss.
Proof.
  intros ss. induction ss as [|s ss IH]; intros vs Hp H; inversion H as [|? y ? vs' H2 H4]; subst.
  - exists []. split; constructor.
  - inversion Hp as [|? ? Hp1 Hp2]; subst. destruct (IH _ Hp2 H4) as (fs & -> & Hf).
    assert (Hx : exists o, y = GObj o /\ wt s o = true).
    { destruct s as [i|ord i|]; cbn [sym_of] in H2.
      - destruct H2 as (o & -> & Ho). rewrite so_nt in Ho. eauto.
      - destruct ord; [contradiction|].
        assert (Hl : exists l, y = GObj (OVec false l) /\ Forall (fun x => wt (SOne i) x = true) l).
        { destruct (otype_eqb t OT_A_HAS_KEY); destruct H2 as (l & -> & Hl); rewrite so_nt in Hl; eauto. }
        destruct Hl as (l & -> & Hl). exists (OVec false l). split; auto. cbn. apply forallb_forall. rewrite Forall_forall in Hl. exact Hl.
      - exact H2. }
    destruct Hx as (o & -> & Ho). exists (o :: fs). split; [reflexivity|constructor; auto].
Qed.
Lemma run_fields_eq fs :
  (fix fields l := match l with [] => Some [] | GObj o :: l' => option_map (cons o) (fields l') | _ => None end) (map GObj fs) = Some fs.
Proof. induction fs as [|f fs IH]; [reflexivity|]. cbn [map]. rewrite IH. reflexivity. Qed.

Lemma run_typed n p vs : rule_ok n p -> Forall2 gty (p_syms p) vs ->
  exists o, run_ctor (p_ctor p) vs = Some o /\ wt (SOne (so n)) o = true.
Proof.
  intros [(e & -> & Es & Ec)|(t & ss & os & Hs & -> & Hi & Hp & Ho & Hc)] H.
  - rewrite Es in H. rewrite Ec. inversion H as [|? y ? vs' H2 H4]; subst. inversion H4; subst. destruct H2 as (o & -> & Hw). exists o. split; [reflexivity|].
    cbn [so] in *. destruct o as [| |e' ? ?| | | | |t ? ? ?]; try discriminate; try (destruct e; discriminate).
    + destruct e, e'; try discriminate; reflexivity.
    + exfalso. cbn in Hw. apply andb_true_iff in Hw as [Hw Hx]. destruct e, t; vm_compute in Hw; try discriminate; vm_compute in Hx; discriminate.
  - destruct os as [| |i [d|]]; cbn [rule_of p_syms p_ctor] in *.
    + destruct (fields_ok t ss vs Hp H) as (fs & -> & Hf). cbn [run_ctor]. rewrite run_fields_eq. cbn [option_map].
      eexists. split; [reflexivity|]. eapply wt_one_intro; eauto.
    + inversion H as [|? v ? vs' Hv Hvs]; subst. destruct (fields_ok t ss vs' Hp Hvs) as (fs & -> & Hf).
      destruct Hv as [->|(l & -> & Hl & Ha)]; cbn [run_ctor]; rewrite run_fields_eq; cbn [option_map]; eexists; (split; [reflexivity|]).
      * eapply wt_one_intro; eauto.
      * destruct l as [|a l]; [contradiction|]. eapply wt_one_intro; eauto. cbn [mk_annot]. rewrite andb_true_r.
        cbn [wt Bool.eqb andb]. apply forallb_forall. rewrite Forall_forall in Ha. exact Ha.
    + destruct Ho as [-> Hl]. destruct ss as [|s [|]]; try discriminate. cbn [map app] in H.
      inversion H as [|? v ? vs' Hv Hvs]; subst. inversion Hvs as [|? v2 ? vs2 Hv2 Hvs2]; subst. inversion Hvs2; subst.
      destruct (fields_ok t [s] [v] Hp) as (fs & E & Hf); [constructor; [exact Hv|constructor]|].
      destruct fs as [|f [|]]; try discriminate. injection E as ->. destruct Hv2 as (o & -> & Hw). rewrite so_nt in Hw.
      cbn [run_ctor]. eexists. split; [reflexivity|]. unfold mk_quant. eapply wt_one_intro; eauto.
      fold (filler_default t). destruct (prim_eqb o (filler_default t)) eqn:E; [reflexivity|]. rewrite Hw, E. reflexivity.
    + destruct Ho as [Hk Hl]. destruct ss as [|s [|]]; try discriminate. cbn [map app] in H.
      inversion H as [|? v0 ? vs0 Hv0 Hvs0]; subst.
      inversion Hvs0 as [|? v ? vs' Hv Hvs]; subst. inversion Hvs as [|? v2 ? vs2 Hv2 Hvs2]; subst. inversion Hvs2; subst.
      destruct Hv0 as (k & ->).
      destruct (fields_ok t [s] [v] Hp) as (fs & E & Hf); [constructor; [exact Hv|constructor]|].
      destruct fs as [|f [|]]; try discriminate. injection E as ->.
      destruct Hv2 as [->|(o & -> & Hw)]; cbn [run_ctor]; eexists; (split; [reflexivity|]); unfold mk_card; eapply wt_one_intro; eauto; try congruence.
      cbv beta iota. rewrite so_nt in Hw. rewrite Hw. reflexivity.
Qed.

(** * The parser *)

Section Parse.
  Variable m : pmap.

  (** What holds of the outcome of a parsing function. *)
  Definition fine {A} (ts : list token) (r : pres A) (Q : A -> list token -> Prop) : Prop :=
    match r with
    | POk a rest => Q a rest
    | PFail c => c = ERR_SYNTAX \/ c = ERR_MEM
    | PCrash => untagged m ts
    | PFuel => False
    end.
  (** [ts'] is what is left of [ts]. *)
  Definition tail_of (ts ts' : list token) : Prop := exists u, ts = u ++ ts'.
  Definition shorter (ts ts' : list token) : Prop := exists t u, ts = t :: u ++ ts'.
  Lemma tail_refl ts : tail_of ts ts.
  Proof. exists []. reflexivity. Qed.
  Lemma tail_trans a b c : tail_of a b -> tail_of b c -> tail_of a c.
  Proof. intros [u ->] [v ->]. exists (u ++ v). now rewrite app_assoc. Qed.
  Lemma shorter_tail a b : shorter a b -> tail_of a b.
  Proof. intros (t & u & ->). exists (t :: u). reflexivity. Qed.
  Lemma shorter_l a b c : shorter a b -> tail_of b c -> shorter a c.
  Proof. intros (t & u & ->) [v ->]. exists t, (u ++ v). now rewrite app_assoc. Qed.
  Lemma shorter_r a b c : tail_of a b -> shorter b c -> shorter a c.
  Proof. intros [[|t u] ->] (t' & v & ->); [exists t', v; reflexivity|]. exists t, (u ++ t' :: v). cbn. now rewrite <- app_assoc. Qed.
  Lemma shorter_cons t a : shorter (t :: a) a.
  Proof. exists t, []. reflexivity. Qed.
  Lemma shorter_length a b : shorter a b -> (List.length b < List.length a)%nat.
  Proof. intros (t & u & ->). cbn. rewrite app_length. lia. Qed.
  Lemma tail_length a b : tail_of a b -> (List.length b <= List.length a)%nat.
  Proof. intros (u & ->). rewrite app_length. lia. Qed.
  Lemma untagged_tail a b : tail_of a b -> untagged m b -> untagged m a.
  Proof. intros [u ->] (pre & v & ts & i & r & -> & H). exists (u ++ pre), v, ts, i, r. split; [now rewrite app_assoc|exact H]. Qed.

  Lemma fine_weaken {A} ts (r : pres A) (Q Q' : A -> list token -> Prop) : fine ts r Q -> (forall a x, Q a x -> Q' a x) -> fine ts r Q'.
  Proof. destruct r; cbn; auto. Qed.
  Lemma fine_from {A} ts ts' (r : pres A) Q : tail_of ts ts' -> fine ts' r Q -> fine ts r Q.
  Proof. intros H. destruct r; cbn; auto. apply untagged_tail. exact H. Qed.
  Lemma fine_bind {A B} (p : P A) (k : A -> P B) ts Q :
    fine ts (p ts) (fun a r => tail_of ts r /\ fine r (k a r) Q) -> fine ts (pbind p k ts) Q.
  Proof. unfold pbind. destruct (p ts) as [a r|c| |]; cbn; auto. intros [H1 H2]. eapply fine_from; eauto. Qed.
  Lemma fine_ret {A} (a : A) ts (Q : A -> list token -> Prop) : Q a ts -> fine ts (pret a ts) Q.
  Proof. auto. Qed.

  Lemma fine_lparen ts : fine ts (tok_lparen ts) (fun _ r => shorter ts r).
  Proof. destruct ts as [|[] ts]; cbn; auto. apply shorter_cons. Qed.
  Lemma fine_rparen ts : fine ts (tok_rparen ts) (fun _ r => shorter ts r).
  Proof. destruct ts as [|[] ts]; cbn; auto. apply shorter_cons. Qed.
  Lemma fine_iri ts : fine ts (parse_iri m ts) (fun _ r => shorter ts r).
  Proof.
    destruct ts as [|[] ts]; cbn [parse_iri fine]; auto.
    - destruct (pmap_ns m _); cbn; auto using shorter_cons.
    - destruct (iri_from_string _); cbn; auto using shorter_cons.
  Qed.
  Definition gives (i : isort) (ts : list token) (o : obj) (r : list token) : Prop := shorter ts r /\ wt (SOne i) o = true.
  Lemma fine_iri_as i (f : bytes * bytes -> obj) ts : (forall x, wt (SOne i) (f x) = true) ->
    fine ts ((get x <- parse_iri m;; pret (f x)) ts) (gives i ts).
  Proof.
    intros H. apply fine_bind. eapply fine_weaken; [apply fine_iri|]. cbn beta. intros a r Hr. split; [now apply shorter_tail|].
    apply fine_ret. split; auto.
  Qed.
  Lemma fine_anon i other ts : (forall s, wt (SOne i) (OAnon s) = true) -> fine ts (other ts) (gives i ts) -> fine ts (parse_anon other ts) (gives i ts).
  Proof. intros H Ho. destruct ts as [|[] ts]; auto. cbn. split; auto using shorter_cons. Qed.
  Lemma fine_literal ts : fine ts (parse_literal m ts) (gives SLit ts).
  Proof.
    destruct ts as [|t ts]; [now left|]. destruct t as [|v| | | | | | | | | | |]; try (left; reflexivity).
    assert (Hs : fine (TQuoted v :: ts) (literal_value (cowl_literal (Some v) DLNull) ts) (gives SLit (TQuoted v :: ts))).
    { cbn. split; [apply shorter_cons|reflexivity]. }
    destruct ts as [|t2 ts]; [exact Hs|]. destruct t2 as [| | | | |l| | | | | | |]; try exact Hs.
    - cbn. unfold literal_lang_alloc. destruct (Nat.eqb _ _); cbn; (split; [exists (TQuoted v), [TLang l]; reflexivity|reflexivity]).
    - cbn [parse_literal]. unfold pbind. pose proof (fine_iri ts) as H. destruct (parse_iri m ts) as [i r|c| |] eqn:E; cbn in H |- *; auto.
      + assert (Hsh : shorter (TQuoted v :: TCaret :: ts) r).
        { eapply shorter_r; [|exact H]. exists [TQuoted v; TCaret]. reflexivity. }
        unfold cowl_literal. destruct (is_lang_datatype (fst i) (snd i)) eqn:El.
        * unfold literal_parse_lang_alloc. pose proof (parse_lang_spec v) as Hp. destruct (parse_lang v) as [a [l|]]; cbn.
          -- split; auto.
          -- destruct Hp as [_ Hp]. exists [], v, ts, i, r. split; [reflexivity|]. split; [exact E|].
             split; [|exact Hp]. apply is_lang_datatype_spec. exact El.
        * cbn. split; auto.
      + eapply untagged_tail; [|exact H]. exists [TQuoted v; TCaret]. reflexivity.
  Qed.
  Lemma fine_flat n ts : fine ts (parse_flat m n ts) (gives (so n) ts).
  Proof.
    destruct n; cbn [parse_flat so]; try (left; reflexivity).
    - apply fine_iri_as. reflexivity.
    - apply fine_iri_as. intros x. cbn. destruct e; reflexivity.
    - apply fine_anon; [reflexivity|]. apply fine_iri_as. reflexivity.
    - apply fine_literal.
    - apply fine_iri_as. reflexivity.
    - apply fine_iri_as. reflexivity.
    - apply fine_bind. eapply fine_weaken; [apply fine_iri|]. cbn beta. intros i r Hr. split; [now apply shorter_tail|].
      apply fine_bind. eapply fine_weaken; [apply fine_literal|]. cbn beta. intros l r' [Hl Hw]. split; [now apply shorter_tail|].
      apply fine_ret. split; [eapply shorter_l; [exact Hr|now apply shorter_tail]|].
      apply (wt_one_intro SFacet OT_FACET_RESTR [SOne SIri; SOne SLit] NoOpt); auto.
    - apply fine_iri_as. reflexivity.
    - assert (Hv : fine ts (parse_anon (get i <- parse_iri m;; pret (OIri (fst i) (snd i))) ts) (gives SAnnotVal ts)).
      { apply fine_anon; [reflexivity|]. apply fine_iri_as. reflexivity. }
      destruct ts as [|t ts]; [exact Hv|]. destruct t; try exact Hv.
      eapply fine_weaken; [apply fine_literal|]. intros o r [Hr Hw]. split; auto.
      destruct o as [| |e ? ?| | | | |t ? ? ?]; try discriminate; try reflexivity; [destruct e; discriminate|].
      exfalso. cbn in Hw. apply andb_true_iff in Hw as [Hw Hx]. destruct t; vm_compute in Hw; try discriminate; vm_compute in Hx; discriminate.
    - apply fine_anon; [reflexivity|]. apply fine_iri_as. reflexivity.
  Qed.

  Section Rec.
    Variable self : nt -> P obj.
    Variable k : nat.
    Hypothesis self_ok : forall n ts, (List.length ts < k)%nat -> fine ts (self n ts) (gives (so n) ts).

    Lemma fine_items n : forall fuel ts, (List.length ts < k)%nat -> (List.length ts < fuel)%nat ->
      fine ts (items fuel (self n) ts) (fun l r => tail_of ts r /\ Forall (fun x => wt (SOne (so n)) x = true) l).
    Proof.
      intros fuel. induction fuel as [|fuel IH]; intros ts Hk Hf; [lia|].
      assert (Hgo : fine ts ((get o <- self n;; get l <- items fuel (self n);; pret (o :: l)) ts)
        (fun l r => tail_of ts r /\ Forall (fun x => wt (SOne (so n)) x = true) l)).
      { apply fine_bind. eapply fine_weaken; [apply self_ok; exact Hk|]. cbn beta. intros o r [Hr Hw]. split; [now apply shorter_tail|].
        pose proof (shorter_length _ _ Hr). apply fine_bind. eapply fine_weaken; [apply IH; lia|]. cbn beta. intros l r' [Hr' Hl].
        split; [exact Hr'|]. apply fine_ret. split; [|now constructor]. eapply tail_trans; [apply shorter_tail; exact Hr|exact Hr']. }
      destruct ts as [|t ts]; [exact Hgo|]. destruct t; try exact Hgo. cbn. split; [apply tail_refl|constructor].
    Qed.
    Lemma fine_annots : forall fuel ts, (List.length ts < k)%nat -> (List.length ts <= fuel)%nat ->
      fine ts (annots fuel (self N_annotation) ts) (fun l r => tail_of ts r /\ Forall (fun x => wt (SOne SAnnot) x = true) l).
    Proof.
      intros fuel. induction fuel as [|fuel IH]; intros ts Hk Hf.
      { destruct ts; [|cbn in Hf; lia]. cbn. split; [apply tail_refl|constructor]. }
      assert (Hgo : fine ts ((get o <- self N_annotation;; get l <- annots fuel (self N_annotation);; pret (o :: l)) ts)
        (fun l r => tail_of ts r /\ Forall (fun x => wt (SOne SAnnot) x = true) l)).
      { apply fine_bind. eapply fine_weaken; [apply self_ok; exact Hk|]. cbn beta. intros o r [Hr Hw]. split; [now apply shorter_tail|].
        pose proof (shorter_length _ _ Hr). apply fine_bind. eapply fine_weaken; [apply IH; lia|]. cbn beta. intros l r' [Hr' Hl].
        split; [exact Hr'|]. apply fine_ret. split; [|now constructor]. eapply tail_trans; [apply shorter_tail; exact Hr|exact Hr']. }
      assert (Hno : fine ts (POk (@nil obj) ts) (fun l r => tail_of ts r /\ Forall (fun x => wt (SOne SAnnot) x = true) l)).
      { cbn. split; [apply tail_refl|constructor]. }
      cbn [annots]. destruct ts as [|t ts]; [exact Hno|]. destruct t as [| | | | | | | | | | |kw|]; try exact Hno. destruct kw; try exact Hno. exact Hgo.
    Qed.
    Lemma fine_at_least j n ts : (List.length ts < k)%nat ->
      fine ts (at_least j (self n) ts) (fun l r => tail_of ts r /\ Forall (fun x => wt (SOne (so n)) x = true) l).
    Proof.
      intros Hk. unfold at_least. apply fine_bind. eapply fine_weaken; [apply fine_items; [exact Hk|lia]|]. cbn beta.
      intros l r [Hr Hl]. split; [exact Hr|]. destruct (Nat.ltb _ _); [left; reflexivity|]. apply fine_ret. auto.
    Qed.
    Lemma fine_sym y ts : (List.length ts < k)%nat -> fine ts (parse_sym self y ts) (fun v r => tail_of ts r /\ gty y v).
    Proof.
      intros Hk. assert (Hone : forall n, fine ts ((get o <- self n;; pret (GObj o)) ts) (fun v r => tail_of ts r /\ exists o, v = GObj o /\ wt (SOne (so n)) o = true)).
      { intros n. apply fine_bind. eapply fine_weaken; [apply self_ok; exact Hk|]. cbn beta. intros o r [Hr Hw].
        split; [now apply shorter_tail|]. apply fine_ret. split; [now apply shorter_tail|eauto]. }
      assert (Hparen : forall j n ord ts, (List.length ts < k)%nat ->
        fine ts ((get _ <- tok_lparen;; get l <- at_least j (self n);; get _ <- tok_rparen;; pret (GObj (OVec ord l))) ts)
          (fun v r => tail_of ts r /\ exists l, v = GObj (OVec ord l) /\ Forall (fun x => wt (SOne (so n)) x = true) l)).
      { intros j n ord us Hu. apply fine_bind. eapply fine_weaken; [apply fine_lparen|]. cbn beta. intros _ r Hr. split; [now apply shorter_tail|].
        pose proof (shorter_length _ _ Hr). apply fine_bind. eapply fine_weaken; [apply fine_at_least; lia|]. cbn beta. intros l r' [Hr' Hl].
        split; [exact Hr'|]. apply fine_bind. eapply fine_weaken; [apply fine_rparen|]. cbn beta. intros _ r2 Hr2.
        split; [now apply shorter_tail|]. apply fine_ret. split; [|eauto].
        eapply tail_trans; [apply shorter_tail; exact Hr|]. eapply tail_trans; [exact Hr'|apply shorter_tail; exact Hr2]. }
      destruct y as [|n|j n|n| |n|]; cbn [parse_sym gty].
      - apply fine_bind. eapply fine_weaken; [apply fine_annots; [exact Hk|lia]|]. cbn beta. intros l r [Hr Hl]. split; [exact Hr|].
        apply fine_ret. split; [exact Hr|]. destruct l as [|a l]; [now left|]. right. exists (a :: l). split; [reflexivity|]. split; [discriminate|exact Hl].
      - apply Hone.
      - apply fine_bind. eapply fine_weaken; [apply fine_at_least; exact Hk|]. cbn beta. intros l r [Hr Hl]. split; [exact Hr|].
        apply fine_ret. split; [exact Hr|]. eauto.
      - apply Hparen. exact Hk.
      - destruct ts as [|[] ts]; cbn; auto. split; [apply shorter_tail, shorter_cons|eauto].
      - assert (Ho : fine ts ((get o <- self n;; pret (GObj o)) ts) (fun v r => tail_of ts r /\ (v = GNull \/ exists o, v = GObj o /\ wt (SOne (so n)) o = true))).
        { eapply fine_weaken; [apply Hone|]. cbn beta. intros v r [Hr Hv]. auto. }
        destruct ts as [|t ts]; [exact Ho|]. destruct t; try exact Ho. cbn. split; [apply tail_refl|now left].
      - assert (Ho : fine ts ((get o <- self N_obj_prop_exp;; pret (GObj o)) ts) (fun v r => tail_of ts r /\ exists o, v = GObj o /\ wt SSubProp o = true)).
        { eapply fine_weaken; [apply Hone|]. cbn beta. intros v r [Hr (o & -> & Hw)]. split; auto. exists o. split; auto.
          cbn [so] in Hw. destruct o; try discriminate; exact Hw. }
        destruct ts as [|t ts]; [exact Ho|]. destruct t as [| | | | | | | | | | |kw|]; try exact Ho. destruct kw; try exact Ho.
        eapply fine_from; [apply shorter_tail, shorter_cons|]. cbn [List.length] in Hk.
        eapply fine_weaken; [apply Hparen; lia|]. cbn beta. intros v r [Hr (l & -> & Hl)].
        split; [eapply tail_trans; [apply shorter_tail, shorter_cons|exact Hr]|]. exists (OVec true l). split; [reflexivity|].
        cbn. apply forallb_forall. rewrite Forall_forall in Hl. exact Hl.
    Qed.
    Lemma fine_syms : forall l ts, (List.length ts < k)%nat -> fine ts (parse_syms self l ts) (fun vs r => tail_of ts r /\ Forall2 gty l vs).
    Proof.
      intros l. induction l as [|y l IH]; intros ts Hk; cbn [parse_syms].
      - apply fine_ret. split; [apply tail_refl|constructor].
      - apply fine_bind. eapply fine_weaken; [apply fine_sym; exact Hk|]. cbn beta. intros v r [Hr Hv]. split; [exact Hr|].
        pose proof (tail_length _ _ Hr). apply fine_bind. eapply fine_weaken; [apply IH; lia|]. cbn beta. intros vs r' [Hr' Hvs].
        split; [exact Hr'|]. apply fine_ret. split; [eapply tail_trans; eauto|constructor; auto].
    Qed.
    Lemma fine_step n ts : (List.length ts <= k)%nat -> fine ts (parse_step m self n ts) (gives (so n) ts).
    Proof.
      intros Hk. destruct ts as [|t ts]; [apply fine_flat|]. destruct t as [| | | | | | | | | | |kw|]; try apply fine_flat.
      cbn [parse_step]. unfold rule_for. destruct (find _ (rules_of n)) as [p|] eqn:E; [|left; reflexivity].
      apply List.find_some in E as [Hin _]. pose proof (rules_typed n) as Ht. rewrite Forall_forall in Ht. specialize (Ht p Hin).
      cbn [List.length] in Hk. eapply fine_from; [apply shorter_tail, shorter_cons|]. unfold parse_prod.
      apply fine_bind. eapply fine_weaken; [apply fine_lparen|]. cbn beta. intros _ r Hr. split; [now apply shorter_tail|].
      pose proof (shorter_length _ _ Hr). apply fine_bind. eapply fine_weaken; [apply fine_syms; lia|]. cbn beta. intros vs r' [Hr' Hvs].
      split; [exact Hr'|]. apply fine_bind. eapply fine_weaken; [apply fine_rparen|]. cbn beta. intros _ r2 Hr2. split; [now apply shorter_tail|].
      destruct (run_typed n p vs Ht Hvs) as (o & -> & Hw). apply fine_ret. split; [|exact Hw].
      eapply shorter_l; [apply shorter_cons|]. eapply tail_trans; [apply shorter_tail; exact Hr|].
      eapply tail_trans; [exact Hr'|apply shorter_tail; exact Hr2].
    Qed.
  End Rec.

  Lemma fine_parse : forall f n ts, (List.length ts < f)%nat -> fine ts (parse m f n ts) (gives (so n) ts).
  Proof.
    intros f. induction f as [|f IH]; intros n ts Hf; [lia|]. cbn [parse]. apply (fine_step (parse m f) f IH). lia.
  Qed.
  Theorem fine_nt n ts : fine ts (parse_nt m n ts) (gives (so n) ts).
  Proof. unfold parse_nt. apply fine_parse. lia. Qed.
End Parse.
