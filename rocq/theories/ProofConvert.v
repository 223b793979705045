(** Conversions between the formats. *)

From Coq Require Import String NArith ZArith List Bool Lia Permutation.
From Coq Require Import ZifyBool ZifyNat ZifyN.
From Verif Require Import Bytes ModelTypes ModelObject ModelText SpecObject SpecText ProofObject ProofText
  ModelPrefixMap SpecPrefixMap ProofPrefixMap ProofPrefixSafe ModelOntology SpecOntology ProofOntology ProofOntologyQuery ProofOntologyHistory ProofOntologyTop
  ModelChange SpecChange ProofChange ModelPrtEncoder ModelPrtDecoder ModelPrtWriter SpecPrt SpecPrtStream SpecPrtStore ProofPrtSafe ProofPrtStore ModelFuncLex ModelFuncParser ModelFuncWriter
  SpecFunc SpecFuncDoc SpecFuncRead SpecFuncGrammar ProofFuncSafe ProofFuncRead ProofFuncReadTop ProofFuncStore ProofFuncInto ProofFuncDocument ProofFuncPrefix ProofFuncDoc SpecFuncStable ProofFuncStable SpecConvert.
Import ListNotations.
Local Open Scope N_scope.

(** The edits that changes amount to. *)
Definition edit_of (p : part) : list edit :=
  match p with
  | PPrefix _ _ => []
  | PIri i => [ESetIri (Some i)]
  | PVersion i => [ESetVersion (Some i)]
  | PImport i => [EAddImport i]
  | PAnnot a => [EAddAnnot a]
  | PAxiom a => [EAddAxiom a]
  end.
Lemma received_run visit w ps : forall x x', receives (change_apply visit w CHANGE_ADD) ps x (Some (x', COWL_OK)) ->
  exists rs log, o_run w (x_onto x) (flat_map edit_of ps) = Some (x_onto x', rs, log).
Proof.
  induction ps as [|p ps IH]; intros x x' R; inversion R as [s E1|p' l s E1|p' l s s' r E1 Hr|p' l s s' res E1 R1]; subst.
  - exists [], []. reflexivity.
  - congruence.
  - destruct (IH _ _ R1) as (rs & log & E).
    assert (G : forall e, on_ontology w x e = Some (s', COWL_OK) -> exists rs log, o_run w (x_onto x) (e :: flat_map edit_of ps) = Some (x_onto x', rs, log)).
    { intros e He. unfold on_ontology in He. cbn [o_run]. destruct (o_step w (x_onto x) e) as [[[o n] lg]|]; [|discriminate]. injection He as <- _.
      cbn [x_onto] in E. rewrite E. eauto. }
    destruct p; cbn [change_apply add_to_ontology] in E1; cbn [flat_map edit_of app]; try (now apply G).
    unfold add_prefix in E1. destruct (pm_add _ _ _ _) as [[pm r]|]; [|discriminate]. injection E1 as <- _. cbn [x_onto] in E. eauto.
Qed.
Lemma edits_history heap ps : Forall (fun p => typed_p p /\ part_in_heap heap p) ps -> history heap (flat_map edit_of ps).
Proof.
  intros F e He. apply in_flat_map in He as (p & Hp & He). rewrite Forall_forall in F. destruct (F p Hp) as [T H].
  destruct p; cbn in He; try contradiction; destruct He as [<-|[]]; (split; [exact T|]); intros b Hb; cbn in Hb; destruct Hb as [<-|[]]; exact H.
Qed.
Lemma edits_added ps : added_objs (flat_map edit_of ps) = flat_map (fun p => match p with PAxiom a | PAnnot a => [r_obj a] | _ => [] end) ps.
Proof. induction ps as [|p ps IH]; [reflexivity|]. cbn [flat_map]. unfold added_objs in *. rewrite flat_map_app, IH. now destruct p. Qed.
Lemma edits_ever ps o : ever_added (flat_map edit_of ps) o -> In o (added_objs (flat_map edit_of ps)).
Proof.
  intros (e & He & H). unfold added_objs. apply in_flat_map. exists e. split; [exact He|]. destruct e; cbn in *; try contradiction; now left.
Qed.
Lemma added_in ps log o : Forall2 stands_for ps (map snd log) -> In o (added_objs (flat_map edit_of ps)) -> In o (annots_in log ++ axioms_in log).
Proof.
  intros Sf. rewrite edits_added. destruct (stands_lists _ _ Sf) as (M1 & M2 & _). rewrite <- M1, <- M2. intros H. apply in_flat_map in H as (p & Hp & H).
  apply in_or_app. unfold p_annots, p_axioms. destruct p; cbn in H; try contradiction; destruct H as [<-|[]]; [left|right]; apply in_map, in_flat_map; eexists; (split; [exact Hp|now left]).
Qed.

(** What C62 says of reading into an ontology, as one statement. *)
Lemma opt_one (o : option obj) l : match o with Some i => l = [i] | None => l = [] end -> opt_list o = l.
Proof. destruct o; intros ->; reflexivity. Qed.
Lemma read_contents visit w signed defaults b c log : (forall t, Permutation (visit t) t) ->
  func_read (fun _ => COWL_OK) signed w (initial_map defaults) b = FRet c log ->
  forall heap ps dst, Forall2 stands_for ps (map snd log) -> Forall (part_in_heap heap) ps ->
  x_onto dst = o_empty true -> new_map visit defaults (x_pm dst) ->
  exists dst', receives (change_apply visit w CHANGE_ADD) ps dst (Some (dst', COWL_OK)) /\ reached heap w (x_onto dst') /\ has_contents (x_onto dst') log.
Proof.
  intros V E heap ps dst Sf Hp De Nm. destruct (read_into visit w signed defaults b c log V E heap ps dst Sf Hp De Nm) as (x & Rc & Rx & A1 & A2 & A3 & A4 & A5).
  exists x. split; [exact Rc|]. split; [exact Rx|]. constructor; auto; now apply opt_one.
Qed.
Lemma same_has x y log : same_contents y x -> has_contents (x_onto x) log -> has_contents (x_onto y) log.
Proof.
  intros [S1 S2 S3 S4 S5] [H1 H2 H3 H4 H5]. constructor.
  - intros l C. rewrite (S5 l _ C (contains_all _)). apply H1, contains_all.
  - intros l D. rewrite (S4 l _ D (deliver_annot _)). apply H2, deliver_annot.
  - intros l D. rewrite (S3 l _ D (deliver_imports _)). apply H3, deliver_imports.
  - now rewrite S1.
  - now rewrite S2.
Qed.

Lemma room_incl w prefixes objs changes prefixes' objs' changes' : room w prefixes objs changes ->
  incl prefixes' prefixes -> incl objs' objs -> (List.length changes' <= List.length changes)%nat -> room w prefixes' objs' changes'.
Proof.
  intros [(ids & I1 & I2) (nss & N1 & N2 & N3 & N4) C] Hp Ho Hc. constructor.
  - exists ids. split; [|exact I2]. intros o p Hi. apply I1. now apply Ho.
  - exists nss. split; [exact N1|]. split; [intros p n Hi; apply (N2 p), Hp, Hi|]. split; [|exact N4]. intros o p ns rem Hi. apply N3. now apply Ho.
  - lia.
Qed.
Lemma log_length (log : list dchange) : List.length log =
  (List.length (declarations log) + List.length (iris_in log) + List.length (versions_in log) + List.length (imports_in log) + List.length (annots_in log) + List.length (axioms_in log))%nat.
Proof.
  induction log as [|[t d] log IH]; [reflexivity|]. unfold declarations, iris_in, versions_in, imports_in, annots_in, axioms_in in *.
  destruct d; cbn [flat_map snd app List.length]; rewrite IH; lia.
Qed.
Lemma opt_map_list {A B} (f : A -> B) (o : option A) : opt_list (option_map f o) = map f (opt_list o).
Proof. now destruct o. Qed.

Lemma iri_an o : wt (SOne SIri) o = true -> an_iri o.
Proof.
  destruct o as [| |e ns rem| | | | |t fs op n]; intros H; try discriminate H; [unfold an_iri; eauto|destruct e; discriminate H|destruct t; discriminate H].
Qed.

(** * From a text to ProtocOWL *)

Theorem convert_text w : width w -> forall visit, (forall t, Permutation (visit t) t) ->
  forall visit_refs, (forall l, Permutation (visit_refs l) l) -> forall alive anon_id handler, (forall l, (0 <= handler l)%Z) ->
  forall signed defaults b log, func_read (fun _ => COWL_OK) signed w (initial_map defaults) b = FRet COWL_OK log ->
  convertible w (initial_map defaults ++ declarations log) log ->
  (forall o p, In o (objects_in log) -> mentions p o -> alive p = true) ->
  forall heap ps x0, Forall2 stands_for ps (map snd log) -> Forall (part_in_heap heap) ps -> x_onto x0 = o_empty true -> new_map visit defaults (x_pm x0) ->
  forall e, e_anon e = true ->
  exists x e' b' s, receives (change_apply visit w CHANGE_ADD) ps x0 (Some (x, COWL_OK)) /\
    w_run visit visit_refs alive w [WOntology x] e = Some ([COWL_OK], e') /\ e_out e' = e_out e ++ b' /\
    read_ontology w anon_id handler b' = DRet tt s /\ (0 <= d_code s)%Z /\
    forall heap' ps' y0, Forall2 stands_for ps' (map snd (d_log s)) -> Forall (part_in_heap heap') ps' -> x_onto y0 = o_empty true -> map_reached visit (x_pm y0) ->
      exists y, receives (change_apply visit w CHANGE_ADD) ps' y0 (Some (y, COWL_OK)) /\ has_contents (x_onto y) log.
Proof.
  intros W visit V visit_refs Vr alive anon_id handler Hok signed defaults b log E Cv Al heap ps x0 Sf Hp De Nm e An.
  destruct (read_contents visit w signed defaults b COWL_OK log V E heap ps x0 Sf Hp De Nm) as (x & Rc & Rx & Hx).
  pose proof Hx as [A1 A2 A3 A4 A5]. specialize (A1 _ (contains_all _)). specialize (A2 _ (deliver_annot _)). specialize (A3 _ (deliver_imports _)).
  destruct (read_sound (fun _ => COWL_OK) signed w (initial_map defaults) b log) as [Hsd _]; [left; now exists COWL_OK|].
  pose proof (sound_typed ps log heap Sf Hsd Hp) as Ht.
  destruct (received_run visit w ps x0 x Rc) as (rs & lg & Er). rewrite De in Er.
  pose proof (edits_history heap ps Ht) as Hh.
  destruct (received_map visit w defaults log ps x0 x V Sf Nm Rc) as (Gx & Mx).
  assert (Hfm : incl (header_prefixes (onto_header x)) (initial_map defaults ++ declarations log)).
  { intros [p n] Hf. apply (in_texts _ _ _ (proj1 Gx)) in Hf.
    rewrite initial_standard, !in_app_iff. destruct (Mx p) as (M1 & M2 & M3). destruct (is_standard p) eqn:Es.
    - rewrite (M1 eq_refl) in Hf. left. left. now apply pmap_in.
    - destruct (in_dec (list_eq_dec N.eq_dec) p (map fst (declarations log))) as [Hi|Hi].
      + apply in_map_iff in Hi as ([q n0] & Eq & Hi). cbn in Eq. subst q. destruct (M3 eq_refl n0 Hi) as (n' & Hn' & Hf'). right. congruence.
      + rewrite M2 in Hf; auto; [left; right; now apply pmap_in|]. intros n0 H0. apply Hi. apply in_map_iff. exists (p, n0). auto. }
  assert (Hlen : (List.length (header_prefixes (onto_header x)) <= List.length (initial_map defaults ++ declarations log))%nat).
  { apply NoDup_incl_length; [|exact Hfm]. unfold header_prefixes. cbn [onto_header h_pm].
    pose proof (proj1 Gx) as Dk. clear -Dk. induction (fwd (x_pm x)) as [|e t IH]; [constructor|]. apply distinct_cons in Dk as [D1 D2]. cbn [map]. constructor; [|now apply IH].
    intros Hi. apply in_map_iff in Hi as (f & Ef & Hf). injection Ef as Ef _. exact (D1 f Hf (eq_sym Ef)). }
  assert (Hobj : incl (all_objs (flat_map edit_of ps) x (all_ax (x_onto x))) (objects_in log)).
  { intros o Ho. unfold all_objs, passed_header in Ho. cbn [onto_header h_iri h_version h_imports h_annot] in Ho. rewrite !map_app, !in_app_iff in Ho.
    rewrite <- !opt_map_list, A4, A5, A3, A2 in Ho. unfold objects_in. rewrite !in_app_iff. destruct Ho as [Ho|[Ho|Ho]]; [tauto| |].
    - apply (Permutation_in _ A1) in Ho. tauto.
    - apply (added_in _ _ _ Sf) in Ho. apply in_app_iff in Ho. tauto. }
  assert (Sg : storing w (flat_map edit_of ps) x (all_ax (x_onto x))).
  { constructor.
    - constructor.
      + intros p ns Hi. apply (cv_prefix _ _ _ Cv). now apply Hfm.
      + cbn [onto_header h_iri h_version h_imports]. intros i Hi. assert (Ho : In (r_obj i) (iris_in log ++ versions_in log ++ imports_in log)).
        { rewrite <- A4, <- A5, <- A3, !opt_map_list, <- !map_app. now apply in_map. }
        rewrite Forall_forall in Hsd. rewrite !in_app_iff in Ho. unfold iris_in, versions_in, imports_in in Ho.
        assert (X : exists c, In c log /\ match snd c with DIri o | DVersion o | DImport o => o = r_obj i | _ => False end).
        { destruct Ho as [Ho|[Ho|Ho]]; apply in_flat_map in Ho as (c & Hc & Ho); exists c; (split; [exact Hc|]); destruct (snd c); cbn in Ho; try contradiction; now destruct Ho as [Ho|[]]. }
        destruct X as (c & Hc & X). destruct (Hsd c Hc) as [_ Hd]. destruct (snd c); try contradiction; subst; now apply iri_an.
      + cbn [onto_header h_iri h_version]. intros Hv Hn. rewrite Hn in A4. cbn in A4. destruct (o_version (x_onto x)) as [r|]; [|congruence]. cbn in A5.
        apply reads_documents in E as (ts & z & dps & Hlex & Hdoc & _ & El). rewrite El in A4, A5.
        apply (document_version _ _ _ Hdoc); [rewrite <- A5; discriminate|now symmetry].
      + cbn [onto_header h_annot]. intros a Ha. assert (Ho : In (r_obj a) (annots_in log)) by (rewrite <- A2; now apply in_map). split.
        * apply in_flat_map in Ho as (c & Hc & Ho). rewrite Forall_forall in Hsd. destruct (Hsd c Hc) as [_ Hd]. destruct (snd c); cbn in Ho; try contradiction. destruct Ho as [<-|[]]. exact Hd.
        * apply (cv_storable _ _ _ Cv), in_or_app. now left.
    - intros a Ha. apply (cv_storable _ _ _ Cv), in_or_app. right. apply (Permutation_in _ A1). now apply in_map.
    - intros o p Ho. apply (cv_portable _ _ _ Cv). now apply Hobj.
    - apply (room_incl _ _ _ _ _ _ _ (cv_room _ _ _ Cv) Hfm Hobj). unfold asked_ontology, asked, asked_header. rewrite asked_axioms, !app_length, !map_length, !app_length, !map_length.
      cbn [onto_header h_iri h_version h_imports h_annot].
      pose proof (log_length log) as Ll. rewrite <- A4, <- A5, <- A3, <- A2, !opt_map_list, !map_length in Ll.
      pose proof (Permutation_length A1) as Lp. rewrite map_length in Lp. rewrite app_length in Hlen. unfold dchange in *. lia. }
  assert (Ala : forall o p, ever_added (flat_map edit_of ps) o -> mentions p o -> alive p = true).
  { intros o p Ho. apply Al, Hobj. unfold all_objs. rewrite !in_app_iff. right. right. now apply edits_ever. }
  destruct (ontology_round_trip w W visit V visit_refs Vr alive anon_id handler Hok heap _ x rs lg _ e Hh Er (contains_all _) Sg Ala An)
    as (e' & b' & s & R & Eo & Rd & Ok & _ & _ & Hrt).
  exists x, e', b', s. split; [exact Rc|]. split; [exact R|]. split; [exact Eo|]. split; [exact Rd|]. split; [exact Ok|].
  intros heap' ps' y0 Sf' Hp' De' Dp. destruct (Hrt heap' ps' y0 Sf' Hp' De' Dp) as (y & Ry & Sc). exists y. split; [exact Ry|].
  now apply (same_has x).
Qed.

(** * From ProtocOWL to a text *)

Lemma typed_sound ps log heap : Forall2 stands_for ps (map snd log) -> typed_log log -> Forall (part_in_heap heap) ps ->
  Forall (fun p => typed_p p /\ part_in_heap heap p) ps.
Proof.
  revert ps. induction log as [|[t d] log IH]; intros ps H Hs Hp; inversion H as [|p d' ps' ds' S0 F]; subst; [constructor|].
  inversion Hs as [|? ? Hd Hs']; subst. inversion Hp as [|? ? Hp1 Hp2]; subst. constructor; [|now apply IH].
  split; [|exact Hp1]. destruct S0; cbn in *; auto; now apply an_iri_wt.
Qed.
Theorem convert_stream w visit : (forall t, Permutation (visit t) t) -> forall anon_id handler b s, read_ontology w anon_id handler b = DRet tt s ->
  Forall (fun c => fst c = CHANGE_ADD) (d_log s) ->
  forall heap ps x0, Forall2 stands_for ps (map snd (d_log s)) -> Forall (part_in_heap heap) ps -> x_onto x0 = o_empty true -> map_reached visit (x_pm x0) ->
  exists x, receives (change_apply visit w CHANGE_ADD) ps x0 (Some (x, COWL_OK)) /\
    forall defaults signed, (forall l, contains (x_onto x) l -> writable w visit defaults x l) ->
    exists b' log, w_ontology visit x = Some b' /\ func_read (fun _ => COWL_OK) signed w (initial_map defaults) b' = FRet COWL_OK log /\
    forall heap' ps' y0, Forall2 stands_for ps' (map snd log) -> Forall (part_in_heap heap') ps' -> x_onto y0 = o_empty true -> new_map visit defaults (x_pm y0) ->
      exists y, receives (change_apply visit w CHANGE_ADD) ps' y0 (Some (y, COWL_OK)) /\ same_contents y x /\ forall p n, ns_text x p (Some n) -> ns_text y p (Some n).
Proof.
  intros V anon_id handler b s Rd _ heap ps x0 Sf Hp De Mr. pose proof (read_typed w anon_id handler b) as Ty. rewrite Rd in Ty.
  assert (Rd0 : reached heap w (x_onto x0)) by (rewrite De; exists [], [], []; split; [intros e []|reflexivity]).
  destruct (map_reached_good visit V _ Mr) as (Gd & _).
  destruct (apply_all heap visit w ps x0 Rd0 Gd (typed_sound ps _ heap Sf Ty Hp)) as (x & Rc & Rx & _).
  exists x. split; [exact Rc|]. intros defaults signed Hw.
  destruct (functional_round_trip w visit V defaults (fun _ => COWL_OK) signed (fun _ => eq_refl) heap x _ Rx (contains_all _) (Hw _ (contains_all _))) as (b' & log & E1 & E2 & _ & E4).
  exists b', log. auto.
Qed.
