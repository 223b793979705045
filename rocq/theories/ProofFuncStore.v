(** Whole ontologies in functional syntax. *)

From Coq Require Import String NArith ZArith List Bool Lia Permutation.
From Coq Require Import ZifyBool ZifyNat ZifyN.
From Verif Require Import Bytes ModelTypes ModelObject ModelText SpecObject SpecText ProofObject ProofIter
  ModelPrefixMap SpecPrefixMap ProofPrefixMap ProofPrefixRev ProofPrefixSafe ModelOntology SpecOntology ProofOntology ProofOntologyQuery ProofOntologyHistory ProofOntologyTop
  ModelChange SpecChange ProofChange
  ModelPrtDecoder ModelPrtWriter SpecPrt SpecPrtStream SpecPrtStore ProofPrtAxiom ProofPrtStore
  ModelFuncLex ModelFuncParser ModelFuncWriter SpecFunc SpecFuncDoc ProofFuncDoc.
Import ListNotations.
Local Open Scope N_scope.

(** * Prefixes received by an ontology *)

Definition p_prefixes (ps : list part) : list (bytes * bytes) :=
  flat_map (fun p => match p with PPrefix k v => [(stx k, stx v)] | _ => [] end) ps.

Lemma on_ontology_pm w x e x' r : on_ontology w x e = Some (x', r) -> x_pm x' = x_pm x.
Proof.
  unfold on_ontology. destruct (o_step w (x_onto x) e) as [[[o r0] l]|]; [|discriminate]. intros [= <- _]. reflexivity.
Qed.

Lemma receive_prefixes visit w ps x x' : receives (change_apply visit w CHANGE_ADD) ps x (Some (x', COWL_OK)) -> good (x_pm x) ->
  pinned_ok (fm (fwd (x_pm x))) ->
  good (x_pm x') /\ (forall p, (forall n, ~ In (p, n) (p_prefixes ps)) -> fm (fwd (x_pm x')) p = fm (fwd (x_pm x)) p) /\
  (forall p n, In (p, n) (p_prefixes ps) -> is_standard p = false -> exists n', In (p, n') (p_prefixes ps) /\ fm (fwd (x_pm x')) p = Some n') /\
  (forall p n, is_standard p = true -> fm (fwd (x_pm x)) p = Some n -> fm (fwd (x_pm x')) p = Some n).
Proof.
  intros R. remember (Some (x', COWL_OK)) as res eqn:Er. revert Er.
  induction R as [s|p l s H|p l s s' r H Hr|p l s s' res H R IH]; intros Er G P; inversion Er; subst.
  - split; auto. split; auto. split; auto. intros p n [].
  - contradiction.
  - specialize (IH eq_refl). destruct p as [k v|i|i|i|a|a].
    2-6: (cbn [change_apply add_to_ontology] in H; apply on_ontology_pm in H; rewrite H in IH; exact (IH G P)).
    cbn [change_apply add_to_ontology] in H. unfold add_prefix in H.
    destruct (add_good (x_pm s) k v true G) as (s1 & c & E & G1 & b & (Ho & Hm) & Hc). rewrite E in H. injection H as <- Hc'.
    cbn [x_pm] in IH.
    assert (P1 : pinned_ok (fm (fwd s1))).
    { apply (a_step_pinned (fm (fwd (x_pm s))) (PAdd k v true) _ c P). exists b. split; [split; auto|auto]. }
    assert (Hx : exists n', pinned_ns (stx k) (stx v) n' /\ fm (fwd s1) (stx k) = Some n') by (destruct (fm (fwd (x_pm s)) (stx k)); tauto).
    destruct (IH G1 P1) as (G' & U & D & T). split; auto. cbn [p_prefixes flat_map]. change (flat_map _ l) with (p_prefixes l). cbn [app]. split; [|split].
    + intros p Hp. rewrite U by (intros n Hn; apply (Hp n); now right). apply Ho. intros ->. apply (Hp (stx v)). now left.
    + intros p n Hin Hs. destruct (in_dec (list_eq_dec N.eq_dec) p (map fst (p_prefixes l))) as [Hl|Hl].
      * apply in_map_iff in Hl as ([q m] & Eq & Hl). cbn in Eq. subst q. destruct (D p m Hl Hs) as (n' & Hn' & Hf). exists n'. split; auto. now right.
      * destruct Hin as [Heq|Hin]; [|exfalso; apply Hl; apply in_map_iff; exists (p, n); auto].
        injection Heq as <- <-. exists (stx v). split; [now left|]. rewrite U.
        -- destruct Hx as (n' & [Hx|(_ & ->)] & Hf); auto. exfalso.
           assert (is_standard (stx k) = true) by (apply standard_in; eauto). congruence.
        -- intros n Hn. apply Hl. apply in_map_iff. exists (stx k, n). auto.
    + intros p n Hs Hp. apply T; auto. destruct (list_eq_dec N.eq_dec p (stx k)) as [->|Hk]; [|rewrite Ho; auto].
      apply standard_in in Hs as (m & Hs). destruct Hx as (n' & [Hx|(Hx & _)] & Hf); [|exfalso; eapply Hx; eauto].
      rewrite Hf. f_equal. rewrite (P (stx k) m n Hs Hp). apply (standard_unique (stx k)); auto.
Qed.

(** * New ontologies *)

Lemma pmap_app (a b : pmap) p : pmap_ns (a ++ b) p = match pmap_ns a p with Some n => Some n | None => pmap_ns b p end.
Proof.
  unfold pmap_ns. induction a as [|e a IH]; cbn [app find]; [reflexivity|]. destruct e as [q m]; cbn [fst] in *; destruct (bytes_eqb q p); [reflexivity|exact IH].
Qed.
Lemma pmap_in (l : pmap) p n : pmap_ns l p = Some n -> In (p, n) l.
Proof.
  unfold pmap_ns. destruct (find (fun e => bytes_eqb (fst e) p) l) as [[q m]|] eqn:E; [|discriminate]. intros [= <-].
  apply List.find_some in E as [E1 E2]. cbn in E2. apply bytes_eqb_eq in E2. now subst q.
Qed.
Lemma pmap_none (l : pmap) p n : pmap_ns l p = None -> ~ In (p, n) l.
Proof.
  unfold pmap_ns. destruct (find (fun e => bytes_eqb (fst e) p) l) as [[q m]|] eqn:E; [discriminate|]. intros _ Hin.
  apply (List.find_none _ _ E) in Hin. cbn in Hin. rewrite bytes_eqb_refl in Hin. discriminate.
Qed.
Lemma new_map_reached visit defaults pm : new_map visit defaults pm -> map_reached visit pm.
Proof.
  intros (r & src & s0 & c & c' & R & D & _ & E0 & E). exists r, [PMerge src false], s0, c, [c'].
  split; auto. split; [repeat constructor; exact D|]. split; auto. cbn. rewrite E. reflexivity.
Qed.
Lemma init_pmap p : a_init p = pmap_ns standard p.
Proof. unfold a_init, pmap_ns. destruct (find _ standard) as [[q m]|]; reflexivity. Qed.
Lemma new_map_fm visit defaults pm p : (forall t, Permutation (visit t) t) -> new_map visit defaults pm -> fm (fwd pm) p = pmap_ns (initial_map defaults) p.
Proof.
  intros V (r & src & s0 & c & c' & R & D & T & E0 & E). destruct (init_good r R) as (s0' & c0 & E0' & G0 & M0).
  rewrite E0' in E0. injection E0 as -> ->. destruct (merge_good visit V s0 src false D G0) as (s' & r' & E' & G' & b & (Mo & Mi & _) & _).
  rewrite E' in E. injection E as -> ->. fold (texts src) in *. rewrite T in *. rewrite initial_standard, pmap_app.
  destruct (pmap_ns defaults p) as [n|] eqn:Ed.
  - pose proof (pmap_in _ _ _ Ed) as Hin. specialize (Mi p n Hin). rewrite M0, init_pmap in Mi. destruct (pmap_ns standard p) as [m|] eqn:Es; [exact Mi|].
    destruct Mi as (n' & [Hp|(_ & ->)] & Hf); [|exact Hf]. exfalso. exact (pmap_none _ _ _ Es Hp).
  - rewrite Mo by (intros n; now apply pmap_none). rewrite M0, init_pmap. destruct (pmap_ns standard p); reflexivity.
Qed.

(** * The round trip *)

Lemma stands_prefixes ps ds : Forall2 stands_for ps ds ->
  p_prefixes ps = flat_map (fun d => match d with DPrefix p n => [(p, n)] | _ => [] end) ds.
Proof. induction 1 as [|p d ps ds S0 F IH]; [reflexivity|]. destruct S0; cbn; f_equal; auto. Qed.

Lemma contents_asked ds x k : filter (concerns k) (contents ds (onto_fheader x) (map r_obj (all_ax (x_onto x)))) =
  filter (concerns k) (asked_ontology x (all_ax (x_onto x))).
Proof.
  unfold asked_ontology, asked. rewrite asked_axioms. unfold asked_header, onto_header, header_prefixes. cbn [h_pm h_iri h_version h_imports h_annot].
  unfold contents, onto_fheader. cbn [fh_iri fh_version fh_imports fh_annot]. rewrite !map_app, !map_map. rewrite <- !app_assoc, !filter_app.
  assert (Hp : forall (A : Type) (f : A -> dchange) l, (forall a, concerns k (f a) = false) -> filter (concerns k) (map f l) = []).
  { intros A f l Hf. induction l as [|a l IH]; cbn; auto. rewrite Hf. exact IH. }
  rewrite (Hp _ (fun e : bytes * bytes => (CHANGE_ADD, DPrefix (fst e) (snd e)))) by (intros []; destruct k; reflexivity).
  rewrite (Hp _ _ (fwd (x_pm x))) by (intros []; destruct k; reflexivity).
  cbn [app]. destruct (o_iri (x_onto x)), (o_version (x_onto x)); cbn [option_map opt_list map app]; reflexivity.
Qed.

Lemma contents_prefixes ds h axs : flat_map (fun d => match d with DPrefix p n => [(p, n)] | _ => [] end) (map snd (contents ds h axs)) = ds.
Proof.
  unfold contents. rewrite map_map. cbn [snd]. rewrite map_id, !flat_map_app.
  assert (Hn : forall (A : Type) (f : A -> dpart) l, (forall a, match f a with DPrefix p n => [(p, n)] | _ => [] end = []) ->
    flat_map (fun d => match d with DPrefix p n => [(p, n)] | _ => [] end) (map f l) = []).
  { intros A f l Hf. induction l as [|a l IH]; cbn; auto. rewrite Hf. exact IH. }
  rewrite (Hn _ DIri), (Hn _ DVersion), (Hn _ DImport), (Hn _ DAnnot), (Hn _ DAxiom) by reflexivity. rewrite !app_nil_r. induction ds as [|[p n] ds IH]; cbn; [reflexivity|]. f_equal. exact IH.
Qed.

Lemma functional_round_trip_declared w visit : (forall t, Permutation (visit t) t) ->
  forall defaults handler signed, (forall l, handler l = COWL_OK) ->
  forall heap x l, reached heap w (x_onto x) -> contains (x_onto x) l -> writable w visit defaults x l ->
  exists b log, w_ontology visit x = Some b /\ func_read handler signed w (initial_map defaults) b = FRet COWL_OK log /\
    Forall (fun c => fst c = CHANGE_ADD) log /\ (forall p n, In (CHANGE_ADD, DPrefix p n) log -> In (p, n) (declared (onto_fheader x))) /\
    forall heap' ps dst, Forall2 stands_for ps (map snd log) -> Forall (part_in_heap heap') ps ->
      x_onto dst = o_empty true -> new_map visit defaults (x_pm dst) ->
      exists dst', receives (change_apply visit w CHANGE_ADD) ps dst (Some (dst', COWL_OK)) /\ same_contents dst' x /\
        forall p n, ns_text x p (Some n) -> ns_text dst' p (Some n).
Proof.
  intros V defaults handler signed Hh heap x l Rx C W. pose proof (mf_quiet _ _ _ (wr_map _ _ _ _ _ W)) as Q. pose proof (contains_eq _ _ C) as El. subst l.
  destruct (reached_inv heap w (x_onto x) Rx) as [Iv _].
  assert (Ax : forall a, In a (all_ax (x_onto x)) -> is_axiom_object (r_obj a)) by (intros a Ha; now apply (all_ax_in _ heap a Iv)).
  assert (Iris : forall i, In i (opt_list (fh_iri (onto_fheader x)) ++ opt_list (fh_version (onto_fheader x)) ++ fh_imports (onto_fheader x)) ->
    exists r, i = r_obj r /\ In r (opt_list (o_iri (x_onto x)) ++ opt_list (o_version (x_onto x)) ++ vec_data (o_imports (x_onto x)))).
  { cbn [onto_fheader fh_iri fh_version fh_imports]. intros i. rewrite !in_app_iff. intros [Hi|[Hi|Hi]].
    - destruct (o_iri (x_onto x)) as [r|]; [|destruct Hi]. destruct Hi as [<-|[]]. exists r. split; auto. apply in_or_app. left. now left.
    - destruct (o_version (x_onto x)) as [r|]; [|destruct Hi]. destruct Hi as [<-|[]]. exists r. split; auto. apply in_or_app. right. apply in_or_app. left. now left.
    - apply in_map_iff in Hi as (r & <- & Hi). exists r. rewrite !in_app_iff. auto. }
  assert (D : doc_ok w visit defaults (onto_fheader x) (map r_obj (all_ax (x_onto x)))).
  { constructor.
    - cbn [onto_fheader fh_pm]. intros pm [= <-]. apply (wr_map _ _ _ _ _ W).
    - intros i Hi. destruct (Iris i Hi) as (r & -> & Hr). apply (wr_iris _ _ _ _ _ W r Hr).
    - cbn [onto_fheader fh_iri fh_version]. pose proof (wr_version _ _ _ _ _ W) as Hv.
      destruct (o_version (x_onto x)), (o_iri (x_onto x)); cbn; intros; try congruence. exfalso. apply Hv; congruence.
    - cbn [onto_fheader fh_annot]. intros a Ha. apply in_map_iff in Ha as (r & <- & Hr). apply (wr_annot _ _ _ _ _ W r Hr).
    - intros a Ha. apply in_map_iff in Ha as (r & <- & Hr). split; [exact (Ax r Hr)|apply (wr_axioms _ _ _ _ _ W r Hr)]. }
  destruct (document_round_trip w visit V defaults (onto_fheader x) (map r_obj (all_ax (x_onto x))) handler signed Hh D) as (b & ds & Eb & Pd & Er).
  exists b, (contents ds (onto_fheader x) (map r_obj (all_ax (x_onto x)))). split; [exact Eb|]. split; [exact Er|]. split.
  { unfold contents. apply Forall_forall. intros c Hc. apply in_map_iff in Hc as (p & <- & _). reflexivity. }
  split.
  { intros p n Hi. assert (Hd : In (p, n) ds); [|now apply (Permutation_in _ Pd)].
    rewrite <- (contents_prefixes ds (onto_fheader x) (map r_obj (all_ax (x_onto x)))). apply in_flat_map. exists (DPrefix p n). split; [|now left].
    apply in_map_iff. exists (CHANGE_ADD, DPrefix p n). auto. }
  intros heap' ps dst Sf Hp De Nd. pose proof (new_map_reached _ _ _ Nd) as Md.
  destruct (read_back heap' visit w x (all_ax (x_onto x)) (contents ds (onto_fheader x) (map r_obj (all_ax (x_onto x)))) ps dst V C Ax) as (dst' & Rc & Sc); auto.
  - intros i Hi. destruct (wr_iris _ _ _ _ _ W i Hi) as (ns & rem & E & _). exists ns, rem. exact E.
  - intros a Ha. apply (wr_annot _ _ _ _ _ W a Ha).
  - intros k. apply contents_asked.
  - exists dst'. split; [exact Rc|]. split; [exact Sc|]. intros p n (v & Hv & Hn).
    destruct (quiet_good visit _ V Q) as (Gx & _ & Px). destruct (map_reached_good visit V _ Md) as (Gd & Pn).
    assert (Fx : fm (fwd (x_pm x)) p = Some n).
    { destruct (answers_fm (x_pm x) (good_alive _ Gx) p) as (v' & E1 & E2). rewrite Hv in E1. injection E1 as <-. congruence. }
    destruct (receive_prefixes visit w ps dst dst' Rc Gd Pn) as (G' & U & N0 & T0).
    rewrite (stands_prefixes _ _ Sf), contents_prefixes in U, N0.
    assert (Fd : fm (fwd (x_pm dst')) p = Some n).
    { destruct (is_standard p) eqn:Es.
      - apply T0; auto. rewrite (new_map_fm visit defaults _ p V Nd), initial_standard, pmap_app.
        apply standard_in in Es as (n' & Hs). assert (n = n') as -> by exact (Px p n' n Hs Fx).
        rewrite (pmap_unique standard p n' Hs); [reflexivity|]. intros m Hm. apply (standard_unique p); auto.
      - assert (Hin : In (p, n) (declared (onto_fheader x))).
        { unfold declared. cbn [onto_fheader fh_pm]. apply filter_In. unfold fst. rewrite Es. split; auto.
          apply fm_some in Fx as (k & v' & I & <- & <-); [|apply Gx]. apply in_map_iff. exists (k, v'). auto. }
        destruct (N0 p n) as (n' & Hn' & Hf); [apply (Permutation_in _ (Permutation_sym Pd)); exact Hin|exact Es|].
        rewrite Hf. f_equal. apply (Permutation_in _ Pd) in Hn'. unfold declared in Hn'. cbn [onto_fheader fh_pm] in Hn'.
        apply filter_In in Hn' as [Hn' _]. apply in_map_iff in Hn' as ([k1 v1] & E1 & I1). cbn in E1. injection E1 as <- <-.
        assert (Fn : fm (fwd (x_pm x)) (stx k1) = Some (stx v1)) by (apply fm_some; [apply Gx|eauto]). congruence. }
    destruct (answers_fm (x_pm dst') (good_alive _ G') p) as (v' & E1 & E2). exists v'. split; auto. rewrite E2. exact Fd.
Qed.

Theorem functional_round_trip w visit : (forall t, Permutation (visit t) t) ->
  forall defaults handler signed, (forall l, handler l = COWL_OK) ->
  forall heap x l, reached heap w (x_onto x) -> contains (x_onto x) l -> writable w visit defaults x l ->
  exists b log, w_ontology visit x = Some b /\ func_read handler signed w (initial_map defaults) b = FRet COWL_OK log /\
    Forall (fun c => fst c = CHANGE_ADD) log /\
    forall heap' ps dst, Forall2 stands_for ps (map snd log) -> Forall (part_in_heap heap') ps ->
      x_onto dst = o_empty true -> new_map visit defaults (x_pm dst) ->
      exists dst', receives (change_apply visit w CHANGE_ADD) ps dst (Some (dst', COWL_OK)) /\ same_contents dst' x /\
        forall p n, ns_text x p (Some n) -> ns_text dst' p (Some n).
Proof.
  intros V defaults handler signed Hh heap x l Rx C W.
  destruct (functional_round_trip_declared w visit V defaults handler signed Hh heap x l Rx C W) as (b & log & E1 & E2 & E3 & _ & E4). exists b, log. auto.
Qed.
