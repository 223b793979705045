(** Whole ontologies in ProtocOWL. *)

From Coq Require Import String NArith ZArith List Bool Lia Permutation.
From Coq Require Import ZifyBool ZifyNat ZifyN.
From Verif Require Import Bytes ModelTypes ModelObject ModelText SpecObject SpecText ProofObject ProofIter ProofText
  ModelPrefixMap SpecPrefixMap ProofPrefixMap ProofPrefixSafe ModelOntology SpecOntology ProofOntology ProofOntologyQuery ProofOntologyHistory ProofOntologyTop
  ModelChange SpecChange ProofChange
  ModelPrtValue ModelPrtEncoder ModelPrtDecoder ModelPrtWriter SpecPrt SpecPrtStream SpecPrtStore
  ProofPrtValue ProofPrtRead ProofPrtAxiom ProofPrtIndex ProofPrtFrames ProofPrtFlush ProofPrtStream ProofPrtTop.
Import ListNotations.
Local Open Scope N_scope.
Ltac Zify.zify_post_hook ::= Z.div_mod_to_equations.

(** * What is in an ontology *)

Lemma added_objs_in es o : In o (added_objs es) <-> ever_added es o.
Proof.
  unfold added_objs, ever_added. rewrite in_flat_map. split; intros (e & I & H); exists e; (split; [exact I|]); destruct e; cbn in *; intuition.
Qed.

Section Contents.
  Variables (heap : N -> obj) (w : N) (es : list edit) (o : onto) (rs : list nat) (log : list ev).
  Hypothesis Hh : history heap es.
  Hypothesis Hr : o_run w (o_empty true) es = Some (o, rs, log).

  Lemma o_inv : Inv heap o /\ o_indexing o = true.
  Proof. apply (reached_inv heap w). exists es, rs, log. auto. Qed.
  Lemma axiom_keys a p : In a (all_ax o) -> mentions p (r_obj a) -> In p (keys (o_refs o)).
  Proof.
    intros Ha M. pose proof (proj1 (mentions_occ _ _) M) as ((k & K) & Io). destruct o_inv as [Iv Ix].
    pose proof (inv_index _ _ Iv p k K) as P. rewrite Ix in P.
    assert (Ie : In a (expand p (all_ax o))).
    { apply expand_in. split; auto. apply (cnt_mentions p k); auto. }
    apply (Permutation_in _ (Permutation_sym P)) in Ie. apply (map_get_in _ p k K). unfold pindex in Ie. intros E. rewrite E in Ie. destruct Ie.
  Qed.
  Lemma annot_keys a p : In a (vec_data (o_annot o)) -> mentions p (r_obj a) -> In p (keys (o_refs o)).
  Proof.
    intros Ha M. pose proof (proj1 (mentions_occ _ _) M) as ((k & K) & Io). apply (run_keys heap w es o rs log Hh Hr p k K).
    exists (r_obj a). split; auto. destruct (lists_history heap w es o rs log Hh Hr) as (la & li & Ea & _ & Da & _).
    rewrite <- (delivers_unique _ _ _ Da (deliver_annot o)) in Ha.
    assert (G : forall es' l m, list_edits on_annots l es' m -> In a m -> In a l \/ In (EAddAnnot a) es').
    { clear. induction es' as [|e es' IH]; intros l m H I; inversion H; subst; auto.
      destruct (IH _ _ H5 I) as [J|J]; [|right; now right].
      destruct (list_edit_in _ _ _ _ H3 J) as [J'|J']; auto. right. left. destruct e; try discriminate. cbn in J'. congruence. }
    destruct (G _ _ _ Ea Ha) as [[]|G1]. exists (EAddAnnot a). split; auto.
  Qed.
End Contents.

(** * Writing *)

Lemma deliver_map {S A B} (f : A -> B) (call : S -> B -> S * ret) l : forall s,
  deliver (fun s a => call s (f a)) l s = deliver call (map f l) s.
Proof. induction l as [|a l IH]; intros s; cbn [map deliver]; auto. destruct (call s (f a)) as [s' r]. destruct (should_stop r); auto. Qed.

Section Store.
  Variable w : N.
  Hypothesis W : width w.
  Variable visit : tbl -> tbl.
  Hypothesis visit_perm : forall t, Permutation (visit t) t.
  Variable visit_refs : list (obj * option (list ref)) -> list (obj * option (list ref)).
  Hypothesis refs_perm : forall l, Permutation (visit_refs l) l.
  Variable alive : obj -> bool.
  Variable anon_id : nat -> bytes.
  Variable handler : list dchange -> ret.
  Hypothesis handler_ok : forall l, (0 <= handler l)%Z.

  Section Tables.
    Variable ids_all : list obj.
    Variable nss_all : list bytes.
    Variable req : list (bytes * bytes).
    Hypothesis ids_room : N.of_nat (List.length ids_all) + 17 < 2 ^ w.
    Hypothesis nss_room : N.of_nat (List.length nss_all) < 2 ^ w.
    Hypothesis nss_std : incl standard_namespaces nss_all.
    Hypothesis req_ns : forall p ns, In (p, ns) req -> In ns nss_all.
    Hypothesis req_fits : forall p ns, In (p, ns) req -> fits w p /\ fits w ns.
    Notation index_inv := (index_inv w ids_all nss_all req).
    Notation primok := (fun p => isprim p /\ idok w ids_all (ident p) /\ (forall ns rem, ident p = OIri ns rem -> nsok w nss_all ns)).

    Lemma add_prefixes_ok t : forall e V1, index_inv (e_index e) std_list V1 [] [] [] [] -> e_state e = COWL_OK ->
      (forall p ns, In (p, ns) t -> In (stx p, stx ns) req) ->
      exists x V1', add_prefixes t e = Some (COWL_OK, e_to e x []) /\ index_inv x std_list V1' [] [] [] [] /\ incl V1 V1' /\
        (forall p ns, In (p, ns) t -> In (stx ns) (std_list ++ V1')).
    Proof.
      induction t as [|[p ns] t IH]; intros e V1 X St Rq.
      - exists (e_index e), V1. rewrite e_to_self. split; [reflexivity|]. split; auto. split; [apply incl_refl|intros ? ? []].
      - destruct (x_add_prefix_inv w ids_all nss_all req _ _ _ _ _ _ (stx p) (stx ns) X) as (V1a & Xa & Ia & Inca & _).
        { split; [apply (req_ns (stx p)); apply Rq; now left|apply (req_fits (stx p)); apply Rq; now left]. }
        { apply Rq. now left. }
        destruct (IH (e_to e (x_add_prefix (e_index e) (stx ns) (Some (stx p))) []) V1a Xa St) as (x & V1' & R & X' & Inc & K).
        { intros q n H. apply Rq. now right. }
        exists x, V1'. split; [|split; [exact X'|split; [eauto using incl_tran|]]].
        + cbn [ModelPrtWriter.add_prefixes]. erewrite ecall_ok; [|unfold encoder_add_prefix, eseq, ebind, upd, estate; cbn; reflexivity].
          match goal with |- _ ?e0 = _ => replace e0 with (e_to e (x_add_prefix (e_index e) (stx ns) (Some (stx p))) []) end.
          * rewrite R, e_to_to. reflexivity.
          * unfold e_to, with_state, with_index. cbn. now rewrite St, app_nil_r.
        + intros q n [E|H]; [|now apply (K q)]. inversion E; subst. apply in_app_or in Ia as [H|H]; apply in_or_app; auto.
    Qed.

    Lemma add_opt_ok i e E1 V1 V2 E2 U1 U2 : index_inv (e_index e) E1 V1 V2 E2 U1 U2 -> e_state e = COWL_OK ->
      (forall r, i = Some r -> primok (r_obj r)) ->
      exists x V2' U1' U2', add_opt i e = Some (COWL_OK, e_to e x []) /\ index_inv x E1 V1 V2' E2 U1' U2' /\
        incl (E2 ++ U1 ++ U2) (E2 ++ U1' ++ U2') /\ (forall r, i = Some r -> In (ident (r_obj r)) (E2 ++ U1' ++ U2')).
    Proof.
      intros X St P. destruct i as [r|].
      - destruct (deliver_prims w ids_all nss_all req [r_obj r] e E1 V1 V2 E2 U1 U2 X St) as (x & V2' & U1' & U2' & D & X' & Inc & K).
        { constructor; auto. }
        exists x, V2', U1', U2'. split; [|split; auto; split; auto; intros r' E; inversion E; subst; apply K; now left].
        cbn [deliver for_each_primitive] in D. unfold add_opt, encoder_add_primitive, eseq, ebind, upd, estate. cbn [e_state with_state].
        change (should_stop COWL_OK) with false in D. cbv iota in D. apply (f_equal fst) in D. cbn [fst] in D. now rewrite D.
      - exists (e_index e), V2, U1, U2. rewrite e_to_self. split; [reflexivity|]. split; auto. split; [apply incl_refl|discriminate].
    Qed.

    Lemma populate_ok heap x e : Inv heap (x_onto x) -> (forall p, In p (keys (o_refs (x_onto x))) -> alive p = true) ->
      e_index e = x_init -> e_state e = COWL_OK ->
      (forall p ns, In (p, ns) (fwd (x_pm x)) -> In (stx p, stx ns) req) ->
      (forall r, In r (opt_list (o_iri (x_onto x)) ++ opt_list (o_version (x_onto x)) ++ vec_data (o_imports (x_onto x))) -> primok (r_obj r)) ->
      (forall p, In p (keys (o_refs (x_onto x))) -> primok p) ->
      exists ix V1 V2 U1 U2, populate_index visit visit_refs alive x e = Some (COWL_OK, e_to e ix []) /\
        index_inv ix std_list V1 V2 [] U1 U2 /\
        (forall p ns, In (p, ns) (fwd (x_pm x)) -> In (stx ns) (std_list ++ V1)) /\
        (forall r, In r (opt_list (o_iri (x_onto x)) ++ opt_list (o_version (x_onto x)) ++ vec_data (o_imports (x_onto x))) -> In (ident (r_obj r)) (U1 ++ U2)) /\
        (forall p, In p (keys (o_refs (x_onto x))) -> In (ident p) (U1 ++ U2)).
    Proof.
      intros Iv Al Ei St Rq Pi Pk.
      destruct (add_prefixes_ok (visit (fwd (x_pm x))) e []) as (x1 & V1 & R1 & X1 & _ & K1).
      { rewrite Ei. apply std_init; try assumption. exact []. }
      { exact St. }
      { intros p ns H. apply Rq. eapply Permutation_in; [apply visit_perm|exact H]. }
      destruct (add_opt_ok (o_iri (x_onto x)) (e_to e x1 []) _ _ _ _ _ _ X1 St) as (x2 & V2a & U1a & U2a & R2 & X2 & I2 & K2).
      { intros r E. apply Pi. rewrite E. now left. }
      destruct (add_opt_ok (o_version (x_onto x)) (e_to e x2 []) _ _ _ _ _ _ X2 St) as (x3 & V2b & U1b & U2b & R3 & X3 & I3 & K3).
      { intros r E. apply Pi. rewrite E. apply in_or_app. right. now left. }
      destruct (key_list_spec heap (x_onto x) visit_refs PF_ALL Iv refs_perm) as (_ & Kl).
      destruct (deliver_prims w ids_all nss_all req (key_list visit_refs (x_onto x) PF_ALL) (e_to e x3 []) _ _ _ _ _ _ X3 St) as (x4 & V2c & U1c & U2c & R4 & X4 & I4 & K4).
      { apply Forall_forall. intros p H. apply Pk. now apply Kl. }
      destruct (deliver_prims w ids_all nss_all req (map r_obj (vec_data (o_imports (x_onto x)))) (e_to e x4 []) _ _ _ _ _ _ X4 St) as (x5 & V2d & U1d & U2d & R5 & X5 & I5 & K5).
      { apply Forall_forall. intros p H. apply in_map_iff in H as (r & <- & H). apply Pi. rewrite !in_app_iff. auto. }
      exists x5, V1, V2d, U1d, U2d. cbn [app] in *. split; [|split; [exact X5|split; [|split]]].
      - unfold populate_index. erewrite ecall_ok; [|exact R1]. erewrite ecall_ok; [|exact R2]. rewrite !e_to_to. cbn [app].
        erewrite ecall_ok; [|exact R3]. rewrite !e_to_to. cbn [app].
        erewrite ecall_ok; [|cbv beta; rewrite (iterate_keys heap _ _ _ _ _ _ _ Iv refs_perm Al); rewrite R4; reflexivity].
        rewrite !e_to_to. cbn [app]. cbv beta.
        unfold iterate_imports. rewrite ref_loop.
        rewrite (deliver_map r_obj for_each_primitive). cbn [fst]. rewrite R5, !e_to_to. reflexivity.
      - intros p ns H. apply (K1 p). eapply Permutation_in; [apply Permutation_sym, visit_perm|exact H].
      - intros r H. rewrite !in_app_iff in H. destruct H as [H|[H|H]].
        + apply I5, I4, I3, K2. destruct (o_iri (x_onto x)); [|destruct H]. destruct H as [->|[]]. reflexivity.
        + apply I5, I4, K3. destruct (o_version (x_onto x)); [|destruct H]. destruct H as [->|[]]. reflexivity.
        + apply K5. now apply in_map.
      - intros p H. apply I5, K4. apply Kl. split; auto. destruct (inv_kinds _ _ Iv p H) as [k K]. now apply (enabled_all p k).
    Qed.
  End Tables.

  (** What is asked for. *)
  Lemma asked_axioms t l : asked_body t (map WAxiom l) = map (fun a => (t, DAxiom (r_obj a))) l.
  Proof. induction l as [|a l IH]; cbn; [reflexivity|]. now f_equal. Qed.
  Lemma passed_axioms l : passed_body (map WAxiom l) = map r_obj l.
  Proof. unfold passed_body. induction l as [|a l IH]; cbn; [reflexivity|]. now f_equal. Qed.
  Lemma asked_pend x l : contains (x_onto x) l -> asked_ontology x l =
    map (pair CHANGE_ADD) (map (fun e => DPrefix (fst e) (snd e)) (header_prefixes (onto_header x)) ++ pend (x_onto x)).
  Proof.
    intros C. apply contains_eq in C. subst l. unfold asked_ontology, asked, asked_header, onto_header. cbn [h_pm h_iri h_version h_imports h_annot].
    rewrite asked_axioms. Transparent pend. unfold pend. Opaque pend. change (axioms_in_order (x_onto x)) with (all_ax (x_onto x)).
    rewrite !map_app, <- !app_assoc, !map_map. reflexivity.
  Qed.
  Lemma same_pend pre x l ps : contains (x_onto x) l -> pre = map (fun e : bytes * bytes => DPrefix (fst e) (snd e)) ps ->
    same_changes (map (pair CHANGE_ADD) (pre ++ pend (x_onto x))) (asked_ontology x l).
  Proof.
    intros C -> k. rewrite (asked_pend x l C), !map_app, !filter_app. f_equal. rewrite !map_map, !ProofPrtStream.filter_none; auto;
      intros y Hy; apply in_map_iff in Hy as (r & <- & _); now destruct k.
  Qed.

  Lemma store_round_trip heap es x rs log l e : history heap es -> o_run w (o_empty true) es = Some (x_onto x, rs, log) ->
    contains (x_onto x) l -> storing w es x l -> (forall o p, ever_added es o -> mentions p o -> alive p = true) ->
    e_anon e = true ->
    exists e' b s, write_ontology_store visit visit_refs alive w x e = Some (COWL_OK, e') /\ e_out e' = e_out e ++ b /\
      read_ontology w anon_id handler b = DRet tt s /\ (0 <= d_code s)%Z /\
      same_changes (d_log s) (asked_ontology x l) /\ same_prefixes (d_log s) (asked_ontology x l) /\
      Forall (fun c => fst c = CHANGE_ADD) (d_log s).
  Proof.
    intros Hh Hr C Sg Al An. destruct (o_inv heap w es (x_onto x) rs log Hh Hr) as [Iv Ix].
    destruct (ro_ids _ _ _ _ (sg_room _ _ _ _ Sg)) as (ids & Hi & Li). destruct (ro_ns _ _ _ _ (sg_room _ _ _ _ Sg)) as (nss & Hs & Hp & Hn & Ln).
    set (req := header_prefixes (onto_header x)) in *.
    assert (Ok : forall o p, In o (all_objs es x l) -> mentions p o ->
      isprim p /\ idok w ids (ident p) /\ (forall ns rem, ident p = OIri ns rem -> nsok w nss ns)).
    { intros o p Ho M. pose proof (proj1 (mentions_occ _ _) M) as (Kp & _). split; [exact Kp|]. apply portable_idok; auto.
      - now apply (sg_portable _ _ _ _ Sg o p).
      - now apply (Hi o).
      - intros ns rem E. now apply (Hn o p ns rem). }
    assert (Ky : forall p, In p (keys (o_refs (x_onto x))) -> exists o, ever_added es o /\ mentions p o).
    { intros p H. destruct (inv_kinds _ _ Iv p H) as [k K]. now apply (run_keys heap w es (x_onto x) rs log Hh Hr p k K). }
    assert (Rf := ho_prefix _ _ (sg_header _ _ _ _ Sg)).
    assert (Rq : forall p ns, In (p, ns) (fwd (x_pm x)) -> In (stx p, stx ns) req).
    { intros p ns H. apply in_map_iff. exists (p, ns). auto. }
    set (e1 := mkEnc x_init (Some (o_empty false)) 0 (e_size e) (e_anon e) (e_store e) COWL_OK (e_out e)).
    destruct (populate_ok ids nss req Li Ln Hs Hp Rf heap x e1 Iv) as (ix & V1 & V2 & U1 & U2 & R1 & X1 & K1 & K2 & K3); auto.
    { intros p H. destruct (Ky p H) as (o & Eo & M). now apply (Al o p). }
    { intros r H. destruct (ho_iri _ _ (sg_header _ _ _ _ Sg) r) as (ns & rem & E); [exact H|]. apply (Ok (r_obj r)); [|rewrite E; apply mentions_iri].
      unfold all_objs, passed_header. apply in_or_app. left. apply in_map. cbn [onto_header h_iri h_version h_imports h_annot].
      rewrite !in_app_iff in *. tauto. }
    { intros p H. destruct (Ky p H) as (o & Eo & M). apply (Ok o p); auto. unfold all_objs. rewrite !in_app_iff. right. right. now apply added_objs_in. }
    set (e2 := mkEnc ix (Some (o_empty false)) 0 (e_size e) (e_anon e) (e_store e) COWL_OK (e_out e ++ [1])).
    assert (La := ro_changes _ _ _ _ (sg_room _ _ _ _ Sg)). rewrite (asked_pend x l C), map_length, app_length in La.
    assert (Lp : (List.length (vec_data (o_imports (x_onto x))) <= List.length (pend (x_onto x)))%nat /\ (List.length (vec_data (o_annot (x_onto x))) <= List.length (pend (x_onto x)))%nat).
    { Transparent pend. unfold pend. Opaque pend. rewrite !app_length, !map_length. lia. }
    destruct (encode_data_ok w W anon_id handler handler_ok ids nss req Li Ln Rf e2 V1 V2 U1 U2 v_start (x_onto x)) as (b & ix' & ps & R2 & X2 & Es & Pr & Ea); auto.
    { constructor.
      - apply (ho_version _ _ (sg_header _ _ _ _ Sg)).
      - apply Forall_forall. intros d Hd. apply in_pend in Hd.
        assert (Hir : forall r, In r (opt_list (o_iri (x_onto x)) ++ opt_list (o_version (x_onto x)) ++ vec_data (o_imports (x_onto x))) -> an_iri (r_obj r)).
        { intros r H. now apply (ho_iri _ _ (sg_header _ _ _ _ Sg) r). }
        destruct Hd as [(i & E & ->)|[(i & E & ->)|[(i & E & ->)|[(a & E & ->)|(t & a & Lt & E & ->)]]]]; cbn [part_ok].
        + apply Hir. rewrite E. now left.
        + apply Hir. rewrite E. apply in_or_app. right. now left.
        + apply Hir. rewrite !in_app_iff. auto.
        + now apply (ho_annot _ _ (sg_header _ _ _ _ Sg) a).
        + destruct (inv_types _ _ Iv t a E) as (_ & Ax & _). split; auto. apply (sg_axioms _ _ _ _ Sg). rewrite (contains_eq _ _ C).
          now apply (in_all_ax _ t).
      - intros d p Hd M. cbn [v_start v_ids app]. apply in_pend in Hd.
        assert (Hir : forall r, In r (opt_list (o_iri (x_onto x)) ++ opt_list (o_version (x_onto x)) ++ vec_data (o_imports (x_onto x))) -> mentions p (r_obj r) -> In (ident p) (U1 ++ U2)).
        { intros r H Mr. destruct (ho_iri _ _ (sg_header _ _ _ _ Sg) r H) as (ns & rem & E). rewrite E in Mr.
          apply mentions_occ in Mr as (_ & [Ep|[]]). subst p. rewrite <- E. now apply K2. }
        destruct Hd as [(i & E & ->)|[(i & E & ->)|[(i & E & ->)|[(a & E & ->)|(t & a & Lt & E & ->)]]]]; cbn [part_obj] in M.
        + apply (Hir i); auto. rewrite E. now left.
        + apply (Hir i); auto. rewrite E. apply in_or_app. right. now left.
        + apply (Hir i); auto. rewrite !in_app_iff. auto.
        + apply K3. now apply (annot_keys heap w es (x_onto x) rs log Hh Hr a p).
        + apply K3. apply (axiom_keys heap w es (x_onto x) rs log Hh Hr a p); auto. now apply (in_all_ax _ t). }
    { lia. }
    { lia. }
    cbn [v_start v_log v_rm mode app] in Ea.
    destruct (eats_read w anon_id handler b _ [] Ea) as (s & Rd & Ok' & _ & _ & _ & Lg); [now left|].
    exists (mkEnc x_init (Some (o_empty false)) 0 (e_size e) (e_anon e) (e_store e) COWL_OK ((e_out e ++ [1]) ++ b)), (1 :: b), s.
    split; [|split; [|split; [|split; [|split; [|split]]]]].
    - unfold write_ontology_store. unfold eseq at 1. unfold ebind at 1.
      erewrite ecall_ok; [|reflexivity]. erewrite ecall_ok; [|exact R1]. cbn [fst].
      erewrite ecall_ok; [|reflexivity]. 
      match goal with |- match encode_data w (x_onto x) ?e0 with _ => _ end = _ => set (e3 := e0) end.
      assert (Ee : e3 = e2) by (unfold e3, e2, e_to, e1; cbn; now rewrite app_nil_r).
      rewrite Ee, R2. reflexivity.
    - cbn [e_out]. now rewrite <- app_assoc.
    - rewrite app_nil_r in Rd. exact Rd.
    - unfold d_ok in Ok'. lia.
    - rewrite Lg. cbn [v_log]. now apply (same_pend _ x l ps).
    - rewrite Lg. cbn [v_log]. split.
      + intros t p ns H. rewrite (asked_pend x l C). apply in_map_iff in H as (d & Ed & Hd). inversion Ed; subst. apply in_map. apply in_app_or in Hd as [Hd|Hd]; apply in_or_app; auto.
        left. apply in_map_iff in Hd as ([p' n'] & E & Hq). cbn in E. inversion E; subst. apply in_map_iff. exists (p, ns). split; auto.
      + intros t p ns H. rewrite (asked_pend x l C) in H. apply in_map_iff in H as (d & Ed & Hd). inversion Ed; subst. apply in_app_or in Hd as [Hd|Hd].
        * apply in_map_iff in Hd as ([p' n'] & E & Hq). cbn in E. inversion E; subst. apply in_map_iff in Hq as ([p1 n1] & E1 & Hq). inversion E1; subst.
          apply K1, in_app_or in Hq as [Hq|Hq]; [left; now apply std_same|right]. apply in_map_iff in Hq as ([p2 n2] & E2 & Hq). cbn in E2. subst n2.
          exists p2. apply in_map. apply in_or_app. left. apply in_map_iff. exists (p2, stx n1). auto.
        * apply in_pend in Hd. exfalso. destruct Hd as [(i & _ & E)|[(i & _ & E)|[(i & _ & E)|[(i & _ & E)|(? & i & _ & _ & E)]]]]; discriminate E.
    - rewrite Lg. cbn [v_log]. apply Forall_forall. intros c H. apply in_map_iff in H as (d & <- & _). reflexivity.
  Qed.

  Lemma storing_session heap es x rs log l : history heap es -> o_run w (o_empty true) es = Some (x_onto x, rs, log) ->
    contains (x_onto x) l -> storing w es x l -> session w (onto_header x) (map WAxiom l).
  Proof.
    intros Hh Hr C Sg. destruct (o_inv heap w es (x_onto x) rs log Hh Hr) as [Iv Ix].
    assert (Sub : forall o, In o (passed_header (onto_header x) ++ passed_body (map WAxiom l)) -> In o (all_objs es x l)).
    { intros o. rewrite passed_axioms. unfold all_objs. rewrite !in_app_iff. tauto. }
    constructor.
    - apply Sg.
    - apply Forall_forall. intros c H. apply in_map_iff in H as (a & <- & Ha). split; [|now apply (sg_axioms _ _ _ _ Sg)].
      rewrite (contains_eq _ _ C) in Ha. now apply (all_ax_in _ heap a Iv).
    - intros o p Ho. apply (sg_portable _ _ _ _ Sg). now apply Sub.
    - destruct (sg_room _ _ _ _ Sg) as [(ids & Hi & Li) (nss & Hs & Hp & Hn & Ln) Lc]. constructor; [exists ids|exists nss|exact Lc].
      + split; auto. intros o p Ho. apply Hi. now apply Sub.
      + split; auto. split; auto. split; auto. intros o p ns rem Ho. apply Hn. now apply Sub.
  Qed.

  Lemma stream_mode x l e rs e' : contains (x_onto x) l ->
    w_run visit visit_refs alive w (WHeader (onto_header x) :: map WAxiom l ++ [WFooter]) e = Some (rs, e') -> Forall (eq COWL_OK) rs ->
    write_ontology_stream visit w x e = Some (COWL_OK, e').
  Proof.
    intros C R F. rewrite (contains_eq _ _ C) in R. clear l C. unfold write_ontology_stream. change (axioms_in_order (x_onto x)) with (all_ax (x_onto x)).
    cbn [w_run w_step] in R. unfold ebind at 1 in R. unfold ecall, ebind at 1. fold (onto_header x).
    destruct (write_header visit w (onto_header x) e) as [[r0 e0]|]; [|discriminate].
    unfold ebind at 1 in R. destruct (w_run visit visit_refs alive w (map WAxiom (all_ax (x_onto x)) ++ [WFooter]) e0) as [[rs1 e1]|] eqn:R1; [|discriminate].
    inversion R; subst. inversion F as [|? ? E0 F1]; subst. change (COWL_OK =? COWL_OK)%Z with true. cbv iota. clear R F.
    revert e0 rs1 R1 F1. generalize (all_ax (x_onto x)) as l. induction l as [|a l IH]; intros e0 rs1 R1 F1.
    - cbn [map app w_run w_step] in R1. unfold ebind in R1. cbn [write_axioms]. unfold ebind, eret. change (COWL_OK <? 0)%Z with false. cbv iota.
      destruct (write_footer w e0) as [[r2 e2]|]; [|discriminate]. inversion R1; subst. inversion F1; subst. reflexivity.
    - cbn [map app w_run w_step] in R1. unfold ebind at 1 in R1. unfold ebind at 1. cbn [write_axioms]. unfold ecall, ebind at 1.
      destruct (write_axiom w a e0) as [[r2 e2]|]; [|discriminate]. unfold ebind at 1 in R1.
      destruct (w_run visit visit_refs alive w (map WAxiom l ++ [WFooter]) e2) as [[rs2 e3]|] eqn:R2; [|discriminate]. inversion R1; subst.
      inversion F1 as [|? ? E1 F2]; subst. change (COWL_OK =? COWL_OK)%Z with true. cbv iota.
      specialize (IH e2 rs2 R2 F2). exact IH.
  Qed.

  Lemma all_added x l log : contains (x_onto x) l -> same_changes log (asked_ontology x l) -> same_prefixes log (asked_ontology x l) ->
    Forall (fun c => fst c = CHANGE_ADD) log.
  Proof.
    intros C S1 S2. assert (Ad : forall c, In c (asked_ontology x l) -> fst c = CHANGE_ADD).
    { rewrite (asked_pend x l C). intros c H. now apply in_map_iff in H as (d & <- & _). }
    apply Forall_forall. intros [t d] H. assert (K : forall k, concerns k (t, d) = true -> fst (t, d) = CHANGE_ADD).
    { intros k Hk. apply Ad. apply (proj1 (filter_In (concerns k) _ _)). rewrite <- (S1 k). apply filter_In. auto. }
    destruct d as [p n|i|i|i|a|a]; [|now apply (K CIri)|now apply (K CVersion)|now apply (K CImports)|now apply (K CAnnots)|apply (K (CAxioms (ax_type a))); apply N.eqb_refl].
    apply Ad. now apply S2.
  Qed.

  Lemma write_round_trip heap es x rs log l e : history heap es -> o_run w (o_empty true) es = Some (x_onto x, rs, log) ->
    contains (x_onto x) l -> storing w es x l -> (forall o p, ever_added es o -> mentions p o -> alive p = true) ->
    e_anon e = true ->
    exists e' b s, w_run visit visit_refs alive w [WOntology x] e = Some ([COWL_OK], e') /\ e_out e' = e_out e ++ b /\
      read_ontology w anon_id handler b = DRet tt s /\ (0 <= d_code s)%Z /\
      same_changes (d_log s) (asked_ontology x l) /\ same_prefixes (d_log s) (asked_ontology x l).
  Proof.
    intros Hh Hr C Sg Al An. destruct (e_store e) eqn:Es.
    - destruct (store_round_trip heap es x rs log l e Hh Hr C Sg Al An) as (e' & b & s & R & Eo & Rd & Ok & S1 & S2 & _).
      exists e', b, s. split; [|auto]. apply (w_run_one w visit visit_refs alive). cbn [w_step]. unfold write_ontology. rewrite Es. exact R.
    - destruct (stream_round_trip w W visit visit_perm visit_refs alive anon_id handler handler_ok (onto_header x) (map WAxiom l) e (storing_session heap es x rs log l Hh Hr C Sg) An)
        as (rs' & e' & b & s & R & F & Eo & Rd & Ok & S1 & S2).
      exists e', b, s. split; [|auto]. apply (w_run_one w visit visit_refs alive). cbn [w_step]. unfold write_ontology. rewrite Es. now apply (stream_mode x l e rs').
  Qed.
End Store.

(** * Reading into an ontology *)

Definition p_axioms (l : list part) : list ref := flat_map (fun p => match p with PAxiom a => [a] | _ => [] end) l.
Definition p_annots (l : list part) : list ref := flat_map (fun p => match p with PAnnot a => [a] | _ => [] end) l.
Definition p_imports (l : list part) : list ref := flat_map (fun p => match p with PImport a => [a] | _ => [] end) l.
Definition p_iris (l : list part) : list ref := flat_map (fun p => match p with PIri a => [a] | _ => [] end) l.
Definition p_versions (l : list part) : list ref := flat_map (fun p => match p with PVersion a => [a] | _ => [] end) l.
Fixpoint last_of (l : list ref) (d : option ref) : option ref := match l with [] => d | x :: l' => last_of l' (Some x) end.

Section Apply.
  Variable heap : N -> obj.
  Variable visit : tbl -> tbl.
  Variable w : N.
  Definition typed_p (p : part) : Prop :=
    match p with
    | PPrefix _ _ => True
    | PAxiom a => is_axiom_object (r_obj a)
    | PAnnot a => wt (SOne SAnnot) (r_obj a) = true
    | PImport a | PIri a | PVersion a => wt (SOne SIri) (r_obj a) = true
    end.

  Lemma apply_all ps : forall x, reached heap w (x_onto x) -> good (x_pm x) -> Forall (fun p => typed_p p /\ part_in_heap heap p) ps ->
    exists x', receives (change_apply visit w CHANGE_ADD) ps x (Some (x', COWL_OK)) /\ reached heap w (x_onto x') /\
      Permutation (all_ax (x_onto x')) (all_ax (x_onto x) ++ p_axioms ps) /\
      vec_data (o_annot (x_onto x')) = vec_data (o_annot (x_onto x)) ++ p_annots ps /\
      vec_data (o_imports (x_onto x')) = vec_data (o_imports (x_onto x)) ++ p_imports ps /\
      o_iri (x_onto x') = last_of (p_iris ps) (o_iri (x_onto x)) /\ o_version (x_onto x') = last_of (p_versions ps) (o_version (x_onto x)).
  Proof.
    induction ps as [|p ps IH]; intros x R G F.
    - exists x. split; [constructor|]. split; auto. cbn. rewrite !app_nil_r. auto.
    - inversion F as [|? ? (T & H) F']; subst.
      assert (O : exists x1, change_apply visit w CHANGE_ADD p x = Some (x1, COWL_OK) /\ reached heap w (x_onto x1) /\ good (x_pm x1) /\
        Permutation (all_ax (x_onto x1)) (all_ax (x_onto x) ++ p_axioms [p]) /\
        vec_data (o_annot (x_onto x1)) = vec_data (o_annot (x_onto x)) ++ p_annots [p] /\
        vec_data (o_imports (x_onto x1)) = vec_data (o_imports (x_onto x)) ++ p_imports [p] /\
        o_iri (x_onto x1) = last_of (p_iris [p]) (o_iri (x_onto x)) /\ o_version (x_onto x1) = last_of (p_versions [p]) (o_version (x_onto x))).
      { destruct p as [k v|i|i|i|a|a].
        - cbn [change_apply add_to_ontology]. unfold add_prefix. destruct (add_good (x_pm x) k v true G) as (s1 & c & E & G1 & b & (Ho & Hm) & ->).
          assert (b = true) as -> by (destruct (fm (fwd (x_pm x)) (stx k)); tauto).
          rewrite E. eexists. split; [reflexivity|]. cbn. rewrite !app_nil_r. auto 10.
        - destruct (add_one heap visit w x (PIri i) R (conj T H)) as (x1 & E & R1 & P1 & B). exists x1. split; auto. split; auto. split; [now rewrite P1|exact B].
        - destruct (add_one heap visit w x (PVersion i) R (conj T H)) as (x1 & E & R1 & P1 & B). exists x1. split; auto. split; auto. split; [now rewrite P1|exact B].
        - destruct (add_one heap visit w x (PImport i) R (conj T H)) as (x1 & E & R1 & P1 & B). exists x1. split; auto. split; auto. split; [now rewrite P1|exact B].
        - destruct (add_one heap visit w x (PAnnot a) R (conj T H)) as (x1 & E & R1 & P1 & B). exists x1. split; auto. split; auto. split; [now rewrite P1|exact B].
        - destruct (add_one heap visit w x (PAxiom a) R (conj T H)) as (x1 & E & R1 & P1 & B). exists x1. split; auto. split; auto. split; [now rewrite P1|exact B]. }
      destruct O as (x1 & E & R1 & G1 & Ax & An & Im & Ir & Ve).
      destruct (IH x1 R1 G1 F') as (x' & Rc & R' & Ax' & An' & Im' & Ir' & Ve'). exists x'. split; [eapply rcv_next; eauto|]. split; auto.
      assert (Ap : forall (f : part -> list ref), flat_map f (p :: ps) = flat_map f [p] ++ flat_map f ps) by (intros f; cbn; now rewrite app_nil_r).
      split; [|split; [|split; [|split]]].
      + unfold p_axioms. rewrite Ap, app_assoc. rewrite Ax'. apply Permutation_app_tail. exact Ax.
      + unfold p_annots. rewrite Ap, app_assoc, An'. f_equal. exact An.
      + unfold p_imports. rewrite Ap, app_assoc, Im'. f_equal. exact Im.
      + rewrite Ir', Ir. destruct p; reflexivity.
      + rewrite Ve', Ve. destruct p; reflexivity.
  Qed.
End Apply.

(** Lists of axioms that agree for each type. *)
Lemma same_types_perm (l m : list obj) : (forall t, filter (fun a => ax_type a =? t) l = filter (fun a => ax_type a =? t) m) -> Permutation l m.
Proof.
  revert m. induction l as [|a l IH]; intros m H.
  - destruct m as [|b m]; [constructor|]. specialize (H (ax_type b)). cbn in H. rewrite N.eqb_refl in H. discriminate.
  - assert (S0 : exists m1 m2, m = m1 ++ a :: m2 /\ filter (fun b => ax_type b =? ax_type a) m1 = []).
    { pose proof (H (ax_type a)) as E. cbn [filter] in E. rewrite N.eqb_refl in E. clear H. revert E. generalize (filter (fun b => ax_type b =? ax_type a) l) as r.
      induction m as [|b m IHm]; intros r E; [discriminate|]. cbn [filter] in E. destruct (ax_type b =? ax_type a) eqn:Eb.
      - inversion E; subst. exists [], m. auto.
      - destruct (IHm r E) as (m1 & m2 & -> & F). exists (b :: m1), m2. split; auto. cbn. now rewrite Eb. }
    destruct S0 as (m1 & m2 & -> & F). apply Permutation_cons_app. apply IH. intros t. specialize (H t). rewrite filter_app in *. cbn [filter] in H.
    destruct (ax_type a =? t) eqn:Et; [|exact H]. apply N.eqb_eq in Et. subst t. rewrite F in *. cbn [app] in *. now inversion H.
Qed.

Lemma stands_map (ps : list part) (ds : list dpart) : Forall2 stands_for ps ds ->
  map (fun a => DAxiom (r_obj a)) (p_axioms ps) = filter (fun d => match d with DAxiom _ => true | _ => false end) ds /\
  map (fun a => DAnnot (r_obj a)) (p_annots ps) = filter (fun d => match d with DAnnot _ => true | _ => false end) ds /\
  map (fun a => DImport (r_obj a)) (p_imports ps) = filter (fun d => match d with DImport _ => true | _ => false end) ds /\
  map (fun a => DIri (r_obj a)) (p_iris ps) = filter (fun d => match d with DIri _ => true | _ => false end) ds /\
  map (fun a => DVersion (r_obj a)) (p_versions ps) = filter (fun d => match d with DVersion _ => true | _ => false end) ds.
Proof.
  induction 1 as [|p d ps ds S0 F IH]; [repeat split|]. destruct IH as (I1 & I2 & I3 & I4 & I5).
  destruct S0; cbn; repeat split; auto; f_equal; auto.
Qed.

Lemma filter_snd (f : dpart -> bool) (log : list dchange) : filter f (map snd log) = map snd (filter (fun c => f (snd c)) log).
Proof. induction log as [|c log IH]; cbn; auto. destruct (f (snd c)); cbn; now rewrite IH. Qed.
Lemma filter_filter {A} (f g : A -> bool) l : filter f (filter g l) = filter (fun a => f a && g a) l.
Proof. induction l as [|a l IH]; cbn; auto. destruct (g a); cbn; rewrite ?IH; [now rewrite andb_true_r|now rewrite andb_false_r]. Qed.


(** The parts of an ontology. *)
Definition parts_now (x : full) (l : list ref) : list part :=
  map (fun e => PPrefix (fst e) (snd e)) (fwd (x_pm x)) ++ map PIri (opt_list (o_iri (x_onto x))) ++ map PVersion (opt_list (o_version (x_onto x))) ++
  map PImport (vec_data (o_imports (x_onto x))) ++ map PAnnot (vec_data (o_annot (x_onto x))) ++ map PAxiom l.
Lemma stands_one {A} (f : A -> part) (g : A -> dpart) l : (forall a, stands_for (f a) (g a)) -> Forall2 stands_for (map f l) (map g l).
Proof. intros H. induction l; cbn; constructor; auto. Qed.
Lemma parts_now_stand x l : contains (x_onto x) l -> Forall2 stands_for (parts_now x l) (map snd (asked_ontology x l)).
Proof.
  intros C. unfold asked_ontology, asked. rewrite asked_axioms. unfold asked_header, onto_header, header_prefixes. cbn [h_pm h_iri h_version h_imports h_annot].
  rewrite !map_app, !map_map. unfold parts_now. rewrite <- !app_assoc. cbn [snd fst].
  repeat apply Forall2_app; apply stands_one; intros a; constructor.
Qed.
Lemma flat_map_none {A B} (f : A -> part) (g : part -> list B) l : (forall a, g (f a) = []) -> flat_map g (map f l) = [].
Proof. intros H. induction l; cbn; auto. now rewrite H. Qed.
Lemma flat_map_id {A} (f : A -> part) (g : part -> list A) l : (forall a, g (f a) = [a]) -> flat_map g (map f l) = l.
Proof. intros H. induction l; cbn; auto. rewrite H. cbn. congruence. Qed.
Lemma parts_now_lists x l : p_axioms (parts_now x l) = l /\ p_annots (parts_now x l) = vec_data (o_annot (x_onto x)) /\
  p_imports (parts_now x l) = vec_data (o_imports (x_onto x)) /\ p_iris (parts_now x l) = opt_list (o_iri (x_onto x)) /\
  p_versions (parts_now x l) = opt_list (o_version (x_onto x)).
Proof.
  unfold parts_now, p_axioms, p_annots, p_imports, p_iris, p_versions. rewrite !flat_map_app.
  repeat split; repeat (rewrite flat_map_none by reflexivity); rewrite flat_map_id by reflexivity; repeat (rewrite flat_map_none by reflexivity);
    cbn [app]; rewrite ?app_nil_r; reflexivity.
Qed.
Lemma map_inj {A B} (f : A -> B) l m : (forall a b, f a = f b -> a = b) -> map f l = map f m -> l = m.
Proof. intros H. revert m. induction l as [|a l IH]; intros [|b m] E; try discriminate; auto. inversion E. f_equal; auto. Qed.
Lemma last_opt l i : map r_obj l = map r_obj (opt_list i) -> option_map r_obj (last_of l None) = option_map r_obj i.
Proof.
  destruct i as [i|]; cbn; intros H.
  - destruct l as [|a [|b l]]; inversion H. cbn. congruence.
  - destruct l; [reflexivity|discriminate].
Qed.

Lemma read_back heap' visit w x l log ps dst : (forall t, Permutation (visit t) t) -> contains (x_onto x) l ->
  (forall a, In a l -> is_axiom_object (r_obj a)) ->
  (forall r, In r (opt_list (o_iri (x_onto x)) ++ opt_list (o_version (x_onto x)) ++ vec_data (o_imports (x_onto x))) -> an_iri (r_obj r)) ->
  (forall a, In a (vec_data (o_annot (x_onto x))) -> wt (SOne SAnnot) (r_obj a) = true) ->
  same_changes log (asked_ontology x l) -> Forall2 stands_for ps (map snd log) -> Forall (part_in_heap heap') ps ->
  x_onto dst = o_empty true -> map_reached visit (x_pm dst) ->
  exists dst', receives (change_apply visit w CHANGE_ADD) ps dst (Some (dst', COWL_OK)) /\ same_contents dst' x.
Proof.
  intros V C Ax Hir Han Sc Sf Hp De Dp.
  assert (Key : forall k f, (forall c, concerns k c = f (snd c)) ->
    filter f (map snd log) = filter f (map snd (asked_ontology x l))).
  { intros k f E. rewrite !filter_snd. f_equal. rewrite <- !(filter_ext _ _ E). apply Sc. }
  assert (In0 : forall c, In c log -> match snd c with DPrefix _ _ => True | _ => In c (asked_ontology x l) end).
  { intros [t d] H. assert (K : forall k, concerns k (t, d) = true -> In (t, d) (asked_ontology x l)).
    { intros k Hk. apply (proj1 (filter_In (concerns k) _ _)). rewrite <- (Sc k). apply filter_In. auto. }
    destruct d as [p n|i|i|i|a|a]; cbn [snd]; [exact Logic.I|now apply (K CIri)|now apply (K CVersion)|now apply (K CImports)|now apply (K CAnnots)|apply (K (CAxioms (ax_type a))); apply N.eqb_refl]. }
  assert (Ty : forall d, In d (map snd (asked_ontology x l)) -> typed_part d).
  { rewrite (asked_pend x l C), map_map. cbn [snd]. rewrite map_id. intros d Hd. apply in_app_or in Hd as [Hd|Hd].
    - apply in_map_iff in Hd as (e & <- & _). exact Logic.I.
    - apply in_pend in Hd.
      destruct Hd as [(i & E & ->)|[(i & E & ->)|[(i & E & ->)|[(a & E & ->)|(t & a & Lt & E & ->)]]]]; cbn [typed_part].
      + apply Hir. rewrite E. now left.
      + apply Hir. rewrite E. apply in_or_app. right. now left.
      + apply Hir. rewrite !in_app_iff. auto.
      + now apply Han.
      + apply Ax. rewrite (contains_eq _ _ C). now apply (in_all_ax _ t). }
  assert (Typ : Forall (fun p => typed_p p /\ part_in_heap heap' p) ps).
  { assert (Tl : forall d, In d (map snd log) -> typed_part d).
    { intros d Hd. apply in_map_iff in Hd as (c & <- & Hc). pose proof (In0 c Hc) as H. destruct (snd c) eqn:E; try exact Logic.I; rewrite <- E; apply Ty; now apply in_map. }
    clear -Sf Hp Tl. revert Hp Tl. induction Sf as [|p d ps ds S0 F IH]; intros Hp Tl; constructor.
    - inversion Hp; subst. split; auto. pose proof (Tl d (or_introl eq_refl)) as T. destruct S0; cbn in *; auto; destruct T as (ns & rem & ->); reflexivity.
    - inversion Hp; subst. apply IH; auto. intros d' H. apply Tl. now right. }
  assert (Rd : reached heap' w (x_onto dst)) by (rewrite De; exists [], [], []; split; [intros e []|reflexivity]).
  destruct (map_reached_good visit V _ Dp) as (Gd & _).
  destruct (apply_all heap' visit w ps dst Rd Gd Typ) as (dst' & Rc & R' & A1 & A2 & A3 & A4 & A5). exists dst'. split; auto.
  destruct (stands_map _ _ Sf) as (M1 & M2 & M3 & M4 & M5).
  destruct (stands_map _ _ (parts_now_stand x l C)) as (N1 & N2 & N3 & N4 & N5). destruct (parts_now_lists x l) as (L1 & L2 & L3 & L4 & L5).
  rewrite L1 in N1. rewrite L2 in N2. rewrite L3 in N3. rewrite L4 in N4. rewrite L5 in N5. rewrite De in *. cbn [o_empty o_annot o_imports o_iri o_version vec_data] in *.
  constructor.
  - rewrite A4. apply last_opt. apply (map_inj DIri); [congruence|]. rewrite !map_map, M4, N4. now apply (Key CIri).
  - rewrite A5. apply last_opt. apply (map_inj DVersion); [congruence|]. rewrite !map_map, M5, N5. now apply (Key CVersion).
  - intros l' m' D1 D2. rewrite (delivers_unique _ _ _ D1 (deliver_imports _)), (delivers_unique _ _ _ D2 (deliver_imports _)), A3. cbn [app].
    apply (map_inj DImport); [congruence|]. rewrite !map_map, M3, N3. now apply (Key CImports).
  - intros l' m' D1 D2. rewrite (delivers_unique _ _ _ D1 (deliver_annot _)), (delivers_unique _ _ _ D2 (deliver_annot _)), A2. cbn [app].
    apply (map_inj DAnnot); [congruence|]. rewrite !map_map, M2, N2. now apply (Key CAnnots).
  - intros l' m' D1 D2. rewrite (contains_eq _ _ D1). rewrite (contains_eq _ _ C) in N1, Key. rewrite (contains_eq _ _ D2). rewrite A1. cbn [all_ax o_empty flat_map app].
    apply same_types_perm. intros t. apply (map_inj DAxiom); [congruence|].
    set (g := fun d => match d with DAxiom a => ax_type a =? t | _ => false end).
    assert (Gf : forall L : list ref, map DAxiom (filter (fun a => ax_type a =? t) (map r_obj L)) = filter g (map (fun a => DAxiom (r_obj a)) L)).
    { induction L as [|a L IH]; cbn; auto. destruct (ax_type (r_obj a) =? t); cbn; now rewrite IH. }
    change (all_ax (o_empty true) ++ p_axioms ps) with (p_axioms ps).
    rewrite !Gf, M1, N1, !filter_filter.
    assert (Ge : forall d, g d && match d with DAxiom _ => true | _ => false end = g d) by (intros []; cbn; auto using andb_true_r).
    rewrite !(filter_ext _ _ Ge). now apply (Key (CAxioms t)).
Qed.

Theorem ontology_round_trip w : width w -> forall visit, (forall t, Permutation (visit t) t) ->
  forall visit_refs, (forall l, Permutation (visit_refs l) l) -> forall alive anon_id handler, (forall l, (0 <= handler l)%Z) ->
  forall heap es x rs log l e, history heap es -> o_run w (o_empty true) es = Some (x_onto x, rs, log) ->
  contains (x_onto x) l -> storing w es x l -> (forall o p, ever_added es o -> mentions p o -> alive p = true) -> e_anon e = true ->
  exists e' b s, w_run visit visit_refs alive w [WOntology x] e = Some ([COWL_OK], e') /\ e_out e' = e_out e ++ b /\
    read_ontology w anon_id handler b = DRet tt s /\ (0 <= d_code s)%Z /\ Forall (fun c => fst c = CHANGE_ADD) (d_log s) /\
    same_prefixes (d_log s) (asked_ontology x l) /\
    forall heap' ps dst, Forall2 stands_for ps (map snd (d_log s)) -> Forall (part_in_heap heap') ps ->
      x_onto dst = o_empty true -> map_reached visit (x_pm dst) ->
      exists dst', receives (change_apply visit w CHANGE_ADD) ps dst (Some (dst', COWL_OK)) /\ same_contents dst' x.
Proof.
  intros W visit V visit_refs Vr alive anon_id handler Hok heap es x rs log l e Hh Hr C Sg Al An.
  destruct (write_round_trip w W visit V visit_refs Vr alive anon_id handler Hok heap es x rs log l e Hh Hr C Sg Al An) as (e' & b & s & R & Eo & Rd & Ok & S1 & S2).
  exists e', b, s. split; [exact R|]. split; [exact Eo|]. split; [exact Rd|]. split; [exact Ok|]. split; [now apply (all_added x l)|]. split; [exact S2|].
  intros heap' ps dst Sf Hp De Dp. apply (read_back heap' visit w x l (d_log s) ps dst); auto.
  - intros a Ha. destruct (o_inv heap w es (x_onto x) rs log Hh Hr) as [Iv _]. rewrite (contains_eq _ _ C) in Ha. now apply (all_ax_in _ heap a Iv).
  - apply (ho_iri _ _ (sg_header _ _ _ _ Sg)).
  - intros a Ha. apply (ho_annot _ _ (sg_header _ _ _ _ Sg) a Ha).
Qed.
