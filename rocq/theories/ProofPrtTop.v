(** Streams, as stated in PropertiesPrtStream. *)

From Coq Require Import String NArith ZArith List Bool Lia Permutation.
From Coq Require Import ZifyBool ZifyNat ZifyN.
From Verif Require Import Bytes ModelTypes ModelObject ModelText SpecObject SpecText ProofObject ProofIter ProofText
  ModelPrefixMap ModelOntology ProofOntology ModelChange ModelPrtValue ModelPrtEncoder ModelPrtDecoder ModelPrtWriter SpecPrt SpecPrtStream
  ProofPrtValue ProofPrtRead ProofPrtAxiom ProofPrtIndex ProofPrtFrames ProofPrtFlush ProofPrtStream.
Import ListNotations.
Local Open Scope N_scope.
Ltac Zify.zify_post_hook ::= Z.div_mod_to_equations.

Lemma portable_idok w ids nss p : portable w p -> In (ident p) ids -> (exists k, kind p = Some k) ->
  (forall ns rem, ident p = OIri ns rem -> In ns nss) ->
  idok w ids (ident p) /\ (forall ns rem, ident p = OIri ns rem -> nsok w nss ns).
Proof.
  intros P I (k & K) Hn. unfold portable in P.
  destruct p as [|ns rem|e ns rem|id|v ns rem|v l|o l|t fs opt n]; try discriminate K; cbn [ident] in *.
  - split; [|intros n r E; inversion E; subst; split; [eapply Hn; eauto|apply P]]. split; auto. left. exists ns, rem. tauto.
  - split; [|intros n r E; inversion E; subst; split; [eapply Hn; eauto|apply P]]. split; auto. left. exists ns, rem. tauto.
  - split; [|discriminate]. split; auto. right. eauto.
Qed.

Section Top.
  Variable w : N.
  Hypothesis W : width w.
  Variable visit : tbl -> tbl.
  Hypothesis visit_perm : forall t, Permutation (visit t) t.
  Variable visit_refs : list (obj * option (list ref)) -> list (obj * option (list ref)).
  Variable alive : obj -> bool.
  Variable anon_id : nat -> bytes.
  Variable handler : list dchange -> ret.
  Hypothesis handler_ok : forall l, (0 <= handler l)%Z.
  Notation w_run := (w_run visit visit_refs alive w).
  Notation Sim := (Sim w anon_id handler).

  Lemma session_objok h body : session w h body -> exists ids nss,
    N.of_nat (List.length ids) + 17 < 2 ^ w /\ N.of_nat (List.length nss) < 2 ^ w /\ incl standard_namespaces nss /\
    (forall p ns, In (p, ns) (header_prefixes h) -> In ns nss) /\
    forall o, In o (passed_header h ++ passed_body body) -> objok w ids nss o.
  Proof.
    intros Se. destruct (ro_ids _ _ _ _ (se_room _ _ _ Se)) as (ids & Hi & Li). destruct (ro_ns _ _ _ _ (se_room _ _ _ Se)) as (nss & Hs & Hp & Hn & Ln).
    exists ids, nss. do 4 (split; auto). intros o Ho p M. apply portable_idok.
    - now apply (se_portable _ _ _ Se o p).
    - now apply (Hi o).
    - now apply mentions_occ in M.
    - intros ns rem E. now apply (Hn o p ns rem).
  Qed.

  Lemma session_run h body e : session w h body -> e_anon e = true ->
    exists ids nss rs e' v, w_run (WHeader h :: body) e = Some (rs, e') /\ Forall (eq COWL_OK) rs /\
      Sim ids nss (header_prefixes h) (e_out e) false (asked h body) (fun n => exists p, In (p, n) (header_prefixes h)) e' v /\
      mode (v_rm v) = mode_after CHANGE_ADD body /\
      N.of_nat (List.length ids) + 17 < 2 ^ w /\ N.of_nat (List.length nss) < 2 ^ w /\ incl standard_namespaces nss /\
      (forall p ns, In (p, ns) (header_prefixes h) -> In ns nss).
  Proof.
    intros Se An. destruct (session_objok h body Se) as (ids & nss & Li & Ln & Hs & Hp & Ok).
    pose proof (ro_changes _ _ _ _ (se_room _ _ _ Se)) as La. unfold asked in La.
    destruct (header_ok_run w W visit visit_perm anon_id handler handler_ok ids nss (header_prefixes h) Li Ln Hs Hp (ho_prefix _ _ (se_header _ _ _ Se)) (e_out e) h e An eq_refl eq_refl (se_header _ _ _ Se))
      as (e1 & v1 & R1 & S1 & Rm1).
    { intros x Hx. apply Ok. apply in_or_app; auto. }
    { rewrite app_length in La. lia. }
    destruct (run_ok w W visit anon_id handler handler_ok ids nss (header_prefixes h) Li Ln Hs Hp (ho_prefix _ _ (se_header _ _ _ Se)) (e_out e) visit_refs alive body CHANGE_ADD (asked_header h)
      (fun n => exists p, In (p, n) (header_prefixes h)) e1 v1 (se_body _ _ _ Se)) as (rs & e2 & v2 & R2 & Fr & S2 & Rm2); auto.
    { intros o Ho. apply Ok. apply in_or_app; auto. }
    { now rewrite Rm1. }
    exists ids, nss, (COWL_OK :: rs), e2, v2. split; [|split; [constructor; auto|auto 10]].
    cbn [ModelPrtWriter.w_run]. erewrite ebind_ok; [|exact R1]. erewrite ebind_ok; [|exact R2]. reflexivity.
  Qed.

  Lemma w_run_app l l' e rs e1 : w_run l e = Some (rs, e1) -> w_run (l ++ l') e = match w_run l' e1 with Some (rs', e2) => Some (rs ++ rs', e2) | None => None end.
  Proof.
    revert e rs. induction l as [|c l IH]; intros e rs H.
    - inversion H; subst. cbn. destruct (w_run l' e1) as [[? ?]|]; reflexivity.
    - cbn [app ModelPrtWriter.w_run] in *. unfold ebind at 1 in H. unfold ebind at 1. destruct (w_step visit visit_refs alive w c e) as [[r e0]|]; [|discriminate].
      unfold ebind in *. destruct (w_run l e0) as [[rs0 e2]|] eqn:R; [|discriminate]. inversion H; subst. rewrite (IH _ _ R).
      destruct (w_run l' e1) as [[? ?]|]; reflexivity.
  Qed.
  Lemma w_run_one c e r e' : w_step visit visit_refs alive w c e = Some (r, e') -> w_run [c] e = Some ([r], e').
  Proof. intros H. cbn [ModelPrtWriter.w_run]. erewrite ebind_ok; [|exact H]. reflexivity. Qed.

  Theorem stream_round_trip h body e : session w h body -> e_anon e = true ->
    exists rs e' b s, w_run (WHeader h :: body ++ [WFooter]) e = Some (rs, e') /\ Forall (eq COWL_OK) rs /\ e_out e' = e_out e ++ b /\
      read_ontology w anon_id handler b = DRet tt s /\ (0 <= d_code s)%Z /\
      same_changes (d_log s) (asked h body) /\ same_prefixes (d_log s) (asked h body).
  Proof.
    intros Se An. destruct (session_run h body e Se An) as (ids & nss & rs & e1 & v & R & Fr & S1 & Rm & Li & Ln & Hs & Hp).
    destruct (footer_ok w W visit anon_id handler handler_ok ids nss (header_prefixes h) Li Ln Hp (ho_prefix _ _ (se_header _ _ _ Se)) (e_out e) visit_refs alive _ _ e1 v S1)
      as (e2 & v2 & bd & R2 & Eo & Eb & Rm2 & Sc & Pf & Gv).
    { apply (ro_changes _ _ _ _ (se_room _ _ _ Se)). }
    destruct (eats_read w anon_id handler bd v2 [3] Eb) as (s & Rd & Ok & _ & _ & _ & Lg); [right; eauto|].
    exists (rs ++ [COWL_OK]), e2, (1 :: bd ++ [3]), s. split; [|split; [apply Forall_app; auto|split; [exact Eo|split; [exact Rd|split; [|split]]]]].
    - change (WHeader h :: body ++ [WFooter]) with ((WHeader h :: body) ++ [WFooter]).
      rewrite (w_run_app _ _ _ _ _ R), (w_run_one _ _ _ _ R2). reflexivity.
    - unfold d_ok in Ok. lia.
    - now rewrite Lg.
    - rewrite Lg. split.
      + intros t p ns H. destruct (Pf t p ns H) as (-> & Hq). unfold asked, asked_header. apply in_or_app. left. apply in_map_iff.
        exists (DPrefix p ns). split; auto. apply in_or_app. left. apply in_map_iff. exists (p, ns). auto.
      + intros t p ns H. unfold asked in H. apply in_app_or in H as [H|H].
        * unfold asked_header in H. apply in_map_iff in H as (d & Ed & Hd). inversion Ed; subst. rewrite !in_app_iff in Hd.
          assert (Hq : In (p, ns) (header_prefixes h)).
          { destruct Hd as [Hd|[Hd|[Hd|[Hd|Hd]]]]; apply in_map_iff in Hd as (x & Ex & Hx); try discriminate. inversion Ex; subst. now destruct x. }
          destruct (Gv ns) as [G|(p' & G)]; eauto.
        * exfalso. clear -H. revert H. generalize CHANGE_ADD. induction body as [|c body IH]; cbn; auto. intros t0 H.
          destruct c; eauto. destruct H as [H|H]; [discriminate|eauto].
  Qed.

  Theorem tables_agree h body e : session w h body -> e_anon e = true ->
    exists rs e' b s, w_run (WHeader h :: body) e = Some (rs, e') /\ e_out e' = e_out e ++ b /\
      read_ontology w anon_id handler b = DRet tt s /\ (0 <= d_code s)%Z /\
      (forall p i, id_of e' p = IAt i <-> nth_error (d_ids s) (N.to_nat i) = Some p) /\
      (forall n i, ns_of e' n = IAt i <-> nth_error (d_ns s) (N.to_nat i) = Some n).
  Proof.
    intros Se An. destruct (session_run h body e Se An) as (ids & nss & rs & e1 & v & R & Fr & S1 & Rm & _).
    destruct (Sim_read w anon_id handler ids nss (header_prefixes h) (e_out e) _ _ e1 v S1) as (b & s & Eo & Rd & Ok & Sn & Si & _).
    exists rs, e1, b, s. split; [exact R|]. split; [exact Eo|]. split; [exact Rd|]. split; [unfold d_ok in Ok; lia|].
    rewrite Sn, Si. apply (Sim_tables w anon_id handler ids nss (header_prefixes h) (e_out e) _ _ e1 v S1).
  Qed.

  Theorem reset_clears h body p e : session w h body -> e_anon e = true ->
    exists rs e1 rs' e2 b s, w_run (WHeader h :: body) e = Some (rs, e1) /\ w_run [WReset p] e1 = Some (rs', e2) /\
      e_out e2 = e_out e ++ b /\ read_ontology w anon_id handler b = DRet tt s /\ (0 <= d_code s)%Z /\
      id_list e2 = [] /\ d_ids s = [] /\
      ns_list e2 = (if p then standard_list else ns_list e1) /\ d_ns s = ns_list e2 /\
      d_remove s = (match mode_after CHANGE_ADD body with CHANGE_REMOVE => true | CHANGE_ADD => false end).
  Proof.
    intros Se An. destruct (session_run h body e Se An) as (ids & nss & rs & e1 & v & R & Fr & S1 & Rm & Li & Ln & Hs & Hp).
    destruct (reset_frame_ok w W visit anon_id handler handler_ok ids nss (header_prefixes h) Li Ln Hs Hp (ho_prefix _ _ (se_header _ _ _ Se)) (e_out e) visit_refs alive p _ _ e1 v S1)
      as (e2 & v2 & R2 & S2 & Rm2 & Hn & Hi & Ln2 & Li2).
    { apply (ro_changes _ _ _ _ (se_room _ _ _ Se)). }
    destruct (Sim_read w anon_id handler ids nss (header_prefixes h) (e_out e) _ _ e2 v2 S2) as (b & s & Eo & Rd & Ok & Sn & Si & Sr & _).
    exists rs, e1, [COWL_OK], e2, b, s. split; [exact R|]. split; [now apply w_run_one|]. split; [exact Eo|]. split; [exact Rd|]. split; [unfold d_ok in Ok; lia|].
    split; [exact Li2|]. split; [congruence|]. split; [rewrite Ln2, Hn; reflexivity|]. split; [congruence|].
    rewrite Sr, Rm2, <- Rm. now destruct (v_rm v).
  Qed.

  Theorem change_switches h body t e : session w h body -> e_anon e = true ->
    exists rs e1 rs' e2 b s, w_run (WHeader h :: body) e = Some (rs, e1) /\ w_run [WChange t] e1 = Some (rs', e2) /\
      e_out e2 = e_out e ++ b /\ read_ontology w anon_id handler b = DRet tt s /\ (0 <= d_code s)%Z /\
      id_list e2 = id_list e1 /\ d_ids s = id_list e2 /\ ns_list e2 = ns_list e1 /\ d_ns s = ns_list e2 /\
      d_remove s = (match t with CHANGE_REMOVE => true | CHANGE_ADD => false end).
  Proof.
    intros Se An. destruct (session_run h body e Se An) as (ids & nss & rs & e1 & v & R & Fr & S1 & Rm & Li & Ln & Hs & Hp).
    destruct (change_frame_ok w W visit anon_id handler handler_ok ids nss (header_prefixes h) Li Ln Hp (ho_prefix _ _ (se_header _ _ _ Se)) (e_out e) visit_refs alive t _ _ e1 v S1)
      as (e2 & v2 & R2 & S2 & Rm2 & Hn & Hi & Ln2 & Li2).
    { apply (ro_changes _ _ _ _ (se_room _ _ _ Se)). }
    destruct (Sim_read w anon_id handler ids nss (header_prefixes h) (e_out e) _ _ e2 v2 S2) as (b & s & Eo & Rd & Ok & Sn & Si & Sr & _).
    exists rs, e1, [COWL_OK], e2, b, s. split; [exact R|]. split; [now apply w_run_one|]. split; [exact Eo|]. split; [exact Rd|]. split; [unfold d_ok in Ok; lia|].
    split; [exact Li2|]. split; [congruence|]. split; [exact Ln2|]. split; [congruence|].
    rewrite Sr, <- Rm2. now destruct (v_rm v2).
  Qed.
End Top.
