(** How much a ProtocOWL writer with a bounded index holds. *)

From Coq Require Import String NArith ZArith List Bool Lia Permutation.
From Coq Require Import ZifyBool ZifyNat ZifyN.
From Verif Require Import Bytes ModelTypes ModelObject ModelText SpecObject SpecText ProofObject ProofIter ProofText
  ModelPrefixMap ModelOntology ProofOntology ModelChange ModelPrtValue ModelPrtEncoder ModelPrtDecoder ModelPrtWriter SpecPrt SpecPrtStream SpecPrtBound
  ProofPrtValue ProofPrtRead ProofPrtAxiom ProofPrtIndex ProofPrtFrames ProofPrtFlush ProofPrtStream ProofPrtTop.
Import ListNotations.
Local Open Scope N_scope.
Ltac Zify.zify_post_hook ::= Z.div_mod_to_equations.

(** * Lengths of the tables *)

Definition nslen (e : enc) : N := N.of_nat (List.length (ns_list e)).
Definition idlen (e : enc) : N := N.of_nat (List.length (id_list e)).
Definition xns (x : prt_index) : nat := List.length (m_list (x_ns x)).
Definition xid (x : prt_index) : nat := List.length (m_list (x_id x)).

Lemma list_set_length {A} (l : list A) : forall i x, List.length (list_set l i x) = List.length l.
Proof. induction l as [|y l IH]; intros [|i] x; cbn; auto. Qed.
Lemma m_add_len {A} (eqb : A -> A -> bool) m x b :
  (List.length (m_list m) <= List.length (m_list (m_add eqb m x b)) <= S (List.length (m_list m)))%nat.
Proof.
  unfold m_add. destruct (idx_get eqb (m_idx m) x); cbn [m_list]; try lia.
  destruct b; cbn [m_list]; [|rewrite app_length; cbn; lia].
  destruct (Nat.ltb _ _); [rewrite list_set_length|]; rewrite app_length; cbn; lia.
Qed.
Lemma x_add_prefix_len x ns p : (xns x <= xns (x_add_prefix x ns p) <= S (xns x))%nat /\ x_id (x_add_prefix x ns p) = x_id x.
Proof.
  unfold x_add_prefix, xns. destruct (idx_get bytes_eqb _ ns); cbn [x_ns x_id]; split; try lia; auto. apply m_add_len.
Qed.
Lemma x_add_primitive_len x p :
  (xns x <= xns (x_add_primitive x p) <= S (xns x))%nat /\ (xid (x_add_primitive x p) <= S (xid x))%nat.
Proof.
  unfold x_add_primitive. destruct (get_iri p) as [[]|]; unfold xid, xns; cbn [x_ns x_id]; (split; [|]); try lia; try apply m_add_len.
  - apply x_add_prefix_len.
  - rewrite (proj2 (x_add_prefix_len x ns None)). apply m_add_len.
Qed.

(** Elements waiting to be written. *)
Lemma count_import o x : waiting (mkOnto (o_iri o) (o_version o) (Some (vec_data (o_imports o) ++ [x])) (o_annot o) (o_types o) (o_refs o) (o_indexing o)) = waiting o + 1.
Proof. unfold waiting, axioms_in_order, tindex. cbn [o_imports o_annot o_types vec_data]. rewrite app_length. cbn [List.length]. lia. Qed.

Section Bound.
  Variable visit : tbl -> tbl.
  Variable visit_refs : list (obj * option (list ref)) -> list (obj * option (list ref)).
  Variable alive : obj -> bool.
  Variable w : N.
  Variable n : N.

  (** What encoding does not change. *)
  Definition same (e e' : enc) : Prop :=
    ns_list e' = ns_list e /\ id_list e' = id_list e /\ e_size e' = e_size e /\ e_flush e' = e_flush e /\ e_cur e' = e_cur e.
  Definition quiet {A} (m : E A) : Prop := forall e r e', m e = Some (r, e') -> same e e'.
  Lemma same_refl e : same e e. Proof. repeat split. Qed.
  Lemma same_trans a b c : same a b -> same b c -> same a c.
  Proof. intros (A1 & A2 & A3 & A4 & A5) (B1 & B2 & B3 & B4 & B5). repeat split; congruence. Qed.
  Lemma quiet_bind {A B} (m : E A) (k : A -> E B) : quiet m -> (forall a, quiet (k a)) -> quiet (ebind m k).
  Proof.
    intros M K e r e' H. unfold ebind in H. destruct (m e) as [[a e1]|] eqn:X; [|discriminate]. eapply same_trans; [eapply M; eauto|eapply K; eauto].
  Qed.
  Lemma quiet_seq {A B} (m : E A) (k : E B) : quiet m -> quiet k -> quiet (eseq m k).
  Proof. intros M K. apply quiet_bind; auto. Qed.
  Lemma quiet_ret {A} (a : A) : quiet (eret a).
  Proof. intros e r e' H. inversion H; subst. apply same_refl. Qed.
  Lemma quiet_state : quiet estate.
  Proof. intros e r e' H. inversion H; subst. apply same_refl. Qed.
  Lemma quiet_emit f : quiet (emit f).
  Proof. intros e r e' H. unfold emit in H. destruct (f e) as [[b x]|]; [|discriminate]. inversion H; subst. repeat split. Qed.
  Lemma quiet_call m k : quiet m -> quiet k -> quiet (ecall m k).
  Proof. intros M K. apply quiet_bind; auto. intros r. destruct (r =? COWL_OK)%Z; auto using quiet_ret. Qed.
  Lemma quiet_unless {A} (l : list A) m : quiet m -> quiet (unless_empty l m).
  Proof. destruct l; cbn; auto using quiet_ret. Qed.
  Lemma quiet_data o : quiet (encode_data w o).
  Proof.
    unfold encode_data. apply quiet_call; [|apply quiet_call; [|apply quiet_call; [|apply quiet_call; [|apply quiet_call]]]].
    - unfold encode_ns_decls. intros e r e' H. cbv zeta in H. revert H. unfold eseq at 1, ebind at 1, upd. intros H.
      eapply same_trans; [|eapply quiet_seq; [| |exact H]].
      + repeat split.
      + apply quiet_unless, quiet_emit.
      + apply quiet_seq; [apply quiet_unless, quiet_emit|apply quiet_state].
    - unfold encode_id_decls. intros e r e' H. cbv zeta in H. revert H. unfold eseq at 1, ebind at 1, upd. intros H.
      eapply same_trans; [|eapply quiet_seq; [| |exact H]].
      + repeat split.
      + apply quiet_unless, quiet_emit.
      + apply quiet_seq; [|apply quiet_state]. destruct (e_anon e); [apply quiet_unless, quiet_emit|apply quiet_ret].
    - unfold encode_iri_version. destruct (o_iri o); [apply quiet_seq; auto using quiet_emit, quiet_state|apply quiet_ret].
    - unfold encode_onto_imports. destruct (vec_data (o_imports o)); [apply quiet_ret|apply quiet_seq; auto using quiet_emit, quiet_state].
    - unfold encode_onto_annotations. destruct (vec_data (o_annot o)); [apply quiet_ret|apply quiet_seq; auto using quiet_emit, quiet_state].
    - unfold encode_onto_axioms. apply quiet_seq; auto using quiet_emit, quiet_state.
  Qed.

  (** [d] more identifiers and namespaces than allowed, and [m] more elements, at most. *)
  Definition G (d m : N) (e : enc) : Prop :=
    e_size e = n /\ nslen e + idlen e <= n + 5 + d /\ 5 <= nslen e /\ e_cur e <= n + m /\
    exists o, e_flush e = Some o /\ waiting o = e_cur e /\ o_indexing o = false.

  Lemma G_same d m e e' : G d m e -> same e e' -> G d m e'.
  Proof.
    intros (A & B & C & D & o & F & X) (H1 & H2 & H3 & H4 & H5). unfold G, nslen, idlen in *. rewrite H1, H2, H3, H4, H5. repeat split; auto. eauto.
  Qed.
  Lemma G_weak d m d' m' e : d <= d' -> m <= m' -> G d m e -> G d' m' e.
  Proof. intros L M (A & B & C & D & X). repeat split; auto; lia. Qed.

  Lemma flush_G d m e r e' : G d m e -> stream_flush w e = Some (r, e') -> G d 0 e' /\ e_cur e' = 0 /\ ns_list e' = ns_list e /\ id_list e' = id_list e /\ r = e_state e'.
  Proof.
    intros K H. pose proof K as (A & B & C & D & o & F & X). unfold stream_flush in H. rewrite F in H. unfold eseq at 1, ebind at 1 in H.
    destruct (encode_data w o e) as [[r1 e1]|] eqn:Y; [|discriminate]. apply quiet_data in Y. pose proof (G_same _ _ _ _ K Y) as (A1 & B1 & C1 & D1 & _).
    cbv [flush_state_empty eseq ebind upd estate] in H. inversion H; subst r e'. destruct Y as (Y1 & Y2 & _).
    split; [|split; [reflexivity|split; [exact Y1|split; [exact Y2|reflexivity]]]].
    split; [exact A1|]. split; [exact B1|]. split; [exact C1|]. split; [cbn; lia|]. exists (o_empty false). repeat split.
  Qed.

  Lemma reset_any p e r e' : e_size e = n -> (p = true \/ 5 <= nslen e) -> encoder_reset p e = Some (r, e') ->
    r = e_state e' /\ e_state e' = COWL_OK /\ e_size e' = n /\ idlen e' = 0 /\ nslen e' = (if p then 5 else nslen e) /\ e_cur e' = 0 /\
    exists o, e_flush e' = Some o /\ waiting o = 0 /\ o_indexing o = false.
  Proof.
    intros A B H. destruct p; cbv [encoder_reset eseq ebind upd eret flush_state_empty estate] in H; inversion H; subst; cbn.
    - repeat split; auto. eexists. repeat split.
    - repeat split; auto. eexists. repeat split.
  Qed.

  Lemma need_G d m e r e' : G d m e -> n + d < 2 ^ w -> flush_if_needed w e = Some (r, e') -> G 0 0 e' /\ r = e_state e'.
  Proof.
    intros K L H. pose proof K as (A & B & C & D & X). unfold flush_if_needed, should_flush in H. cbv zeta in H.
    fold (ns_list e) in H. fold (id_list e) in H. unfold standard_prefix_count in H.
    assert (P : N.of_nat (List.length (ns_list e) - 5) = nslen e - 5) by (unfold nslen; lia). rewrite P in H. change (N.of_nat (List.length (id_list e))) with (idlen e) in H.
    rewrite A in H. rewrite N.mod_small in H by lia.
    destruct (n <? nslen e - 5 + idlen e) eqn:O.
    - unfold eseq at 1 in H. unfold ebind at 1, eseq at 1, ebind at 1 in H.
      destruct (stream_flush w e) as [[r1 e1]|] eqn:Y; [|discriminate]. destruct (flush_G d m e r1 e1 K Y) as (K1 & _ & Y1 & Y2 & _).
      unfold write_reset_frame, write_ctrl_frame in H. unfold eseq at 1, ebind at 1 in H.
      destruct (emit _ e1) as [[u e2]|] eqn:Z; [|discriminate]. pose proof (quiet_emit _ _ _ _ Z) as Q. pose proof (G_same _ _ _ _ K1 Q) as K2.
      destruct (encoder_reset (n / 4 <? nslen e - 5) e2) as [[r3 e3]|] eqn:R; [|discriminate]. inversion H; subst r e'.
      destruct K2 as (A2 & B2 & C2 & _). apply (reset_any _ e2) in R; auto.
      destruct R as (_ & _ & S3 & I3 & N3 & C3 & O3). split; [|reflexivity].
      assert (N2 : nslen e2 = nslen e) by (unfold nslen; destruct Q as (-> & _); now rewrite Y1). rewrite N2 in *.
      split; [exact S3|]. rewrite I3, N3, C3. destruct (n / 4 <? nslen e - 5) eqn:O'; (split; [lia|]); (split; [lia|]); (split; [lia|]); exact O3.
    - unfold eseq at 1, ebind at 1 in H. destruct (n <? e_cur e) eqn:O2.
      + unfold eseq at 1, ebind at 1 in H. destruct (stream_flush w e) as [[r1 e1]|] eqn:Y; [|discriminate].
        destruct (flush_G d m e r1 e1 K Y) as (K1 & _ & Y1 & Y2 & _). cbv [eret estate] in H. inversion H; subst r e'. split; [|reflexivity].
        destruct K1 as (A1 & B1 & C1 & D1 & X1). split; [exact A1|]. unfold nslen, idlen in *. rewrite Y1, Y2 in *. repeat split; auto; lia.
      + cbv [eret estate] in H. inversion H; subst r e'. split; [|reflexivity]. repeat split; auto; lia.
  Qed.

  (** A step that keeps the bound, unless it reports an error. *)
  Definition T (m : E ret) : Prop := forall e r e', G 0 0 e -> e_state e = COWL_OK -> m e = Some (r, e') ->
    r = e_state e' /\ (r = COWL_OK -> G 0 0 e').
  Lemma T_call m k : T m -> T k -> T (ecall m k).
  Proof.
    intros M K e r e' H S X. unfold ecall, ebind in X. destruct (m e) as [[r1 e1]|] eqn:Y; [|discriminate].
    destruct (M _ _ _ H S Y) as [-> H1]. destruct (e_state e1 =? COWL_OK)%Z eqn:Z.
    - apply Z.eqb_eq in Z. apply (K e1); auto.
    - cbv [eret] in X. inversion X; subst. auto.
  Qed.
  Lemma T_ok : T (eret COWL_OK).
  Proof. intros e r e' H S X. inversion X; subst. auto. Qed.
  Lemma T_state (m : E ret) : T m -> T (eseq m estate).
  Proof.
    intros M e r e' H S X. unfold eseq, ebind in X. destruct (m e) as [[r1 e1]|] eqn:Y; [|discriminate]. destruct (M _ _ _ H S Y) as [-> H1].
    cbv [estate] in X. inversion X; subst. auto.
  Qed.
  Lemma T_quiet {A} (m : E A) : quiet m -> T (eseq m estate).
  Proof.
    intros M e r e' H S X. unfold eseq, ebind in X. destruct (m e) as [[r1 e1]|] eqn:Y; [|discriminate]. apply M in Y.
    cbv [estate] in X. inversion X; subst. split; auto. intros _. eapply G_same; eauto.
  Qed.

  Lemma T_prefixes l : n + 1 < 2 ^ w -> T (stream_prefix_loop w l).
  Proof.
    intros L. induction l as [|[p ns] l IH]; cbn [stream_prefix_loop]; [apply T_ok|].
    intros e r e' H S X. unfold ecall at 1, ebind at 1 in X. cbv [encoder_add_prefix eseq ebind upd estate] in X. cbn beta iota in X.
    cbn [e_state with_state] in X. rewrite Z.eqb_refl in X.
    set (e1 := with_state COWL_OK (with_index (x_add_prefix (e_index e) (stx ns) (Some (stx p))) e)) in X.
    assert (G1 : G 1 0 e1).
    { destruct H as (A & B & C & D & O). destruct (x_add_prefix_len (e_index e) (stx ns) (Some (stx p))) as [Ln Li].
      unfold G, nslen, idlen, ns_list, id_list, xns in *. cbn [e1 e_size e_cur e_flush e_index with_state with_index]. rewrite Li. repeat split; auto; lia. }
    unfold ecall, ebind in X. destruct (flush_if_needed w e1) as [[r2 e2]|] eqn:Y; [|discriminate].
    apply (need_G 1 0) in Y as [G2 ->]; auto. destruct (e_state e2 =? COWL_OK)%Z eqn:Z.
    - apply Z.eqb_eq in Z. apply (IH e2); auto.
    - cbv [eret] in X. inversion X; subst. split; auto.
  Qed.

  (** Setting the IRI or the version. *)
  Lemma adder_set d m mk x e r e' : (forall o, exists o', o_step w o (mk x) = Some (o', 0%nat, snd (set_field (match mk x with ESetIri _ => o_iri o | _ => o_version o end) (Some x))) /\
      waiting o' = waiting o /\ o_indexing o' = o_indexing o) ->
    G d m e -> adder w mk x e = Some (r, e') -> G d m e' /\ e_state e' = e_state e /\ e_index e' = e_index e.
  Proof.
    intros St (A & B & C & D & o & F & Wt & Ix) H. unfold adder in H. rewrite F in H. destruct (St o) as (o' & E1 & E2 & E3). rewrite E1 in H.
    inversion H; subst. split; [|split; reflexivity]. repeat split; auto. exists o'. repeat split; cbn; congruence.
  Qed.
  Lemma add_primitive_G d m p e r e' : G d m e -> encoder_add_primitive p e = Some (r, e') -> G (d + 2) m e' /\ r = COWL_OK.
  Proof.
    intros (A & B & C & D & O) H. cbv [encoder_add_primitive eseq ebind upd estate] in H. inversion H; subst. split; [|reflexivity].
    destruct (x_add_primitive_len (e_index e) p) as [Ln Li]. unfold G, nslen, idlen, ns_list, id_list, xns, xid in *.
    cbn [e_size e_cur e_flush e_index with_state with_index]. repeat split; auto; lia.
  Qed.
  Lemma T_iri_version iri version : n + 4 < 2 ^ w -> T (stream_iri_version w iri version).
  Proof.
    intros L e r e' H S X. unfold stream_iri_version in X. unfold eseq at 1 in X. unfold ebind at 1 in X.
    match type of X with match ?m e with _ => _ end = _ => destruct (m e) as [[r1 e1]|] eqn:Y; [|discriminate] end.
    assert (G1 : G 4 0 e1).
    { destruct iri as [i|]; [|cbv [eret] in Y; inversion Y; subst; eapply G_weak; [| |exact H]; lia].
      unfold eseq at 1, ebind at 1 in Y. destruct (adder w (fun r0 => ESetIri (Some r0)) i e) as [[r2 e2]|] eqn:Y2; [|discriminate].
      apply (adder_set 0 0) in Y2 as (G2 & _); auto; [|intros o; eexists; repeat split].
      unfold ecall, ebind in Y. destruct (encoder_add_primitive (r_obj i) e2) as [[r3 e3]|] eqn:Y3; [|discriminate].
      apply (add_primitive_G 0 0) in Y3 as [G3 ->]; auto. rewrite Z.eqb_refl in Y.
      destruct version as [v|]; [|cbv [eret] in Y; inversion Y; subst; eapply G_weak; [| |exact G3]; lia].
      unfold eseq, ebind in Y. destruct (adder w (fun r0 => ESetVersion (Some r0)) v e3) as [[r4 e4]|] eqn:Y4; [|discriminate].
      apply (adder_set 2 0) in Y4 as (G4 & _); [|intros o; eexists; repeat split|exact G3].
      apply (add_primitive_G 2 0) in Y as [G5 _]; auto. }
    apply (need_G 4 0) in X as [G2 ->]; auto.
  Qed.

  (** Adding an element. *)
  Lemma iterate_G l : forall d e, G d 0 e -> G (d + 2 * N.of_nat (List.length l)) 0 (fold_left (fun s p => fst (for_each_primitive s p)) l e).
  Proof.
    induction l as [|p l IH]; intros d e H; cbn [fold_left].
    - cbn. replace (d + 0) with d by lia. exact H.
    - assert (H1 : G (d + 2) 0 (fst (for_each_primitive e p))).
      { destruct H as (A & B & C & D & O). destruct (x_add_primitive_len (e_index e) p) as [Ln Li]. unfold G, nslen, idlen, ns_list, id_list, xns, xid in *.
        cbn [fst for_each_primitive e_size e_cur e_flush e_index with_state with_index]. repeat split; auto; lia. }
      eapply G_weak; [| |exact (IH _ _ H1)]; cbn [List.length]; lia.
  Qed.
  Lemma T_add mk a : well_formed (r_obj a) -> n + 2 * N.of_nat (List.length (occ (r_obj a))) < 2 ^ w -> n + 1 < 2 ^ w ->
    (forall o, o_indexing o = false -> exists o' l, o_step w o (mk a) = Some (o', 0%nat, l) /\ waiting o' = waiting o + 1 /\ o_indexing o' = false) ->
    T (stream_add w mk a).
  Proof.
    intros Wf L L1 St e r e' H S X. unfold stream_add in X. unfold ecall at 1, ebind at 1 in X.
    rewrite (ProofOntology.iterate_fold (r_obj a) for_each_primitive e Wf) in X by reflexivity. cbn [of_ires] in X. rewrite Z.eqb_refl in X.
    pose proof (iterate_G (occ (r_obj a)) 0 e H) as G1. set (e1 := fold_left _ _ _) in *.
    unfold ecall, ebind in X. unfold adder in X. destruct G1 as (A & B & C & D & o & F & Wt & Ix). rewrite F in X.
    destruct (St o Ix) as (o' & lg & E1 & E2 & E3). rewrite E1 in X. cbv [eseq ebind upd estate] in X. cbn [as_ret Z.of_nat e_state with_state] in X.
    rewrite Z.eqb_refl in X.
    match type of X with flush_if_needed w ?y = _ => set (e2 := y) in X end.
    assert (G2 : G (0 + 2 * N.of_nat (List.length (occ (r_obj a)))) 1 e2).
    { unfold G, nslen, idlen, ns_list, id_list in *. cbn [e2 e_size e_cur e_flush e_index with_state with_flush with_cur].
      rewrite N.mod_small by lia. repeat split; auto; try lia. exists o'. repeat split; auto. lia. }
    apply (need_G _ _ _ _ _ G2) in X as [G3 ->]; [auto|lia].
  Qed.
  Lemma T_adds mk l : (forall a, In a l -> T (stream_add w mk a)) -> T (stream_adds w mk l).
  Proof.
    induction l as [|a l IH]; intros H; cbn [stream_adds]; [apply T_ok|]. apply T_call; [apply H; now left|]. apply IH. intros b J. apply H. now right.
  Qed.

  Lemma import_step a o : o_indexing o = false -> exists o' l, o_step w o (EAddImport a) = Some (o', 0%nat, l) /\ waiting o' = waiting o + 1 /\ o_indexing o' = false.
  Proof. intros I. do 2 eexists. split; [reflexivity|]. split; [apply count_import|exact I]. Qed.
  Lemma annot_step a o : wt (SOne SAnnot) (r_obj a) = true -> o_indexing o = false ->
    exists o' l, o_step w o (EAddAnnot a) = Some (o', 0%nat, l) /\ waiting o' = waiting o + 1 /\ o_indexing o' = false.
  Proof.
    intros Wt I. cbn [o_step]. unfold add_annot. rewrite (ProofOntology.iterate_fold (r_obj a)); [|eexists; eauto|].
    - do 2 eexists. split; [reflexivity|]. split; [|exact I]. unfold waiting, axioms_in_order, tindex.
      cbn [o_imports o_annot o_types vec_data vector_ptr_add fst snd]. rewrite app_length. cbn [List.length]. lia.
    - intros s x. unfold add_annot_foreach. destruct (map_get s x) as [[]|]; reflexivity.
  Qed.
  Lemma axiom_step a o : is_axiom_object (r_obj a) -> o_indexing o = false ->
    exists o' l, o_step w o (EAddAxiom a) = Some (o', 0%nat, l) /\ waiting o' = waiting o + 1 /\ o_indexing o' = false.
  Proof.
    intros Ax I. cbn [o_step]. unfold add_axiom. rewrite I. do 2 eexists. split; [reflexivity|]. split; [|reflexivity].
    unfold waiting. cbn [o_imports o_annot].
    destruct (all_ax_set o (ax_type (r_obj a)) (vec_data (tindex o (ax_type (r_obj a))) ++ [a]) (o_refs o) false (o_iri o) (o_version o) (o_imports o) (o_annot o) (ax_type_bound _ Ax))
      as (rest & P1 & P2). apply Permutation_length in P1, P2. unfold axioms_in_order. unfold all_ax in P1, P2. rewrite P1, P2, !app_length. cbn [List.length]. lia.
  Qed.

  Lemma header_G h e r e' : e_size e = n -> header_ok w h -> modest w n (passed_header h) -> write_header visit w h e = Some (r, e') -> r = COWL_OK -> G 0 0 e' /\ e_state e' = COWL_OK.
  Proof.
    intros Sz HO [Md1 Md2] X E. unfold write_header in X. unfold eseq at 1 in X. unfold ebind at 1 in X.
    match type of X with match ?m e with _ => _ end = _ => destruct (m e) as [[r1 e1]|] eqn:Y; [|discriminate] end.
    cbv [estate] in X. inversion X; subst r e'. unfold ecall at 1, ebind at 1 in Y.
    destruct (encoder_reset true e) as [[r2 e2]|] eqn:R; [|discriminate].
    apply reset_any in R as (-> & S2 & Z2 & I2 & N2 & C2 & O2); auto. rewrite S2 in Y. rewrite Z.eqb_refl in Y.
    assert (G2 : G 0 0 e2). { split; [exact Z2|]. rewrite I2, N2, C2. repeat split; try lia. exact O2. }
    assert (HT : T (ecall encode_protocol_version (ecall (stream_prefixes visit w (h_pm h)) (ecall (stream_iri_version w (h_iri h) (h_version h))
       (ecall (stream_adds w EAddImport (h_imports h)) (stream_adds w EAddAnnot (h_annot h))))))).
    { apply T_call; [apply T_quiet, quiet_emit|]. apply T_call.
      { unfold stream_prefixes. destruct (h_pm h); [apply T_state, T_prefixes; lia|apply T_ok]. }
      apply T_call; [apply T_iri_version; lia|]. apply T_call.
      - apply T_adds. intros a J. destruct (ho_iri _ _ HO a) as (ns & rem & Ea). { rewrite !in_app_iff. auto. }
        apply T_add; [exists (SOne SIri); now rewrite Ea| |lia|intros o; apply import_step].
        apply (Md2 (r_obj a)); [|apply occ_occurrences]. unfold passed_header. apply in_map. rewrite !in_app_iff. auto.
      - apply T_adds. intros a J. destruct (ho_annot _ _ HO a J) as [Wt _].
        apply T_add; [eexists; eauto| |lia|intros o; now apply annot_step].
        apply (Md2 (r_obj a)); [|apply occ_occurrences]. unfold passed_header. apply in_map. rewrite !in_app_iff. auto. }
    destruct (HT _ _ _ G2 S2 Y) as [-> K]. auto.
  Qed.

  Lemma call_G c e r e' : G 0 0 e -> e_state e = COWL_OK -> steady c -> call_ok w c ->
    (forall a, c = WAxiom a -> forall l, occurrences (r_obj a) l -> n + 2 * N.of_nat (List.length l) < 2 ^ w) -> n + 1 < 2 ^ w ->
    w_step visit visit_refs alive w c e = Some (r, e') -> r = COWL_OK -> G 0 0 e' /\ e_state e' = COWL_OK.
  Proof.
    intros K S Sd Ok Md L X E. destruct c as [h|a| |t|p|o|m|b]; try contradiction; cbn [w_step] in X.
    - destruct Ok as [Ax _]. assert (TT : T (stream_add w EAddAxiom a)).
      { apply T_add; [now apply axiom_wf|apply (Md a eq_refl), occ_occurrences|exact L|intros o; now apply axiom_step]. }
      destruct (TT _ _ _ K S X) as [E' K']. split; [auto|congruence].
    - unfold write_change_frame in X. unfold eseq at 1, ebind at 1 in X. destruct (stream_flush w e) as [[r1 e1]|] eqn:Y; [|discriminate].
      apply (flush_G 0 0) in Y as (K1 & _); auto. unfold write_ctrl_frame in X. unfold eseq, ebind in X. destruct (emit _ e1) as [[u e2]|] eqn:Z; [|discriminate].
      apply quiet_emit in Z. cbv [estate] in X. inversion X; subst r e'. split; [eapply G_same; eauto|congruence].
    - unfold write_reset in X. unfold eseq at 1, ebind at 1 in X. destruct (stream_flush w e) as [[r1 e1]|] eqn:Y; [|discriminate].
      apply (flush_G 0 0) in Y as (K1 & _); auto. unfold write_reset_frame, write_ctrl_frame in X. unfold eseq at 1, ebind at 1 in X. destruct (emit _ e1) as [[u e2]|] eqn:Z; [|discriminate].
      apply quiet_emit in Z. pose proof (G_same _ _ _ _ K1 Z) as (A2 & B2 & C2 & D2 & O2). unfold eseq, ebind in X. destruct (encoder_reset p e2) as [[r3 e3]|] eqn:R; [|discriminate].
      apply reset_any in R as (_ & S3 & Z3 & I3 & N3 & C3 & O3); auto. cbv [estate] in X. inversion X; subst r e'. split; auto.
      split; [exact Z3|]. rewrite I3, N3, C3. destruct p; repeat split; auto; lia.
  Qed.

  Lemma run_G body : forall e rs e', G 0 0 e -> e_state e = COWL_OK -> Forall steady body -> Forall (call_ok w) body ->
    (forall o l, In o (passed_body body) -> occurrences o l -> n + 2 * N.of_nat (List.length l) < 2 ^ w) -> n + 1 < 2 ^ w ->
    w_run visit visit_refs alive w body e = Some (rs, e') -> Forall (eq COWL_OK) rs -> G 0 0 e'.
  Proof.
    induction body as [|c body IH]; intros e rs e' K S Sd Ok Md L X F; cbn [w_run] in X.
    - cbv [eret] in X. inversion X; subst. auto.
    - unfold ebind at 1 in X. destruct (w_step visit visit_refs alive w c e) as [[r e1]|] eqn:Y; [|discriminate].
      unfold ebind in X. destruct (w_run visit visit_refs alive w body e1) as [[rs' e2]|] eqn:Z; [|discriminate].
      cbv [eret] in X. inversion X; subst rs e'. inversion F; subst. inversion Sd; subst. inversion Ok; subst.
      apply call_G in Y as [K1 S1]; auto.
      + eapply IH; eauto. intros o l J. apply Md. unfold passed_body in *. cbn [flat_map]. apply in_or_app. auto.
      + intros a -> l J. apply (Md (r_obj a)); auto. unfold passed_body. cbn [flat_map]. now left.
  Qed.
End Bound.

Section Top.
  Variable w : N.
  Hypothesis W : width w.
  Variable visit : tbl -> tbl.
  Hypothesis visit_perm : forall t, Permutation (visit t) t.
  Variable visit_refs : list (obj * option (list ref)) -> list (obj * option (list ref)).
  Variable alive : obj -> bool.
  Variable anon_id : nat -> bytes.
  Variable handler : list dchange -> ret.
  Hypothesis handler_ok : forall l, (0 <= handler l)%Z.

  Theorem bounded h body e n : session w h body -> e_anon e = true -> e_size e = n -> Forall steady body ->
    modest w n (passed_header h ++ passed_body body) ->
    exists rs e' b s, w_run visit visit_refs alive w (WHeader h :: body) e = Some (rs, e') /\ Forall (eq COWL_OK) rs /\
      N.of_nat (List.length (ns_list e') + List.length (id_list e')) <= n + 5 /\
      (exists o, e_flush e' = Some o /\ waiting o <= n) /\
      e_out e' = e_out e ++ b /\ read_ontology w anon_id handler b = DRet tt s /\ (0 <= d_code s)%Z /\
      N.of_nat (List.length (d_ns s) + List.length (d_ids s)) <= n + 5.
  Proof.
    intros Se An Sz Sd [Md1 Md2].
    destruct (session_run w W visit visit_perm visit_refs alive anon_id handler handler_ok h body e Se An) as (ids & nss & rs & e1 & v & R & Fr & S1 & Rm & _).
    destruct (Sim_read w anon_id handler ids nss (header_prefixes h) (e_out e) _ _ e1 v S1) as (b & s & Eo & Rd & Ok & Sn & Si & _).
    exists rs, e1, b, s. split; [exact R|]. split; [exact Fr|].
    assert (K : G n 0 0 e1).
    { pose proof R as R'. cbn [w_run w_step] in R'. unfold ebind at 1 in R'. destruct (write_header visit w h e) as [[r2 e2]|] eqn:Y; [|discriminate].
      unfold ebind in R'. destruct (w_run visit visit_refs alive w body e2) as [[rs' e3]|] eqn:Z; [|discriminate]. cbv [eret] in R'. inversion R'; subst rs e1.
      pose proof (Forall_inv Fr) as F1. pose proof (Forall_inv_tail Fr) as F2. apply (header_G visit alive w n) in Y as [K S]; auto; [|apply Se|split; [exact Md1|]].
      - eapply run_G; [exact K|exact S|exact Sd|apply Se| |lia|exact Z|exact F2]. intros o l J. apply Md2. apply in_or_app. auto.
      - intros o l J. apply Md2. apply in_or_app. auto. }
    destruct K as (A & B & C & D & o & F & Wt & Ix). unfold nslen, idlen in *.
    split; [lia|]. split; [exists o; split; auto; lia|]. split; [exact Eo|]. split; [exact Rd|]. split; [unfold d_ok in Ok; lia|].
    rewrite Sn, Si. destruct S1 as (V1 & V2 & U1 & U2 & o' & S0). pose proof (si_index _ _ _ _ _ _ _ _ _ _ _ _ _ _ _ _ _ S0) as X.
    pose proof (t_list _ _ _ _ _ _ (xi_id _ _ _ _ _ _ _ _ _ _ _ X)) as T1. pose proof (t_list _ _ _ _ _ _ (xi_ns _ _ _ _ _ _ _ _ _ _ _ X)) as T2.
    unfold ns_list, id_list in B. rewrite T1, T2, !app_length in B. lia.
  Qed.

  Theorem bounded_size h body e n : session w h body -> e_anon e = true -> 0 < n -> Forall steady body ->
    modest w n (passed_header h ++ passed_body body) ->
    exists rs e' b s, w_run visit visit_refs alive w (WIndexSize n :: WHeader h :: body) e = Some (rs, e') /\ Forall (eq COWL_OK) rs /\
      N.of_nat (List.length (ns_list e') + List.length (id_list e')) <= n + 5 /\
      (exists o, e_flush e' = Some o /\ waiting o <= n) /\
      e_out e' = e_out e ++ b /\ read_ontology w anon_id handler b = DRet tt s /\ (0 <= d_code s)%Z /\
      N.of_nat (List.length (d_ns s) + List.length (d_ids s)) <= n + 5.
  Proof.
    intros Se An Pn Sd Md. set (e0 := mkEnc (e_index e) (e_flush e) (e_cur e) n (e_anon e) (n =? unbounded w) (e_state e) (e_out e)).
    destruct (bounded h body e0 n Se An eq_refl Sd Md) as (rs & e' & b & s & R & F & X). exists (COWL_OK :: rs), e', b, s.
    split; [|split; [constructor; auto|exact X]]. cbn [w_run w_step]. unfold set_index_size at 1. replace (n =? 0) with false by lia.
    fold e0. unfold ebind at 1. cbv zeta. fold e0. cbn [w_run w_step] in R. unfold ebind at 1. rewrite R. reflexivity.
  Qed.
End Top.
