(** A ProtocOWL writer whose index is large enough forgets nothing. *)

From Coq Require Import String NArith ZArith List Bool Lia Permutation.
From Coq Require Import ZifyBool ZifyNat ZifyN.
From Verif Require Import Bytes ModelTypes ModelObject ModelText SpecObject SpecText ProofObject ProofIter ProofText
  ModelPrefixMap ModelOntology ProofOntology ModelChange ModelPrtValue ModelPrtEncoder ModelPrtDecoder ModelPrtWriter SpecPrt SpecPrtStream SpecPrtBound
  ProofPrtValue ProofPrtRead ProofPrtAxiom ProofPrtIndex ProofPrtFrames ProofPrtFlush ProofPrtStream ProofPrtTop ProofPrtBound.
Import ListNotations.
Local Open Scope N_scope.
Ltac Zify.zify_post_hook ::= Z.div_mod_to_equations.

Definition HT {A} (eqb : A -> A -> bool) (P : A -> Prop) (m : imap A) : Prop := exists E V1 V2, table eqb P m E V1 V2.
Lemma HT_add {A} (eqb : A -> A -> bool) (P : A -> Prop) m x b : (forall a c, P a -> (eqb a c = true <-> a = c)) -> HT eqb P m -> P x ->
  HT eqb P (m_add eqb m x b) /\ In x (m_list (m_add eqb m x b)) /\ incl (m_list m) (m_list (m_add eqb m x b)) /\
  incl (m_list (m_add eqb m x b)) (x :: m_list m).
Proof.
  intros Eq (E & V1 & V2 & T) Px. destruct (in_cases eqb P Eq (E ++ V1 ++ V2) x (t_keys _ _ _ _ _ _ T)) as [I|I].
  - rewrite (m_add_present eqb P m x E V1 V2 b T I). split; [exists E, V1, V2; exact T|]. rewrite (t_list _ _ _ _ _ _ T).
    split; [exact I|]. split; [apply incl_refl|apply incl_tl, incl_refl].
  - destruct b.
    + destruct (m_add_first eqb P Eq m x E V1 V2 T Px I) as (V2' & Pm & T'). split; [do 3 eexists; exact T'|].
      rewrite (t_list _ _ _ _ _ _ T), (t_list _ _ _ _ _ _ T'). repeat split.
      * rewrite !in_app_iff. cbn. tauto.
      * intros y. rewrite !in_app_iff. intros [H|[H|H]]; auto. right. right. now apply (Permutation_in y Pm).
      * intros y. rewrite !in_app_iff. cbn. rewrite !in_app_iff. intros [H|[[H|[H|[]]]|H]]; auto.
        right. right. right. now apply (Permutation_in y (Permutation_sym Pm)).
    + pose proof (m_add_last eqb P Eq m x E V1 V2 T Px I) as T'. split; [do 3 eexists; exact T'|].
      rewrite (t_list _ _ _ _ _ _ T), (t_list _ _ _ _ _ _ T'). repeat split.
      * rewrite !in_app_iff. cbn. tauto.
      * intros y. rewrite !in_app_iff. tauto.
      * intros y. rewrite !in_app_iff. cbn. rewrite !in_app_iff. tauto.
Qed.
Lemma HT_sync {A} (eqb : A -> A -> bool) (P : A -> Prop) m : (forall a c, P a -> (eqb a c = true <-> a = c)) -> HT eqb P m -> HT eqb P (m_sync eqb m).
Proof. intros Eq (E & V1 & V2 & T). do 3 eexists. apply (m_sync_table eqb P Eq). exact T. Qed.
Lemma HT_nodup {A} (eqb : A -> A -> bool) (P : A -> Prop) m : HT eqb P m -> NoDup (m_list m).
Proof. intros (E & V1 & V2 & T). rewrite (t_list _ _ _ _ _ _ T). apply (t_nodup _ _ _ _ _ _ T). Qed.
Notation HTn := (HT bytes_eqb (fun _ => True)).
Notation HTi := (HT prim_eqb isprim).

Lemma prefix_kept x ns p : HTn (x_ns x) -> HTn (x_ns (x_add_prefix x ns p)) /\ x_id (x_add_prefix x ns p) = x_id x /\
  incl (m_list (x_ns (x_add_prefix x ns p))) (ns :: m_list (x_ns x)).
Proof.
  intros H. unfold x_add_prefix. destruct (idx_get bytes_eqb (m_idx (x_ns x)) ns); cbn [x_ns x_id].
  2,3: split; [exact H|split; [reflexivity|apply incl_tl, incl_refl]].
  destruct (HT_add bytes_eqb (fun _ => True) (x_ns x) ns (match p with Some _ => true | None => false end) bytes_eq H Logic.I) as (A & B & C & D).
  split; [exact A|]. split; [reflexivity|]. exact D.
Qed.
Lemma primitive_kept x p : HTn (x_ns x) -> HTi (x_id x) -> isprim p ->
  HTn (x_ns (x_add_primitive x p)) /\ HTi (x_id (x_add_primitive x p)) /\ In (ident p) (m_list (x_id (x_add_primitive x p))) /\
  incl (m_list (x_id x)) (m_list (x_id (x_add_primitive x p))) /\ incl (m_list (x_id (x_add_primitive x p))) (ident p :: m_list (x_id x)) /\
  (forall ns, In ns (m_list (x_ns (x_add_primitive x p))) -> In ns (m_list (x_ns x)) \/ exists rem, ident p = OIri ns rem).
Proof.
  intros Hn Hi (k & K). destruct (kind_ident p k K) as (k' & K').
  assert (Iri : forall ns rem, ident p = OIri ns rem -> get_iri p = Some (OIri ns rem) ->
    HTn (x_ns (x_add_primitive x p)) /\ HTi (x_id (x_add_primitive x p)) /\ In (ident p) (m_list (x_id (x_add_primitive x p))) /\
    incl (m_list (x_id x)) (m_list (x_id (x_add_primitive x p))) /\ incl (m_list (x_id (x_add_primitive x p))) (ident p :: m_list (x_id x)) /\
    (forall ns, In ns (m_list (x_ns (x_add_primitive x p))) -> In ns (m_list (x_ns x)) \/ exists rem, ident p = OIri ns rem)).
  { intros ns rem Ei Eg. unfold x_add_primitive. rewrite Eg. destruct (prefix_kept x ns None Hn) as (A & B & C). rewrite Ei in *. cbn [x_ns x_id]. rewrite B.
    destruct (HT_add prim_eqb isprim (x_id x) (OIri ns rem) true isprim_eq Hi (ex_intro _ _ K')) as (A' & B' & C' & D').
    split; [exact A|]. do 4 (split; [assumption|]). intros n H. destruct (C n H) as [<-|H']; eauto. }
  destruct p as [|ns rem|e ns rem|id|v ns rem|v l|o l|t fs opt n]; try discriminate K; try (eapply Iri; reflexivity).
  unfold x_add_primitive. cbn [get_iri ident x_ns x_id].
  destruct (HT_add prim_eqb isprim (x_id x) (OAnon id) false isprim_eq Hi (ex_intro _ _ K')) as (A' & B' & C' & D'). auto 10.
Qed.

Section Keep.
  Variable visit : tbl -> tbl.
  Hypothesis visit_perm : forall t, Permutation (visit t) t.
  Variable visit_refs : list (obj * option (list ref)) -> list (obj * option (list ref)).
  Variable alive : obj -> bool.
  Variable w : N.
  Variable n : N.
  Variable ids : list obj.
  Variable nss : list bytes.
  Hypothesis std : incl standard_namespaces nss.
  Hypothesis fit : N.of_nat (List.length ids + List.length nss) <= n + 5.

  Definition tabs (e : enc) : Prop := HTn (x_ns (e_index e)) /\ HTi (x_id (e_index e)).
  Definition calm {A} (m : E A) : Prop := forall e r e', m e = Some (r, e') -> tabs e -> tabs e'.
  Lemma calm_bind {A B} (m : E A) (k : A -> E B) : calm m -> (forall a, calm (k a)) -> calm (ebind m k).
  Proof. intros M K e r e' H. unfold ebind in H. destruct (m e) as [[a e1]|] eqn:X; [|discriminate]. intros T. eapply K; eauto. Qed.
  Lemma calm_seq {A B} (m : E A) (k : E B) : calm m -> calm k -> calm (eseq m k).
  Proof. intros M K. apply calm_bind; auto. Qed.
  Lemma calm_ret {A} (a : A) : calm (eret a). Proof. intros e r e' H. inversion H; subst. auto. Qed.
  Lemma calm_state : calm estate. Proof. intros e r e' H. inversion H; subst. auto. Qed.
  Lemma calm_emit f : calm (emit f).
  Proof. intros e r e' H. unfold emit in H. destruct (f e) as [[b x]|]; [|discriminate]. inversion H; subst. auto. Qed.
  Lemma calm_call m k : calm m -> calm k -> calm (ecall m k).
  Proof. intros M K. apply calm_bind; auto. intros r. destruct (r =? COWL_OK)%Z; auto using calm_ret. Qed.
  Lemma calm_unless {A} (l : list A) m : calm m -> calm (unless_empty l m).
  Proof. destruct l; cbn; auto using calm_ret. Qed.
  Lemma calm_data o : calm (encode_data w o).
  Proof.
    unfold encode_data. apply calm_call; [|apply calm_call; [|apply calm_call; [|apply calm_call; [|apply calm_call]]]].
    - unfold encode_ns_decls. intros e r e' H. cbv zeta in H. revert H. unfold eseq at 1, ebind at 1, upd. intros H [Tn Ti].
      eapply calm_seq; [| |exact H|].
      + apply calm_unless, calm_emit.
      + apply calm_seq; [apply calm_unless, calm_emit|apply calm_state].
      + split; [|exact Ti]. apply HT_sync; [exact bytes_eq|exact Tn].
    - unfold encode_id_decls. intros e r e' H. cbv zeta in H. revert H. unfold eseq at 1, ebind at 1, upd. intros H [Tn Ti].
      eapply calm_seq; [| |exact H|].
      + apply calm_unless, calm_emit.
      + apply calm_seq; [|apply calm_state]. destruct (e_anon e); [apply calm_unless, calm_emit|apply calm_ret].
      + split; [exact Tn|]. apply HT_sync; [exact isprim_eq|exact Ti].
    - unfold encode_iri_version. destruct (o_iri o); [apply calm_seq; auto using calm_emit, calm_state|apply calm_ret].
    - unfold encode_onto_imports. destruct (vec_data (o_imports o)); [apply calm_ret|apply calm_seq; auto using calm_emit, calm_state].
    - unfold encode_onto_annotations. destruct (vec_data (o_annot o)); [apply calm_ret|apply calm_seq; auto using calm_emit, calm_state].
    - unfold encode_onto_axioms. apply calm_seq; auto using calm_emit, calm_state.
  Qed.

  Definition J (e : enc) : Prop := e_size e = n /\ tabs e /\ incl (ns_list e) nss /\ incl (id_list e) ids.
  Lemma J_move e e' : J e -> e_size e' = e_size e -> tabs e' -> ns_list e' = ns_list e -> id_list e' = id_list e -> J e'.
  Proof. intros (A & B & C & D) S T N I. split; [congruence|]. split; [exact T|]. rewrite N, I. auto. Qed.
  Lemma flush_J e r e' : J e -> stream_flush w e = Some (r, e') -> J e' /\ id_list e' = id_list e.
  Proof.
    intros K H. unfold stream_flush in H. destruct (e_flush e) as [o|]; [|discriminate]. unfold eseq at 1, ebind at 1 in H.
    destruct (encode_data w o e) as [[r1 e1]|] eqn:Y; [|discriminate]. pose proof (quiet_data w o _ _ _ Y) as (Q1 & Q2 & Q3 & _). pose proof (calm_data o _ _ _ Y (proj1 (proj2 K))) as Tb.
    cbv [flush_state_empty eseq ebind upd estate] in H. inversion H; subst r e'. split; [|exact Q2]. eapply J_move; eauto.
  Qed.
  Lemma std_len : (5 <= List.length nss)%nat.
  Proof.
    change 5%nat with (List.length standard_namespaces). apply NoDup_incl_length; [|exact std].
    vm_compute. repeat constructor; cbn; intros Hx; repeat (destruct Hx as [Hx|Hx]; [discriminate|]); exact Hx.
  Qed.
  Lemma need_J e r e' : J e -> flush_if_needed w e = Some (r, e') -> J e' /\ r = e_state e' /\ id_list e' = id_list e.
  Proof.
    intros K H. pose proof K as (A & [Tn Ti] & C & D). unfold flush_if_needed, should_flush in H. cbv zeta in H.
    fold (ns_list e) in H. fold (id_list e) in H. unfold standard_prefix_count in H. rewrite A in H.
    pose proof (NoDup_incl_length (HT_nodup _ _ _ Tn) C) as L1. pose proof (NoDup_incl_length (HT_nodup _ _ _ Ti) D) as L2.
    fold (ns_list e) in L1. fold (id_list e) in L2. pose proof std_len as L3.
    set (count := N.of_nat (List.length (ns_list e) - 5) + N.of_nat (List.length (id_list e))) in *.
    assert (L : count mod 2 ^ w <= n). { transitivity count; [apply N.mod_le; apply N.pow_nonzero; lia|]. unfold count. lia. }
    destruct (n <? count mod 2 ^ w) eqn:O; [lia|]. unfold eseq at 1, ebind at 1 in H. destruct (n <? e_cur e) eqn:O2.
    - unfold eseq at 1, ebind at 1 in H. destruct (stream_flush w e) as [[r1 e1]|] eqn:Y; [|discriminate].
      apply flush_J in Y as [K1 I1]; auto. cbv [eret estate] in H. inversion H; subst r e'. auto.
    - cbv [eret estate] in H. inversion H; subst r e'. auto.
  Qed.

  (** A step that forgets nothing, unless it reports an error, and knows [l] afterwards. *)
  Definition U (m : E ret) (l : list obj) : Prop := forall e r e', J e -> e_state e = COWL_OK -> m e = Some (r, e') ->
    r = e_state e' /\ (r = COWL_OK -> J e' /\ incl (id_list e) (id_list e') /\ incl (map ident l) (id_list e')).
  Lemma U_call m k l l' : U m l -> U k l' -> U (ecall m k) (l ++ l').
  Proof.
    intros M K e r e' H S X. unfold ecall, ebind in X. destruct (m e) as [[r1 e1]|] eqn:Y; [|discriminate].
    destruct (M _ _ _ H S Y) as [-> H1]. destruct (e_state e1 =? COWL_OK)%Z eqn:Z.
    - apply Z.eqb_eq in Z. destruct (H1 Z) as (J1 & I1 & P1). destruct (K _ _ _ J1 Z X) as [-> H2]. split; auto. intros E.
      destruct (H2 E) as (J2 & I2 & P2). split; auto. split; [eauto using incl_tran|]. rewrite map_app. apply incl_app; eauto using incl_tran.
    - cbv [eret] in X. inversion X; subst. split; auto. intros E. apply Z.eqb_neq in Z. contradiction.
  Qed.
  Lemma U_ok : U (eret COWL_OK) [].
  Proof. intros e r e' H S X. inversion X; subst. repeat split; auto using incl_refl; try apply H. intros x []. Qed.
  Lemma U_state m l : U m l -> U (eseq m estate) l.
  Proof.
    intros M e r e' H S X. unfold eseq, ebind in X. destruct (m e) as [[r1 e1]|] eqn:Y; [|discriminate]. destruct (M _ _ _ H S Y) as [-> H1].
    cbv [estate] in X. inversion X; subst. auto.
  Qed.
  Lemma U_quiet {A} (m : E A) : quiet m -> calm m -> U (eseq m estate) [].
  Proof.
    intros M C e r e' H S X. unfold eseq, ebind in X. destruct (m e) as [[r1 e1]|] eqn:Y; [|discriminate]. pose proof (C _ _ _ Y) as T. apply M in Y as (Q1 & Q2 & Q3 & _).
    cbv [estate] in X. inversion X; subst. split; auto. intros _. split; [eapply J_move; eauto; apply T, H|]. rewrite Q2. split; [apply incl_refl|intros x []].
  Qed.

  Lemma U_prefixes l : (forall p ns, In (p, ns) l -> In (stx ns) nss) -> U (stream_prefix_loop w l) [].
  Proof.
    induction l as [|[p ns] l IH]; intros Hl; cbn [stream_prefix_loop]; [apply U_ok|].
    intros e r e' H S X. unfold ecall at 1, ebind at 1 in X. cbv [encoder_add_prefix eseq ebind upd estate] in X. cbn beta iota in X.
    cbn [e_state with_state] in X. rewrite Z.eqb_refl in X.
    set (e1 := with_state COWL_OK (with_index (x_add_prefix (e_index e) (stx ns) (Some (stx p))) e)) in X.
    assert (J1 : J e1 /\ id_list e1 = id_list e).
    { destruct H as (A & [Tn Ti] & C & D). destruct (prefix_kept (e_index e) (stx ns) (Some (stx p)) Tn) as (T1 & E1 & I1).
      unfold J, tabs, ns_list, id_list in *. cbn [e1 e_size e_index with_state with_index]. rewrite E1. repeat split; auto.
      eapply incl_tran; [exact I1|]. apply incl_cons; auto. apply (Hl p). now left. }
    destruct J1 as [J1 I1]. unfold ecall, ebind in X. destruct (flush_if_needed w e1) as [[r2 e2]|] eqn:Y; [|discriminate].
    apply need_J in Y as (J2 & -> & I2); auto. destruct (e_state e2 =? COWL_OK)%Z eqn:Z.
    - apply Z.eqb_eq in Z. destruct (IH (fun q m J => Hl q m (or_intror J)) e2 r e' J2 Z X) as [-> H3]. split; auto. intros E. destruct (H3 E) as (J3 & I3 & P3).
      split; auto. split; auto. rewrite <- I1, <- I2. exact I3.
    - cbv [eret] in X. inversion X; subst. split; auto. intros E. apply Z.eqb_neq in Z. contradiction.
  Qed.

  Definition known (p : obj) : Prop := isprim p /\ In (ident p) ids /\ forall ns rem, ident p = OIri ns rem -> In ns nss.
  Lemma step_J p e x : J e -> known p -> x = with_state COWL_OK (with_index (x_add_primitive (e_index e) p) e) ->
    J x /\ incl (id_list e) (id_list x) /\ In (ident p) (id_list x).
  Proof.
    intros (A & [Tn Ti] & C & D) (Pp & Ii & Nn) ->. destruct (primitive_kept (e_index e) p Tn Ti Pp) as (T1 & T2 & I1 & I2 & I3 & I4).
    unfold J, tabs, ns_list, id_list in *. cbn [e_size e_index with_state with_index]. repeat split; auto.
    - intros m H. destruct (I4 m H) as [H'|(rem & H')]; eauto.
    - eapply incl_tran; [exact I3|]. apply incl_cons; auto.
  Qed.
  Lemma add_primitive_J p e r e' : J e -> known p -> encoder_add_primitive p e = Some (r, e') ->
    J e' /\ incl (id_list e) (id_list e') /\ In (ident p) (id_list e') /\ r = COWL_OK.
  Proof.
    intros K Kp H. cbv [encoder_add_primitive eseq ebind upd estate] in H. inversion H; subst.
    destruct (step_J p e _ K Kp eq_refl) as (A & B & C). auto.
  Qed.
  Lemma adder_J mk x e r e' : J e -> adder w mk x e = Some (r, e') -> J e' /\ id_list e' = id_list e.
  Proof.
    intros K H. unfold adder in H. destruct (e_flush e) as [o|]; [|discriminate].
    destruct (o_step w o (mk x)) as [[[o' c] l]|]; [|discriminate]. inversion H; subst. split; [|reflexivity]. eapply J_move; eauto. apply K.
  Qed.
  Lemma U_iri_version iri version : (forall x, In x (opt_list iri ++ opt_list version) -> known (r_obj x)) -> (version <> None -> iri <> None) ->
    U (stream_iri_version w iri version) (map r_obj (opt_list iri ++ opt_list version)).
  Proof.
    intros Kn Vi e r e' H S X. unfold stream_iri_version in X. unfold eseq at 1 in X. unfold ebind at 1 in X.
    match type of X with match ?m e with _ => _ end = _ => destruct (m e) as [[r1 e1]|] eqn:Y; [|discriminate] end.
    assert (G1 : J e1 /\ incl (id_list e) (id_list e1) /\ incl (map ident (map r_obj (opt_list iri ++ opt_list version))) (id_list e1)).
    { destruct iri as [i|].
      2: { destruct version as [v|]; [now destruct Vi|]. cbv [eret] in Y. inversion Y; subst. split; auto. split; [apply incl_refl|intros x []]. }
      unfold eseq at 1, ebind at 1 in Y. destruct (adder w (fun r0 => ESetIri (Some r0)) i e) as [[r2 e2]|] eqn:Y2; [|discriminate].
      apply adder_J in Y2 as (J2 & E2); auto.
      unfold ecall, ebind in Y. destruct (encoder_add_primitive (r_obj i) e2) as [[r3 e3]|] eqn:Y3; [|discriminate].
      apply add_primitive_J in Y3 as (J3 & I3 & P3 & ->); auto; [|apply Kn; now left]. rewrite Z.eqb_refl in Y. rewrite E2 in I3.
      destruct version as [v|].
      2: { cbv [eret] in Y; inversion Y; subst. split; auto. split; auto. intros x [<-|[]]. exact P3. }
      unfold eseq, ebind in Y. destruct (adder w (fun r0 => ESetVersion (Some r0)) v e3) as [[r4 e4]|] eqn:Y4; [|discriminate].
      apply adder_J in Y4 as (J4 & E4); auto. apply add_primitive_J in Y as (J5 & I5 & P5 & _); auto; [|apply Kn; right; now left].
      rewrite E4 in I5. split; auto. split; [eauto using incl_tran|]. intros x [<-|[<-|[]]]; auto. }
    destruct G1 as (J1 & I1 & P1). apply need_J in X as (J2 & -> & I2); auto. split; auto. intros _. rewrite I2. auto.
  Qed.

  Lemma iterate_J l : (forall p, In p l -> known p) -> forall e, J e -> let x := fold_left (fun s p => fst (for_each_primitive s p)) l e in
    J x /\ incl (id_list e) (id_list x) /\ incl (map ident l) (id_list x).
  Proof.
    induction l as [|p l IH]; intros Kn e H; cbn [fold_left map].
    - split; auto. split; [apply incl_refl|intros x []].
    - destruct (step_J p e _ H (Kn p (or_introl eq_refl)) eq_refl) as (A & B & C).
      destruct (IH (fun q Q => Kn q (or_intror Q)) _ A) as (A' & B' & C'). cbn [for_each_primitive fst]. split; [exact A'|]. split; [eauto using incl_tran|].
      apply incl_cons; auto.
  Qed.
  Lemma U_add mk a : well_formed (r_obj a) -> (forall p, In p (occ (r_obj a)) -> known p) -> U (stream_add w mk a) (occ (r_obj a)).
  Proof.
    intros Wf Kn e r e' H S X. unfold stream_add in X. unfold ecall at 1, ebind at 1 in X.
    rewrite (ProofOntology.iterate_fold (r_obj a) for_each_primitive e Wf) in X by reflexivity. cbn [of_ires] in X. rewrite Z.eqb_refl in X.
    destruct (iterate_J (occ (r_obj a)) Kn e H) as (J1 & I1 & P1). set (e1 := fold_left _ _ _) in *. cbv zeta in *.
    unfold ecall, ebind in X. destruct (adder w mk a e1) as [[r2 e2]|] eqn:Y; [|discriminate].
    apply adder_J in Y as (J2 & E2); auto. cbv [eseq ebind upd estate] in X. cbn [e_state with_state] in X.
    destruct (r2 =? COWL_OK)%Z eqn:Z.
    - apply Z.eqb_eq in Z. subst r2.
      match type of X with flush_if_needed w ?y = _ => set (e3 := y) in X end.
      assert (J3 : J e3) by (eapply J_move; [exact J2| | | |]; try reflexivity; apply J2).
      apply need_J in X as (J4 & -> & I4); auto. split; auto. intros _. split; auto. rewrite I4. change (id_list e3) with (id_list e2). rewrite E2. auto.
    - cbv [eret] in X. inversion X; subst r e'. apply Z.eqb_neq in Z. split; [reflexivity|intros E; contradiction].
  Qed.
  Lemma U_adds mk l : (forall a, In a l -> well_formed (r_obj a)) -> (forall a p, In a l -> In p (occ (r_obj a)) -> known p) ->
    U (stream_adds w mk l) (flat_map (fun a => occ (r_obj a)) l).
  Proof.
    induction l as [|a l IH]; intros Hw Hk; cbn [stream_adds flat_map]; [apply U_ok|].
    apply U_call; [apply U_add; eauto using in_eq|]. apply IH; eauto using in_cons.
  Qed.

  Lemma header_J h e r e' : e_size e = n -> header_ok w h -> (forall p ns, In (p, ns) (header_prefixes h) -> In ns nss) ->
    (forall o p, In o (passed_header h) -> In p (occ o) -> known p) -> write_header visit w h e = Some (r, e') -> r = COWL_OK ->
    J e' /\ e_state e' = COWL_OK /\ forall o p, In o (passed_header h) -> In p (occ o) -> In (ident p) (id_list e').
  Proof.
    intros Sz HO Hp Kn X E. unfold write_header in X. unfold eseq at 1 in X. unfold ebind at 1 in X.
    match type of X with match ?m e with _ => _ end = _ => destruct (m e) as [[r1 e1]|] eqn:Y; [|discriminate] end.
    cbv [estate] in X. inversion X; subst r e'. unfold ecall at 1, ebind at 1 in Y.
    destruct (encoder_reset true e) as [[r2 e2]|] eqn:R; [|discriminate].
    assert (J2 : J e2 /\ r2 = COWL_OK /\ e_state e2 = COWL_OK).
    { cbv [encoder_reset eseq ebind upd eret flush_state_empty estate] in R. inversion R; subst. split; [|split; reflexivity].
      split; [exact Sz|]. split; [split|split].
      - cbn [e_index with_index with_state with_flush with_cur]. exists std_list, [], [].
        refine (xi_ns _ _ _ _ _ _ _ _ _ _ _ (std_init 64 (or_intror eq_refl) [] standard_namespaces [] _ _ (incl_refl _) _ _ [])); [vm_compute; reflexivity|vm_compute; reflexivity|intros ? ? []|intros ? ? []].
      - cbn [e_index with_index with_state with_flush with_cur]. exists [], [], []. apply table_empty.
      - intros ns Hn. apply std, std_same. exact Hn.
      - intros x []. }
    destruct J2 as (J2 & -> & S2). rewrite Z.eqb_refl in Y.
    assert (Kh : forall x, In x (opt_list (h_iri h) ++ opt_list (h_version h) ++ h_imports h) -> occ (r_obj x) = [r_obj x] /\ well_formed (r_obj x)).
    { intros x J. destruct (ho_iri _ _ HO x J) as (ns & rem & ->). split; [reflexivity|exists (SOne SIri); reflexivity]. }
    assert (Kf : forall x, In x (opt_list (h_iri h) ++ opt_list (h_version h) ++ h_imports h ++ h_annot h) -> forall p, In p (occ (r_obj x)) -> known p).
    { intros x J p Q. apply (Kn (r_obj x)); auto. unfold passed_header. now apply in_map. }
    assert (HU : U (ecall encode_protocol_version (ecall (stream_prefixes visit w (h_pm h)) (ecall (stream_iri_version w (h_iri h) (h_version h))
       (ecall (stream_adds w EAddImport (h_imports h)) (stream_adds w EAddAnnot (h_annot h))))))
       ([] ++ [] ++ map r_obj (opt_list (h_iri h) ++ opt_list (h_version h)) ++ flat_map (fun a => occ (r_obj a)) (h_imports h) ++ flat_map (fun a => occ (r_obj a)) (h_annot h))).
    { apply U_call; [apply U_quiet; [apply quiet_emit|apply calm_emit]|]. apply U_call.
      { unfold stream_prefixes. unfold header_prefixes in Hp. destruct (h_pm h) as [t|]; [|apply U_ok]. apply U_state, U_prefixes. intros p ns Q.
        apply (Hp (stx p)). apply in_map_iff. exists (p, ns). split; auto. apply (Permutation_in _ (visit_perm t)). exact Q. }
      apply U_call; [|apply U_call].
      - apply U_iri_version; [|apply HO]. intros x J. apply (Kf x); [rewrite !in_app_iff in *; tauto|]. destruct (Kh x) as [-> _]; [rewrite !in_app_iff in *; tauto|now left].
      - apply U_adds; [intros a J; apply Kh; rewrite !in_app_iff; auto|]. intros a p J. apply Kf. rewrite !in_app_iff. auto.
      - apply U_adds; [|intros a p J; apply Kf; rewrite !in_app_iff; auto]. intros a J. destruct (ho_annot _ _ HO a J) as [Wt _]. eexists. exact Wt. }
    destruct (HU _ _ _ J2 S2 Y) as [-> K]. destruct (K H0) as (J3 & _ & P3). split; auto. split; auto. intros o p J Q. apply P3. apply in_map. cbn [app].
    unfold passed_header in J. apply in_map_iff in J as (x & <- & J). rewrite !in_app_iff in *.
    destruct J as [J|[J|[J|J]]].
    - left. destruct (Kh x) as [Eo _]; [rewrite !in_app_iff; auto|]. rewrite Eo in Q. destruct Q as [<-|[]]. apply in_map. apply in_or_app. auto.
    - left. destruct (Kh x) as [Eo _]; [rewrite !in_app_iff; auto|]. rewrite Eo in Q. destruct Q as [<-|[]]. apply in_map. apply in_or_app. auto.
    - right. left. apply in_flat_map. eauto.
    - right. right. apply in_flat_map. eauto.
  Qed.

  Lemma call_J c e r e' : J e -> e_state e = COWL_OK -> steady c -> no_reset c -> call_ok w c -> (forall o p, In o (passed_body [c]) -> In p (occ o) -> known p) ->
    w_step visit visit_refs alive w c e = Some (r, e') -> r = COWL_OK ->
    J e' /\ e_state e' = COWL_OK /\ incl (id_list e) (id_list e') /\ forall o p, In o (passed_body [c]) -> In p (occ o) -> In (ident p) (id_list e').
  Proof.
    intros K S Sd Nr Ok Kn X E. destruct c as [h|a| |t|p|o|m|b]; try contradiction; cbn [w_step] in X.
    - destruct Ok as [Ax _]. assert (UU : U (stream_add w EAddAxiom a) (occ (r_obj a))).
      { apply U_add; [now apply axiom_wf|]. intros p Q. apply (Kn (r_obj a)); auto. now left. }
      destruct (UU _ _ _ K S X) as [E' K']. destruct (K' E) as (J1 & I1 & P1). split; auto. split; [congruence|]. split; auto.
      intros o p [<-|[]] Q. apply P1. now apply in_map.
    - unfold write_change_frame in X. unfold eseq at 1, ebind at 1 in X. destruct (stream_flush w e) as [[r1 e1]|] eqn:Y; [|discriminate].
      apply flush_J in Y as (K1 & I1); auto. unfold write_ctrl_frame in X. unfold eseq, ebind in X. destruct (emit _ e1) as [[u e2]|] eqn:Z; [|discriminate].
      pose proof (calm_emit _ _ _ _ Z) as C. apply quiet_emit in Z as (Q1 & Q2 & Q3 & _). cbv [estate] in X. inversion X; subst r e'.
      split; [eapply J_move; eauto; apply C, K1|]. split; [congruence|]. rewrite Q2, I1. split; [apply incl_refl|intros o p []].
  Qed.

  Lemma run_J body : forall e rs e', J e -> e_state e = COWL_OK -> Forall steady body -> Forall no_reset body -> Forall (call_ok w) body ->
    (forall o p, In o (passed_body body) -> In p (occ o) -> known p) ->
    w_run visit visit_refs alive w body e = Some (rs, e') -> Forall (eq COWL_OK) rs ->
    J e' /\ incl (id_list e) (id_list e') /\ forall o p, In o (passed_body body) -> In p (occ o) -> In (ident p) (id_list e').
  Proof.
    induction body as [|c body IH]; intros e rs e' K S Sd Nr Ok Kn X F; cbn [w_run] in X.
    - cbv [eret] in X. inversion X; subst. split; auto. split; [apply incl_refl|intros o p []].
    - unfold ebind at 1 in X. destruct (w_step visit visit_refs alive w c e) as [[r e1]|] eqn:Y; [|discriminate].
      unfold ebind in X. destruct (w_run visit visit_refs alive w body e1) as [[rs' e2]|] eqn:Z; [|discriminate].
      cbv [eret] in X. inversion X; subst rs e'. inversion F; subst. inversion Sd; subst. inversion Nr; subst. inversion Ok; subst.
      assert (Ap : forall o, In o (passed_body (c :: body)) <-> In o (passed_body [c]) \/ In o (passed_body body)).
      { intros o. unfold passed_body. cbn [flat_map]. rewrite app_nil_r. apply in_app_iff. }
      apply call_J in Y as (K1 & S1 & I1 & P1); auto; [|intros o p J; apply Kn, Ap; auto].
      destruct (IH e1 rs' e2) as (K2 & I2 & P2); auto; [intros o p J; apply Kn, Ap; auto|].
      split; auto. split; [eauto using incl_tran|]. intros o p J Q. apply Ap in J as [J|J]; eauto.
  Qed.
End Keep.

Section Top.
  Variable w : N.
  Hypothesis W : width w.
  Variable visit : tbl -> tbl.
  Hypothesis visit_perm : forall t, Permutation (visit t) t.
  Variable visit_refs : list (obj * option (list ref)) -> list (obj * option (list ref)).
  Variable alive : obj -> bool.
  Variable anon_id : nat -> bytes.
  Variable handler : list dchange -> ret.
  Hypothesis handler_ok : forall l, (0 <= handler l)%Z.

  Theorem nothing_forgotten h body t e : session w h body -> e_anon e = true -> Forall steady body -> Forall no_reset body ->
    enough (e_size e) (header_prefixes h) (passed_header h ++ passed_body body) ->
    exists rs e' b s, w_run visit visit_refs alive w ((WHeader h :: body) ++ [WChange t]) e = Some (rs, e') /\ Forall (eq COWL_OK) rs /\
      e_out e' = e_out e ++ b /\ read_ontology w anon_id handler b = DRet tt s /\ (0 <= d_code s)%Z /\
      NoDup (d_ids s) /\ forall o p, In o (passed_header h ++ passed_body body) -> mentions p o -> In (ident p) (d_ids s).
  Proof.
    intros Se An Sd Nr (ids & nss & Hs & Hp & Hm & L).
    destruct (session_run w W visit visit_perm visit_refs alive anon_id handler handler_ok h body e Se An) as (ids0 & nss0 & rs & e1 & v & R & Fr & S1 & Rm & Li & Ln & Hs0 & Hp0).
    destruct (change_frame_ok w W visit anon_id handler handler_ok ids0 nss0 (header_prefixes h) Li Ln Hp0 (ho_prefix _ _ (se_header _ _ _ Se)) (e_out e) visit_refs alive t _ _ e1 v S1)
      as (e2 & v2 & R2 & S2 & Rm2 & Hn & Hi & Ln2 & Li2).
    { apply (ro_changes _ _ _ _ (se_room _ _ _ Se)). }
    destruct (Sim_read w anon_id handler ids0 nss0 (header_prefixes h) (e_out e) _ _ e2 v2 S2) as (b & s & Eo & Rd & Ok & Sn & Si & _).
    exists (rs ++ [COWL_OK]), e2, b, s. split.
    { erewrite w_run_app; [|exact R]. cbn [w_run]. erewrite ebind_ok; [|exact R2]. reflexivity. }
    split; [apply Forall_app; auto|]. split; [exact Eo|]. split; [exact Rd|]. split; [unfold d_ok in Ok; lia|].
    assert (Ed : d_ids s = id_list e1) by congruence.
    assert (Kn : forall o p, In o (passed_header h ++ passed_body body) -> In p (occ o) -> known ids nss p).
    { intros o p Ho Q. pose proof (occ_prims o) as F. rewrite Forall_forall in F. destruct (Hm o p Ho) as [A B]; [apply mentions_occ; split; [now apply F|auto]|]. split; [now apply F|]. auto. }
    cbn [w_run w_step] in R. unfold ebind at 1 in R. destruct (write_header visit w h e) as [[r3 e3]|] eqn:Y; [|discriminate].
    unfold ebind in R. destruct (w_run visit visit_refs alive w body e3) as [[rs' e4]|] eqn:Z; [|discriminate]. cbv [eret] in R. inversion R; subst rs e4.
    pose proof (Forall_inv Fr) as F1. pose proof (Forall_inv_tail Fr) as F2.
    destruct (header_J visit visit_perm w (e_size e) ids nss Hs L h e r3 e3) as (J3 & S3 & P3); auto; [apply Se|intros o p J; apply Kn, in_or_app; auto|].
    destruct (run_J visit visit_refs alive w (e_size e) ids nss Hs L body e3 rs' e1) as (J4 & I4 & P4); auto; [apply Se|intros o p J; apply Kn, in_or_app; auto|].
    rewrite Ed. split; [apply (HT_nodup prim_eqb isprim); apply J4|]. intros o p Ho M. apply mentions_occ in M as [_ M]. apply in_app_or in Ho as [Ho|Ho]; eauto.
  Qed.

  Theorem nothing_forgotten_size h body t e n : session w h body -> e_anon e = true -> 0 < n -> Forall steady body -> Forall no_reset body ->
    enough n (header_prefixes h) (passed_header h ++ passed_body body) ->
    exists rs e' b s, w_run visit visit_refs alive w (WIndexSize n :: (WHeader h :: body) ++ [WChange t]) e = Some (rs, e') /\ Forall (eq COWL_OK) rs /\
      e_out e' = e_out e ++ b /\ read_ontology w anon_id handler b = DRet tt s /\ (0 <= d_code s)%Z /\
      NoDup (d_ids s) /\ forall o p, In o (passed_header h ++ passed_body body) -> mentions p o -> In (ident p) (d_ids s).
  Proof.
    intros Se An Pn Sd Nr En. set (e0 := mkEnc (e_index e) (e_flush e) (e_cur e) n (e_anon e) (n =? unbounded w) (e_state e) (e_out e)).
    destruct (nothing_forgotten h body t e0 Se An Sd Nr En) as (rs & e' & b & s & R & F & X). exists (COWL_OK :: rs), e', b, s.
    split; [|split; [constructor; auto|exact X]]. cbn [app w_run w_step]. unfold set_index_size at 1. replace (n =? 0) with false by lia.
    unfold ebind at 1. cbv zeta. fold e0. cbn [app w_run w_step] in R. unfold ebind at 1. rewrite R. reflexivity.
  Qed.
End Top.
