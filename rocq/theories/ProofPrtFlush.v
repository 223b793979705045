(** What the ProtocOWL writer emits for its index tables and for a set of ontology components, and how the
    reader takes it. *)

From Coq Require Import String NArith ZArith List Bool Lia Permutation.
From Coq Require Import ZifyBool ZifyNat ZifyN.
From Verif Require Import Bytes ModelTypes ModelObject ModelText SpecObject SpecText ProofObject ProofIter ProofText
  ModelPrefixMap ModelOntology ModelChange ModelPrtValue ModelPrtEncoder ModelPrtDecoder ModelPrtWriter SpecPrt SpecPrtStream
  ProofPrtValue ProofPrtRead ProofPrtAxiom ProofPrtIndex ProofPrtFrames.
Import ListNotations.
Local Open Scope N_scope.
Ltac Zify.zify_post_hook ::= Z.div_mod_to_equations.

(** * The writer's monad *)

Lemma ecall_ok m k e e' : m e = Some (COWL_OK, e') -> ecall m k e = k e'.
Proof. intros H. unfold ecall, ebind. now rewrite H. Qed.
Lemma eseq_ok {A B} (m : E A) (k : E B) a e e' : m e = Some (a, e') -> eseq m k e = k e'.
Proof. intros H. unfold eseq, ebind. now rewrite H. Qed.
Lemma ebind_ok {A B} (m : E A) (k : A -> E B) a e e' : m e = Some (a, e') -> ebind m k e = k a e'.
Proof. intros H. unfold ebind. now rewrite H. Qed.

(** [e] with another index and more output. *)
Definition e_to (e : enc) (x : prt_index) (b : bytes) : enc :=
  mkEnc x (e_flush e) (e_cur e) (e_size e) (e_anon e) (e_store e) (e_state e) (e_out e ++ b).
Lemma e_to_to e x b x' b' : e_to (e_to e x b) x' b' = e_to e x' (b ++ b').
Proof. unfold e_to. cbn. now rewrite app_assoc. Qed.
Lemma e_to_self e : e_to e (e_index e) [] = e.
Proof. destruct e. unfold e_to. cbn. now rewrite app_nil_r. Qed.
Lemma emit_ok f e b : f e = Some (b, false) -> emit f e = Some (tt, e_to e (e_index e) b).
Proof. intros H. unfold emit. rewrite H. reflexivity. Qed.

Lemma kind_ident p k : kind p = Some k -> exists k', kind (ident p) = Some k'.
Proof. destruct p as [|ns rem|e ns rem|id|v ns rem|v l|o l|t fs opt n]; try discriminate; cbn; eauto. Qed.
Definition isprim (p : obj) : Prop := exists k, kind p = Some k.
Lemma isprim_eq x y : isprim x -> (prim_eqb x y = true <-> x = y).
Proof. intros (k & K). rewrite (prim_eqb_eq x y k K). split; congruence. Qed.
Lemma bytes_eq x y : True -> (bytes_eqb x y = true <-> x = y).
Proof. intros _. apply bytes_eqb_eq. Qed.

Definition an_anon (o : obj) : Prop := exists id, o = OAnon id.

Section Flush.
  Variable w : N.
  Hypothesis W : width w.
  Variable anon_id : nat -> bytes.
  Variable handler : list dchange -> ret.
  Hypothesis handler_ok : forall l, (0 <= handler l)%Z.
  (** All identifiers, namespaces and prefixes. *)
  Variable ids_all : list obj.
  Variable nss_all : list bytes.
  Variable req : list (bytes * bytes).
  Hypothesis ids_room : N.of_nat (List.length ids_all) + 17 < 2 ^ w.
  Hypothesis nss_room : N.of_nat (List.length nss_all) < 2 ^ w.
  Hypothesis req_fits : forall p ns, In (p, ns) req -> fits w p /\ fits w ns.

  Notation ns_table := (table bytes_eqb (fun _ => True)).
  Notation id_table := (table prim_eqb isprim).
  Notation eats := (eats w anon_id handler).

  (** An identifier that can be declared. *)
  Definition idok (p : obj) : Prop :=
    In p ids_all /\ ((exists ns rem, p = OIri ns rem /\ iri_of_parts ns rem = (ns, rem) /\ fits w rem) \/ (exists id, p = OAnon id /\ fits w id)).
  Definition nsok (ns : bytes) : Prop := In ns nss_all /\ fits w ns.

  Record index_inv (x : prt_index) (E1 V1 V2 : list bytes) (E2 U1 U2 : list obj) : Prop := {
    xi_ns : ns_table (x_ns x) E1 V1 V2;
    xi_id : id_table (x_id x) E2 U1 U2;
    xi_prefix : forall ns, In ns V1 -> exists p, x_get_prefix (x_prefix x) ns = Some p /\ In (p, ns) req;
    xi_u1 : Forall an_iri U1;
    xi_u2 : Forall an_anon U2;
    xi_ids : Forall idok (E2 ++ U1 ++ U2);
    xi_nss : Forall nsok (E1 ++ V1 ++ V2);
    xi_iri : forall ns rem, In (OIri ns rem) (E2 ++ U1 ++ U2) -> In ns (E1 ++ V1 ++ V2)
  }.

  Lemma nodup_bound {A} (l m : list A) : NoDup l -> (forall x, In x l -> In x m) -> (List.length l <= List.length m)%nat.
  Proof. intros Nd I. apply NoDup_incl_length; auto. Qed.

  Lemma ids_count x E1 V1 V2 E2 U1 U2 : index_inv x E1 V1 V2 E2 U1 U2 -> N.of_nat (List.length (E2 ++ U1 ++ U2)) + 17 < 2 ^ w.
  Proof.
    intros X. assert (List.length (E2 ++ U1 ++ U2) <= List.length ids_all)%nat.
    { apply nodup_bound; [apply (t_nodup _ _ _ _ _ _ (xi_id _ _ _ _ _ _ _ X))|].
      intros p I. pose proof (xi_ids _ _ _ _ _ _ _ X) as F. rewrite Forall_forall in F. now destruct (F p I). }
    lia.
  Qed.
  Lemma nss_count x E1 V1 V2 E2 U1 U2 : index_inv x E1 V1 V2 E2 U1 U2 -> N.of_nat (List.length (E1 ++ V1 ++ V2)) < 2 ^ w.
  Proof.
    intros X. assert (List.length (E1 ++ V1 ++ V2) <= List.length nss_all)%nat.
    { apply nodup_bound; [apply (t_nodup _ _ _ _ _ _ (xi_ns _ _ _ _ _ _ _ X))|].
      intros p I. pose proof (xi_nss _ _ _ _ _ _ _ X) as F. rewrite Forall_forall in F. now destruct (F p I). }
    lia.
  Qed.

  (** Adding to the tables. *)
  Lemma x_add_ns_inv x E1 V1 V2 E2 U1 U2 ns : index_inv x E1 V1 V2 E2 U1 U2 -> nsok ns ->
    exists V2', index_inv (x_add_prefix x ns None) E1 V1 V2' E2 U1 U2 /\ x_id (x_add_prefix x ns None) = x_id x /\
      In ns (E1 ++ V1 ++ V2') /\ incl (E1 ++ V1 ++ V2) (E1 ++ V1 ++ V2').
  Proof.
    intros X K. pose proof (xi_ns _ _ _ _ _ _ _ X) as T. unfold x_add_prefix.
    destruct (in_cases bytes_eqb (fun _ => True) bytes_eq (E1 ++ V1 ++ V2) ns) as [I|I]; [apply (t_keys _ _ _ _ _ _ T)| |].
    - destruct (idx_get bytes_eqb (m_idx (x_ns x)) ns) eqn:Ei; [now apply (t_missing _ _ _ _ _ _ T) in Ei| |];
        exists V2; repeat split; auto using incl_refl; apply X.
    - rewrite (proj2 (t_missing _ _ _ _ _ _ T ns) I). exists (V2 ++ [ns]). cbn [x_id].
      assert (Inc : incl (E1 ++ V1 ++ V2) (E1 ++ V1 ++ V2 ++ [ns])).
      { intros y. rewrite !in_app_iff. tauto. }
      split; [|split; [auto|split; [rewrite !in_app_iff; cbn; tauto|exact Inc]]].
      constructor; cbn [x_ns x_prefix x_id]; try apply X.
      + now apply (m_add_last bytes_eqb (fun _ => True) bytes_eq).
      + pose proof (xi_nss _ _ _ _ _ _ _ X) as F. rewrite !Forall_app in *. intuition.
      + intros n r H. apply Inc. now apply (xi_iri _ _ _ _ _ _ _ X) in H.
  Qed.

  Lemma x_add_primitive_inv x E1 V1 V2 E2 U1 U2 p : index_inv x E1 V1 V2 E2 U1 U2 -> isprim p -> idok (ident p) ->
    (forall ns rem, ident p = OIri ns rem -> nsok ns) ->
    exists V2' U1' U2', index_inv (x_add_primitive x p) E1 V1 V2' E2 U1' U2' /\ In (ident p) (E2 ++ U1' ++ U2') /\
      incl (E2 ++ U1 ++ U2) (E2 ++ U1' ++ U2') /\ incl (E1 ++ V1 ++ V2) (E1 ++ V1 ++ V2').
  Proof.
    intros X (k & K) Io No.
    assert (Iri : forall ns rem, ident p = OIri ns rem -> get_iri p = Some (OIri ns rem) ->
      exists V2' U1' U2', index_inv (x_add_primitive x p) E1 V1 V2' E2 U1' U2' /\ In (ident p) (E2 ++ U1' ++ U2') /\
        incl (E2 ++ U1 ++ U2) (E2 ++ U1' ++ U2') /\ incl (E1 ++ V1 ++ V2) (E1 ++ V1 ++ V2')).
    { intros ns rem Hi Hg. unfold x_add_primitive. rewrite Hg, Hi. specialize (No ns rem Hi). rewrite Hi in Io.
      destruct (x_add_ns_inv x E1 V1 V2 E2 U1 U2 ns X No) as (V2' & X' & Eid & In' & Inc). exists V2'.
      pose proof (xi_id _ _ _ _ _ _ _ X') as T.
      destruct (in_cases prim_eqb isprim isprim_eq (E2 ++ U1 ++ U2) (OIri ns rem)) as [I|I]; [apply (t_keys _ _ _ _ _ _ T)| |].
      - exists U1, U2. rewrite (m_add_present prim_eqb isprim _ _ _ _ _ true T I).
        split; [|split; [exact I|split; [apply incl_refl|exact Inc]]]. destruct (x_add_prefix x ns None). exact X'.
      - assert (Px : isprim (OIri ns rem)) by (eexists; reflexivity).
        destruct (m_add_first prim_eqb isprim isprim_eq _ (OIri ns rem) E2 U1 U2 T Px I) as (U2' & Pm & T').
        assert (Inc2 : incl (E2 ++ U1 ++ U2) (E2 ++ (U1 ++ [OIri ns rem]) ++ U2')).
        { intros y. rewrite !in_app_iff. intros [H|[H|H]]; auto. right. right. now apply (Permutation_in y Pm). }
        exists (U1 ++ [OIri ns rem]), U2'. split; [|split; [rewrite !in_app_iff; cbn; tauto|split; [exact Inc2|exact Inc]]].
        constructor; cbn [x_ns x_prefix x_id]; try apply X'.
        + exact T'.
        + apply Forall_app. split; [apply (xi_u1 _ _ _ _ _ _ _ X)|]. constructor; [|constructor]. do 2 eexists; reflexivity.
        + eapply Permutation_Forall; [exact Pm|]. apply (xi_u2 _ _ _ _ _ _ _ X).
        + pose proof (xi_ids _ _ _ _ _ _ _ X) as F. rewrite !Forall_app in *. destruct F as (F1 & F2 & F3).
          repeat split; auto. eapply Permutation_Forall; eauto.
        + intros n r H. rewrite !in_app_iff in H. destruct H as [H|[[H|[H|[]]]|H]].
          * apply Inc. apply (xi_iri _ _ _ _ _ _ _ X n r). rewrite !in_app_iff. auto.
          * apply Inc. apply (xi_iri _ _ _ _ _ _ _ X n r). rewrite !in_app_iff. auto.
          * inversion H; subst. exact In'.
          * apply Inc. apply (xi_iri _ _ _ _ _ _ _ X n r). rewrite !in_app_iff. right. right.
            apply (Permutation_in _ (Permutation_sym Pm)). exact H. }
    destruct p as [|ns rem|e ns rem|id|v ns rem|v l|o l|t fs opt n]; try discriminate K.
    - apply (Iri ns rem); reflexivity.
    - apply (Iri ns rem); reflexivity.
    - unfold x_add_primitive. cbn [get_iri ident]. exists V2. pose proof (xi_id _ _ _ _ _ _ _ X) as T.
      destruct (in_cases prim_eqb isprim isprim_eq (E2 ++ U1 ++ U2) (OAnon id)) as [I|I]; [apply (t_keys _ _ _ _ _ _ T)| |].
      + exists U1, U2. rewrite (m_add_present prim_eqb isprim _ _ _ _ _ false T I).
        split; [|split; [exact I|split; apply incl_refl]]. destruct x. exact X.
      + assert (Px : isprim (OAnon id)) by (eexists; reflexivity).
        pose proof (m_add_last prim_eqb isprim isprim_eq _ (OAnon id) E2 U1 U2 T Px I) as T'.
        assert (Inc2 : incl (E2 ++ U1 ++ U2) (E2 ++ U1 ++ U2 ++ [OAnon id])).
        { intros y. rewrite !in_app_iff. tauto. }
        exists U1, (U2 ++ [OAnon id]). split; [|split; [rewrite !in_app_iff; cbn; tauto|split; [exact Inc2|apply incl_refl]]].
        constructor; cbn [x_ns x_prefix x_id]; try apply X.
        * exact T'.
        * apply Forall_app. split; [apply (xi_u2 _ _ _ _ _ _ _ X)|]. constructor; [|constructor]. eexists; reflexivity.
        * pose proof (xi_ids _ _ _ _ _ _ _ X) as F. rewrite !Forall_app in *. intuition.
        * intros n r H. apply (xi_iri _ _ _ _ _ _ _ X n r). rewrite !in_app_iff in *. cbn in H. intuition; discriminate.
  Qed.

  Lemma x_add_prefix_inv x E1 V1 E2 U1 U2 p ns : index_inv x E1 V1 [] E2 U1 U2 -> nsok ns -> In (p, ns) req ->
    exists V1', index_inv (x_add_prefix x ns (Some p)) E1 V1' [] E2 U1 U2 /\ In ns (E1 ++ V1') /\
      incl V1 V1' /\ (forall n, In n V1' -> In n V1 \/ n = ns).
  Proof.
    intros X K Rq. pose proof (xi_ns _ _ _ _ _ _ _ X) as T. unfold x_add_prefix.
    destruct (in_cases bytes_eqb (fun _ => True) bytes_eq (E1 ++ V1 ++ []) ns) as [I|I]; [apply (t_keys _ _ _ _ _ _ T)| |].
    - destruct (idx_get bytes_eqb (m_idx (x_ns x)) ns) eqn:Ei; [now apply (t_missing _ _ _ _ _ _ T) in Ei| |];
        exists V1; rewrite app_nil_r in I; repeat split; auto using incl_refl; apply X.
    - rewrite (proj2 (t_missing _ _ _ _ _ _ T ns) I). exists (V1 ++ [ns]).
      assert (Inc : incl (E1 ++ V1 ++ []) (E1 ++ (V1 ++ [ns]) ++ [])).
      { intros y. rewrite !in_app_iff. tauto. }
      split; [|split; [rewrite !in_app_iff; cbn; tauto|split]].
      + destruct (m_add_first bytes_eqb (fun _ => True) bytes_eq _ ns E1 V1 [] T Logic.I I) as (V2' & Pm & T').
        apply Permutation_nil in Pm. subst V2'.
        constructor; cbn [x_ns x_prefix x_id]; try apply X; auto.
        * intros n Hn. cbn [x_get_prefix]. rewrite in_app_iff in Hn. destruct (bytes_eqb ns n) eqn:En.
          -- apply bytes_eqb_eq in En. subst n. eauto.
          -- destruct Hn as [Hn|[->|[]]]; [now apply (xi_prefix _ _ _ _ _ _ _ X)|]. now rewrite bytes_eqb_refl in En.
        * pose proof (xi_nss _ _ _ _ _ _ _ X) as F. rewrite !Forall_app in *. intuition.
        * intros n r H. apply Inc. now apply (xi_iri _ _ _ _ _ _ _ X) in H.
      + intros y H. apply in_or_app; auto.
      + intros n H. apply in_app_or in H as [H|[H|[]]]; auto.
  Qed.

  (** * Declaration frames *)

  Lemma unless_nil {A} (m : E unit) e : unless_empty (@nil A) m e = Some (tt, e).
  Proof. reflexivity. Qed.
  Lemma unless_some {A} (l : list A) m : l <> [] -> unless_empty l m = m.
  Proof. now destruct l. Qed.

  Lemma ns_decls_ok e E1 V1 V2 U1 U2 v : index_inv (e_index e) E1 V1 V2 (v_ids v) U1 U2 -> v_ns v = E1 -> e_state e = COWL_OK ->
    exists b x ps, encode_ns_decls w e = Some (COWL_OK, e_to e x b) /\ x_id x = x_id (e_index e) /\
      index_inv x (E1 ++ V1 ++ V2) [] [] (v_ids v) U1 U2 /\ map snd ps = V1 /\ (forall p ns, In (p, ns) ps -> In (p, ns) req) /\
      eats b v (mkV (E1 ++ V1 ++ V2) (v_ids v) (v_rm v) (v_log v ++ map (fun e => (mode (v_rm v), DPrefix (fst e) (snd e))) ps)).
  Proof.
    intros X Hv St. pose proof (xi_ns _ _ _ _ _ _ _ X) as T. unfold encode_ns_decls.
    rewrite (view1_table _ _ _ _ _ _ T), (view2_table _ _ _ _ _ _ T).
    set (x := mkPrtIndex (m_sync bytes_eqb (x_ns (e_index e))) (x_prefix (e_index e)) (x_id (e_index e))).
    assert (X' : index_inv x (E1 ++ V1 ++ V2) [] [] (v_ids v) U1 U2).
    { constructor; unfold x; cbn [x_ns x_prefix x_id]; try apply X.
      - now apply (m_sync_table bytes_eqb (fun _ => True) bytes_eq).
      - intros n [].
      - rewrite !app_nil_r. apply X.
      - rewrite !app_nil_r. apply X. }
    rewrite (eseq_ok _ _ tt e (e_to e x [])) by (unfold upd, with_index, e_to; now rewrite app_nil_r).
    pose proof (nss_count _ _ _ _ _ _ _ X) as Cn. rewrite !app_length in Cn.
    assert (P1 : exists b ps, unless_empty V1 (emit (fun e => encode_prefixes w e V1)) (e_to e x []) = Some (tt, e_to e x b) /\
       map snd ps = V1 /\ (forall p ns, In (p, ns) ps -> In (p, ns) req) /\
       eats b v (mkV (E1 ++ V1) (v_ids v) (v_rm v) (v_log v ++ map (fun e => (mode (v_rm v), DPrefix (fst e) (snd e))) ps))).
    { pose proof (xi_prefix _ _ _ _ _ _ _ X) as Px.
      assert (exists ps, map snd ps = V1 /\ (forall p ns, In (p, ns) ps -> In (p, ns) req) /\
        map (fun ns => match x_get_prefix (x_prefix (e_index e)) ns with None => Some ([], true) | Some p => w_bytes (prt_string p ++ prt_string ns) end) V1 =
        map (fun b => Some (b, false)) (map prefix_bytes ps)) as (ps & Es & Rq & Em).
      { clear -Px. induction V1 as [|n V1 IH]; [exists []; cbn; intuition|].
        destruct IH as (ps & Es & Rq & Em); [intros; apply Px; now right|].
        destruct (Px n (or_introl eq_refl)) as (p & Ep & Hr). exists ((p, n) :: ps). split; [cbn; now f_equal|]. split.
        - intros p' n' [H|H]; [inversion H; subst; auto|auto].
        - cbn [map]. rewrite Ep, Em. reflexivity. }
      destruct V1 as [|n V1'] eqn:EV.
      - exists [], []. split; [reflexivity|]. split; auto. split; [intros ? ? []|]. rewrite !app_nil_r, <- Hv. destruct v. constructor.
      - rewrite <- EV in *. exists (68 :: decls_bytes (map prefix_bytes ps)), ps. split; [|split; [auto|split; [auto|]]].
        + rewrite unless_some by (rewrite EV; discriminate). rewrite (emit_ok _ _ (68 :: decls_bytes (map prefix_bytes ps))).
          * rewrite e_to_to. reflexivity.
          * unfold encode_prefixes. cbn [e_index e_to x_prefix x]. rewrite Em.
            destruct (w_list (map (fun b => Some (b, false)) (map prefix_bytes ps)) (map prefix_bytes ps)) as [Ew _].
            { clear. induction (map prefix_bytes ps); cbn; constructor; auto. }
            rewrite Ew, write_varint_small by lia. cbn [w_app w_bytes app orb]. unfold decls_bytes. rewrite map_length.
            rewrite <- Es, map_length. reflexivity.
        + apply eats_one. pose proof (frame_prefixes w W anon_id handler handler_ok ps v) as Fr. rewrite Hv, Es in Fr. apply Fr.
          * rewrite <- Es, map_length in Cn. lia.
          * intros [p n'] H. apply req_fits. now apply Rq. }
    destruct P1 as (b1 & ps & R1 & Es & Rq & Ea1). rewrite (eseq_ok _ _ tt _ _ R1).
    set (v1 := mkV (E1 ++ V1) (v_ids v) (v_rm v) (v_log v ++ map (fun e => (mode (v_rm v), DPrefix (fst e) (snd e))) ps)) in *.
    assert (P2 : exists b, unless_empty V2 (emit (fun _ => encode_namespaces w V2)) (e_to e x b1) = Some (tt, e_to e x (b1 ++ b)) /\
       eats b v1 (mkV ((E1 ++ V1) ++ V2) (v_ids v) (v_rm v) (v_log v1))).
    { destruct V2 as [|n V2'] eqn:EV.
      - exists []. rewrite !app_nil_r. split; [reflexivity|]. constructor.
      - rewrite <- EV in *. exists (4 :: decls_bytes (map prt_string V2)). split.
        + rewrite unless_some by (rewrite EV; discriminate). rewrite (emit_ok _ _ (4 :: decls_bytes (map prt_string V2))).
          * rewrite e_to_to. reflexivity.
          * unfold encode_namespaces.
            destruct (w_list (map (fun ns => w_bytes (prt_string ns)) V2) (map prt_string V2)) as [_ Ew].
            { clear. induction V2; cbn; constructor; auto. }
            rewrite Ew, write_varint_small by lia. cbn [w_app w_bytes app orb]. unfold decls_bytes. rewrite map_length. reflexivity.
        + apply eats_one. apply (frame_namespaces w W anon_id handler V2 v1); [lia|].
          pose proof (xi_nss _ _ _ _ _ _ _ X) as F. rewrite !Forall_app in F. destruct F as (_ & _ & F).
          eapply Forall_impl; [|exact F]. intros a Ha. apply Ha. }
    destruct P2 as (b2 & R2 & Ea2). rewrite (eseq_ok _ _ tt _ _ R2). unfold estate. cbn [e_to e_state]. rewrite St.
    exists (b1 ++ b2), x, ps. split; [reflexivity|]. split; [reflexivity|]. split; [exact X'|]. split; auto. split; auto.
    eapply eats_app; [exact Ea1|]. rewrite (app_assoc E1). exact Ea2.
  Qed.

  Lemma id_decls_ok e E1 U1 U2 v : index_inv (e_index e) E1 [] [] (v_ids v) U1 U2 -> v_ns v = E1 -> e_state e = COWL_OK -> e_anon e = true ->
    exists b x, encode_id_decls w e = Some (COWL_OK, e_to e x b) /\ index_inv x E1 [] [] (v_ids v ++ U1 ++ U2) [] [] /\
      eats b v (mkV E1 (v_ids v ++ U1 ++ U2) (v_rm v) (v_log v)).
  Proof.
    intros X Hv St An. pose proof (xi_id _ _ _ _ _ _ _ X) as T. unfold encode_id_decls.
    rewrite (view1_table _ _ _ _ _ _ T), (view2_table _ _ _ _ _ _ T).
    set (x := mkPrtIndex (x_ns (e_index e)) (x_prefix (e_index e)) (m_sync prim_eqb (x_id (e_index e)))).
    assert (X' : index_inv x E1 [] [] (v_ids v ++ U1 ++ U2) [] []).
    { constructor; unfold x; cbn [x_ns x_prefix x_id]; rewrite ?app_nil_r; try apply X; auto.
      - now apply (m_sync_table prim_eqb isprim isprim_eq).
      - pose proof (xi_nss _ _ _ _ _ _ _ X) as F. now rewrite !app_nil_r in F.
      - pose proof (xi_iri _ _ _ _ _ _ _ X) as F. now rewrite !app_nil_r in F. }
    rewrite (eseq_ok _ _ tt e (e_to e x [])) by (unfold upd, with_index, e_to; now rewrite app_nil_r).
    pose proof (ids_count _ _ _ _ _ _ _ X) as Cn. rewrite !app_length in Cn.
    pose proof (xi_ids _ _ _ _ _ _ _ X) as Fi. rewrite !Forall_app in Fi. destruct Fi as (_ & F1 & F2).
    assert (P1 : exists b, unless_empty U1 (emit (fun e => encode_iri_decls w e U1)) (e_to e x []) = Some (tt, e_to e x b) /\
       eats b v (mkV E1 (v_ids v ++ U1) (v_rm v) (v_log v))).
    { assert (exists l, map (fun e => OIri (fst (snd e)) (snd (snd e))) l = U1 /\
        (forall i ns rem, In (i, (ns, rem)) l -> i < 2 ^ w /\ fits w rem /\ nth_error (v_ns v) (N.to_nat i) = Some ns /\ iri_of_parts ns rem = (ns, rem)) /\
        map (fun o => match o with OIri ns rem => match ns_of (e_to e x []) ns with IMissing => Some ([], true) | IGarbage => None
           | IAt i => w_app (write_varint w i) (w_bytes (prt_string rem)) end | _ => None end) U1 =
        map (fun b => Some (b, false)) (map (fun e => varint (fst e) ++ prt_string (snd (snd e))) l)) as (l & El & Hl & Em).
      { pose proof (xi_iri _ _ _ _ _ _ _ X) as Xi. pose proof (xi_u1 _ _ _ _ _ _ _ X) as Fu. pose proof (nss_count _ _ _ _ _ _ _ X) as Nc.
        rewrite !app_nil_r in Nc.
        assert (Xi' : forall ns rem, In (OIri ns rem) U1 -> In ns E1).
        { intros ns rem H. specialize (Xi ns rem). rewrite !app_nil_r in Xi. apply Xi. rewrite !in_app_iff. auto. }
        pose proof (xi_ns _ _ _ _ _ _ _ X) as T1. clear Cn Xi T X' X. revert Xi' F1 Fu. induction U1 as [|o U1 IH]; intros Xi F1 Fu; [exists []; cbn; intuition|].
        inversion F1 as [|? ? (Io & Ho) F1']; subst. inversion Fu as [|? ? (ns & rem & ->) Fu']; subst.
        destruct (IH (fun n r H => Xi n r (or_intror H)) F1' Fu') as (l & El & Hl & Em).
        destruct Ho as [(n & r & En & Sp & Fr)|(id & En & _)]; [|discriminate]. inversion En; subst n r.
        pose proof (Xi ns rem (or_introl eq_refl)) as Hn.
        destruct (table_known bytes_eqb (fun _ => True) _ _ _ _ ns T1 Hn) as (i & Ei & Ni).
        assert (Li : (N.to_nat i < List.length (v_ns v))%nat) by (apply nth_error_Some; congruence).
        exists ((i, (ns, rem)) :: l). split; [cbn; now f_equal|]. split.
        - intros j n r [H|H]; [inversion H; subst|auto]. repeat split; auto. lia.
        - cbn [map fst snd]. unfold ns_of at 1. cbn [e_index e_to x_ns x]. rewrite Ei, write_varint_small by lia.
          cbn [w_app w_bytes orb]. f_equal. exact Em. }
      destruct U1 as [|n U1'] eqn:EV.
      - exists []. split; [reflexivity|]. rewrite !app_nil_r, <- Hv. destruct v. constructor.
      - rewrite <- EV in *. exists (69 :: decls_bytes (map (fun e => varint (fst e) ++ prt_string (snd (snd e))) l)). split.
        + rewrite unless_some by (rewrite EV; discriminate).
          rewrite (emit_ok _ _ (69 :: decls_bytes (map (fun e => varint (fst e) ++ prt_string (snd (snd e))) l))).
          * rewrite e_to_to. reflexivity.
          * unfold encode_iri_decls. rewrite Em.
            destruct (w_list (map (fun b => Some (b, false)) (map (fun e => varint (fst e) ++ prt_string (snd (snd e))) l))
                        (map (fun e => varint (fst e) ++ prt_string (snd (snd e))) l)) as [Ew _].
            { clear. induction l; cbn; constructor; auto. }
            rewrite Ew, write_varint_small by lia. cbn [w_app w_bytes app orb]. unfold decls_bytes. rewrite map_length.
            rewrite <- El, map_length. reflexivity.
        + apply eats_one. pose proof (frame_iris w W anon_id handler l v) as Fr. rewrite El in Fr. rewrite <- Hv.
          rewrite <- El, map_length in Cn. apply Fr; [lia|exact Hl]. }
    destruct P1 as (b1 & R1 & Ea1). rewrite (eseq_ok _ _ tt _ _ R1).
    set (v1 := mkV E1 (v_ids v ++ U1) (v_rm v) (v_log v)) in *. rewrite An.
    assert (P2 : exists b, unless_empty U2 (emit (fun _ => encode_anon_id_decls w U2)) (e_to e x b1) = Some (tt, e_to e x (b1 ++ b)) /\
       eats b v1 (mkV E1 ((v_ids v ++ U1) ++ U2) (v_rm v) (v_log v))).
    { assert (exists l, map OAnon l = U2 /\ Forall (fits w) l) as (l & El & Fl).
      { pose proof (xi_u2 _ _ _ _ _ _ _ X) as Fu. clear -F2 Fu. induction U2 as [|o U2 IH]; [exists []; auto|].
        inversion F2 as [|? ? (Io & Ho) F2']; subst. inversion Fu as [|? ? (id & ->) Fu']; subst.
        destruct (IH F2' Fu') as (l & El & Fl). exists (id :: l). split; [cbn; now f_equal|]. constructor; auto.
        destruct Ho as [(n & r & En & _)|(id' & En & Ff)]; [discriminate|]. now inversion En; subst id'. }
      destruct U2 as [|n U2'] eqn:EV.
      - exists []. rewrite !app_nil_r. split; [reflexivity|]. constructor.
      - rewrite <- EV in *. exists (5 :: decls_bytes (map prt_string l)). split.
        + rewrite unless_some by (rewrite EV; discriminate). rewrite (emit_ok _ _ (5 :: decls_bytes (map prt_string l))).
          * rewrite e_to_to. reflexivity.
          * unfold encode_anon_id_decls. rewrite <- El.
            destruct (w_list (map (fun o => match o with OAnon id => w_bytes (prt_string id) | _ => None end) (map OAnon l)) (map prt_string l)) as [_ Ew].
            { clear. induction l; cbn; constructor; auto. }
            rewrite Ew, write_varint_small by (rewrite El; lia). cbn [w_app w_bytes app orb]. unfold decls_bytes. rewrite !map_length. reflexivity.
        + apply eats_one. pose proof (frame_anons w W anon_id handler l v1) as Fr. rewrite El in Fr. apply Fr; [|exact Fl].
          rewrite <- El, map_length in Cn. lia. }
    destruct P2 as (b2 & R2 & Ea2). rewrite (eseq_ok _ _ tt _ _ R2). unfold estate. cbn [e_to e_state]. rewrite St.
    exists (b1 ++ b2), x. split; [reflexivity|]. split; [exact X'|]. eapply eats_app; [exact Ea1|]. rewrite (app_assoc (v_ids v)). exact Ea2.
  Qed.

  (** * The components of an ontology *)

  Definition pend (o : onto) : list dpart :=
    map (fun i => DIri (r_obj i)) (opt_list (o_iri o)) ++ map (fun i => DVersion (r_obj i)) (opt_list (o_version o)) ++
    map (fun i => DImport (r_obj i)) (vec_data (o_imports o)) ++ map (fun a => DAnnot (r_obj a)) (vec_data (o_annot o)) ++
    map (fun a => DAxiom (r_obj a)) (axioms_in_order o).
  Definition part_obj (d : dpart) : obj :=
    match d with DPrefix _ _ => OVec false [] | DIri o | DVersion o | DImport o | DAnnot o | DAxiom o => o end.
  Definition part_ok (d : dpart) : Prop :=
    match d with
    | DPrefix _ _ => False
    | DIri o | DVersion o | DImport o => an_iri o
    | DAnnot o => wt (SOne SAnnot) o = true /\ storable w o
    | DAxiom o => is_axiom_object o /\ storable w o
    end.
  Record pend_ok (o : onto) (ids : list obj) : Prop := {
    pk_version : o_version o <> None -> o_iri o <> None;
    pk_ok : Forall part_ok (pend o);
    pk_known : forall d p, In d (pend o) -> mentions p (part_obj d) -> In (ident p) ids
  }.

  Lemma mentions_iri ns rem : mentions (OIri ns rem) (OIri ns rem).
  Proof. now apply (mentions_here _ PT_IRI). Qed.

  Lemma agreed_inv x E1 V1 V2 E2 p : index_inv x E1 V1 V2 E2 [] [] -> In p E2 -> agreed w E2 (idx_get prim_eqb (m_idx (x_id x))) p.
  Proof.
    intros X I. destruct (table_known prim_eqb isprim _ _ _ _ p (xi_id _ _ _ _ _ _ _ X) I) as (i & Ei & Ni).
    exists i. split; auto. split; auto. pose proof (ids_count _ _ _ _ _ _ _ X) as C. rewrite !app_nil_r in C.
    assert (N.to_nat i < List.length E2)%nat by (apply nth_error_Some; congruence). lia.
  Qed.

  Lemma encode_data_ok e V1 V2 U1 U2 v o : index_inv (e_index e) (v_ns v) V1 V2 (v_ids v) U1 U2 -> e_state e = COWL_OK -> e_anon e = true ->
    pend_ok o (v_ids v ++ U1 ++ U2) ->
    N.of_nat (List.length (vec_data (o_imports o))) < 2 ^ w -> N.of_nat (List.length (vec_data (o_annot o))) < 2 ^ w ->
    exists b x ps, encode_data w o e = Some (COWL_OK, e_to e x b) /\
      index_inv x (v_ns v ++ V1 ++ V2) [] [] (v_ids v ++ U1 ++ U2) [] [] /\
      map snd ps = V1 /\ (forall p ns, In (p, ns) ps -> In (p, ns) req) /\
      eats b v (mkV (v_ns v ++ V1 ++ V2) (v_ids v ++ U1 ++ U2) (v_rm v)
        (v_log v ++ map (pair (mode (v_rm v))) (map (fun e => DPrefix (fst e) (snd e)) ps ++ pend o))).
  Proof.
    intros X St An Pk Li La. unfold encode_data.
    destruct (ns_decls_ok e _ V1 V2 U1 U2 v X eq_refl St) as (b1 & x1 & ps & R1 & _ & X1 & Es & Rq & Ea1).
    rewrite (ecall_ok _ _ _ _ R1). set (v1 := mkV _ _ _ _) in Ea1.
    destruct (id_decls_ok (e_to e x1 b1) (v_ns v ++ V1 ++ V2) U1 U2 v1 X1 eq_refl St An) as (b2 & x2 & R2 & X2 & Ea2).
    rewrite (ecall_ok _ _ _ _ R2), e_to_to. set (v2 := mkV _ _ _ _) in Ea2.
    assert (Ag : forall p, In p (v_ids v ++ U1 ++ U2) -> agreed w (v_ids v2) (idx_get prim_eqb (m_idx (x_id x2))) p).
    { intros p I. apply (agreed_inv _ _ _ _ _ p X2 I). }
    pose proof (pk_ok _ _ Pk) as Fo. pose proof (pk_known _ _ Pk) as Kn. unfold pend in Fo. rewrite !Forall_app, !Forall_map in Fo.
    destruct Fo as (Fi & Fv & Fm & Fa & Fx).
    assert (KnI : forall d i, In d (pend o) -> part_obj d = i -> an_iri i -> agreed w (v_ids v2) (idx_get prim_eqb (m_idx (x_id x2))) i).
    { intros d i I Eq (ns & rem & ->). apply Ag. apply (Kn d (OIri ns rem) I). rewrite Eq. apply mentions_iri. }
    assert (KnO : forall d i, In d (pend o) -> part_obj d = i -> forall p, mentions p i -> agreed w (v_ids v2) (idx_get prim_eqb (m_idx (x_id x2))) (ident p)).
    { intros d i I Eq p M. apply Ag. apply (Kn d p I). now rewrite Eq. }
    rewrite Forall_forall in Fi, Fv, Fm, Fa, Fx. unfold pend in KnI, KnO.
    (* ontology and version IRI *)
    assert (P3 : exists b, encode_iri_version w (o_iri o) (o_version o) (e_to e x2 (b1 ++ b2)) = Some (COWL_OK, e_to e x2 ((b1 ++ b2) ++ b)) /\
       eats b v2 (v_changes (map (fun i => DIri (r_obj i)) (opt_list (o_iri o)) ++ map (fun i => DVersion (r_obj i)) (opt_list (o_version o))) v2)).
    { unfold encode_iri_version. pose proof (pk_version _ _ Pk) as Pv. destruct (o_iri o) as [i|].
      - destruct (frame_iri_version w W anon_id handler handler_ok (idx_get prim_eqb (m_idx (x_id x2))) (r_obj i) (match o_version o with Some j => Some (r_obj j) | None => None end) v2) as (b & Eb & Fb).
        { intros j [Hj|Hj].
          - subst j. split; [apply Fi; now left|]. apply (KnI (DIri (r_obj i))); auto; [cbn; auto|apply Fi; now left].
          - destruct (o_version o) as [k|]; [|discriminate]. inversion Hj; subst j. split; [apply Fv; now left|].
            apply (KnI (DVersion (r_obj k))); auto; [cbn; auto|apply Fv; now left]. }
        exists b. split.
        + erewrite eseq_ok; [|apply (emit_ok _ _ b)].
          * rewrite e_to_to. unfold estate. cbn [e_to e_state]. now rewrite St.
          * unfold id_of. cbn [e_to e_index]. destruct (o_version o); exact Eb.
        + apply eats_one. destruct (o_version o); exact Fb.
      - exists []. rewrite app_nil_r. split; [reflexivity|]. destruct (o_version o); [exfalso; now apply Pv|].
        cbn. rewrite v_changes_nil. constructor. }
    destruct P3 as (b3 & R3 & Ea3). rewrite (ecall_ok _ _ _ _ R3). set (v3 := v_changes _ _) in Ea3.
    (* imports *)
    assert (P4 : exists b, encode_onto_imports w (vec_data (o_imports o)) (e_to e x2 ((b1 ++ b2) ++ b3)) = Some (COWL_OK, e_to e x2 (((b1 ++ b2) ++ b3) ++ b)) /\
       eats b v3 (v_changes (map (fun i => DImport (r_obj i)) (vec_data (o_imports o))) v3)).
    { unfold encode_onto_imports. destruct (vec_data (o_imports o)) as [|i0 l0] eqn:El.
      - exists []. rewrite app_nil_r. split; [reflexivity|]. cbn. rewrite v_changes_nil. constructor.
      - rewrite <- El in *. destruct (frame_imports w W anon_id handler handler_ok (idx_get prim_eqb (m_idx (x_id x2))) (map r_obj (vec_data (o_imports o))) v3) as (c & Ec & Fc).
        { now rewrite map_length. }
        { intros i Hi. apply in_map_iff in Hi as (r & <- & Hr). split; [now apply Fm|]. apply (KnI (DImport (r_obj r))); auto; [|now apply Fm].
          rewrite !in_app_iff. right. right. left. apply in_map_iff. eauto. }
        rewrite map_map in Ec, Fc. rewrite map_length in Fc. exists (7 :: varint (N.of_nat (List.length (vec_data (o_imports o)))) ++ c). split; [|apply eats_one; exact Fc].
        rewrite El. rewrite <- El. erewrite eseq_ok; [|apply (emit_ok _ _ (7 :: varint (N.of_nat (List.length (vec_data (o_imports o)))) ++ c))].
        + rewrite e_to_to. unfold estate. cbn [e_to e_state]. now rewrite St.
        + unfold id_of. cbn [e_to e_index]. rewrite Ec, write_varint_small by exact Li. reflexivity. }
    destruct P4 as (b4 & R4 & Ea4). rewrite (ecall_ok _ _ _ _ R4). set (v4 := v_changes _ v3) in Ea4.
    (* annotations *)
    assert (P5 : exists b, encode_onto_annotations w (vec_data (o_annot o)) (e_to e x2 (((b1 ++ b2) ++ b3) ++ b4)) = Some (COWL_OK, e_to e x2 ((((b1 ++ b2) ++ b3) ++ b4) ++ b)) /\
       eats b v4 (v_changes (map (fun i => DAnnot (r_obj i)) (vec_data (o_annot o))) v4)).
    { unfold encode_onto_annotations. destruct (vec_data (o_annot o)) as [|i0 l0] eqn:El.
      - exists []. rewrite app_nil_r. split; [reflexivity|]. cbn. rewrite v_changes_nil. constructor.
      - rewrite <- El in *. destruct (frame_annots w W anon_id handler handler_ok (idx_get prim_eqb (m_idx (x_id x2))) (map r_obj (vec_data (o_annot o))) v4) as (c & Ec & Fc).
        { now rewrite map_length. }
        { intros i Hi. apply in_map_iff in Hi as (r & <- & Hr). destruct (Fa r Hr). split; [auto|split; [auto|]]. apply (KnO (DAnnot (r_obj r))); auto.
          rewrite !in_app_iff. right. right. right. left. apply in_map_iff. eauto. }
        rewrite map_map in Ec, Fc. rewrite map_length in Fc. exists (8 :: varint (N.of_nat (List.length (vec_data (o_annot o)))) ++ c). split; [|apply eats_one; exact Fc].
        rewrite El. rewrite <- El. erewrite eseq_ok; [|apply (emit_ok _ _ (8 :: varint (N.of_nat (List.length (vec_data (o_annot o)))) ++ c))].
        + rewrite e_to_to. unfold estate. cbn [e_to e_state]. now rewrite St.
        + unfold id_of. cbn [e_to e_index]. rewrite Ec, write_varint_small by exact La. reflexivity. }
    destruct P5 as (b5 & R5 & Ea5). rewrite (ecall_ok _ _ _ _ R5). set (v5 := v_changes _ v4) in Ea5.
    (* axioms *)
    destruct (eats_axioms w W anon_id handler handler_ok (idx_get prim_eqb (m_idx (x_id x2))) (map r_obj (axioms_in_order o)) v5) as (b6 & E6 & Ea6).
    { intros i Hi. apply in_map_iff in Hi as (r & <- & Hr). destruct (Fx r Hr). split; [auto|split; [auto|]]. apply (KnO (DAxiom (r_obj r))); auto.
      rewrite !in_app_iff. right. right. right. right. apply in_map_iff. eauto. }
    rewrite !map_map in *.
    exists (((((b1 ++ b2) ++ b3) ++ b4) ++ b5) ++ b6), x2, ps. split; [|split; [exact X2|split; [auto|split; [auto|]]]].
    - unfold encode_onto_axioms. erewrite eseq_ok; [|apply (emit_ok _ _ b6)].
      + rewrite e_to_to. unfold estate. cbn [e_to e_state]. now rewrite St.
      + exact E6.
    - eapply eats_app; [|].
      { eapply eats_app; [|exact Ea5]. eapply eats_app; [|exact Ea4]. eapply eats_app; [|exact Ea3]. eapply eats_app; [exact Ea1|exact Ea2]. }
      set (vf := mkV _ _ _ _). assert (Ev : v_changes (map (fun a => DAxiom (r_obj a)) (axioms_in_order o)) v5 = vf); [|rewrite <- Ev; exact Ea6].
      unfold v5, v4, v3, v2, v1, vf, v_changes, pend. cbn [v_ns v_ids v_rm v_log]. f_equal.
      rewrite !map_app, !map_map, <- !app_assoc. reflexivity.
  Qed.
End Flush.
