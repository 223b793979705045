(** Reading back what the encoder writes for an axiom. *)

From Coq Require Import NArith ZArith String List Bool Lia.
From Coq Require Import ZifyBool ZifyNat ZifyN.
From Verif Require Import Bytes ModelTypes ModelObject ModelText SpecObject SpecText ProofObject ProofIter ProofText ProofLiteral
  ModelChange ModelPrtValue ModelPrtEncoder ModelPrtDecoder SpecPrt ProofPrtValue ProofPrtRead.
Import ListNotations.
Local Open Scope N_scope.
Ltac Zify.zify_post_hook ::= Z.div_mod_to_equations.

Lemma w_app_assoc a b c : w_app (w_app a b) c = w_app a (w_app b c).
Proof. destruct a as [[? ?]|], b as [[? ?]|], c as [[? ?]|]; auto. cbn. now rewrite app_assoc, orb_assoc. Qed.

Section Axioms.
  Variable w : N.
  Hypothesis W : width w.
  Variable anon_id : nat -> bytes.
  Variable ids : list obj.
  Variable idx : obj -> idxr.

  Local Notation gives := (gives ids).
  Local Notation known := (known w ids idx).
  Local Notation enc := (encode_object w idx).

  (** The axiom's own annotations. *)
  Lemma annots_back opt f : (forall p, opt = Some p -> storable w p /\ (forall q, mentions q p -> known (ident q)) /\ wt (SMany false SAnnot) p = true) ->
    exists c, match opt with Some v => enc v | None => w_nil end = Some (c, false) /\
      ((List.length c <= f)%nat -> gives (decode_annots w anon_id f (is_some opt)) c opt).
  Proof.
    intros H. destruct opt as [v|].
    - destruct (H v eq_refl) as (Sv & Kv & Tv).
      destruct (object_back w W anon_id ids idx v Sv Kv (SMany false SAnnot) f eq_refl Tv) as (c & Ec & _ & G). exists c. split; auto.
    - exists []. split; auto. intros _. apply gives_ret.
  Qed.

  Lemma annots_kept (opt : option obj) : (forall p, opt = Some p -> wt (SMany false SAnnot) p && match p with OVec _ [] => false | _ => true end = true) ->
    match opt with Some (OVec _ []) => None | a => a end = opt.
  Proof.
    intros H. destruct opt as [p|]; auto. specialize (H p eq_refl). apply andb_true_iff in H as [_ H].
    destruct p as [| | | | | |ord [|x l]|]; auto. discriminate H.
  Qed.

  (** The shape of every axiom but SubObjectPropertyOf. *)
  Lemma gives_annotated f t ms xs fs opt : rds ids f ms xs fs ->
    (forall p, opt = Some p -> storable w p /\ (forall q, mentions q p -> known (ident q)) /\ wt (SMany false SAnnot) p = true) ->
    match opt with Some (OVec _ []) => None | a => a end = opt ->
    exists b, w_app (w_all xs) (match opt with Some v => enc v | None => w_nil end) = Some (b, false) /\
      ((List.length b <= f)%nat -> gives (decode_annotated w anon_id f (is_some opt) t ms) b (Some (OComp t fs opt 0))).
  Proof.
    intros (b & Eb & Gb) Ho Ek. destruct (annots_back opt f Ho) as (c & Ec & Gc). rewrite Eb, Ec. exists (b ++ c). split; auto.
    rewrite app_length. intros L. unfold decode_annotated. eapply gives_bind; [apply Gb; lia|]. cbv beta.
    eapply gives_bindr; [apply Gc; lia|]. cbv beta. intros s rest Ok _ E. cbn in E. subst rest. unfold build.
    rewrite Ok, all_some_map, set_in_self. unfold mk_annot. now rewrite Ek.
  Qed.

  (** Axioms decoded by the common code. *)
  Definition ordinary (t : otype) : bool :=
    isort_has SAxiom t && match t with OT_A_DECL | OT_A_SUB_OBJ_PROP => false | _ => true end.

  Lemma decode_ordinary f t a sorts os : ordinary t = true -> construct_sig t = Some (sorts, os) ->
    decode_axiom w anon_id f (axiom_header t a false) = decode_annotated w anon_id f a t (map (dec_sort w anon_id f) sorts).
  Proof. intros H E. destruct t; try discriminate H; inversion E; subst sorts; destruct a; reflexivity. Qed.

  Lemma header_axiom t a u : isort_has SAxiom t = true -> t <> OT_A_DECL -> 9 <= axiom_header t a u mod 64.
  Proof. intros H Hd. destruct t; try discriminate H; try congruence; destruct a, u; vm_compute; discriminate. Qed.

  Lemma ordinary_fine t sorts os : ordinary t = true -> construct_sig t = Some (sorts, os) -> forallb fine sorts = true /\ os = OptAnnots.
  Proof. intros H E. destruct t; try discriminate H; inversion E; auto. Qed.

  Lemma enc_ordinary t fs opt sorts os : ordinary t = true -> construct_sig t = Some (sorts, os) ->
    Forall2 (fun o s => wt s o = true) fs sorts ->
    enc (OComp t fs opt 0) = w_app (w_bytes [axiom_header t (is_some opt) false])
      (w_app (w_all (enc_all w idx sorts fs)) (match opt with Some v => enc v | None => w_nil end)).
  Proof.
    intros H E T. pose proof (enc_all_default w idx fs sorts T) as D.
    destruct t; try discriminate H; inversion E; subst sorts os; try (rewrite D by reflexivity; reflexivity);
      (inversion T as [|x ? l ? Tx T' E1 E2]; subst; inversion T' as [|y ? l' ? Ty T'' E1 E2]; subst);
      try (inversion T''; subst; cbn [enc_all enc_sort w_all fold_right]; rewrite w_app_nil, w_app_assoc; reflexivity).
    inversion T'' as [|z ? l ? Tz T3 E1 E2]; subst. inversion T3; subst.
    assert (Es : encode_id w idx y = enc y).
    { destruct y as [|ns rem|e ns rem|id|v ns rem|v l|ord l|t' fs' opt' n']; try discriminate Ty; try (destruct e; discriminate Ty); try (destruct t'; discriminate Ty); reflexivity. }
    cbn [enc_all enc_sort w_all fold_right]. rewrite w_app_nil, !w_app_assoc, <- Es. reflexivity.
  Qed.

  Lemma axiom_opt o t fs opt n : o = OComp t fs opt n -> is_axiom_object o ->
    forall p, opt = Some p -> wt (SMany false SAnnot) p && match p with OVec _ [] => false | _ => true end = true.
  Proof.
    intros -> T p ->. unfold is_axiom_object in T. cbn [wt] in T. apply andb_true_iff in T as [A T].
    destruct t; try discriminate A; cbn [construct_sig] in T; rewrite !andb_true_iff in T; destruct T as [[_ T] _]; now rewrite andb_true_iff.
  Qed.

  Lemma axiom_back o f : is_axiom_object o -> storable w o -> (forall p, mentions p o -> known (ident p)) ->
    exists h b, enc o = Some (h :: b, false) /\ 9 <= h mod 64 /\
      ((List.length b <= f)%nat -> gives (decode_axiom w anon_id f h) b (Some o)).
  Proof.
    intros T St K.
    destruct o as [|ns rem|e ns rem|id|v ns rem|v l|ord l|t fs opt n]; try discriminate T; try (destruct e; discriminate T).
    destruct (wt_comp_inv _ _ _ _ _ T) as (sorts & os & Es & Tf & To & Tn).
    assert (IH : Forall (back_ok w anon_id ids idx) fs) by (apply Forall_forall; intros; now apply object_back).
    assert (IHo : forall p, opt = Some p -> back_ok w anon_id ids idx p) by (intros; now apply object_back).
    destruct (comp_storable w anon_id ids idx _ _ _ _ IHo St K) as (_ & Sf & So).
    pose proof (axiom_opt _ _ _ _ _ eq_refl T) as Ta.
    assert (Ho : forall p, opt = Some p -> storable w p /\ (forall q, mentions q p -> known (ident q)) /\ wt (SMany false SAnnot) p = true).
    { intros p Ep. split; auto. split; [eapply comp_opt; eauto|]. specialize (Ta p Ep). now apply andb_true_iff in Ta. }
    pose proof (annots_kept opt Ta) as Ek.
    pose proof (comp_field w ids idx _ _ _ _ K) as Kf.
    assert (A : isort_has SAxiom t = true) by (unfold is_axiom_object in T; cbn [wt] in T; now apply andb_true_iff in T).
    assert (n = 0) as -> by (apply Tn; destruct t; auto; discriminate A).
    destruct (ordinary t) eqn:Ot.
    - destruct (ordinary_fine t sorts os Ot Es) as (Fi & ->).
      rewrite (enc_ordinary t fs opt sorts _ Ot Es Tf).
      destruct (gives_annotated f t _ _ fs opt (fields_rds w anon_id ids idx t fs opt 0 IH IHo St K sorts f Tf Fi) Ho Ek) as (b & Eb & Gb).
      rewrite Eb. exists (axiom_header t (is_some opt) false), b. split; [reflexivity|]. split.
      + apply header_axiom; auto. intros ->. discriminate Ot.
      + rewrite (decode_ordinary f t _ sorts _ Ot Es). auto.
    - destruct t; try discriminate A; try discriminate Ot; cbn in Es; inversion Es; subst sorts os; clear Ot.
      + (* declarations *)
        inversion Tf as [|x ? l ? Tx T' E1 E2]; subst. inversion T'; subst.
        assert (exists e ns rem, x = OEnt e ns rem) as (e & ns & rem & ->).
        { destruct x as [|ns rem|e ns rem|id|v ns rem|v l|ord l|t' fs' opt' n']; try discriminate Tx; eauto; destruct t'; discriminate Tx. }
        assert (Ke : known (OIri ns rem)).
        { apply (K (OEnt e ns rem)). eapply mentions_in; [now left|]. econstructor. reflexivity. }
        assert (R : rds ids f [decode_entity w anon_id e] [encode_id w idx (OIri ns rem)] [OEnt e ns rem]).
        { apply (rds_cons anon_id ids idx); [|apply rds_nil]. now apply (rd_entity w W anon_id ids idx). }
        destruct (gives_annotated f OT_A_DECL _ _ _ opt R Ho Ek) as (b & Eb & Gb).
        cbn [w_all fold_right] in Eb. rewrite w_app_nil in Eb. cbn [encode_object]. rewrite Eb.
        exists (FIRST_AXIOM_FRAME + etype_num e + (if is_some opt then 64 else 0)), b. split; [reflexivity|]. split.
        * destruct e, (is_some opt); vm_compute; discriminate.
        * intros L. specialize (Gb L). replace (decode_axiom w anon_id f _) with (decode_annotated w anon_id f (is_some opt) OT_A_DECL [decode_entity w anon_id e]); [exact Gb|].
          destruct e, (is_some opt); reflexivity.
      + (* SubObjectPropertyOf *)
        inversion Tf as [|x ? l ? Tx T' E1 E2]; subst. inversion T' as [|y ? l' ? Ty T'' E1 E2]; subst. inversion T''; subst. clear T' T''.
        inversion Sf as [|? ? Sx Sf']; subst. inversion Sf' as [|? ? Sy _]; subst.
        assert (Kx : forall p, mentions p x -> known (ident p)) by (apply Kf; now left).
        assert (Ky : forall p, mentions p y -> known (ident p)) by (apply Kf; right; now left).
        destruct (object_back w W anon_id ids idx y Sy Ky (SOne SObjProp) f eq_refl Ty) as (c & Ec & Nc & Gc). cbn [enc_sort dec_sort dec_item] in Ec, Gc.
        destruct (annots_back opt f Ho) as (d & Ed & Gd).
        assert (exists u b sub, (match x with OVec _ _ => true | _ => false end) = u /\ enc x = Some (b, false) /\
          ((List.length b <= f)%nat -> gives (if u then decode_vector w f (decode_obj_prop_exp w anon_id) else decode_obj_prop_exp w anon_id) b (Some sub)) /\
          (if u then match sub with OVec _ l => OVec true l | _ => sub end else sub) = x) as (u & b & sub & Eu & Eb & Gb & Esub).
        { destruct x as [|ns rem|e ns rem|id|v ns rem|v l|ord l|t fs o n]; try discriminate Tx.
          - destruct (object_back w W anon_id ids idx _ Sx Kx (SOne SObjProp) f eq_refl Tx) as (b & Eb & Nb & Gb).
            exists false, b, (OEnt e ns rem). auto.
          - cbn in Tx. apply andb_true_iff in Tx as [Tord Tl]. destruct ord; [|discriminate].
            assert (IHl : Forall (back_ok w anon_id ids idx) l) by (apply Forall_forall; intros; now apply object_back).
            destruct (vec_back w W anon_id ids idx true l SObjProp f) as (b & Eb & Nb & Gb); auto.
            exists true, b, (OVec false l). auto.
          - destruct (object_back w W anon_id ids idx _ Sx Kx (SOne SObjProp) f eq_refl) as (b & Eb & Nb & Gb).
            { exact Tx. }
            exists false, b, (OComp t fs o n). auto. }
        exists (axiom_header OT_A_SUB_OBJ_PROP (is_some opt) u), (b ++ c ++ d). split; [|split].
        * cbn [encode_object map w_all fold_right]. rewrite Eu, Ed, Eb, Ec. cbn. now rewrite app_nil_r, <- app_assoc.
        * apply header_axiom; [reflexivity|discriminate].
        * rewrite !app_length. intros L.
          replace (decode_axiom w anon_id f _) with (decode_sub_obj_prop w anon_id f u (is_some opt)) by (destruct u, (is_some opt); reflexivity).
          unfold decode_sub_obj_prop. eapply gives_bind; [apply Gb; lia|]. cbv beta. eapply gives_bind; [apply Gc; lia|]. cbv beta.
          eapply gives_bindr; [apply Gd; lia|]. cbv beta. intros s rest Ok _ E. cbn in E. subst rest. cbv beta iota zeta.
          rewrite Esub, set_in_self. unfold mk_annot. now rewrite Ek.
  Qed.

  Variable handler : list dchange -> ret.

  (** The frame of an axiom: everything the encoder wrote is read, the axiom is delivered. *)
  Theorem axiom_frame o : is_axiom_object o -> storable w o -> (forall p, mentions p o -> known (ident p)) ->
    exists b, enc o = Some (b, false) /\ b <> [] /\
      forall f s rest, (List.length b <= f)%nat -> d_ok s = true -> d_ids s = ids -> d_in s = b ++ rest ->
        decode_frame w anon_id handler f s =
        (do _ <- handle_change handler (DAxiom o);; dret true) (set_in rest s).
  Proof.
    intros T St K. destruct (axiom_back o 0 T St K) as (h & b & Eb & Lh & _). exists (h :: b). split; auto. split; [discriminate|].
    intros f s rest L Ok Ids E. destruct (axiom_back o f T St K) as (h' & b' & Eb' & _ & G). rewrite Eb in Eb'. inversion Eb'; subst h' b'. clear Eb'.
    unfold decode_frame. rewrite E. cbn [app].
    assert (Br : forall (B : Type) (a0 a1 a2 a3 a4 a5 a6 a7 a8 a9 : B), match h mod 64 with 0 => a0 | 1 => a1 | 2 => a2 | 3 => a3 | 4 => a4 | 5 => a5 | 6 => a6 | 7 => a7 | 8 => a8 | _ => a9 end = a9).
    { intros. destruct (h mod 64) as [|q]; [lia|]. do 4 (try destruct q as [q|q|]; try lia; try reflexivity). }
    rewrite Br. unfold dbind at 1. unfold decode_axiom_frame.
    assert (Ok' : d_ok (set_in (b ++ rest) s) = true) by exact Ok. rewrite Ok'. unfold dbind at 1.
    cbn in L. rewrite (G ltac:(lia) (set_in (b ++ rest) s) rest) by auto. reflexivity.
  Qed.
End Axioms.
