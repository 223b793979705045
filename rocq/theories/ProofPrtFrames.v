(** Reading the frames of a ProtocOWL stream. *)

From Coq Require Import String NArith ZArith List Bool Lia.
From Coq Require Import ZifyBool ZifyNat ZifyN.
From Verif Require Import Bytes ModelTypes ModelObject ModelText SpecObject SpecText ProofObject ProofText
  ModelOntology ModelChange ModelPrtValue ModelPrtEncoder ModelPrtDecoder ModelPrtWriter SpecPrt ProofPrtValue ProofPrtRead ProofPrtAxiom.
Import ListNotations.
Local Open Scope N_scope.
Ltac Zify.zify_post_hook ::= Z.div_mod_to_equations.

(** What a reader knows and has done: namespaces, identifiers, mode, changes delivered. *)
Record rview := mkV { v_ns : list bytes; v_ids : list obj; v_rm : bool; v_log : list dchange }.
Definition sees (s : dst) (v : rview) : Prop :=
  d_ok s = true /\ d_ns s = v_ns v /\ d_ids s = v_ids v /\ d_remove s = v_rm v /\ d_log s = v_log v.
Definition mode (rm : bool) : change_type := if rm then CHANGE_REMOVE else CHANGE_ADD.
Definition v_add_ns (n : bytes) (v : rview) : rview := mkV (v_ns v ++ [n]) (v_ids v) (v_rm v) (v_log v).
Definition v_add_id (p : obj) (v : rview) : rview := mkV (v_ns v) (v_ids v ++ [p]) (v_rm v) (v_log v).
Definition v_change (p : dpart) (v : rview) : rview := mkV (v_ns v) (v_ids v) (v_rm v) (v_log v ++ [(mode (v_rm v), p)]).
Definition v_changes (l : list dpart) (v : rview) : rview := mkV (v_ns v) (v_ids v) (v_rm v) (v_log v ++ map (pair (mode (v_rm v))) l).

Lemma v_changes_nil v : v_changes [] v = v.
Proof. destruct v. unfold v_changes. cbn. now rewrite app_nil_r. Qed.
Lemma v_changes_cons p l v : v_changes (p :: l) v = v_changes l (v_change p v).
Proof. unfold v_changes, v_change. cbn. now rewrite <- app_assoc. Qed.
Lemma v_changes_app l m v : v_changes (l ++ m) v = v_changes m (v_changes l v).
Proof. unfold v_changes. cbn. now rewrite map_app, app_assoc. Qed.

Section Frames.
  Variable w : N.
  Hypothesis W : width w.
  Variable anon_id : nat -> bytes.
  Variable handler : list dchange -> ret.
  Hypothesis handler_ok : forall l, (0 <= handler l)%Z.

  (** [m] reads exactly [b], answers [a] and takes the reader from [v] to [v']. *)
  Definition takes {A} (m : D A) (b : bytes) (a : A) (v v' : rview) : Prop :=
    forall s rest, sees s v -> d_in s = b ++ rest -> exists s', m s = DRet a s' /\ sees s' v' /\ d_in s' = rest.

  Lemma takes_ret {A} (a : A) v : takes (dret a) [] a v v.
  Proof. intros s rest Sv E. exists s. auto. Qed.
  Lemma takes_bind {A B} (m : D A) (k : A -> D B) b c a r v v1 v2 :
    takes m b a v v1 -> takes (k a) c r v1 v2 -> takes (dbind m k) (b ++ c) r v v2.
  Proof.
    intros H K s rest Sv E. rewrite <- app_assoc in E. destruct (H s _ Sv E) as (s1 & E1 & S1 & I1).
    destruct (K s1 _ S1 I1) as (s2 & E2 & S2 & I2). exists s2. unfold dbind. now rewrite E1.
  Qed.
  Lemma takes_bind0 {A B} (m : D A) (k : A -> D B) b a r v v1 v2 :
    takes m [] a v v1 -> takes (k a) b r v1 v2 -> takes (dbind m k) b r v v2.
  Proof. intros H K. change b with ([] ++ b). eapply takes_bind; eauto. Qed.
  Lemma takes_bindr {A B} (m : D A) (k : A -> D B) b a r v v1 v2 :
    takes m b a v v1 -> takes (k a) [] r v1 v2 -> takes (dbind m k) b r v v2.
  Proof. intros H K. rewrite <- (app_nil_r b). eapply takes_bind; eauto. Qed.

  Lemma gives_takes {A} (m : D A) b a ids v : gives ids m b a -> v_ids v = ids -> takes m b a v v.
  Proof.
    intros G Hi s rest (Ok & Sn & Si & Sr & Sl) E. rewrite (G s rest); [|auto|congruence|auto].
    eexists. split; [reflexivity|]. split; [|reflexivity]. unfold sees. auto.
  Qed.

  Lemma set_code_ok c s : (0 <= c)%Z -> d_ok s = true -> d_ok (set_code c s) = true.
  Proof. unfold set_code, d_ok. intros H L. destruct (d_code s <? 0)%Z; auto. cbn. lia. Qed.
  Lemma set_code_same c s : d_ns (set_code c s) = d_ns s /\ d_ids (set_code c s) = d_ids s /\ d_remove (set_code c s) = d_remove s /\
    d_log (set_code c s) = d_log s /\ d_in (set_code c s) = d_in s.
  Proof. unfold set_code. destruct (d_code s <? 0)%Z; auto. Qed.
  Lemma sees_code c s v : (0 <= c)%Z -> sees s v -> sees (set_code c s) v.
  Proof.
    intros H (Ok & S). destruct (set_code_same c s) as (A & B & C & D & _). unfold sees. rewrite A, B, C, D. auto using set_code_ok.
  Qed.

  Lemma takes_change p v : takes (handle_change handler p) [] tt v (v_change p v).
  Proof.
    intros s rest Sv E. unfold handle_change. eexists. split; [reflexivity|]. split.
    - apply sees_code; auto. destruct Sv as (Ok & Sn & Si & Sr & Sl). unfold sees. cbn. rewrite Sl, Sr. auto.
    - rewrite (proj2 (proj2 (proj2 (proj2 (set_code_same _ _))))). exact E.
  Qed.
  Lemma takes_error c v : (0 <= c)%Z -> takes (handle_error c) [] tt v v.
  Proof.
    intros H s rest Sv E. unfold handle_error. eexists. split; [reflexivity|]. split; [now apply sees_code|].
    rewrite (proj2 (proj2 (proj2 (proj2 (set_code_same _ _))))). exact E.
  Qed.
  Lemma takes_add_ns n v : takes (fun s => DRet tt (set_ns (d_ns s ++ [n]) s)) [] tt v (v_add_ns n v).
  Proof.
    intros s rest (Ok & Sn & Si & Sr & Sl) E. eexists. split; [reflexivity|]. split; [|exact E]. unfold sees. cbn. rewrite Sn. auto.
  Qed.

  (** * Declarations *)

  Definition prefix_bytes (e : bytes * bytes) : bytes := prt_string (fst e) ++ prt_string (snd e).
  Lemma takes_prefix e v : fits w (fst e) -> fits w (snd e) ->
    takes (decode_prefix_decl w handler) (prefix_bytes e) true v (v_change (DPrefix (fst e) (snd e)) (v_add_ns (snd e) v)).
  Proof.
    intros F G. unfold decode_prefix_decl, prefix_bytes.
    eapply takes_bind; [eapply gives_takes; [now apply (gives_string w W (v_ids v))|reflexivity]|].
    eapply takes_bindr; [eapply gives_takes; [now apply (gives_string w W (v_ids v))|reflexivity]|].
    cbv beta iota. eapply takes_bind0; [apply takes_add_ns|]. eapply takes_bind0; [apply takes_change|]. apply takes_ret.
  Qed.
  Lemma takes_ns n v : fits w n -> takes (decode_ns_decl w) (prt_string n) true v (v_add_ns n v).
  Proof.
    intros F. unfold decode_ns_decl.
    eapply takes_bindr; [eapply gives_takes; [now apply (gives_string w W (v_ids v))|reflexivity]|].
    cbv beta iota. eapply takes_bind0; [apply takes_add_ns|]. eapply takes_bind0; [apply takes_error; reflexivity|]. apply takes_ret.
  Qed.
  Lemma takes_iri i ns rem v : i < 2 ^ w -> fits w rem -> nth_error (v_ns v) (N.to_nat i) = Some ns -> iri_of_parts ns rem = (ns, rem) ->
    takes (decode_iri_decl w) (varint i ++ prt_string rem) true v (v_add_id (OIri ns rem) v).
  Proof.
    intros L F Hn St. unfold decode_iri_decl.
    eapply takes_bind; [eapply gives_takes; [now apply (gives_varint w W (v_ids v))|reflexivity]|]. cbv beta iota.
    eapply takes_bindr; [eapply gives_takes; [now apply (gives_string w W (v_ids v))|reflexivity]|]. cbv beta iota.
    intros s rest (Ok & Sn & Si & Sr & Sl) E. rewrite Sn, Hn.
    assert (N.to_nat i < List.length (v_ns v))%nat by (apply nth_error_Some; congruence).
    destruct (N.ltb_spec i (N.of_nat (List.length (v_ns v)))); [|lia]. rewrite St.
    eexists. split; [reflexivity|]. split; [|exact E]. unfold sees. cbn. rewrite Si. auto.
  Qed.
  Lemma takes_anon id v : fits w id -> takes (decode_anon_decl w) (prt_string id) true v (v_add_id (OAnon id) v).
  Proof.
    intros F. unfold decode_anon_decl.
    eapply takes_bindr; [eapply gives_takes; [now apply (gives_string w W (v_ids v))|reflexivity]|]. cbv beta iota.
    intros s rest (Ok & Sn & Si & Sr & Sl) E. eexists. split; [reflexivity|]. split; [|exact E]. unfold sees. cbn. rewrite Si. auto.
  Qed.

  (** * Loops *)

  (** Items with their bytes, each read by [item]. *)
  Inductive items (item : D bool) : list bytes -> rview -> rview -> Prop :=
  | it_nil v : items item [] v v
  | it_cons b l v v1 v2 : b <> [] -> takes item b true v v1 -> items item l v1 v2 -> items item (b :: l) v v2.

  Lemma items_loop item l v v' : items item l v v' -> forall f, (List.length l <= f)%nat ->
    takes (decl_loop f item (N.of_nat (List.length l))) (List.concat l) tt v v'.
  Proof.
    induction 1 as [v|b l v v1 v2 Nb T I IH]; intros f L.
    - intros s rest Sv E. exists s. destruct f; cbn; rewrite andb_false_r; auto.
    - destruct f as [|f]; [cbn in L; lia|]. cbn [decl_loop List.length List.concat].
      intros s rest Sv E. replace (d_ok s) with true by (symmetry; apply Sv).
      destruct (N.eqb_spec (N.of_nat (S (List.length l))) 0); [lia|]. cbn [andb negb].
      replace (N.of_nat (S (List.length l)) - 1) with (N.of_nat (List.length l)) by lia.
      assert (Tk : takes (do go <- item;; if (go : bool) then decl_loop f item (N.of_nat (List.length l)) else dret tt) (b ++ List.concat l) tt v v2).
      { eapply takes_bind; [exact T|]. cbv iota. apply IH. cbn in L. lia. }
      exact (Tk s rest Sv E).
  Qed.
  Lemma concat_length {A} (l : list (list A)) : Forall (fun b => b <> []) l -> (List.length l <= List.length (List.concat l))%nat.
  Proof. induction 1 as [|b l Nb F IH]; cbn; auto. rewrite app_length. destruct b; [easy|]. cbn. lia. Qed.
  Lemma items_nonempty item l v v' : items item l v v' -> Forall (fun b => b <> []) l.
  Proof. induction 1; auto. Qed.

  Definition decls_bytes (l : list bytes) : bytes := varint (N.of_nat (List.length l)) ++ List.concat l.
  Lemma takes_decls item l v v' f : N.of_nat (List.length l) < 2 ^ w -> items item l v v' -> (List.length (List.concat l) <= f)%nat ->
    takes (decode_decls w f item) (decls_bytes l) tt v v'.
  Proof.
    intros L I Lf. unfold decode_decls, decls_bytes.
    eapply takes_bind; [eapply gives_takes; [now apply (gives_varint w W (v_ids v))|reflexivity]|]. cbv beta iota.
    apply items_loop; auto. exact (Nat.le_trans _ _ _ (concat_length l (items_nonempty _ _ _ _ I)) Lf).
  Qed.

  (** * Frames *)

  Definition frame (b : bytes) (v v' : rview) : Prop :=
    b <> [] /\ forall inner, (List.length b <= inner)%nat -> takes (decode_frame w anon_id handler inner) b true v v'.

  Lemma sees_in r s v : sees s v -> sees (set_in r s) v.
  Proof. intros Sv. exact Sv. Qed.

  Lemma frame_decls h item l v v' :
    (forall inner r s, d_in s = h :: r ->
       decode_frame w anon_id handler inner s = (do _ <- decode_decls w inner (item inner);; dret true) (set_in r s)) ->
    N.of_nat (List.length l) < 2 ^ w -> (forall inner, (List.length (List.concat l) <= inner)%nat -> items (item inner) l v v') ->
    frame (h :: decls_bytes l) v v'.
  Proof.
    intros Hf L I. split; [discriminate|]. intros inner Li s rest Sv E.
    assert (Lc : (List.length (List.concat l) <= inner)%nat).
    { cbn in Li. unfold decls_bytes in Li. rewrite app_length in Li. lia. }
    rewrite (Hf inner (decls_bytes l ++ rest) s) by (rewrite E; reflexivity).
    assert (Tk : takes (do _ <- decode_decls w inner (item inner);; dret true) (decls_bytes l) true v v').
    { eapply takes_bindr; [apply takes_decls; eauto|apply takes_ret]. }
    apply Tk; [now apply sees_in|reflexivity].
  Qed.

  Lemma frame_prefixes l v : N.of_nat (List.length l) < 2 ^ w -> (forall e, In e l -> fits w (fst e) /\ fits w (snd e)) ->
    frame (68 :: decls_bytes (map prefix_bytes l)) v
      (mkV (v_ns v ++ map snd l) (v_ids v) (v_rm v) (v_log v ++ map (fun e => (mode (v_rm v), DPrefix (fst e) (snd e))) l)).
  Proof.
    intros L F. apply (frame_decls _ (fun _ => decode_prefix_decl w handler)).
    - intros inner r s E. unfold decode_frame. rewrite E. reflexivity.
    - now rewrite map_length.
    - intros inner _. clear L. revert v. induction l as [|e l IH]; intros v.
      + cbn. rewrite !app_nil_r. destruct v. constructor.
      + cbn [map]. econstructor.
        * unfold prefix_bytes. pose proof (prt_string_nonempty (fst e)). destruct (prt_string (fst e)); [easy|discriminate].
        * apply takes_prefix; apply (F e); now left.
        * replace (mkV (v_ns v ++ snd e :: map snd l) _ _ _) with
            (mkV (v_ns (v_change (DPrefix (fst e) (snd e)) (v_add_ns (snd e) v)) ++ map snd l) (v_ids v) (v_rm v)
               (v_log (v_change (DPrefix (fst e) (snd e)) (v_add_ns (snd e) v)) ++ map (fun e => (mode (v_rm v), DPrefix (fst e) (snd e))) l)).
          -- apply (IH (fun e H => F e (or_intror H)) (v_change (DPrefix (fst e) (snd e)) (v_add_ns (snd e) v))).
          -- cbn. now rewrite <- !app_assoc.
  Qed.
  Lemma frame_namespaces l v : N.of_nat (List.length l) < 2 ^ w -> Forall (fits w) l ->
    frame (4 :: decls_bytes (map prt_string l)) v (mkV (v_ns v ++ l) (v_ids v) (v_rm v) (v_log v)).
  Proof.
    intros L F. apply (frame_decls _ (fun _ => decode_ns_decl w)).
    - intros inner r s E. unfold decode_frame. rewrite E. reflexivity.
    - now rewrite map_length.
    - intros inner _. clear L. revert v. induction F as [|n l Fn F IH]; intros v.
      + cbn. rewrite !app_nil_r. destruct v. constructor.
      + cbn [map]. econstructor; [apply prt_string_nonempty|now apply takes_ns|].
        replace (mkV (v_ns v ++ n :: l) _ _ _) with (mkV (v_ns (v_add_ns n v) ++ l) (v_ids v) (v_rm v) (v_log v)).
        * apply (IH (v_add_ns n v)).
        * cbn. now rewrite <- app_assoc.
  Qed.

  (** IRI declarations: position of the namespace and remainder. *)
  Lemma frame_iris (l : list (N * (bytes * bytes))) v : N.of_nat (List.length l) < 2 ^ w ->
    (forall i ns rem, In (i, (ns, rem)) l -> i < 2 ^ w /\ fits w rem /\ nth_error (v_ns v) (N.to_nat i) = Some ns /\ iri_of_parts ns rem = (ns, rem)) ->
    frame (69 :: decls_bytes (map (fun e => varint (fst e) ++ prt_string (snd (snd e))) l)) v
      (mkV (v_ns v) (v_ids v ++ map (fun e => OIri (fst (snd e)) (snd (snd e))) l) (v_rm v) (v_log v)).
  Proof.
    intros L F. apply (frame_decls _ (fun _ => decode_iri_decl w)).
    - intros inner r s E. unfold decode_frame. rewrite E. reflexivity.
    - now rewrite map_length.
    - intros inner _. clear L. revert v F. induction l as [|[i [ns rem]] l IH]; intros v F.
      + cbn. rewrite !app_nil_r. destruct v. constructor.
      + cbn [map fst snd]. destruct (F i ns rem (or_introl eq_refl)) as (Li & Fr & Hn & St). econstructor.
        * pose proof (varint_nonempty i). destruct (varint i); [easy|discriminate].
        * now apply takes_iri with (ns := ns).
        * replace (mkV _ (v_ids v ++ OIri ns rem :: map (fun e => OIri (fst (snd e)) (snd (snd e))) l) _ _) with
            (mkV (v_ns v) (v_ids (v_add_id (OIri ns rem) v) ++ map (fun e => OIri (fst (snd e)) (snd (snd e))) l) (v_rm v) (v_log v)).
          -- apply (IH (v_add_id (OIri ns rem) v)). intros j n r Hj. apply F. now right.
          -- cbn. now rewrite <- app_assoc.
  Qed.
  Lemma frame_anons l v : N.of_nat (List.length l) < 2 ^ w -> Forall (fits w) l ->
    frame (5 :: decls_bytes (map prt_string l)) v (mkV (v_ns v) (v_ids v ++ map OAnon l) (v_rm v) (v_log v)).
  Proof.
    intros L F. apply (frame_decls _ (fun _ => decode_anon_decl w)).
    - intros inner r s E. unfold decode_frame. rewrite E. reflexivity.
    - now rewrite map_length.
    - intros inner _. clear L. revert v. induction F as [|n l Fn F IH]; intros v.
      + cbn. rewrite !app_nil_r. destruct v. constructor.
      + cbn [map]. econstructor; [apply prt_string_nonempty|now apply takes_anon|].
        replace (mkV _ (v_ids v ++ OAnon n :: map OAnon l) _ _) with (mkV (v_ns v) (v_ids (v_add_id (OAnon n) v) ++ map OAnon l) (v_rm v) (v_log v)).
        * apply (IH (v_add_id (OAnon n) v)).
        * cbn. now rewrite <- app_assoc.
  Qed.

  (** Frames that mention identifiers. *)
  Variable idx : obj -> idxr.

  Lemma iri_bytes v ns rem : agreed w (v_ids v) idx (OIri ns rem) ->
    exists b, encode_id w idx (OIri ns rem) = Some (b, false) /\ b <> [] /\ takes (decode_iri w anon_id) b (Some (OIri ns rem)) v v.
  Proof.
    intros K. destruct (rd_iri w W anon_id (v_ids v) idx 0 ns rem K) as (b & E & Nb & _). exists b. split; auto. split; auto.
    destruct (rd_iri w W anon_id (v_ids v) idx (List.length b) ns rem K) as (b' & E' & _ & G). rewrite E in E'. inversion E'; subst b'.
    eapply gives_takes; [apply G; lia|reflexivity].
  Qed.

  Lemma frame_iri_version iri version v :
    (forall i, iri = i \/ version = Some i -> an_iri i /\ agreed w (v_ids v) idx i) ->
    exists b, w_app (w_bytes [match version with Some _ => 134 | None => 6 end])
                (w_app (encode_id w idx iri) (match version with Some i => encode_id w idx i | None => w_nil end)) = Some (b, false) /\
      frame b v (v_changes (DIri iri :: match version with Some i => [DVersion i] | None => [] end) v).
  Proof.
    intros H. destruct (H iri (or_introl eq_refl)) as ((ns & rem & ->) & K). destruct (iri_bytes v ns rem K) as (b & E & Nb & T).
    rewrite E. destruct version as [i|].
    - destruct (H i (or_intror eq_refl)) as ((ns' & rem' & ->) & K'). destruct (iri_bytes (v_change (DIri (OIri ns rem)) v) ns' rem' K') as (c & Ec & Nc & Tc).
      rewrite Ec. eexists. split; [reflexivity|]. split; [discriminate|]. intros inner _ s rest Sv Es.
      unfold decode_frame. rewrite Es. cbn [app]. change (134 mod 64) with 6. change (N.testbit 134 7) with true. cbv iota.
      assert (Tk : takes (do _ <- decode_iri_version w anon_id handler true;; dret true) (b ++ c) true v
        (v_changes [DIri (OIri ns rem); DVersion (OIri ns' rem')] v)).
      { eapply takes_bindr; [|apply takes_ret]. rewrite v_changes_cons, v_changes_cons, v_changes_nil. unfold decode_iri_version.
        eapply takes_bind; [exact T|]. cbv beta iota. eapply takes_bind0; [apply takes_change|]. cbv iota.
        eapply takes_bindr; [exact Tc|]. cbv beta iota. apply takes_change. }
      apply Tk; [now apply sees_in|reflexivity].
    - eexists. split; [reflexivity|]. rewrite app_nil_r. split; [discriminate|]. intros inner _ s rest Sv Es.
      unfold decode_frame. rewrite Es. cbn [app]. change (6 mod 64) with 6. change (N.testbit 6 7) with false. cbv iota.
      assert (Tk : takes (do _ <- decode_iri_version w anon_id handler false;; dret true) b true v (v_changes [DIri (OIri ns rem)] v)).
      { eapply takes_bindr; [|apply takes_ret]. rewrite v_changes_cons, v_changes_nil. unfold decode_iri_version.
        eapply takes_bindr; [exact T|]. cbv beta iota. eapply takes_bind0; [apply takes_change|]. cbv iota. apply takes_ret. }
      apply Tk; [now apply sees_in|reflexivity].
  Qed.

  (** Lists of elements: each encoded separately. *)
  Lemma w_list xs bs : Forall2 (fun x b => x = Some (b, false)) xs bs ->
    w_until xs = Some (List.concat bs, false) /\ w_all xs = Some (List.concat bs, false).
  Proof.
    induction 1 as [|x b xs bs -> F [IH1 IH2]]; [auto|]. cbn [w_until w_all fold_right List.concat]. fold (w_all xs).
    rewrite IH1, IH2. auto.
  Qed.

  Lemma frame_list h item (f : obj -> wr) (mk : obj -> dpart) l v : N.of_nat (List.length l) < 2 ^ w ->
    (forall inner r s, d_in s = h :: r ->
       decode_frame w anon_id handler inner s = (do _ <- decode_decls w inner (item inner);; dret true) (set_in r s)) ->
    (forall o, In o l -> exists b, f o = Some (b, false) /\ b <> [] /\
       forall v' inner, v_ids v' = v_ids v -> (List.length b <= inner)%nat -> takes (item inner) b true v' (v_change (mk o) v')) ->
    exists c, w_until (map f l) = Some (c, false) /\ w_all (map f l) = Some (c, false) /\
      frame (h :: varint (N.of_nat (List.length l)) ++ c) v (v_changes (map mk l) v).
  Proof.
    intros L Hf H.
    assert (B : exists bs, Forall2 (fun o b => f o = Some (b, false) /\ b <> [] /\
       forall v' inner, v_ids v' = v_ids v -> (List.length b <= inner)%nat -> takes (item inner) b true v' (v_change (mk o) v')) l bs).
    { clear L. induction l as [|o l IH]; [now exists []|]. destruct (H o (or_introl eq_refl)) as (b & Hb).
      destruct IH as (bs & Hbs); [intros; apply H; now right|]. exists (b :: bs). now constructor. }
    destruct B as (bs & F). exists (List.concat bs).
    assert (Fw : Forall2 (fun x b => x = Some (b, false)) (map f l) bs).
    { clear -F. induction F as [|o b l bs (E & _) F IH]; cbn; constructor; auto. }
    destruct (w_list _ _ Fw) as [E1 E2]. split; auto. split; auto.
    assert (Len : List.length l = List.length bs) by (clear -F; induction F; cbn; auto).
    rewrite Len. apply (frame_decls h item bs); [exact Hf|exact (eq_ind _ (fun n => N.of_nat n < 2 ^ w) L _ Len)|]. intros inner Li.
    assert (G : forall v', v_ids v' = v_ids v -> items (item inner) bs v' (v_changes (map mk l) v')).
    { clear -F Li. induction F as [|o b l bs (E & Nb & T) F IH]; intros v' Hv.
      - rewrite v_changes_nil. constructor.
      - cbn [List.concat] in Li. rewrite app_length in Li. cbn [map]. rewrite v_changes_cons.
        econstructor; [exact Nb|apply T; [exact Hv|lia]|]. apply IH; [lia|exact Hv]. }
    now apply G.
  Qed.

  Lemma frame_imports l v : N.of_nat (List.length l) < 2 ^ w -> (forall i, In i l -> an_iri i /\ agreed w (v_ids v) idx i) ->
    exists c, w_until (map (encode_id w idx) l) = Some (c, false) /\
      frame (7 :: varint (N.of_nat (List.length l)) ++ c) v (v_changes (map DImport l) v).
  Proof.
    intros L H. destruct (frame_list 7 (fun _ => decode_import w anon_id handler) (encode_id w idx) DImport l v L) as (c & E & _ & F).
    - intros inner r s E. unfold decode_frame. rewrite E. reflexivity.
    - intros o Ho. destruct (H o Ho) as ((ns & rem & ->) & K). destruct (iri_bytes v ns rem K) as (b & E & Nb & _).
      exists b. split; auto. split; auto. intros v' inner Hv _. rewrite <- Hv in K.
      destruct (iri_bytes v' ns rem K) as (b' & E' & _ & T). rewrite E in E'. inversion E'; subst b'.
      unfold decode_import. eapply takes_bindr; [exact T|]. cbv beta iota. eapply takes_bind0; [apply takes_change|apply takes_ret].
    - eauto.
  Qed.

  Lemma frame_annots l v : N.of_nat (List.length l) < 2 ^ w ->
    (forall a, In a l -> wt (SOne SAnnot) a = true /\ storable w a /\ (forall p, mentions p a -> agreed w (v_ids v) idx (ident p))) ->
    exists c, w_all (map (encode_object w idx) l) = Some (c, false) /\
      frame (8 :: varint (N.of_nat (List.length l)) ++ c) v (v_changes (map DAnnot l) v).
  Proof.
    intros L H. destruct (frame_list 8 (fun inner => decode_onto_annot w anon_id handler inner) (encode_object w idx) DAnnot l v L) as (c & _ & E & F).
    - intros inner r s E. unfold decode_frame. rewrite E. reflexivity.
    - intros o Ho. destruct (H o Ho) as (T & St & K).
      assert (B : forall f, rd (v_ids v) f (decode_annotation w anon_id f) (encode_object w idx o) o).
      { intros f. pose proof (object_back w W anon_id (v_ids v) idx o St K (SOne SAnnot) f eq_refl T) as R.
        rewrite (enc_vec_item w idx SAnnot o eq_refl T). exact R. }
      destruct (B 0%nat) as (b & Eb & Nb & _). exists b. split; auto. split; auto. intros v' inner Hv Li.
      destruct (B inner) as (b' & Eb' & _ & G). rewrite Eb in Eb'. inversion Eb'; subst b'.
      unfold decode_onto_annot. eapply takes_bindr; [eapply gives_takes; [apply G; exact Li|exact Hv]|]. cbv beta iota.
      eapply takes_bind0; [apply takes_change|apply takes_ret].
    - eauto.
  Qed.

  Lemma frame_axiom o v : is_axiom_object o -> storable w o -> (forall p, mentions p o -> agreed w (v_ids v) idx (ident p)) ->
    exists b, encode_object w idx o = Some (b, false) /\ frame b v (v_change (DAxiom o) v).
  Proof.
    intros T St K. destruct (axiom_frame w W anon_id (v_ids v) idx handler o T St K) as (b & E & Nb & G). exists b. split; auto.
    split; auto. intros inner L s rest Sv Es. pose proof Sv as (Ok & _ & Si & _).
    rewrite (G inner s rest L Ok Si Es).
    assert (Tk : takes (do _ <- handle_change handler (DAxiom o);; dret true) [] true v (v_change (DAxiom o) v))
      by (eapply takes_bind0; [apply takes_change|apply takes_ret]).
    apply Tk; [now apply sees_in|reflexivity].
  Qed.

  (** Control frames. *)
  Lemma frame_mode (rm : bool) v : frame [if rm then 1 else 0] v (mkV (v_ns v) (v_ids v) rm (v_log v)).
  Proof.
    split; [discriminate|]. intros inner _ s rest (Ok & Sn & Si & Sr & Sl) E. unfold decode_frame. rewrite E. cbn [app].
    destruct rm; cbv iota; (eexists; split; [reflexivity|]; split; [|reflexivity]; unfold sees; auto).
  Qed.
  Lemma frame_reset (prefixes : bool) v : frame [2 + (if prefixes then 64 else 0) + 128] v
    (mkV (if prefixes then map fst standard_prefixes else v_ns v) [] (v_rm v) (v_log v)).
  Proof.
    split; [discriminate|]. intros inner _ s rest (Ok & Sn & Si & Sr & Sl) E. unfold decode_frame. rewrite E. cbn [app].
    assert (Z0 : (0 <= COWL_OK)%Z) by (vm_compute; discriminate).
    assert (Sv : sees (set_in rest s) v) by (unfold sees; auto).
    destruct prefixes; cbv iota; unfold dbind, handle_reset, dret.
    - change ((2 + 64 + 128) mod 64) with 2. cbv iota. change (N.testbit (2 + 64 + 128) 6) with true. change (N.testbit (2 + 64 + 128) 7) with true.
      cbv iota. set (s1 := set_code COWL_OK (set_ns (map fst standard_prefixes) (set_in rest s))).
      assert (O1 : sees s1 (mkV (map fst standard_prefixes) (v_ids v) (v_rm v) (v_log v))).
      { apply sees_code; auto. unfold sees. cbn. auto. }
      rewrite (proj1 O1). cbn [andb negb]. eexists. split; [reflexivity|]. split.
      + apply sees_code; auto. destruct O1 as (A & B & C & D & F). unfold sees. cbn in *. auto.
      + rewrite (proj2 (proj2 (proj2 (proj2 (set_code_same _ _))))). cbn [d_in set_ids]. unfold s1.
        rewrite (proj2 (proj2 (proj2 (proj2 (set_code_same _ _))))). reflexivity.
    - change ((2 + 0 + 128) mod 64) with 2. cbv iota. change (N.testbit (2 + 0 + 128) 6) with false. change (N.testbit (2 + 0 + 128) 7) with true.
      cbv iota. cbn [andb]. eexists. split; [reflexivity|]. split.
      + apply sees_code; auto. unfold sees. cbn. auto.
      + rewrite (proj2 (proj2 (proj2 (proj2 (set_code_same _ _))))). reflexivity.
  Qed.

  (** * Sequences of frames *)

  Inductive eats : bytes -> rview -> rview -> Prop :=
  | eats_nil v : eats [] v v
  | eats_cons b c v v1 v2 : frame b v v1 -> eats c v1 v2 -> eats (b ++ c) v v2.
  Lemma eats_app b c v v1 v2 : eats b v v1 -> eats c v1 v2 -> eats (b ++ c) v v2.
  Proof. induction 1 as [v|b1 c1 v v1' v2' F E IH]; auto. intros H. rewrite <- app_assoc. econstructor; eauto. Qed.
  Lemma eats_one b v v' : frame b v v' -> eats b v v'.
  Proof. intros F. rewrite <- (app_nil_r b). econstructor; eauto using eats_nil. Qed.

  Lemma eats_axioms l v :
    (forall o, In o l -> is_axiom_object o /\ storable w o /\ (forall p, mentions p o -> agreed w (v_ids v) idx (ident p))) ->
    exists c, w_until (map (encode_object w idx) l) = Some (c, false) /\ eats c v (v_changes (map DAxiom l) v).
  Proof.
    intros H. assert (G : forall v', v_ids v' = v_ids v -> exists bs, Forall2 (fun x b => x = Some (b, false)) (map (encode_object w idx) l) bs /\
      eats (List.concat bs) v' (v_changes (map DAxiom l) v')).
    { induction l as [|o l IH]; intros v' Hv.
      - exists []. split; [constructor|]. cbn. rewrite v_changes_nil. constructor.
      - destruct (H o (or_introl eq_refl)) as (T & St & K). rewrite <- Hv in K. destruct (frame_axiom o v' T St K) as (b & E & F).
        destruct (IH (fun x Hx => H x (or_intror Hx)) (v_change (DAxiom o) v') Hv) as (bs & Fb & Eb).
        exists (b :: bs). split; [cbn; constructor; auto|]. cbn [map List.concat]. rewrite v_changes_cons. econstructor; eauto. }
    destruct (G v eq_refl) as (bs & Fb & Eb). exists (List.concat bs). split; auto. now apply w_list.
  Qed.

  Lemma eats_run b v v' : eats b v v' -> forall inner s rest, (List.length b <= inner)%nat -> sees s v -> d_in s = b ++ rest ->
    exists s' k, sees s' v' /\ d_in s' = rest /\ (k <= List.length b)%nat /\
      forall f, decode_frames w anon_id handler (k + f) inner s = decode_frames w anon_id handler f inner s'.
  Proof.
    induction 1 as [v|b c v v1 v2 (Nb & F) E IH]; intros inner s rest L Sv Ei.
    - exists s, 0%nat. split; auto.
    - rewrite app_length in L. rewrite <- app_assoc in Ei. destruct (F inner ltac:(lia) s _ Sv Ei) as (s1 & E1 & S1 & I1).
      destruct (IH inner s1 rest ltac:(lia) S1 I1) as (s' & k & S' & I' & Lk & H). exists s', (S k). split; auto. split; auto. split.
      + rewrite app_length. destruct b; [easy|]. cbn. lia.
      + intros f. cbn [Nat.add decode_frames]. replace (d_ok s) with true by (symmetry; apply Sv). unfold dbind. rewrite E1. apply H.
  Qed.

  (** Reading a whole stream, ended by the end of the input or by a footer. *)
  Lemma eats_read b v rest : eats b (mkV (map fst standard_prefixes) [] false []) v -> rest = [] \/ (exists r, rest = 3 :: r) ->
    exists s, read_ontology w anon_id handler (1 :: b ++ rest) = DRet tt s /\ sees s v.
  Proof.
    intros E Hr. unfold read_ontology. cbn [List.length]. set (n := List.length (b ++ rest)). unfold dbind.
    unfold decode_header, dbind, read_byte. cbn [d_ok d_init d_code]. change (0 <=? COWL_OK)%Z with true. cbn [negb d_in d_init].
    change (1 =? 1) with true. cbv iota. unfold dret.
    set (s0 := set_in (b ++ rest) (d_init (1 :: b ++ rest))).
    assert (Sv : sees s0 (mkV (map fst standard_prefixes) [] false [])) by (unfold sees; cbn; auto).
    assert (Ln : (List.length b <= n)%nat) by (unfold n; rewrite app_length; lia).
    destruct (eats_run b _ v E (S (S n)) s0 rest ltac:(lia) Sv eq_refl) as (s' & k & S' & I' & Lk & H).
    pose proof (H (S (S n - k))) as H1. replace (k + S (S n - k))%nat with (S (S n)) in H1 by lia. change (d_ok (d_init (1 :: b ++ rest))) with true. cbn [negb]. change (1 =? 1) with true. cbv iota beta.
    rewrite H1. cbn [decode_frames].
    replace (d_ok s') with true by (symmetry; apply S'). unfold dbind, decode_frame. rewrite I'.
    destruct Hr as [->|(r & ->)].
    - exists s'. auto.
    - change (3 mod 64) with 3. cbv iota. exists (set_in r s'). split; [reflexivity|]. exact S'.
  Qed.
End Frames.
