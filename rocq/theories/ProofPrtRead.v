(** Reading back what the encoder writes for an object. *)

From Coq Require Import NArith ZArith String List Bool Lia.
From Coq Require Import ZifyBool ZifyNat ZifyN.
From Verif Require Import Bytes ModelTypes ModelObject ModelText SpecObject SpecText ProofObject ProofIter ProofText ProofLiteral
  ModelChange ModelPrtValue ModelPrtEncoder ModelPrtDecoder SpecPrt ProofPrtValue.
Import ListNotations.
Local Open Scope N_scope.
Ltac Zify.zify_post_hook ::= Z.div_mod_to_equations.

Lemma set_in_self s : set_in (d_in s) s = s.
Proof. now destruct s. Qed.
Lemma set_in_in a b s : set_in a (set_in b s) = set_in a s.
Proof. reflexivity. Qed.

Section Read.
  Variable w : N.
  Hypothesis W : width w.
  Variable anon_id : nat -> bytes.
  (** The identifiers known to the reader. *)
  Variable ids : list obj.

  (** [m] reads exactly the bytes [b], without error, and answers [a]. *)
  Definition gives {A} (m : D A) (b : bytes) (a : A) : Prop :=
    forall s rest, d_ok s = true -> d_ids s = ids -> d_in s = b ++ rest -> m s = DRet a (set_in rest s).

  Lemma gives_ret {A} (a : A) : gives (dret a) [] a.
  Proof. intros s rest _ _ E. cbn in E. subst rest. now rewrite set_in_self. Qed.
  Lemma gives_bind {A B} (m : D A) (k : A -> D B) b c a r : gives m b a -> gives (k a) c r -> gives (dbind m k) (b ++ c) r.
  Proof.
    intros H K s rest Ok Ids E. unfold dbind. rewrite <- app_assoc in E. rewrite (H s (c ++ rest)) by auto.
    rewrite (K _ rest) by (cbn; auto). now rewrite set_in_in.
  Qed.
  Lemma gives_bind0 {A B} (m : D A) (k : A -> D B) b a r : gives m [] a -> gives (k a) b r -> gives (dbind m k) b r.
  Proof. intros H K. change b with ([] ++ b). eapply gives_bind; eauto. Qed.
  Lemma gives_bindr {A B} (m : D A) (k : A -> D B) b a r : gives m b a -> gives (k a) [] r -> gives (dbind m k) b r.
  Proof. intros H K. rewrite <- (app_nil_r b). eapply gives_bind; eauto. Qed.

  (** * Numbers and strings *)

  Lemma gives_varint n : n < 2 ^ w -> gives (read_varint w) (varint n) (Some n).
  Proof.
    intros H s rest Ok _ E. unfold read_varint. rewrite Ok, E. cbn [negb].
    pose proof (width_pow w W). rewrite varint_read_varint by lia. now rewrite N.mod_small.
  Qed.
  Lemma gives_svarint z : in_range w z -> gives (read_svarint w) (svarint z) (Some z).
  Proof.
    intros H s rest Ok _ E. unfold read_svarint, svarint in *. rewrite Ok, E. cbn [negb].
    rewrite varint_read_varint by (eapply zigzag_bound, in_range_64; eauto).
    rewrite zigzag_unzigzag, to_int_id by auto. reflexivity.
  Qed.
  Lemma gives_byte b : gives read_byte [b] (Some b).
  Proof. intros s rest Ok _ E. unfold read_byte. rewrite Ok, E. reflexivity. Qed.
  Lemma gives_bytes v : gives (read_bytes (N.of_nat (List.length v))) v (Some v).
  Proof.
    intros s rest Ok _ E. unfold read_bytes. rewrite Ok, E. cbn [negb]. rewrite app_length.
    destruct (N.ltb_spec (N.of_nat (List.length v + List.length rest)) (N.of_nat (List.length v))); [lia|].
    rewrite Nnat.Nat2N.id, firstn_app, Nat.sub_diag, firstn_all, firstn_O, app_nil_r. rewrite skipn_app, skipn_all, Nat.sub_diag. reflexivity.
  Qed.
  Lemma gives_string v : fits w v -> gives (decode_string w) (prt_string v) (Some v).
  Proof.
    intros H. unfold decode_string, prt_string. eapply gives_bind; [apply gives_varint; exact H|]. apply gives_bytes.
  Qed.
  Lemma prt_string_nonempty v : prt_string v <> [].
  Proof. unfold prt_string. pose proof (varint_nonempty (N.of_nat (List.length v))). destruct (varint _); [easy|discriminate]. Qed.

  (** * Literal values *)

  Lemma gives_literal_int v : in_range w v ->
    exists fmt, fmt < 16 /\ fst (literal_int v) = fmt /\ fmt <> 0 /\ gives (decode_literal_value w fmt) (snd (literal_int v)) (Some (show_int v)).
  Proof.
    intros R. unfold literal_int. destruct (Z.ltb_spec v 0) as [L|L]; cbn [fst snd].
    - exists LVF_INT. split; [reflexivity|]. split; auto. split; [discriminate|]. cbn.
      eapply gives_bindr; [now apply gives_svarint|]. apply gives_ret.
    - exists LVF_UINT. split; [reflexivity|]. split; auto. split; [discriminate|]. cbn.
      eapply gives_bindr; [apply gives_varint|].
      + pose proof (width_pow w W). unfold in_range in R. lia.
      + replace (show_int v) with (show_uint (Z.to_N v)); [apply gives_ret|]. rewrite show_uint_int. f_equal. lia.
  Qed.

  (** Format and bytes of a value, and what is read back. *)
  Lemma gives_payload g s : fits w s ->
    exists fmt p, fmt < 16 /\ (forall type, literal_header_value w type g s = (type + fmt * 4) :: p) /\
      gives (decode_literal_value w fmt) p (Some (back w g s)).
  Proof.
    intros F.
    assert (Str : forall u, u = s -> exists fmt p, fmt < 16 /\ (forall type, type :: prt_string s = (type + fmt * 4) :: p) /\
      gives (decode_literal_value w fmt) p (Some u)).
    { intros u ->. exists 0, (prt_string s). split; [lia|]. split; [intros; f_equal; lia|]. cbn. now apply gives_string. }
    assert (Int : forall v, in_range w v -> exists fmt p, fmt < 16 /\
      (forall type, (let (fmt, payload) := literal_int v in if fmt =? LVF_STRING then type :: prt_string s else (type + fmt * 4) :: payload) = (type + fmt * 4) :: p) /\
      gives (decode_literal_value w fmt) p (Some (show_int v))).
    { intros v R. destruct (gives_literal_int v R) as (fmt & L & E & Nz & G). destruct (literal_int v) as [f p]. cbn in *. subst f.
      exists fmt, p. split; auto. split; auto. intros type. destruct (N.eqb_spec fmt LVF_STRING) as [->|]; [now elim Nz|reflexivity]. }
    unfold literal_header_value. destruct g; cbn [literal_payload back].
    - apply Str. reflexivity.
    - unfold literal_maybe_bool, back_bool.
      destruct (bytes_eqb s (bs "true")) eqn:E1; [apply bytes_eqb_eq in E1|destruct (bytes_eqb s (bs "false")) eqn:E2; [apply bytes_eqb_eq in E2|]].
      + exists LVF_BOOL, [1]. split; [reflexivity|]. split; [reflexivity|]. rewrite E1. cbn.
        eapply gives_bindr; [apply gives_byte|apply gives_ret].
      + exists LVF_BOOL, [0]. split; [reflexivity|]. split; [reflexivity|]. rewrite E2. cbn.
        eapply gives_bindr; [apply gives_byte|apply gives_ret].
      + unfold literal_maybe_int, back_int. destruct (string_to_int w s) as [v|] eqn:Ev.
        * apply Int. now apply string_to_int_some in Ev.
        * apply Str. reflexivity.
    - unfold literal_maybe_int, back_int. destruct (string_to_int w s) as [v|] eqn:Ev.
      + apply Int. now apply string_to_int_some in Ev.
      + apply Str. reflexivity.
    - unfold literal_maybe_dec, back_dec. destruct (str_to_int w s) as [[[v o] r]|] eqn:Ev; [|apply Str; reflexivity].
      assert (R : in_range w v).
      { apply str_to_int_some in Ev as (? & ? & _ & _ & _ & -> & _). now apply clamp_range. }
      destruct r as [|c s1]; [now apply Int|].
      destruct (N.eqb_spec c 46) as [->|]; cbn [negb]; [|apply Str; reflexivity].
      destruct (span_digits s1) as [d r]. destruct d as [|c2 d]; [apply Str; reflexivity|].
      pose proof (digits_value_reverse_lt w (c2 :: d) ltac:(discriminate)) as Lt.
      destruct r as [|c3 s2].
      + exists LVF_FIXED_POINT, (fixed_point v (digits_value_reverse w (c2 :: d))). split; [reflexivity|]. split; [reflexivity|].
        cbn. unfold fixed_point. eapply gives_bind; [now apply gives_svarint|]. cbn.
        eapply gives_bindr; [now apply gives_varint|]. apply gives_ret.
      + destruct (N.eqb_spec c3 69) as [->|]; cbn [negb]; [|apply Str; reflexivity].
        destruct (str_to_int w s2) as [[[e oe] re]|] eqn:Ee; [|apply Str; reflexivity].
        destruct re as [|c4 re]; [|apply Str; reflexivity].
        assert (Re : in_range w e).
        { apply str_to_int_some in Ee as (? & ? & _ & _ & _ & -> & _). now apply clamp_range. }
        exists LVF_E_NOTATION, (fixed_point v (digits_value_reverse w (c2 :: d)) ++ svarint e). split; [reflexivity|]. split; [reflexivity|].
        cbn. unfold fixed_point. rewrite <- app_assoc. eapply gives_bind; [now apply gives_svarint|]. cbn.
        eapply gives_bind; [now apply gives_varint|]. cbn.
        eapply gives_bindr; [now apply gives_svarint|]. apply gives_ret.
  Qed.

  (** * Identifiers *)

  Variable idx : obj -> idxr.
  (** The writer's index of [p] denotes [p] for the reader. *)
  Definition known (p : obj) : Prop := agreed w ids idx p.

  (** [wr] are bytes from which [m] reads [o], with the recursion bound [f]. *)
  Definition rd (f : nat) (m : D (option obj)) (x : wr) (o : obj) : Prop :=
    exists b, x = Some (b, false) /\ b <> [] /\ ((List.length b <= f)%nat -> gives m b (Some o)).

  Lemma gives_get_id i p : nth_error ids (N.to_nat i) = Some p -> gives (get_id anon_id i) [] (Some p).
  Proof.
    intros H s rest Ok Ids E. cbn in E. subst rest. unfold get_id. rewrite Ids.
    assert (N.to_nat i < List.length ids)%nat by (apply nth_error_Some; congruence).
    destruct (N.ltb_spec i (N.of_nat (List.length ids))); [|lia]. rewrite H. now rewrite set_in_self.
  Qed.

  Lemma write_varint_small n : n < 2 ^ w -> write_varint w n = Some (varint n, false).
  Proof. intros H. unfold write_varint, w_bytes. now rewrite N.mod_small. Qed.

  Lemma rd_id f get off p x : known p -> off <= 17 ->
    (forall i, nth_error ids (N.to_nat i) = Some p -> gives (get (i + off)) [] (Some x)) ->
    rd f (decode_with w get) (encode_id_offset w idx p off) x.
  Proof.
    intros (i & E & Hn & L) Lo H. unfold encode_id_offset. rewrite E, write_varint_small by lia.
    exists (varint (i + off)). split; auto. split; [apply varint_nonempty|]. intros _. unfold decode_with.
    eapply gives_bindr; [apply gives_varint; lia|]. cbn. auto.
  Qed.

  Lemma gives_get_id_iri i ns rem : nth_error ids (N.to_nat i) = Some (OIri ns rem) -> gives (get_id_iri anon_id i) [] (Some (OIri ns rem)).
  Proof. intros H. unfold get_id_iri. eapply gives_bind0; [apply gives_get_id; exact H|]. apply gives_ret. Qed.
  Lemma gives_get_entity e i ns rem : nth_error ids (N.to_nat i) = Some (OIri ns rem) -> gives (get_entity anon_id e i) [] (Some (OEnt e ns rem)).
  Proof. intros H. unfold get_entity. eapply gives_bind0; [apply gives_get_id_iri; exact H|]. apply gives_ret. Qed.
  Lemma gives_get_individual i p : nth_error ids (N.to_nat i) = Some (ident p) -> wt (SOne SInd) p = true ->
    gives (get_individual anon_id i) [] (Some p).
  Proof.
    intros H T. unfold get_individual. eapply gives_bind0; [apply gives_get_id; exact H|].
    destruct p as [|ns rem|e ns rem|id|v ns rem|v l|o l|t fs opt n]; try discriminate T; cbn.
    - destruct e; try discriminate T. apply gives_ret.
    - apply gives_ret.
    - now destruct t.
  Qed.

  Lemma add_0 (i : N) : i + 0 = i. Proof. lia. Qed.

  Lemma rd_iri f ns rem : known (OIri ns rem) -> rd f (decode_iri w anon_id) (encode_id w idx (OIri ns rem)) (OIri ns rem).
  Proof. intros K. apply rd_id; auto; [lia|]. intros i H. rewrite add_0. now apply gives_get_id_iri. Qed.
  Lemma rd_entity f e ns rem : known (OIri ns rem) -> rd f (decode_entity w anon_id e) (encode_entity w idx (OEnt e ns rem) 0) (OEnt e ns rem).
  Proof. intros K. apply rd_id; auto; [lia|]. intros i H. rewrite add_0. now apply gives_get_entity. Qed.
  Lemma rd_any_id f p : known p -> rd f (decode_iri_or_anon w anon_id) (encode_id w idx p) p.
  Proof. intros K. apply rd_id; auto; [lia|]. intros i H. rewrite add_0. now apply gives_get_id. Qed.

  (** * Literals *)

  Lemma lang_datatype_model ns rem : is_lang_datatype ns rem = true <-> lang_datatype ns rem.
  Proof.
    unfold is_lang_datatype, lang_datatype. rewrite orb_true_iff.
    rewrite !(prim_eqb_eq (OEnt ET_DATATYPE ns rem) _ _ eq_refl). unfold rdf_lang_string, rdf_plain_literal. split.
    - intros [E|E]; inversion E; auto.
    - intros (-> & [->| ->]); auto.
  Qed.

  Lemma header_byte fmt type : fmt < 16 -> type < 4 -> (type + fmt * 4) mod 64 / 4 = fmt /\ (type + fmt * 4) mod 4 = type.
  Proof. intros H L. split; lia. Qed.

  Lemma to_lower_id l : Forall (fun c => ~ 65 <= c <= 90) l -> to_lower l = l.
  Proof.
    intros F. unfold to_lower. induction F as [|c l H F IH]; auto. cbn [map]. rewrite IH. f_equal.
    destruct (to_lower_char_spec c) as [[A _]|[_ A]]; auto. now destruct H.
  Qed.

  (** The literal read back, for any literal; only its text may change. *)
  Lemma rd_literal_back f v ns rem : fits w v -> ~ lang_datatype ns rem -> (~ (ns = xsd_ns /\ rem = xsd_string_rem) -> known (OIri ns rem)) ->
    rd f (decode_literal w anon_id) (encode_literal w idx (OLit v ns rem)) (OLit (back w (datatype_group ns rem) v) ns rem).
  Proof.
    intros F L K. unfold encode_literal. destruct (bytes_eqb ns xsd_ns && bytes_eqb rem xsd_string_rem) eqn:E.
    - apply andb_true_iff in E as [E1 E2]. apply bytes_eqb_eq in E1, E2. subst ns rem.
      destruct (gives_payload DG_STRING v F) as (fmt & p & Lf & Hp & G). rewrite Hp.
      exists ((0 + fmt * 4) :: p). split; auto. split; [discriminate|]. intros _.
      destruct (header_byte fmt 0 Lf ltac:(lia)) as [H1 H2]. unfold decode_literal.
      change ((0 + fmt * 4) :: p) with ([0 + fmt * 4] ++ p). eapply gives_bind; [apply gives_byte|]. cbv beta iota.
      rewrite H1, H2. eapply gives_bindr; [exact G|]. eapply gives_bind0; [apply gives_ret|].
      cbn [back]. unfold decode_literal_string. apply gives_ret.
    - assert (K' : known (OIri ns rem)).
      { apply K. intros [-> ->]. now rewrite !bytes_eqb_refl in E. }
      destruct (gives_payload (datatype_group ns rem) v F) as (fmt & p & Lf & Hp & G). rewrite Hp.
      destruct (rd_iri 0 ns rem K') as (bi & Ei & Ni & _). fold (encode_id w idx (OIri ns rem)). rewrite Ei.
      exists (((2 + fmt * 4) :: p) ++ bi). split; auto. split; [discriminate|]. intros _.
      destruct (rd_iri (List.length bi) ns rem K') as (bi' & Ei' & _ & Gi). rewrite Ei in Ei'. inversion Ei'; subst bi'.
      specialize (Gi (le_n _)).
      destruct (header_byte fmt 2 Lf ltac:(lia)) as [H1 H2]. unfold decode_literal.
      change (((2 + fmt * 4) :: p) ++ bi) with ([2 + fmt * 4] ++ p ++ bi). eapply gives_bind; [apply gives_byte|]. cbv beta iota.
      rewrite H1, H2. eapply gives_bind; [exact G|]. eapply gives_bind0; [apply gives_ret|].
      cbv iota. unfold decode_literal_typed. eapply gives_bindr; [exact Gi|]. cbn.
      destruct (is_lang_datatype ns rem) eqn:El; [now apply lang_datatype_model in El|]. apply gives_ret.
  Qed.

  Lemma rd_literal_lang f v l : fits w v -> fits w l -> l <> [] -> Forall (fun c => ~ 65 <= c <= 90) l ->
    rd f (decode_literal w anon_id) (encode_literal w idx (OLang v l)) (OLang v l).
  Proof.
    intros F Fl Nl Ll. unfold encode_literal.
    destruct (gives_payload DG_STRING v F) as (fmt & p & Lf & Hp & G). rewrite Hp.
    exists (((1 + fmt * 4) :: p) ++ prt_string l). split; auto. split; [discriminate|]. intros _.
    destruct (header_byte fmt 1 Lf ltac:(lia)) as [H1 H2]. unfold decode_literal.
    change (((1 + fmt * 4) :: p) ++ prt_string l) with ([1 + fmt * 4] ++ p ++ prt_string l). eapply gives_bind; [apply gives_byte|]. cbv beta iota.
    rewrite H1, H2. eapply gives_bind; [exact G|]. eapply gives_bind0; [apply gives_ret|].
    cbv iota. unfold decode_literal_lang. eapply gives_bindr; [now apply gives_string|]. cbn. unfold literal_lang_alloc.
    destruct l as [|c l]; [easy|]. cbn [List.length Nat.eqb]. rewrite internalize_lang_lower, to_lower_id by auto. apply gives_ret.
  Qed.

  (** * Lists of operands *)

  Lemma all_some_map {A} (l : list A) : all_some (map Some l) = Some l.
  Proof. induction l as [|a l IH]; auto. cbn. now rewrite IH. Qed.

  (** Bytes from which the operands [os] are read. *)
  Definition rds (f : nat) (ms : list (D (option obj))) (xs : list wr) (os : list obj) : Prop :=
    exists b, w_all xs = Some (b, false) /\ ((List.length b <= f)%nat -> gives (dec_args ms) b (map Some os)).

  Lemma rds_nil f : rds f [] [] [].
  Proof. exists []. split; auto. intros _. apply gives_ret. Qed.
  Lemma rds_cons f m x o ms xs os : rd f m x o -> rds f ms xs os -> rds f (m :: ms) (x :: xs) (o :: os).
  Proof.
    intros (b & E & _ & G) (c & Ec & Gc). exists (b ++ c). cbn [w_all fold_right]. fold (w_all xs). rewrite E, Ec. split; auto.
    rewrite app_length. intros L. cbn [dec_args map]. eapply gives_bind; [apply G; lia|]. cbn.
    eapply gives_bindr; [apply Gc; lia|]. apply gives_ret.
  Qed.

  Lemma rd_mono f m x o : rd f m x o -> forall f', (f' <= f)%nat -> rd f' m x o.
  Proof. intros (b & E & Nb & G) f' L. exists b. split; auto. split; auto. intros; apply G; lia. Qed.

  Lemma rd_zero m m' x o o' : rd 0 m x o -> rd 0 m' x o'.
  Proof. intros (b & E & Nb & _). exists b. split; auto. split; auto. destruct b; [easy|cbn; lia]. Qed.

  (** A vector. *)
  Lemma vec_loop_gives f item l : Forall (fun x => rd f item (encode_object w idx x) x) l ->
    exists b, w_all (map (encode_object w idx) l) = Some (b, false) /\ (List.length l <= List.length b)%nat /\
      ((List.length b <= f)%nat -> forall k, (List.length l <= k)%nat -> gives (vec_loop k item (N.of_nat (List.length l))) b (Some l)).
  Proof.
    induction 1 as [|x l (bx & E & Nb & G) F (b & Eb & Ll & Gb)].
    - exists []. split; auto. split; auto. intros _ k _. destruct k; apply gives_ret.
    - exists (bx ++ b). cbn [map w_all fold_right]. fold (w_all (map (encode_object w idx) l)). rewrite E, Eb.
      split; auto. rewrite app_length. split.
      + destruct bx; [easy|]. cbn. lia.
      + intros L k Lk. destruct k as [|k]; [cbn in Lk; lia|]. cbn [vec_loop List.length].
        destruct (N.eqb_spec (N.of_nat (S (List.length l))) 0); [lia|].
        replace (N.of_nat (S (List.length l)) - 1) with (N.of_nat (List.length l)) by lia.
        eapply gives_bind; [apply G; lia|]. cbv beta iota.
        eapply gives_bindr; [apply Gb; [lia|cbn in Lk; lia]|]. apply gives_ret.
  Qed.

  Lemma w_app_false b c : w_app (Some (b, false)) (Some (c, false)) = Some (b ++ c, false).
  Proof. reflexivity. Qed.
  Lemma w_app_nil x : w_app x w_nil = x.
  Proof. destruct x as [[b e]|]; auto. cbn. now rewrite app_nil_r, orb_false_r. Qed.

  Lemma rd_vector f item ord l : N.of_nat (List.length l) < 2 ^ w ->
    Forall (fun x => rd f item (encode_object w idx x) x) l ->
    rd f (decode_vector w f item) (encode_object w idx (OVec ord l)) (OVec false l).
  Proof.
    intros L F. destruct (vec_loop_gives f item l F) as (b & E & Ll & G). cbn [encode_object].
    rewrite write_varint_small, E, w_app_false by auto.
    exists (varint (N.of_nat (List.length l)) ++ b). split; auto.
    pose proof (varint_nonempty (N.of_nat (List.length l))) as Nv. split; [destruct (varint _); [easy|discriminate]|].
    rewrite app_length. intros Lf. unfold decode_vector. eapply gives_bind; [now apply gives_varint|]. cbv beta iota.
    eapply gives_bindr; [apply G; lia|]. apply gives_ret.
  Qed.

  (** A header followed by operands. *)
  Lemma rd_header f h k x o : h < 2 ^ w ->
    (exists b, x = Some (b, false) /\ ((List.length b <= f)%nat -> gives (k h) b (Some o))) ->
    rd (S f) (decode_with w k) (w_app (write_varint w h) x) o.
  Proof.
    intros L (b & -> & G). rewrite write_varint_small, w_app_false by auto.
    exists (varint h ++ b). split; auto. pose proof (varint_nonempty h) as Nv.
    split; [destruct (varint h); [easy|discriminate]|]. rewrite app_length. intros Lf. unfold decode_with.
    eapply gives_bind; [now apply gives_varint|]. apply G. destruct (varint h); [easy|]. cbn in Lf. lia.
  Qed.

  Lemma gives_construct t ms b os : gives (dec_args ms) b (map Some os) -> gives (construct t ms) b (Some (mk_plain t os)).
  Proof.
    intros G. unfold construct. eapply gives_bindr; [exact G|]. intros s rest Ok _ E. cbn in E. subst rest.
    unfold build. now rewrite Ok, all_some_map, set_in_self.
  Qed.

  (** * Categories *)

  Definition dec_item (f : nat) (i : isort) : D (option obj) :=
    match i with
    | SEnt e => decode_entity w anon_id e
    | SIri => decode_iri w anon_id
    | SInd => decode_individual w anon_id
    | SLit => decode_literal w anon_id
    | SCls => decode_cls_exp w anon_id f
    | SRange => decode_data_range w anon_id f
    | SObjProp => decode_obj_prop_exp w anon_id
    | SFacet => decode_facet_restr w anon_id
    | SAnnot => decode_annotation w anon_id f
    | SAnnotVal => decode_annot_value w anon_id
    | SAnnotSubj => decode_iri_or_anon w anon_id
    | SEntity | SAxiom => dret None
    end.
  Definition dec_sort (f : nat) (s : sort) : D (option obj) :=
    match s with
    | SOne i => dec_item f i
    | SMany _ i => decode_vector w f (dec_item f i)
    | SSubProp => dret None
    end.
  Definition enc_sort (s : sort) (o : obj) : wr :=
    match s with
    | SOne (SEnt _) => encode_entity w idx o 0
    | SOne SAnnotVal => encode_annot_value w idx o
    | _ => encode_object w idx o
    end.
  Fixpoint enc_all (ss : list sort) (fs : list obj) : list wr :=
    match ss, fs with s :: ss', o :: fs' => enc_sort s o :: enc_all ss' fs' | _, _ => [] end.

  (** Categories read as one operand, and as element of a vector. *)
  Definition one_item (i : isort) : bool := match i with SEntity | SAxiom => false | _ => true end.
  Definition vec_item (i : isort) : bool :=
    match i with
    | SEntity | SAxiom | SAnnotVal | SEnt (ET_CLASS | ET_DATATYPE | ET_OBJ_PROP) => false
    | _ => true
    end.
  Definition fine (s : sort) : bool :=
    match s with SOne i => one_item i | SMany ord i => negb ord && vec_item i | SSubProp => false end.

  Lemma enc_vec_item i o : vec_item i = true -> wt (SOne i) o = true -> encode_object w idx o = enc_sort (SOne i) o.
  Proof.
    intros V T. destruct i as [e| | | | | | | | | | | |]; try discriminate V; try reflexivity.
    destruct o as [|ns rem|e' ns rem|id|v ns rem|v l|o l|t fs opt n]; try discriminate T; destruct e; try discriminate V; try destruct e'; try discriminate T; try reflexivity;
      destruct t; discriminate T.
  Qed.

  (** What is proved for every object. *)
  Definition back_ok (o : obj) : Prop :=
    storable w o -> (forall p, mentions p o -> known (ident p)) ->
    forall s f, fine s = true -> wt s o = true -> rd f (dec_sort f s) (enc_sort s o) o.

  Lemma mentions_component o c : In c (components o) -> (forall p, mentions p o -> known (ident p)) -> forall p, mentions p c -> known (ident p).
  Proof. intros I K p M. apply K. eapply mentions_in; eauto. Qed.

  Lemma vec_back ord l i f : Forall back_ok l -> storable w (OVec ord l) -> (forall p, mentions p (OVec ord l) -> known (ident p)) ->
    vec_item i = true -> forallb (fun x => wt (SOne i) x) l = true ->
    rd f (decode_vector w f (dec_item f i)) (encode_object w idx (OVec ord l)) (OVec false l).
  Proof.
    intros IH St K V T. inversion St as [| | | | |? ? Ll Fl| |]; subst. apply rd_vector; auto.
    rewrite Forall_forall in *. rewrite forallb_forall in T. intros x Hx.
    rewrite (enc_vec_item i x) by auto. apply (IH x Hx); auto.
    - apply (mentions_component (OVec ord l)); auto.
    - now destruct i.
  Qed.

  Lemma entity_back o f ns rem e : known (OIri ns rem) -> o = OEnt e ns rem ->
    rd f (dec_item f (SEnt e)) (encode_entity w idx o 0) o.
  Proof. intros K ->. now apply rd_entity. Qed.

  Lemma primitive_known o k : kind o = Some k -> (forall p, mentions p o -> known (ident p)) -> known (ident o).
  Proof. intros Hk K. apply K. econstructor; eauto. Qed.

  Lemma literal_back f o : storable w o -> (forall p, mentions p o -> known (ident p)) -> wt (SOne SLit) o = true ->
    rd f (decode_literal w anon_id) (encode_literal w idx o) o.
  Proof.
    intros St K T. destruct o as [|ns rem|e ns rem|id|v ns rem|v l|ord l|t fs opt n]; try discriminate T; try (destruct e; discriminate T); try (destruct t; discriminate T).
    - inversion St as [| | |? ? ? (L & V) F| | | |]; subst. apply (back_kept w ns rem v W) in V. rewrite <- V at 2.
      apply rd_literal_back; auto. intros _. apply (K (OEnt ET_DATATYPE ns rem)).
      apply (mentions_in _ _ (OEnt ET_DATATYPE ns rem)); [now left|]. econstructor. reflexivity.
    - inversion St as [| | | |? ? (Nl & L) F Fl| | |]; subst. now apply rd_literal_lang.
  Qed.

  Lemma entity_cases e o : wt (SOne (SEnt e)) o = true -> exists ns rem, o = OEnt e ns rem.
  Proof.
    destruct o as [|ns rem|e' ns rem|id|v ns rem|v l|ord l|t fs opt n]; intros T; try discriminate T; try (destruct e; discriminate T);
      try (destruct e, t; discriminate T).
    exists ns, rem. cbn in T. apply otype_eqb_eq, etype_otype_inj in T. now subst.
  Qed.

  (** Objects without operands. *)
  Lemma leaf_back o : (exists k, kind o = Some k) \/ wt (SOne SLit) o = true -> back_ok o.
  Proof.
    intros H St K s f Hs T.
    assert (Lit : wt (SOne SLit) o = true -> match s with SOne SLit | SOne SAnnotVal => True | _ => False end -> rd f (dec_sort f s) (enc_sort s o) o).
    { intros TL Hsort. pose proof (literal_back f o St K TL) as R.
      destruct s as [i| |]; try easy. destruct i; try easy.
      - replace (enc_sort (SOne SLit) o) with (encode_literal w idx o); [exact R|]. destruct o as [|? ?|e ? ?|?|? ? ?|? ?|? ?|t ? ? ?]; try discriminate TL; try reflexivity; try (destruct e; discriminate TL); destruct t; discriminate TL.
      - assert (Ea : encode_annot_value w idx o = w_app (write_varint w 0) (encode_literal w idx o)) by (destruct o as [|? ?|e ? ?|?|? ? ?|? ?|? ?|t ? ? ?]; try discriminate TL; try reflexivity; try (destruct e; discriminate TL); destruct t; discriminate TL).
        cbn [enc_sort dec_sort dec_item]. rewrite Ea. unfold decode_annot_value.
        destruct (literal_back f o St K TL) as (b & E & Nb & G).
        assert (0 < 2 ^ w) by (pose proof (width_pow w W); lia).
        rewrite E, write_varint_small, w_app_false by auto.
        exists (varint 0 ++ b). split; auto. split; [discriminate|]. rewrite app_length. intros L.
        eapply gives_bind; [now apply gives_varint|]. cbn. apply G. lia. }
    assert (Pos : forall i : N, (i + 1 =? 0) = false) by (intros i; destruct (N.eqb_spec (i + 1) 0); lia).
    assert (Mi : forall i : N, i + 1 - 1 = i) by lia.
    destruct H as [[k Hk]|TL].
    - pose proof (primitive_known o k Hk K) as Ko.
      destruct o as [|ns rem|e ns rem|id|v ns rem|v l|ord l|t fs opt n]; try discriminate Hk; cbn [ident] in Ko;
        (destruct s as [i|ord i|]; [|discriminate T|discriminate Hs]); destruct i as [e'| | | | | | | | | | | |]; try discriminate Hs;
        try (destruct e'; discriminate T); try discriminate T; try (destruct e; discriminate T).
      + now apply rd_iri.
      + (* IRI as annotation value *) cbn [enc_sort dec_sort dec_item encode_annot_value]. apply rd_id; auto; [lia|].
        intros i Hi. rewrite Pos, Mi. now apply gives_get_id.
      + now apply rd_any_id.
      + destruct (entity_cases e' _ T) as (ns' & rem' & E). inversion E; subst. now apply rd_entity.
      + destruct e; try discriminate T. cbn [enc_sort dec_sort dec_item encode_object]. apply rd_id; auto; [lia|].
        intros i Hi. rewrite add_0. apply gives_get_individual; auto.
      + destruct e; try discriminate T. cbn [enc_sort dec_sort dec_item encode_object].
        assert (R : forall g, rd f (decode_with w (fun type => if CET_COUNT - 1 <=? type then get_entity anon_id ET_CLASS (type + 1 - CET_COUNT) else g type)) (encode_entity w idx (OEnt ET_CLASS ns rem) (CET_COUNT - 1)) (OEnt ET_CLASS ns rem)).
        { intros g. apply rd_id; auto; [cbv; discriminate|]. intros i Hi. change (CET_COUNT - 1) with 17. change CET_COUNT with 18.
          destruct (N.leb_spec 17 (i + 17)); [|lia]. replace (i + 17 + 1 - 18) with i by lia. now apply gives_get_entity. }
        destruct f as [|f]; [exact (rd_zero _ _ _ _ _ (R (fun _ => dret None)))|apply R].
      + destruct e; try discriminate T. cbn [enc_sort dec_sort dec_item encode_object].
        assert (R : forall g, rd f (decode_with w (fun type => if DRT_COUNT - 1 <=? type then get_entity anon_id ET_DATATYPE (type + 1 - DRT_COUNT) else g type)) (encode_entity w idx (OEnt ET_DATATYPE ns rem) (DRT_COUNT - 1)) (OEnt ET_DATATYPE ns rem)).
        { intros g. apply rd_id; auto; [cbv; discriminate|]. intros i Hi. change (DRT_COUNT - 1) with 5. change DRT_COUNT with 6.
          destruct (N.leb_spec 5 (i + 5)); [|lia]. replace (i + 5 + 1 - 6) with i by lia. now apply gives_get_entity. }
        destruct f as [|f]; [exact (rd_zero _ _ _ _ _ (R (fun _ => dret None)))|apply R].
      + destruct e; try discriminate T. cbn [enc_sort dec_sort dec_item encode_object]. apply rd_id; auto; [lia|].
        intros i Hi. rewrite Pos, Mi. now apply gives_get_entity.
      + cbn [enc_sort dec_sort dec_item encode_object]. apply rd_id; auto; [lia|]. intros i Hi. rewrite add_0. now apply gives_get_individual.
      + cbn [enc_sort dec_sort dec_item encode_annot_value]. apply rd_id; auto; [lia|].
        intros i Hi. rewrite Pos, Mi. now apply gives_get_id.
      + now apply rd_any_id.
    - apply Lit; auto. destruct o as [|ns rem|e ns rem|id|v ns rem|v l|ord l|t fs opt n]; try discriminate TL; try (destruct e; discriminate TL); try (destruct t; discriminate TL);
        (destruct s as [i|ord i|]; [|discriminate T|discriminate Hs]); destruct i; try discriminate Hs; try discriminate T; try (destruct e; discriminate T); exact I.
  Qed.

  (** * Composite objects *)

  Section Comp.
    Variables (t : otype) (fs : list obj) (opt : option obj) (n : N).
    Hypothesis IH : Forall back_ok fs.
    Hypothesis IHo : forall p, opt = Some p -> back_ok p.
    Hypothesis St : storable w (OComp t fs opt n).
    Hypothesis K : forall p, mentions p (OComp t fs opt n) -> known (ident p).

    Lemma comp_storable : n < 2 ^ (w - 1) /\ Forall (storable w) fs /\ (forall p, opt = Some p -> storable w p).
    Proof. inversion St as [| | | | | |? ? ? L F|? ? ? ? L F Sp]; subst; split; auto; split; auto; intros q E; inversion E; subst; auto. Qed.

    Lemma comp_field x : In x fs -> forall p, mentions p x -> known (ident p).
    Proof. intros H. apply (mentions_component (OComp t fs opt n)); auto. cbn. apply in_app_iff. now left. Qed.
    Lemma comp_opt x : opt = Some x -> forall p, mentions p x -> known (ident p).
    Proof. intros H. apply (mentions_component (OComp t fs opt n)); auto. cbn. rewrite H. apply in_app_iff. right. now left. Qed.

    Lemma fields_rds sorts f : Forall2 (fun o s => wt s o = true) fs sorts -> forallb fine sorts = true ->
      rds f (map (dec_sort f) sorts) (enc_all sorts fs) fs.
    Proof.
      intros T F. destruct comp_storable as (_ & Sf & _). pose proof comp_field as Kf.
      clear St K. revert IH Sf Kf F. induction T as [|o s l ss T1 T IHT]; intros HI Sf Kf F; [apply rds_nil|].
      inversion HI as [|? ? H1 H2]; inversion Sf as [|? ? S1 S2]; subst. apply andb_true_iff in F as [F1 F2].
      cbn [map enc_all]. apply rds_cons.
      - apply H1; auto. intros p M. apply (Kf o); auto. now left.
      - apply IHT; auto. intros x Hx. apply Kf. now right.
    Qed.

    (** Operands whose encoding is that of the general case. *)
    Lemma enc_all_default sorts : Forall2 (fun o s => wt s o = true) fs sorts ->
      forallb (fun s => match s with SOne (SEnt (ET_CLASS | ET_DATATYPE | ET_OBJ_PROP)) | SOne SAnnotVal => false | _ => true end) sorts = true ->
      enc_all sorts fs = map (encode_object w idx) fs.
    Proof.
      clear IH St K. intros T F. induction T as [|o s l ss T1 T IHT]; auto. cbn [forallb] in F. apply andb_true_iff in F as [F1 F2].
      cbn [enc_all map]. rewrite IHT by auto. f_equal. destruct s as [i| |]; try reflexivity.
      destruct i as [e| | | | | | | | | | | |]; try reflexivity; try discriminate F1.
      symmetry. apply enc_vec_item; auto; destruct e; auto; discriminate F1.
    Qed.

    Lemma fields_default sorts f : Forall2 (fun o s => wt s o = true) fs sorts -> forallb fine sorts = true ->
      forallb (fun s => match s with SOne (SEnt (ET_CLASS | ET_DATATYPE | ET_OBJ_PROP)) | SOne SAnnotVal => false | _ => true end) sorts = true ->
      rds f (map (dec_sort f) sorts) (map (encode_object w idx) fs) fs.
    Proof. intros T F D. rewrite <- (enc_all_default sorts) by auto. now apply fields_rds. Qed.

    (** The default cases of class expressions and data ranges. *)
    Lemma rd_simple sorts f k h : h < 2 ^ w -> k h = construct t (map (dec_sort f) sorts) -> opt = None -> n = 0 ->
      rds f (map (dec_sort f) sorts) (enc_all sorts fs) fs ->
      rd (S f) (decode_with w k) (w_app (write_varint w h) (w_all (enc_all sorts fs))) (OComp t fs opt n).
    Proof.
      intros L Ek Eo En (b & E & G). apply rd_header; auto. exists b. split; auto. intros Lb. rewrite Ek, Eo, En.
      apply gives_construct. auto.
    Qed.

    Lemma wt_filler i d : wt (SOne i) (OComp t fs opt n) = true -> construct_sig t = d ->
      forall sorts j x, d = Some (sorts, OptFiller j (Some x)) -> forall v, opt = Some v -> prim_eqb v x = false.
    Proof.
      cbn. intros T E sorts j x -> v Ev. rewrite E, Ev in T. rewrite !andb_true_iff in T. destruct T as (_ & (_ & (_ & T)) & _).
      now apply negb_true_iff.
    Qed.

    (** A quantified restriction. *)
    Lemma rd_quant p f k h prop filler j : h < 2 ^ w -> k h = decode_quant t (dec_sort f prop) (dec_item f j) -> n = 0 ->
      construct_sig t = Some ([prop], OptFiller j (Some filler)) ->
      filler = (match t with OT_CE_OBJ_SOME | OT_CE_OBJ_ALL => owl_thing | _ => rdfs_literal end) ->
      (forall v, opt = Some v -> prim_eqb v filler = false) -> (exists e, kind filler = Some e) ->
      rds f [dec_sort f prop] (map (encode_object w idx) fs) fs ->
      fs = [p] ->
      rd f (dec_item f j) (match opt with Some v => encode_object w idx v | None => encode_object w idx filler end)
         (match opt with Some v => v | None => filler end) ->
      rd (S f) (decode_with w k) (w_app (write_varint w h)
         (w_app (encode_object w idx p) (match opt with Some v => encode_object w idx v | None => encode_object w idx filler end)))
         (OComp t fs opt n).
    Proof.
      intros L Ek En Es Ef Hd [e He] Rp Efs Rf. apply rd_header; auto. rewrite Ek. subst fs n.
      pose proof (rds_nil f) as Nil.
      destruct Rp as (b & Eb & Gb). destruct Rf as (c & Ec & _ & Gc). cbn [map w_all fold_right] in Eb. rewrite w_app_nil in Eb. rewrite Eb, Ec. exists (b ++ c). split; auto.
      rewrite app_length. intros Lb. unfold decode_quant. specialize (Gb ltac:(lia)). specialize (Gc ltac:(lia)).
      eapply gives_bindr.
      - cbn [dec_args] in *. instantiate (1 := [Some p; Some (match opt with Some v => v | None => filler end)]).
        intros s rest Ok Ids E. rewrite <- app_assoc in E. specialize (Gb s (c ++ rest) Ok Ids E). cbn [map] in Gb.
        unfold dbind in Gb |- *. destruct (dec_sort f prop s) as [x s'| |]; try discriminate Gb. cbn in Gb. inversion Gb; subst x s'. clear Gb.
        rewrite (Gc _ rest) by (cbn; auto). reflexivity.
      - intros s rest Ok Ids E. cbn in E. subst rest. rewrite Ok, set_in_self. unfold mk_quant. rewrite <- Ef.
        destruct opt as [v|]; [now rewrite (Hd v)|]. now rewrite (prim_eqb_refl filler e).
    Qed.

    (** A cardinality restriction. *)
    Lemma rd_card f k h prop j : h < 2 ^ w -> k h = decode_card w t (dec_sort f prop) (dec_item f j) ->
      rds f [dec_sort f prop] (map (encode_object w idx) fs) fs ->
      (exists p, fs = [p]) ->
      (forall v, opt = Some v -> rd f (dec_item f j) (encode_object w idx v) v) ->
      rd (S f) (decode_with w k) (w_app (write_varint w h)
         (w_app (write_varint w (2 * n + (if is_some opt then 1 else 0)))
           (w_app (w_all (map (encode_object w idx) fs)) (match opt with Some v => encode_object w idx v | None => w_nil end))))
         (OComp t fs opt n).
    Proof.
      intros L Ek Rp (p & Efs) Rf. destruct comp_storable as (Ln & _ & _). apply rd_header; auto. rewrite Ek. clear IH St K. subst fs.
      assert (Lc : 2 * n + (if is_some opt then 1 else 0) < 2 ^ w).
      { assert (2 ^ w = 2 * 2 ^ (w - 1)) as -> by (rewrite <- N.pow_succ_r'; f_equal; destruct W; lia). destruct (is_some opt); lia. }
      rewrite write_varint_small by auto. destruct Rp as (b & Eb & Gb).
      assert (exists c, (match opt with Some v => encode_object w idx v | None => w_nil end) = Some (c, false) /\
        ((List.length c <= f)%nat -> gives (if N.odd (2 * n + (if is_some opt then 1 else 0)) then dec_item f j else dret None) c opt)) as (c & Ec & Gc).
      { destruct opt as [v|]; cbn [is_some].
        - destruct (Rf v eq_refl) as (c & Ec & _ & Gc). exists c. split; auto.
          replace (N.odd (2 * n + 1)) with true by (symmetry; rewrite N.odd_spec; exists n; lia). auto.
        - exists []. split; auto. replace (N.odd (2 * n + 0)) with false; [intros; apply gives_ret|].
          symmetry. rewrite <- N.negb_even. apply negb_false_iff. rewrite N.even_spec. exists n; lia. }
      rewrite Eb, Ec. exists (varint (2 * n + (if is_some opt then 1 else 0)) ++ b ++ c). split; auto.
      rewrite !app_length. intros Lb. unfold decode_card. eapply gives_bind; [now apply gives_varint|]. cbv beta iota.
      specialize (Gb ltac:(lia)). specialize (Gc ltac:(lia)).
      intros s rest Ok Ids E. rewrite <- app_assoc in E. specialize (Gb s (c ++ rest) Ok Ids E). cbn [map dec_args] in Gb.
      unfold dbind in Gb |- *. destruct (dec_sort f prop s) as [x s'| |]; try discriminate Gb. cbn in Gb. inversion Gb; subst x s'. clear Gb.
      rewrite (Gc _ rest) by (cbn; auto). cbn [d_ok d_code set_in]. unfold d_ok in *. cbn [d_code set_in]. rewrite Ok. unfold mk_card.
      replace ((2 * n + (if is_some opt then 1 else 0)) / 2) with n; auto. destruct (is_some opt); lia.
    Qed.
  End Comp.

  Lemma small_header h : h < 2 ^ 31 -> h < 2 ^ w.
  Proof. intros H. destruct W as [-> | ->]; (eapply N.lt_trans; [exact H|]); reflexivity. Qed.

  Ltac no_opt Ho :=
    match goal with |- context[OComp _ _ ?o _] => let v := fresh in destruct o as [v|]; [exfalso; exact (Ho v eq_refl)|] end.

  Lemma cls_back t fs opt n f : Forall back_ok fs -> (forall p, opt = Some p -> back_ok p) ->
    storable w (OComp t fs opt n) -> (forall p, mentions p (OComp t fs opt n) -> known (ident p)) ->
    wt (SOne SCls) (OComp t fs opt n) = true ->
    rd (S f) (decode_cls_exp w anon_id (S f)) (encode_object w idx (OComp t fs opt n)) (OComp t fs opt n).
  Proof.
    intros IH IHo St K T. destruct (wt_comp_inv _ _ _ _ _ T) as (sorts & os & Es & Tf & To & Tn).
    pose proof (fun ss Hs => fields_default t fs opt n IH IHo St K ss f Hs) as FD.
    pose proof (fun ss Hs => fields_rds t fs opt n IH IHo St K ss f Hs) as FR.
    pose proof (fun ss => enc_all_default fs ss) as EA.
    destruct (comp_storable _ _ _ _ IHo St K) as (_ & _ & So).
    assert (Simple : forall h, h < 2 ^ 31 -> os = NoOpt -> n = 0 -> forallb fine sorts = true ->
      forallb (fun s => match s with SOne (SEnt (ET_CLASS | ET_DATATYPE | ET_OBJ_PROP)) | SOne SAnnotVal => false | _ => true end) sorts = true ->
      forall k, k h = construct t (map (dec_sort f) sorts) ->
      rd (S f) (decode_with w k) (w_app (write_varint w h) (w_app (w_all (map (encode_object w idx) fs)) (match opt with Some v => encode_object w idx v | None => w_nil end))) (OComp t fs opt n)).
    { intros h Lh -> En Fi De k Ek. destruct opt as [v|]; [exfalso; exact (To v eq_refl)|]. rewrite w_app_nil, <- (EA sorts) by auto.
      apply rd_simple; auto using small_header. }
    assert (Fill : forall i, (forall v, opt = Some v -> wt (SOne i) v = true) -> one_item i = true ->
      match i with SCls | SRange => True | _ => False end -> forall v, opt = Some v -> rd f (dec_item f i) (encode_object w idx v) v).
    { intros i Ti Oi Hi v Ev.
      assert (R : rd f (dec_sort f (SOne i)) (enc_sort (SOne i) v) v).
      { apply (IHo v Ev); auto. eapply comp_opt; eauto. }
      destruct i; try easy; exact R. }
    assert (Dflt : opt = None -> forall d, In d (components (OComp t fs None n)) -> forall i, (exists k, kind d = Some k) -> one_item i = true -> wt (SOne i) d = true ->
      match i with SCls | SRange => True | _ => False end -> rd f (dec_item f i) (encode_object w idx d) d).
    { intros Eo d Id i Hk Oi Td Hi.
      assert (R : rd f (dec_sort f (SOne i)) (enc_sort (SOne i) d) d).
      { apply leaf_back; auto.
        - destruct d; try (destruct Hk as [? Hk]; discriminate Hk); constructor.
        - intros p M. apply K. subst opt. eapply mentions_in; eauto. }
      destruct i; try easy; exact R. }
    destruct t; try discriminate T; cbn [construct_sig] in Es; inversion Es; subst sorts os; cbn [is_card_restr] in Tn; try specialize (Tn eq_refl);
    (* constructs without filler *)
    try (refine (Simple _ _ eq_refl Tn eq_refl eq_refl _ eq_refl); reflexivity);
    inversion Tf as [|p ? l ? Tp Tn' E1 E2]; subst; inversion Tn'; subst;
    (* quantifiers *)
    try (match goal with
      | |- rd _ _ (encode_object w idx (OComp ?t _ _ 0)) _ =>
          match eval cbv in (construct_sig t) with
          | Some ([?s], OptFiller ?i (Some _)) =>
              refine (rd_quant t [p] opt 0 IH IHo St K p f _ (cls_exp_header t) s (match i with SCls => owl_thing | _ => rdfs_literal end) i
                 (small_header (cls_exp_header t) eq_refl) eq_refl eq_refl eq_refl eq_refl
                 (wt_filler t [p] opt 0 SCls _ T eq_refl _ _ _ eq_refl)
                 (ex_intro _ _ eq_refl) (FD [s] Tf eq_refl eq_refl) eq_refl _);
              destruct opt as [v|]; [apply (Fill i To eq_refl I v eq_refl)|apply (Dflt eq_refl); try reflexivity; [right; now left|eexists; reflexivity]]
          end
      end);
    (* cardinalities *)
    match goal with
      | |- rd _ _ (encode_object w idx (OComp ?t _ _ n)) _ =>
          match eval cbv in (construct_sig t) with
          | Some ([?s], OptFiller ?i _) =>
              exact (rd_card t [p] opt n IHo St K f _ (cls_exp_header t) s i (small_header (cls_exp_header t) eq_refl) eq_refl
                 (FD [s] Tf eq_refl eq_refl) (ex_intro _ p eq_refl) (Fill i To eq_refl I))
          end
      end.
  Qed.

  Lemma range_back t fs opt n f : Forall back_ok fs -> (forall p, opt = Some p -> back_ok p) ->
    storable w (OComp t fs opt n) -> (forall p, mentions p (OComp t fs opt n) -> known (ident p)) ->
    wt (SOne SRange) (OComp t fs opt n) = true ->
    rd (S f) (decode_data_range w anon_id (S f)) (encode_object w idx (OComp t fs opt n)) (OComp t fs opt n).
  Proof.
    intros IH IHo St K T. destruct (wt_comp_inv _ _ _ _ _ T) as (sorts & os & Es & Tf & To & Tn).
    pose proof (fun ss Hs => fields_rds t fs opt n IH IHo St K ss f Hs) as FR.
    pose proof (fun ss => enc_all_default fs ss) as EA.
    assert (Simple : forall h, h < 2 ^ 31 -> n = 0 -> opt = None -> forallb fine sorts = true ->
      forall k, k h = construct t (map (dec_sort f) sorts) ->
      rd (S f) (decode_with w k) (w_app (write_varint w h) (w_all (enc_all sorts fs))) (OComp t fs opt n)).
    { intros h Lh En Eo Fi k Ek. apply rd_simple; auto using small_header. }
    assert (Eo : os = NoOpt -> opt = None).
    { intros ->. destruct opt as [v|]; auto. exfalso. exact (To v eq_refl). }
    destruct t; try discriminate T; cbn [construct_sig] in Es; inversion Es; subst sorts os; cbn [is_card_restr] in Tn; specialize (Tn eq_refl); specialize (Eo eq_refl).
    5: { specialize (fun k => Simple (data_range_header OT_DR_DATATYPE_RESTR) eq_refl Tn Eo eq_refl k). subst opt n.
         inversion Tf as [|p ? l ? Tp Tn' E1 E2]; subst. inversion Tn' as [|r ? l' ? Tr Tn'' E1 E2]; subst. inversion Tn''; subst.
         cbn [enc_all w_all fold_right enc_sort] in Simple. rewrite w_app_nil in Simple. refine (Simple _ _). reflexivity. }
    all: match goal with |- rd _ _ (encode_object w idx (OComp ?t _ _ _)) _ => specialize (fun k => Simple (data_range_header t) eq_refl Tn Eo eq_refl k) end;
      rewrite (EA _ Tf eq_refl) in Simple; subst opt n; 
      match goal with |- rd _ _ ?x _ => replace x with (w_app x w_nil) by apply w_app_nil end;
      match type of Simple with forall k, _ -> rd _ _ (w_app ?h ?b) _ => rewrite <- (w_app_nil b) in Simple end;
      rewrite w_app_nil; refine (Simple _ _); reflexivity.
  Qed.

  Lemma objprop_back t fs opt n f : Forall back_ok fs -> (forall p, opt = Some p -> back_ok p) ->
    storable w (OComp t fs opt n) -> (forall p, mentions p (OComp t fs opt n) -> known (ident p)) ->
    wt (SOne SObjProp) (OComp t fs opt n) = true ->
    rd f (decode_obj_prop_exp w anon_id) (encode_object w idx (OComp t fs opt n)) (OComp t fs opt n).
  Proof.
    intros IH IHo St K T. destruct (wt_comp_inv _ _ _ _ _ T) as (sorts & os & Es & Tf & To & Tn).
    destruct t; try discriminate T; cbn [construct_sig] in Es; inversion Es; subst sorts os; cbn [is_card_restr] in Tn; specialize (Tn eq_refl).
    destruct opt as [v|]; [exfalso; exact (To v eq_refl)|]. subst n.
    inversion Tf as [|p ? l ? Tp Tn' E1 E2]; subst. inversion Tn'; subst. destruct (entity_cases _ _ Tp) as (ns & rem & ->).
    assert (Ke : known (OIri ns rem)).
    { apply (K (OEnt ET_OBJ_PROP ns rem)). eapply mentions_in; [now left|]. econstructor. reflexivity. }
    apply (rd_mono (S f)); [|lia]. apply rd_header; [apply small_header; reflexivity|].
    destruct (rd_entity f ET_OBJ_PROP ns rem Ke) as (b & Eb & _ & G). exists b. split; auto. intros L. cbn.
    unfold decode_inv_obj_prop. eapply gives_bindr; [apply G; auto|]. apply gives_ret.
  Qed.

  Lemma facet_back t fs opt n f : Forall back_ok fs -> (forall p, opt = Some p -> back_ok p) ->
    storable w (OComp t fs opt n) -> (forall p, mentions p (OComp t fs opt n) -> known (ident p)) ->
    wt (SOne SFacet) (OComp t fs opt n) = true ->
    rd f (decode_facet_restr w anon_id) (encode_object w idx (OComp t fs opt n)) (OComp t fs opt n).
  Proof.
    intros IH IHo St K T. destruct (wt_comp_inv _ _ _ _ _ T) as (sorts & os & Es & Tf & To & Tn).
    destruct t; try discriminate T; cbn [construct_sig] in Es; inversion Es; subst sorts os; cbn [is_card_restr] in Tn; specialize (Tn eq_refl).
    destruct opt as [v|]; [exfalso; exact (To v eq_refl)|]. subst n.
    pose proof (comp_storable _ _ _ _ IHo St K) as (_ & Sf & _).
    inversion Tf as [|i ? l ? Ti Tn' E1 E2]; subst. inversion Tn' as [|v ? l' ? Tv Tn'' E1 E2]; subst. inversion Tn''; subst.
    inversion Sf as [|? ? _ Sf']; subst. inversion Sf' as [|? ? Sv _]; subst.
    assert (exists ns rem, i = OIri ns rem) as (ns & rem & ->).
    { destruct i as [|ns rem|e ns rem|id|v' ns rem|v' l|ord l|t fs opt n]; try discriminate Ti; try (destruct e; discriminate Ti); try (destruct t; discriminate Ti). eauto. }
    assert (Ki : known (OIri ns rem)).
    { apply (K (OIri ns rem)). eapply mentions_in; [now left|]. econstructor. reflexivity. }
    destruct (rd_iri f ns rem Ki) as (b & Eb & Nb & G).
    destruct (literal_back f v Sv) as (c & Ec & Nc & Gc); auto.
    { eapply mentions_component; [|exact K]. right. now left. }
    cbn [encode_object]. rewrite Eb, Ec, w_app_false. exists (b ++ c). split; auto. split; [destruct b; [easy|discriminate]|].
    rewrite app_length. intros L. unfold decode_facet_restr. eapply gives_bind; [apply G; lia|]. cbv beta.
    eapply gives_bindr; [apply Gc; lia|]. apply gives_ret.
  Qed.

  Lemma annotation_back t fs opt n f : Forall back_ok fs -> (forall p, opt = Some p -> back_ok p) ->
    storable w (OComp t fs opt n) -> (forall p, mentions p (OComp t fs opt n) -> known (ident p)) ->
    wt (SOne SAnnot) (OComp t fs opt n) = true ->
    rd (S f) (decode_annotation w anon_id (S f)) (encode_object w idx (OComp t fs opt n)) (OComp t fs opt n).
  Proof.
    intros IH IHo St K T. destruct (wt_comp_inv _ _ _ _ _ T) as (sorts & os & Es & Tf & To & Tn).
    destruct t; try discriminate T; cbn [construct_sig] in Es; inversion Es; subst sorts os; cbn [is_card_restr] in Tn; specialize (Tn eq_refl). subst n.
    pose proof (comp_storable _ _ _ _ IHo St K) as (_ & Sf & So).
    inversion Tf as [|p ? l ? Tp Tn' E1 E2]; subst. inversion Tn' as [|v ? l' ? Tv Tn'' E1 E2]; subst. inversion Tn''; subst.
    inversion Sf as [|? ? _ Sf']; subst. inversion Sf' as [|? ? Sv _]; subst.
    destruct (entity_cases _ _ Tp) as (ns & rem & ->).
    assert (Kp : known (OIri ns rem)).
    { apply (K (OEnt ET_ANNOT_PROP ns rem)). eapply mentions_in; [now left|]. econstructor. reflexivity. }
    assert (Kv : forall p, mentions p v -> known (ident p)) by (eapply mentions_component; [|exact K]; right; now left).
    assert (Rv : rd f (decode_annot_value w anon_id) (encode_annot_value w idx v) v).
    { inversion IH as [|? ? _ IH']; subst. inversion IH' as [|? ? Bv _]; subst. exact (Bv Sv Kv (SOne SAnnotVal) f eq_refl Tv). }
    destruct Rv as (c & Ec & Nc & Gc). cbn [encode_object].
    assert (L0 : 0 < 2 ^ w) by (apply small_header; reflexivity).
    destruct opt as [a|].
    - assert (Ra : rd f (decode_vector w f (decode_annotation w anon_id f)) (encode_object w idx a) a).
      { apply (IHo a eq_refl (So a eq_refl)) with (s := SMany false SAnnot); auto.
        eapply mentions_component; [|exact K]. cbn. right. right. now left. }
      destruct Ra as (d & Ed & Nd & Gd). destruct (rd_iri f ns rem Kp) as (b & Eb & Nb & Gb).
      change (encode_entity w idx (OEnt ET_ANNOT_PROP ns rem) 0) with (encode_id w idx (OIri ns rem)).
      rewrite Eb, Ec, Ed, write_varint_small, !w_app_false by auto. exists ((varint 0 ++ b) ++ c ++ d).
      split; auto. split; [discriminate|]. rewrite !app_length. change (List.length (varint 0)) with 1%nat. intros L.
      cbn [decode_annotation]. rewrite <- app_assoc. eapply gives_bind; [now apply gives_varint|]. cbv beta iota. change (0 =? 0) with true. cbv iota.
      eapply gives_bind; [apply Gb; lia|]. cbv beta iota. eapply gives_bind; [apply Gc; lia|]. cbv beta iota.
      eapply gives_bindr; [apply Gd; lia|]. cbv beta iota.
      cbn in T. rewrite !andb_true_iff in T. destruct T as (_ & (_ & (_ & Ta)) & _). unfold mk_annot.
      assert (Ea : match a with OVec _ [] => None | _ => Some a end = Some a) by (destruct a as [| | | | | |ord [|x l]|]; auto; discriminate Ta).
      rewrite Ea. apply gives_ret.
    - destruct Kp as (i & Ei & Hi & Li). unfold encode_entity, encode_id_offset. rewrite Ei, write_varint_small, Ec, w_app_nil, w_app_false by lia.
      exists (varint (i + 1) ++ c). split; auto. split; [pose proof (varint_nonempty (i + 1)); destruct (varint _); [easy|discriminate]|].
      rewrite !app_length. intros L. cbn [decode_annotation]. eapply gives_bind; [apply gives_varint; lia|]. cbv beta iota.
      destruct (N.eqb_spec (i + 1) 0); [lia|]. replace (i + 1 - 1) with i by lia.
      eapply gives_bind0; [apply gives_get_id_iri; exact Hi|]. cbv beta iota.
      pose proof (varint_nonempty (i + 1)) as Nv. destruct (varint (i + 1)); [easy|]. cbn in L.
      eapply gives_bindr; [apply Gc; lia|]. cbv beta iota. apply gives_ret.
  Qed.

  (** Every object can be read back. *)
  Theorem object_back o : back_ok o.
  Proof.
    induction o as [i st|ns rem|e ns rem|id|v ns rem|v l|ord l IH|t fs opt n IH IHo] using obj_ind'; try (apply leaf_back; left; eexists; reflexivity); try (apply leaf_back; right; reflexivity).
    - intros St K s f Hs T. discriminate T.
    - intros St K s f Hs T. destruct s as [i|ord' i|]; [discriminate T| |discriminate Hs].
      cbn in T, Hs. apply andb_true_iff in T as [To Tl], Hs as [Ho Hi]. destruct ord', ord; try discriminate. now apply vec_back.
    - intros St K s f Hs T. destruct s as [i|ord' i|]; [|discriminate T|discriminate Hs].
      destruct i as [e| | | | | | | | | | | |]; try discriminate Hs; try (destruct t; discriminate T); try (destruct e, t; discriminate T).
      + destruct f as [|f]; [|now apply cls_back]. eapply rd_zero. apply (rd_mono 1); [|lia]. now apply (cls_back t fs opt n 0).
      + destruct f as [|f]; [|now apply range_back]. eapply rd_zero. apply (rd_mono 1); [|lia]. now apply (range_back t fs opt n 0).
      + now apply objprop_back.
      + now apply facet_back.
      + destruct f as [|f]; [|now apply annotation_back]. eapply rd_zero. apply (rd_mono 1); [|lia]. now apply (annotation_back t fs opt n 0).
  Qed.
End Read.
