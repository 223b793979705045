(** The two prefix maps of a reader agree. *)

From Coq Require Import String NArith ZArith List Bool Lia Permutation.
From Coq Require Import ZifyBool ZifyNat ZifyN.
From Verif Require Import Bytes ModelTypes ModelObject ModelText SpecObject SpecText ModelPrefixMap SpecPrefixMap ProofPrefixMap ProofPrefixRev ProofPrefixSafe
  ModelOntology ModelChange SpecChange ProofChange ModelPrtDecoder SpecPrtStore ModelFuncLex ModelFuncParser
  SpecFunc SpecFuncDoc SpecFuncRead ProofObject ProofText ProofFuncRe ProofFuncLex ProofFuncSafe ProofFuncRead ProofFuncDoc ProofFuncStore.
Import ListNotations.
Local Open Scope N_scope.

Lemma declarations_adds ds : declarations (adds ds) = ds.
Proof. induction ds as [|[p n] ds IH]; [reflexivity|]. cbn. f_equal. exact IH. Qed.
Lemma declarations_later new : Forall (fun x : dchange => (1 <= rank (snd x))%nat) new -> declarations new = [].
Proof. induction 1 as [|[t p] new H F IH]; [reflexivity|]. unfold declarations in *. cbn [flat_map]. rewrite IH. destruct p; cbn in H; try reflexivity. lia. Qed.
Lemma declarations_app a b : declarations (a ++ b) = declarations a ++ declarations b.
Proof. apply flat_map_app. Qed.

(** A text is read in two parts: the declarations, and the rest with the prefixes that were declared. *)
Theorem read_parts signed w m b c log : let handler := fun _ : list dchange => COWL_OK in
  func_read handler signed w m b = FRet c log ->
  exists ds body, lex w b = Some (flat_map decl_tokens ds ++ body) /\ (forall e rest, body <> decl_tokens e ++ rest) /\ declarations log = ds /\
    forall r, body = TKw ONTOLOGY :: TLParen :: r -> parse_id handler signed (m ++ ds) (adds ds) r = FRet c log.
Proof.
  intros handler E. destruct (lex_total w b) as [ts El]. unfold func_read in E. rewrite El in E.
  destruct (document_split handler signed (List.length ts) m [] ts) as (ds & body & Ets & H); [lia|].
  destruct H as [(e & ds' & c' & _ & _ & _ & H & _)|(Hu & _ & H)]; [exfalso; discriminate H|].
  exists ds, body. split; [rewrite El, Ets; reflexivity|]. split; [exact Hu|]. cbn [app] in H.
  destruct H as [(r & -> & H)|[H Hn]].
  - rewrite H in E. pose proof (id_outcome handler signed (m ++ ds) (adds ds) r) as Ho. rewrite E in Ho.
    destruct Ho as (_ & new & -> & _ & Hr & _). split.
    + rewrite declarations_app, declarations_adds, (declarations_later new Hr), app_nil_r. reflexivity.
    + intros r' [= <-]. exact E.
  - rewrite H in E. injection E as <- <-. split; [apply declarations_adds|]. intros r Er. exfalso. exact (Hn r Er).
Qed.

Lemma pmap_found (l : pmap) p n : In (p, n) l -> exists n', pmap_ns l p = Some n'.
Proof. intros H. destruct (pmap_ns l p) eqn:E; [eauto|]. exfalso. exact (pmap_none _ _ _ E H). Qed.

Theorem maps_agree visit w defaults log ps dst dst' : (forall t, Permutation (visit t) t) -> coherent defaults (declarations log) ->
  Forall2 stands_for ps (map snd log) -> new_map visit defaults (x_pm dst) ->
  receives (change_apply visit w CHANGE_ADD) ps dst (Some (dst', COWL_OK)) ->
  good (x_pm dst') /\ forall p, fm (fwd (x_pm dst')) p = pmap_ns (initial_map defaults ++ declarations log) p.
Proof.
  intros V C F Nm R. destruct (map_reached_good visit V _ (new_map_reached _ _ _ Nm)) as [G Pk].
  destruct (receive_prefixes visit w ps dst dst' R G Pk) as (G' & U & D & T). split; [exact G'|]. intros p.
  assert (Ep : p_prefixes ps = declarations log).
  { rewrite (stands_prefixes _ _ F). unfold declarations. rewrite flat_map_concat_map, flat_map_concat_map, map_map. reflexivity. }
  rewrite Ep in *. pose proof (new_map_fm visit defaults (x_pm dst) p V Nm) as E0. rewrite pmap_app, <- E0.
  destruct (is_standard p) eqn:Es.
  - assert (Hs : exists n, fm (fwd (x_pm dst)) p = Some n).
    { rewrite E0, initial_standard, pmap_app. apply standard_in in Es as (n & Hn). destruct (pmap_found _ _ _ Hn) as (n' & ->). eauto. }
    destruct Hs as (n & Hs). rewrite Hs. exact (T p n Es Hs).
  - destruct (pmap_ns (declarations log) p) as [n|] eqn:Ed.
    + pose proof (pmap_in _ _ _ Ed) as Hin. destruct (D p n Hin Es) as (n' & Hn' & ->).
      rewrite E0, initial_standard, pmap_app.
      assert (Hst : pmap_ns standard p = None).
      { destruct (pmap_ns standard p) as [x|] eqn:Ex; [|reflexivity]. exfalso. apply pmap_in in Ex.
        assert (is_standard p = true) by (apply standard_in; eauto). congruence. }
      rewrite Hst. destruct (pmap_ns defaults p) as [d|] eqn:Edd.
      * f_equal. apply (C p); [exact Es| |]; apply in_or_app; [now right|left; now apply pmap_in].
      * f_equal. apply (C p); [exact Es| |]; apply in_or_app; now right.
    + rewrite U by (intros n; now apply pmap_none). destruct (fm (fwd (x_pm dst)) p); reflexivity.
Qed.

Lemma get_iri_fm s p r : good s -> pm_get_iri s p r = match fm (fwd s) p with Some n => Some (Some (iri_of_parts n r)) | None => Some None end.
Proof.
  intros G. destruct (answers_fm s (good_alive _ G) p) as (x & Ex & Em). unfold pm_get_iri. rewrite Ex. rewrite <- Em.
  destruct x as [n|]; cbn; reflexivity.
Qed.

Theorem short_iris_agree visit w signed defaults b c log : (forall t, Permutation (visit t) t) ->
  func_read (fun _ => COWL_OK) signed w (initial_map defaults) b = FRet c log ->
  exists ds body, lex w b = Some (flat_map decl_tokens ds ++ body) /\ (forall e rest, body <> decl_tokens e ++ rest) /\ declarations log = ds /\
    (forall r, body = TKw ONTOLOGY :: TLParen :: r ->
       parse_id (fun _ => COWL_OK) signed (initial_map defaults ++ ds) (map (fun e => (CHANGE_ADD, DPrefix (fst e) (snd e))) ds) r = FRet c log) /\
    (coherent defaults ds -> forall ps dst dst', Forall2 stands_for ps (map snd log) -> new_map visit defaults (x_pm dst) ->
       receives (change_apply visit w CHANGE_ADD) ps dst (Some (dst', COWL_OK)) ->
       forall p rem rest, ~ In 58 p ->
         parse_iri (initial_map defaults ++ ds) (TPnameLn (p ++ 58 :: rem) :: rest) =
         match pm_parse_short_iri (x_pm dst') (p ++ 58 :: rem) with Some (Some iri) => POk iri rest | _ => PFail ERR_SYNTAX end).
Proof.
  intros V E. destruct (read_parts signed w (initial_map defaults) b c log E) as (ds & body & El & Hu & Hd & Hr).
  exists ds, body. split; [exact El|]. split; [exact Hu|]. split; [exact Hd|]. split; [exact Hr|].
  intros C ps dst dst' F Nm R p rem rest Hp. rewrite <- Hd in *.
  destruct (maps_agree visit w defaults log ps dst dst' V C F Nm R) as [G A].
  unfold pm_parse_short_iri. cbn [parse_iri].
  assert (Ei : index_of (p ++ 58 :: rem) 58 = List.length p) by (apply index_of_app; exact Hp). rewrite Ei.
  assert (El1 : Nat.ltb (List.length p) (List.length (p ++ 58 :: rem)) = true) by (apply Nat.ltb_lt; rewrite app_length; cbn; lia). rewrite El1.
  rewrite (get_iri_fm _ _ _ G), A. rewrite firstn_app, firstn_all, Nat.sub_diag. cbn [firstn]. rewrite app_nil_r.
  destruct (pmap_ns _ p); reflexivity.
Qed.
