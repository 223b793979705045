(** Whole documents in functional syntax are read back. *)

From Coq Require Import String NArith ZArith List Bool Lia Permutation.
From Coq Require Import ZifyBool ZifyNat ZifyN.
From Verif Require Import ProofPrefixMap ProofPrefixRev ProofPrefixSafe SpecChange ProofChange.
From Verif Require Import Bytes ModelTypes ModelObject ModelText ModelPrefixMap SpecPrefixMap SpecObject SpecText ModelOntology ModelChange.
From Verif Require Import ModelPrtDecoder SpecPrtStream ModelFuncLex ModelFuncParser ModelFuncWriter SpecFunc SpecFuncDoc.
From Verif Require Import ProofObject ProofText ProofPrefixSafe ProofFuncRe ProofFuncLex ProofFuncWrite ProofFuncParse.
Import ListNotations.
Local Open Scope N_scope.

(** * The output depends on the look-ups only *)

Lemma w_iri_ext f g ns rem : (forall n, f n = g n) -> w_iri f ns rem = w_iri g ns rem.
Proof. intros H. unfold w_iri. rewrite H. reflexivity. Qed.
Lemma w_obj_ext f g o : (forall n, f n = g n) -> w_obj f o = w_obj g o.
Proof.
  intros H. induction o as [i s|ns rem|e ns rem|id|v ns rem|v l|ord l IH|t fs opt n IH IHo] using obj_ind'; cbn [w_obj]; auto.
  - apply w_iri_ext, H.
  - apply w_iri_ext, H.
  - unfold w_literal. cbn [literal_get_datatype]. rewrite (w_iri_ext f g); auto.
  - f_equal. apply map_ext_in. rewrite Forall_forall in IH. exact IH.
  - assert (Em : map (w_obj f) fs = map (w_obj g) fs) by (apply map_ext_in; rewrite Forall_forall in IH; exact IH).
    assert (Eo : option_map (w_obj f) opt = option_map (w_obj g) opt) by (destruct opt; cbn; [rewrite (IHo o eq_refl)|]; reflexivity).
    assert (Ee : forall x, w_entity f x = w_entity g x) by (intros x; unfold w_entity; destruct x; auto; apply w_iri_ext, H).
    rewrite Em, Eo. destruct t; try reflexivity.
    + destruct fs as [|[] fs]; try reflexivity. rewrite (w_iri_ext f g); auto.
    + destruct fs as [|s fs]; [reflexivity|]. destruct (map (w_obj g) (s :: fs)) as [|ws [|wp wl]]; try reflexivity.
      rewrite Ee. reflexivity.
    + destruct (map (w_obj g) fs); [reflexivity|]. destruct (option_map (w_obj g) opt); [reflexivity|]. cbn [quant_filler owl_thing rdfs_literal].
      rewrite (w_iri_ext f g); auto.
    + destruct (map (w_obj g) fs); [reflexivity|]. destruct (option_map (w_obj g) opt); [reflexivity|]. cbn [quant_filler owl_thing rdfs_literal].
      rewrite (w_iri_ext f g); auto.
    + destruct (map (w_obj g) fs); [reflexivity|]. destruct (option_map (w_obj g) opt); [reflexivity|]. cbn [quant_filler owl_thing rdfs_literal].
      rewrite (w_iri_ext f g); auto.
    + destruct (map (w_obj g) fs); [reflexivity|]. destruct (option_map (w_obj g) opt); [reflexivity|]. cbn [quant_filler owl_thing rdfs_literal].
      rewrite (w_iri_ext f g); auto.
Qed.

Lemma iri_ok_ext f g ns rem : (forall n, f n = g n) -> iri_ok f ns rem -> iri_ok g ns rem.
Proof. intros H. unfold iri_ok. rewrite H. auto. Qed.
Lemma expressible_ext w f g o : (forall n, f n = g n) -> expressible w f o -> expressible w g o.
Proof.
  intros H. induction o as [i s|ns rem|e ns rem|id|v ns rem|v l|ord l IH|t fs opt n IH IHo] using obj_ind'; cbn [expressible]; auto.
  - apply iri_ok_ext, H.
  - apply iri_ok_ext, H.
  - intros (H1 & H2 & H3 & H4). repeat split; auto; apply (iri_ok_ext f g ns rem H H4).
  - rewrite !expressible_list, !Forall_forall in *. auto.
  - rewrite !expressible_list, !Forall_forall in *. intros (H1 & H2 & H3). split; [auto|]. split; [|exact H3].
    destruct opt; auto.
Qed.

(** * Tokens of a document *)

(** * Prefix maps with a quiet history *)

Lemma quiet_good visit pm : (forall t, Permutation (visit t) t) -> quiet_map visit pm ->
  ProofPrefixMap.good pm /\ consistent pm /\ pinned_ok (fm (fwd pm)).
Proof.
  intros V (r & ops1 & ops2 & s0 & c & s1 & rs1 & rs2 & R & K & A & E0 & E1 & Q & E). destruct (init_good r R) as (s0' & c' & E0' & G0 & M0).
  rewrite E0' in E0. injection E0 as -> ->. pose proof (proj1 (Forall_app _ _ _) K) as (K1 & K2).
  destruct (run_good visit V ops1 s0 K1 G0) as (s1' & rs1' & E1' & G1 & _). rewrite E1' in E1. injection E1 as -> ->.
  pose proof (untouched_consistent _ (adds_untouched visit ops1 A _ _ _ (init_untouched _ _ _ E0') E1')) as C1.
  destruct (run_consistent visit V ops2 s1 K2 Q G1 C1) as (s' & rs' & E' & G & C).
  rewrite E' in E. injection E as -> ->. split; auto. split; auto.
  apply (map_reached_good visit V pm). exists r, (ops1 ++ ops2), s0, c, (rs1 ++ rs2). split; auto. split; auto. split; auto. rewrite (run_app _ _ _ _ _ _ E1'), E'. reflexivity.
Qed.

(** What is used of a prefix map. *)
Record map_ok (visit : tbl -> tbl) (pm : pst) (defaults : pmap) : Prop := {
  mo_keys : distinct_keys (fwd pm);
  mo_names : forall k v, In (k, v) (fwd pm) -> prefix_name (stx k) /\ Forall iri_char (stx v);
  mo_standard : forall k v n, In (k, v) (fwd pm) -> In (stx k, n) standard -> stx v = n;
  mo_lookup : forall ns, exists s p, get_prefix visit pm ns = Some (s, p) /\
    forall x, p = Some x -> rc pm (sid x) <> 0 /\ exists k v, In (k, v) (fwd pm) /\ stx k = stx x /\ stx v = ns;
  mo_defaults : forall p n n', In (p, n) defaults -> In (p, n') (texts (fwd pm)) -> n = n'
}.
Lemma fit_ok visit pm defaults : (forall t, Permutation (visit t) t) -> map_fit visit pm defaults -> map_ok visit pm defaults.
Proof.
  intros V [Q Hn Hd]. destruct (quiet_good visit pm V Q) as (G & C & P). pose proof (proj1 G) as D. constructor; auto.
  - intros k v Hin. apply Hn. apply in_map_iff. exists (k, v). auto.
  - intros k v n Hin Hs. apply (P (stx k) n (stx v) Hs). apply fm_some; eauto.
  - intros ns. destruct (get_prefix_shortest visit V pm ns G C) as (s & p & E & Hp). exists s, p. split; auto. intros x ->.
    split; [apply good_rc; auto|]. cbn in Hp. destruct Hp as [Hp _]. apply fm_some in Hp as (k & v & I & E1 & E2); eauto 6.
Qed.

Section Doc.
  Variable w : N.
  Variable visit : tbl -> tbl.
  Hypothesis visit_perm : forall t, Permutation (visit t) t.
  Variable short : bytes -> option bytes.
  Hypothesis short_legal : forall ns p, short ns = Some p -> prefix_name p.

  (** Lines: empty or starting with something that is not a blank, and split correctly before such a thing. *)
  Definition line (x : wt_out) (ts : list token) : Prop :=
    exists b, x = Some b /\ reads w b ts solid /\ ((b = [] /\ ts = []) \/ first_in solid b).

  Lemma line_nil : line (put []) [].
  Proof. exists []. split; [reflexivity|]. split; [apply reads_nil | auto]. Qed.
  Lemma line_app x t y u : line x t -> line y u -> line (x +++ y) (t ++ u).
  Proof.
    intros (b & -> & Hr & Hb) (c & -> & Hr' & Hc). exists (b ++ c). split; [reflexivity|].
    destruct Hc as [[-> ->]|Hc].
    - rewrite !app_nil_r. split; assumption.
    - split; [eapply reads_app; eassumption|]. right. destruct Hb as [[-> _]|Hb]; [exact Hc | apply first_in_app; exact Hb].
  Qed.
  Lemma good_line x t : good w x t -> line (x +++ put [10]) t.
  Proof.
    intros (b & -> & Hr & Hf). exists (b ++ [10]). split; [reflexivity|]. split; [|right; apply first_in_app; exact Hf].
    rewrite <- (app_nil_r t). eapply reads_app; [exact Hr | exists 10, []; split; reflexivity | apply reads_blank_char; reflexivity].
  Qed.
  Lemma line_each {A} (f : A -> wt_out) (g : A -> list token) l : (forall x, In x l -> line (f x) (g x)) ->
    line (w_each (map f l)) (flat_map g l).
  Proof.
    induction l as [|x l IH]; intros H; cbn [map w_each flat_map]; [apply line_nil|].
    apply line_app; [apply H; left; reflexivity | apply IH; intros y Hy; apply H; right; exact Hy].
  Qed.

  Lemma line_prefix e : prefix_name (stx (fst e)) -> Forall iri_char (stx (snd e)) ->
    line (w_prefix e) (decl_tokens (stx (fst e), stx (snd e))).
  Proof.
    destruct e as [[i p] [j ns]]. cbn [fst snd stx]. intros Hp Hn.
    apply good_line.
    change (decl_tokens (p, ns)) with (TKw PREFIX :: in_parens [TPnameNs p; TEquals; TIriRef ns]).
    apply good_call; [vm_compute; reflexivity|].
    exists ((p ++ [58]) ++ [61] ++ (60 :: ns ++ [62])). split.
    - unfold put, wapp. cbn. rewrite <- app_assoc. reflexivity.
    - change [TPnameNs p; TEquals; TIriRef ns] with ([TPnameNs p] ++ [TEquals] ++ [TIriRef ns]).
      eapply reads_app; [apply reads_pname_ns; exact Hp | exists 61, (60 :: ns ++ [62]); split; reflexivity|].
      apply reads_app_any; [apply reads_equals|]. eapply reads_weaken; [|apply reads_iri; exact Hn]. reflexivity.
  Qed.
  Lemma good_full_iri i : full_iri_ok i -> good w (w_full i) (full_tokens i).
  Proof.
    intros (ns & rem & -> & Hn & _ & H). cbn [w_full full_tokens]. apply good_full.
    destruct rem; exact H.
  Qed.
  Lemma line_import i : full_iri_ok i -> line (w_import i) (import_tokens i).
  Proof.
    intros H. apply good_line. apply good_call; [vm_compute; reflexivity|]. apply (good_inner w short short_legal), good_full_iri, H.
  Qed.
  Lemma good_obj f s o : (forall n, f n = Some (short n)) -> wt s o = true -> is_vec o = false -> expressible w short o ->
    good w (w_obj f o) (tokens short o).
  Proof.
    intros Hf Hw Hv He. rewrite (w_obj_ext f (fun n => Some (short n)) o Hf).
    apply (writes_all w short short_legal o s Hw He). destruct o; try exact I. discriminate.
  Qed.

  Lemma line_ontology h : (forall i, In i (opt_list (fh_iri h) ++ opt_list (fh_version h)) -> full_iri_ok i) ->
    (fh_version h <> None -> fh_iri h <> None) ->
    line (put (bs "Ontology") +++ put [40] +++ w_iri_version (fh_iri h) (fh_version h) +++ put [10]) (TKw ONTOLOGY :: TLParen :: id_tokens h).
  Proof.
    intros Hi Hv. destruct (kw_bytes w (bs "Ontology") ONTOLOGY) as [Hk Hf]; [vm_compute; reflexivity|].
    assert (Hid : exists b, w_iri_version (fh_iri h) (fh_version h) +++ put [10] = Some b /\ reads w b (id_tokens h) solid).
    { unfold id_tokens in *. unfold w_iri_version. destruct (fh_iri h) as [i|]; cbn [opt_list app] in *.
      - pose proof (good_full_iri i (Hi i ltac:(left; reflexivity))) as Gi.
        destruct (fh_version h) as [v|]; cbn [opt_list app] in *.
        + pose proof (good_full_iri v (Hi v ltac:(right; left; reflexivity))) as Gv.
          pose proof (good_sep w _ _ _ _ Gi Gv) as G. cbn [flat_map]. rewrite app_nil_r.
          destruct (good_line _ _ G) as (b & E & Hr & _). exists b. split; [exact E|exact Hr].
        + cbn [flat_map]. destruct (good_line _ _ Gi) as (b & E & Hr & _). exists b. split; [|rewrite app_nil_r; exact Hr].
          rewrite <- E. destruct (w_full i); [|reflexivity]. cbn. rewrite app_nil_r. reflexivity.
      - destruct (fh_version h); [exfalso; apply Hv; [discriminate|reflexivity]|].
        exists [10]. split; [reflexivity|]. apply reads_blank_char. reflexivity. }
    destruct Hid as (b & E & Hr). exists (bs "Ontology" ++ [40] ++ b).
    split.
    - rewrite E. reflexivity.
    - split; [|right; apply first_in_app; exact Hf].
      change (TKw ONTOLOGY :: TLParen :: id_tokens h) with ([TKw ONTOLOGY] ++ [TLParen] ++ id_tokens h).
      eapply reads_app; [exact Hk | exists 40, b; split; reflexivity|]. apply reads_app_any; [apply reads_lpar | exact Hr].
  Qed.

  Local Notation doc_tokens := (SpecFuncDoc.doc_tokens short).

  Lemma reserved_standard p : is_reserved_prefix p = is_standard p.
  Proof. reflexivity. Qed.
  Definition decls (h : fheader) : list (bytes * bytes) :=
    filter (fun e => negb (is_standard (fst e))) (match fh_pm h with Some pm => texts (visit (fwd pm)) | None => [] end).
  Lemma decls_perm h : Permutation (decls h) (declared h).
  Proof.
    unfold decls, declared. destruct (fh_pm h) as [pm|]; [|constructor].
    assert (P : Permutation (texts (visit (fwd pm))) (texts (fwd pm))) by (apply Permutation_map, visit_perm).
    revert P. generalize (texts (visit (fwd pm))) (texts (fwd pm)). intros l l'. induction 1; cbn [filter].
    - constructor.
    - destruct (negb _); [constructor|]; assumption.
    - destruct (negb (is_standard (fst y))), (negb (is_standard (fst x))); try constructor; apply Permutation_refl.
    - eapply Permutation_trans; eassumption.
  Qed.

  Lemma assoc_put (a b c : wt_out) : (a +++ b) +++ c = a +++ b +++ c.
  Proof. destruct a, b, c; try reflexivity. cbn. rewrite app_assoc. reflexivity. Qed.

  Lemma abbr_ok defaults h : (forall pm, fh_pm h = Some pm -> map_ok visit pm defaults) -> (forall ns, short ns = prefix_in visit h ns) ->
    forall n, header_abbr visit h n = Some (short n).
  Proof.
    unfold header_abbr, prefix_in. intros H Hs n. rewrite Hs. destruct (fh_pm h) as [pm|]; [|reflexivity].
    specialize (H pm eq_refl). destruct (mo_lookup _ _ _ H n) as (s & p & E & Ha). unfold map_abbr. rewrite E.
    destruct p as [p|]; [|reflexivity]. unfold alive. destruct (Ha p eq_refl) as [Ha' _].
    destruct (N.eqb_spec (rc pm (sid p)) 0); [contradiction|]. reflexivity.
  Qed.

  Lemma document_text defaults h axioms : doc_ok w visit defaults h axioms -> (forall ns, short ns = prefix_in visit h ns) ->
    exists b, w_document visit h axioms = Some b /\ lex w b = Some (doc_tokens (decls h) h axioms).
  Proof.
    intros D Hs. pose proof (fun pm E => fit_ok visit pm defaults visit_perm (do_map _ _ _ _ _ D pm E)) as Hmap. pose proof (abbr_ok defaults h Hmap Hs) as Hab.
    assert (Hex : forall o, expressible w (prefix_in visit h) o -> expressible w short o) by (intros o; apply expressible_ext; intros n; symmetry; apply Hs).
    assert (Hlp : line (match fh_pm h with Some pm => w_prefixes visit pm | None => put [] end) (flat_map decl_tokens (decls h))).
    { unfold decls. pose proof Hmap as M. destruct (fh_pm h) as [pm|]; [|apply line_nil]. specialize (M pm eq_refl).
      unfold w_prefixes, texts.
      replace (flat_map decl_tokens (filter (fun e => negb (is_standard (fst e))) (map (fun e => (stx (fst e), stx (snd e))) (visit (fwd pm)))))
        with (flat_map (fun e => if is_reserved_prefix (stx (fst e)) then [] else decl_tokens (stx (fst e), stx (snd e))) (visit (fwd pm))).
      - apply line_each. intros [k v] Hin. cbn [fst snd]. destruct (is_reserved_prefix (stx k)); [apply line_nil|].
        apply (Permutation_in _ (visit_perm _)) in Hin. destruct (mo_names _ _ _ M k v Hin). apply line_prefix; assumption.
      - induction (visit (fwd pm)) as [|[k v] l IH]; [reflexivity|]. cbn [flat_map map filter fst snd].
        rewrite IH, reserved_standard. destruct (is_standard (stx k)); reflexivity. }
    assert (Hlo : line (put (bs "Ontology") +++ put [40] +++ w_iri_version (fh_iri h) (fh_version h) +++ put [10]) (TKw ONTOLOGY :: TLParen :: id_tokens h)).
    { apply line_ontology; [|apply (do_version _ _ _ _ _ D)]. intros i Hi. apply (do_iris _ _ _ _ _ D). rewrite app_assoc. apply in_or_app. auto. }
    assert (Hli : line (w_each (map w_import (fh_imports h))) (flat_map import_tokens (fh_imports h))).
    { apply line_each. intros i Hi. apply line_import. apply (do_iris _ _ _ _ _ D). rewrite app_assoc. apply in_or_app. auto. }
    assert (Hla : line (w_each (map (fun a => w_obj (header_abbr visit h) a +++ put [10]) (fh_annot h))) (flat_map (tokens short) (fh_annot h))).
    { apply line_each. intros a Ha. apply good_line. destruct (do_annot _ _ _ _ _ D a Ha) as [Hw He].
      eapply good_obj; eauto. eapply one_not_vec; eauto. }
    assert (Hlx : line (w_each (map (w_axiom visit h) axioms)) (flat_map (tokens short) axioms)).
    { apply line_each. intros a Ha. apply good_line. destruct (do_axioms _ _ _ _ _ D a Ha) as [Hw He].
      eapply good_obj; eauto. eapply one_not_vec; eauto. }
    assert (Hlf : line w_footer [TRParen]).
    { exists [41; 10]. split; [reflexivity|]. split; [|right; exists 41, [10]; split; reflexivity].
      change [41; 10] with ([41] ++ [10]). rewrite <- (app_nil_r [TRParen]).
      apply reads_app_any; [apply reads_rpar | apply reads_blank_char; reflexivity]. }
    pose proof (line_app _ _ _ _ Hlp (line_app _ _ _ _ Hlo (line_app _ _ _ _ Hli (line_app _ _ _ _ Hla (line_app _ _ _ _ Hlx Hlf))))) as (b & E & Hr & _).
    exists b. split.
    - rewrite <- E. unfold w_document, w_header, w_header_by. rewrite !assoc_put. reflexivity.
    - specialize (Hr [] ltac:(left; reflexivity)). rewrite app_nil_r in Hr. unfold lex. unfold L in Hr at 1. rewrite Hr.
      unfold L. cbn [List.length lex_loop option_map]. rewrite app_nil_r. reflexivity.
  Qed.
End Doc.

(** * Reading *)

Section Read.
  Variable w : N.
  Variable short : bytes -> option bytes.
  Variable handler : list dchange -> ret.
  Hypothesis handler_ok : forall l, handler l = COWL_OK.
  Variable signed : bool.
  Notation tokens := (tokens short).
  Notation parse_document := (parse_document handler signed).
  Notation parse_head := (parse_head handler signed).
  Notation parse_axioms := (parse_axioms handler signed).
  Notation add := (fun p : dpart => (CHANGE_ADD, p)).

  Lemma read_decls ds : forall f m log rest, (List.length ds <= f)%nat ->
    parse_document f m log (flat_map decl_tokens ds ++ rest) =
    parse_document (f - List.length ds) (m ++ ds) (log ++ map add (map (fun e => DPrefix (fst e) (snd e)) ds)) rest.
  Proof.
    induction ds as [|[p ns] ds IH]; intros f m log rest Hf.
    - cbn [flat_map app map List.length]. rewrite !app_nil_r, Nat.sub_0_r. reflexivity.
    - destruct f as [|f]; [cbn in Hf; lia|]. cbn [flat_map decl_tokens app fst snd ModelFuncParser.parse_document].
      unfold handle_add. rewrite handler_ok. change ((COWL_OK <? 0)%Z) with false. cbn match.
      rewrite IH by (cbn in Hf; lia). cbn [List.length map]. rewrite <- !app_assoc. reflexivity.
  Qed.

  Section Map.
    Variable m : pmap.
    Hypothesis short_known : forall ns p, short ns = Some p -> ~ In 58 p /\ pmap_ns m p = Some ns.

    Lemma parse_whole i o rest : wt (SOne i) o = true -> i <> SEntity -> expressible w short o -> calm rest ->
      parse_nt m (nt_of i) (tokens o ++ rest) = POk o rest.
    Proof.
      intros Hw Hi He Hr. unfold parse_nt.
      eapply parse_one; eauto; [eapply parses_all_ok; eassumption|]. rewrite app_length. lia.
    Qed.
    Lemma read_axioms l : forall f log, (List.length l <= f)%nat ->
      (forall a, In a l -> wt (SOne SAxiom) a = true /\ expressible w short a) ->
      parse_axioms f m log (flat_map tokens l ++ [TRParen]) = FRet COWL_OK (log ++ map add (map DAxiom l)).
    Proof.
      induction l as [|a l IH]; intros f log Hf H.
      - cbn [flat_map app map]. rewrite app_nil_r. destruct f; reflexivity.
      - destruct f as [|f]; [cbn in Hf; lia|]. destruct (H a ltac:(left; reflexivity)) as [Hw He].
        cbn [flat_map]. rewrite <- app_assoc.
        assert (Hc : calm (flat_map tokens l ++ [TRParen])).
        { eapply calm_list with (i := SAxiom); [|exact I]. apply Forall_forall. intros x Hx. apply H. right. exact Hx. }
        pose proof (parse_whole SAxiom a _ Hw ltac:(discriminate) He Hc) as E. cbn [nt_of] in E.
        pose proof (tokens_open short _ _ Hw (one_not_vec _ _ Hw)) as Ho.
        cbn [ModelFuncParser.parse_axioms].
        destruct (tokens a) as [|t ts]; [contradiction|]. cbn [app] in *.
        assert (E2 : then_doc log (parse_nt m N_axiom (t :: ts ++ flat_map tokens l ++ [TRParen]))
          (fun o r => add_or_fail handler log (DAxiom o) (fun log => parse_axioms f m log r)) =
          FRet COWL_OK (log ++ map add (map DAxiom (a :: l)))).
        { rewrite E. cbn [then_doc]. unfold add_or_fail, handle_add. rewrite handler_ok.
          change ((COWL_OK =? COWL_OK)%Z) with true. cbn match. rewrite IH; [cbn [map]; rewrite <- app_assoc; reflexivity|cbn in Hf; lia|].
          intros x Hx. apply H. right. exact Hx. }
        destruct t; try contradiction; exact E2.
    Qed.
    Lemma axioms_no_head l : (forall a, In a l -> wt (SOne SAxiom) a = true) ->
      match flat_map tokens l ++ [TRParen] with TKw IMPORT :: _ | TKw ANNOTATION :: _ | TIriRef _ :: _ | TPnameLn _ :: _ => False | _ => True end.
    Proof.
      destruct l as [|a l]; intros H; [exact I|]. specialize (H a ltac:(left; reflexivity)).
      cbn [flat_map]. rewrite <- app_assoc.
      destruct a as [| |e ? ?| | | | |t fs opt n]; try discriminate; [destruct e; discriminate|].
      cbn [wt] in H. apply andb_true_iff in H as [H _].
      destruct (tokens_comp short t fs opt n) as [body Eb]; [destruct t; vm_compute in H; try discriminate; reflexivity|].
      rewrite Eb. cbn [app]. destruct t; try (vm_compute in H; discriminate); exact I.
    Qed.
    Lemma read_annots l axs : forall f log, (List.length l <= f)%nat ->
      (forall a, In a l -> wt (SOne SAnnot) a = true /\ expressible w short a) ->
      (forall a, In a axs -> wt (SOne SAxiom) a = true /\ expressible w short a) ->
      parse_head f m log (flat_map tokens l ++ flat_map tokens axs ++ [TRParen]) = FRet COWL_OK (log ++ map add (map DAnnot l ++ map DAxiom axs)).
    Proof.
      induction l as [|a l IH]; intros f log Hf H Ha.
      - cbn [flat_map app map]. pose proof (axioms_no_head axs (fun a Hi => proj1 (Ha a Hi))) as Hh.
        assert (E : parse_axioms (S (List.length (flat_map tokens axs ++ [TRParen]))) m log (flat_map tokens axs ++ [TRParen]) =
          FRet COWL_OK (log ++ map add (map DAxiom axs))).
        { apply read_axioms; [|exact Ha]. rewrite app_length.
          assert (List.length axs <= List.length (flat_map tokens axs))%nat; [|lia].
          eapply length_items with (i := SAxiom). apply Forall_forall. intros x Hx. apply Ha. exact Hx. }
        rewrite <- E. destruct (flat_map tokens axs ++ [TRParen]) as [|t ts]; [destruct f; reflexivity|].
        destruct f; destruct t as [| | | | | | | | | | |k|]; try reflexivity; destruct k; try reflexivity; contradiction.
      - destruct f as [|f]; [cbn in Hf; lia|]. destruct (H a ltac:(left; reflexivity)) as [Hw He].
        cbn [flat_map]. rewrite <- app_assoc.
        assert (Hc : calm (flat_map tokens l ++ flat_map tokens axs ++ [TRParen])).
        { eapply calm_list with (i := SAnnot); [apply Forall_forall; intros x Hx; apply H; right; exact Hx|].
          eapply calm_list with (i := SAxiom); [|exact I]. apply Forall_forall. intros x Hx. apply Ha. exact Hx. }
        pose proof (parse_whole SAnnot a _ Hw ltac:(discriminate) He Hc) as E. cbn [nt_of] in E.
        destruct (annotation_tokens short a Hw) as [body Eb]. rewrite Eb in *. cbn [app] in *.
        cbn [ModelFuncParser.parse_head].
        rewrite E. cbn [then_doc]. unfold add_or_fail, handle_add. rewrite handler_ok.
        change ((COWL_OK =? COWL_OK)%Z) with true. cbn match. rewrite IH; [cbn [map app]; rewrite <- app_assoc; reflexivity|cbn in Hf; lia| |exact Ha].
        intros x Hx. apply H. right. exact Hx.
    Qed.
    Lemma read_full i rest : full_iri_ok i -> exists ns rem, i = OIri ns rem /\ full_tokens i = [TIriRef (ns ++ rem)] /\
      parse_iri m (TIriRef (ns ++ rem) :: rest) = POk (ns, rem) rest.
    Proof.
      intros (ns & rem & -> & Hn & Hc & H). exists ns, rem. split; [reflexivity|]. split; [reflexivity|].
      cbn [parse_iri]. rewrite (canonical_from ns rem Hn Hc). reflexivity.
    Qed.
    Lemma read_imports is l axs : forall f log, (List.length is + List.length l <= f)%nat ->
      (forall i, In i is -> full_iri_ok i) ->
      (forall a, In a l -> wt (SOne SAnnot) a = true /\ expressible w short a) ->
      (forall a, In a axs -> wt (SOne SAxiom) a = true /\ expressible w short a) ->
      parse_head f m log (flat_map import_tokens is ++ flat_map tokens l ++ flat_map tokens axs ++ [TRParen]) =
        FRet COWL_OK (log ++ map add (map DImport is ++ map DAnnot l ++ map DAxiom axs)).
    Proof.
      induction is as [|i is IH]; intros f log Hf Hi Hl Ha.
      - apply read_annots; auto.
      - destruct f as [|f]; [cbn in Hf; lia|].
        destruct (read_full i (TRParen :: flat_map import_tokens is ++ flat_map tokens l ++ flat_map tokens axs ++ [TRParen]) (Hi i ltac:(left; reflexivity))) as (ns & rem & -> & Et & E).
        change (flat_map import_tokens (OIri ns rem :: is)) with ([TKw IMPORT; TLParen; TIriRef (ns ++ rem); TRParen] ++ flat_map import_tokens is).
        rewrite <- app_assoc. cbn [app].
        cbn [ModelFuncParser.parse_head]. unfold pbind. cbn [tok_lparen]. cbn beta iota. rewrite E. cbn [tok_rparen pret then_doc fst snd].
        unfold add_or_fail, handle_add. rewrite handler_ok.
        change ((COWL_OK =? COWL_OK)%Z) with true. cbn match. rewrite IH; auto; [cbn [map app]; rewrite <- app_assoc; reflexivity|cbn in Hf; lia|].
        intros x Hx. apply Hi. right. exact Hx.
    Qed.

    Lemma read_body f ds log h axs :
      (forall i, In i (opt_list (fh_iri h) ++ opt_list (fh_version h) ++ fh_imports h) -> full_iri_ok i) ->
      (fh_version h <> None -> fh_iri h <> None) ->
      (forall a, In a (fh_annot h) -> wt (SOne SAnnot) a = true /\ expressible w short a) ->
      (forall a, In a axs -> wt (SOne SAxiom) a = true /\ expressible w short a) ->
      log = map add (map (fun e => DPrefix (fst e) (snd e)) ds) ->
      parse_document f m log ((TKw ONTOLOGY :: TLParen :: id_tokens h) ++
        flat_map import_tokens (fh_imports h) ++ flat_map tokens (fh_annot h) ++ flat_map tokens axs ++ [TRParen]) =
      FRet COWL_OK (contents ds h axs).
    Proof.
      intros Hi Hv Hl Ha ->.
      set (rest := flat_map import_tokens (fh_imports h) ++ flat_map tokens (fh_annot h) ++ flat_map tokens axs ++ [TRParen]).
      assert (Hrest : forall log, parse_head (List.length rest) m log rest =
        FRet COWL_OK (log ++ map add (map DImport (fh_imports h) ++ map DAnnot (fh_annot h) ++ map DAxiom axs))).
      { intros log. apply read_imports; auto; [|intros i Hin; apply Hi; rewrite app_assoc; apply in_or_app; auto].
        unfold rest. rewrite !app_length.
        assert (List.length (fh_annot h) <= List.length (flat_map tokens (fh_annot h)))%nat.
        { eapply length_items with (i := SAnnot). apply Forall_forall. intros x Hx. apply Hl. exact Hx. }
        assert (List.length (fh_imports h) <= List.length (flat_map import_tokens (fh_imports h)))%nat; [|lia].
        clear. induction (fh_imports h) as [|x l IH]; [cbn; lia|]. cbn [flat_map List.length import_tokens]. rewrite app_length. cbn. lia. }
      assert (Hst : starts_iri rest = false).
      { unfold rest. destruct (fh_imports h) as [|x l]; [|reflexivity]. cbn [flat_map app].
        destruct (fh_annot h) as [|a l].
        - cbn [flat_map app]. pose proof (axioms_no_head axs (fun a Hin => proj1 (Ha a Hin))) as Hh.
          destruct (flat_map tokens axs ++ [TRParen]) as [|t ts]; [reflexivity|]. destruct t; try reflexivity; contradiction.
        - cbn [flat_map]. destruct (annotation_tokens short a (proj1 (Hl a ltac:(left; reflexivity)))) as [body ->]. reflexivity. }
      unfold contents. rewrite map_app. set (log := map add (map (fun e => DPrefix (fst e) (snd e)) ds)).
      assert (Hgo : ModelFuncParser.parse_id handler signed m log (id_tokens h ++ rest) =
        FRet COWL_OK (log ++ map add (map DIri (opt_list (fh_iri h)) ++ map DVersion (opt_list (fh_version h)) ++ map DImport (fh_imports h) ++ map DAnnot (fh_annot h) ++ map DAxiom axs))).
      { unfold parse_id, id_tokens. destruct (fh_iri h) as [i|]; cbn [opt_list] in *.
        - destruct (fh_version h) as [v|]; cbn [opt_list app flat_map] in *.
          + destruct (read_full v rest (Hi v ltac:(right; left; reflexivity))) as (ns' & rem' & -> & Et' & E').
            destruct (read_full i (TIriRef (ns' ++ rem') :: rest) (Hi i ltac:(left; reflexivity))) as (ns & rem & -> & Et & E).
            rewrite Et, Et'. cbn [app starts_iri negb]. rewrite E. cbn [then_doc starts_iri negb]. rewrite E'. cbn [then_doc fst snd].
            unfold handle_add. rewrite !handler_ok. change ((COWL_OK =? COWL_OK)%Z) with true. cbn [andb].
            rewrite Hrest. cbn [map app]. rewrite <- !app_assoc. reflexivity.
          + destruct (read_full i rest (Hi i ltac:(left; reflexivity))) as (ns & rem & -> & Et & E).
            rewrite Et. cbn [app starts_iri negb]. rewrite E. cbn [then_doc starts_iri negb]. rewrite Hst. cbn [negb fst snd].
            unfold add_or_fail, handle_add. rewrite !handler_ok. change ((COWL_OK =? COWL_OK)%Z) with true. cbn match.
            rewrite Hrest. cbn [map app]. rewrite <- !app_assoc. reflexivity.
        - destruct (fh_version h); [exfalso; apply Hv; [discriminate|reflexivity]|]. cbn [opt_list app flat_map map].
          rewrite Hst. cbn [negb]. rewrite Hrest. reflexivity. }
      rewrite <- Hgo. unfold id_tokens, rest. destruct f; reflexivity.
    Qed.
  End Map.
End Read.

(** * Look-ups *)

Lemma pmap_unique (l : pmap) p n : In (p, n) l -> (forall n', In (p, n') l -> n' = n) -> pmap_ns l p = Some n.
Proof.
  intros Hin Hu. unfold pmap_ns. destruct (find (fun e => bytes_eqb (fst e) p) l) as [[q n']|] eqn:E.
  - apply List.find_some in E as [E1 E2]. cbn in E2. apply bytes_eqb_eq in E2. subst q. rewrite (Hu n' E1). reflexivity.
  - apply List.find_none with (x := (p, n)) in E; [|exact Hin]. cbn in E. rewrite bytes_eqb_refl in E. discriminate.
Qed.
Lemma standard_in p : is_standard p = true <-> exists n, In (p, n) standard.
Proof.
  unfold is_standard. rewrite existsb_exists. split.
  - intros ([q n] & Hin & E). cbn in E. apply bytes_eqb_eq in E. subst q. eauto.
  - intros (n & Hin). exists (p, n). split; [exact Hin | apply bytes_eqb_refl].
Qed.
Lemma prefix_no_colon p : prefix_name p -> ~ In 58 p.
Proof.
  intros [->|(c & r & -> & Hc & Hr & _)]; [auto|]. rewrite Forall_forall in Hr. intros [->|Hin].
  - unfold letter, non_ascii in Hc. lia.
  - specialize (Hr _ Hin). unfold inner_char, letter, non_ascii, is_digit in Hr. lia.
Qed.
Lemma initial_standard dm : initial_map dm = standard ++ dm.
Proof. reflexivity. Qed.

Lemma decl_count ds : (List.length ds <= List.length (flat_map decl_tokens ds))%nat.
Proof. induction ds as [|x l IH]; [cbn; lia|]. cbn [flat_map]. rewrite app_length. cbn [decl_tokens List.length]. lia. Qed.

Section Top.
  Variable w : N.
  Variable visit : tbl -> tbl.
  Hypothesis visit_perm : forall t, Permutation (visit t) t.

  Lemma known defaults h ds : (forall pm, fh_pm h = Some pm -> map_fit visit pm defaults) -> Permutation ds (declared h) ->
    forall ns p, prefix_in visit h ns = Some p -> prefix_name p /\ pmap_ns (initial_map defaults ++ ds) p = Some ns.
  Proof.
    unfold prefix_in, declared. intros H0 P ns p E. destruct (fh_pm h) as [pm|]; [|discriminate].
    pose proof (fit_ok visit pm defaults visit_perm (H0 pm eq_refl)) as H.
    destruct (mo_lookup _ _ _ H ns) as (s & x & El & Hx). rewrite El in E. destruct x as [x|]; [|discriminate]. injection E as <-.
    destruct (Hx x eq_refl) as (_ & k & v & Hin & Ek & Ev). destruct (mo_names _ _ _ H k v Hin) as [Hn _].
    rewrite Ek in Hn. split; [exact Hn|]. subst ns. rewrite initial_standard.
    assert (Ht : In (stx x, stx v) (texts (fwd pm))) by (rewrite <- Ek; apply in_map_iff; exists (k, v); auto).
    apply pmap_unique.
    - destruct (is_standard (stx x)) eqn:Es.
      + apply standard_in in Es as [n Hs]. pose proof Hs as Hs'. rewrite <- Ek in Hs'.
        rewrite (mo_standard _ _ _ H k v n Hin Hs'). apply in_or_app. left. apply in_or_app. left. exact Hs.
      + apply in_or_app. right. apply (Permutation_in _ (Permutation_sym P)). apply filter_In. split; [exact Ht|unfold fst; rewrite Es; reflexivity].
    - intros n'. rewrite !in_app_iff. intros [[Hs|Hd]|Hf].
      + rewrite <- Ek in Hs. symmetry. apply (mo_standard _ _ _ H k v n' Hin Hs).
      + apply (mo_defaults _ _ _ H (stx x) n' (stx v) Hd Ht).
      + apply (Permutation_in _ P) in Hf. apply filter_In in Hf as [Hf _]. apply in_map_iff in Hf as ([k' v'] & E & Hf). cbn in E. injection E as E1 <-.
        assert (Ex : (k', v') = (k, v)) by (apply (distinct_unique (fwd pm) _ _ (mo_keys _ _ _ H)); auto; cbn; congruence).
        congruence.
  Qed.

  Theorem document_round_trip defaults h axioms handler signed : (forall l, handler l = COWL_OK) ->
    doc_ok w visit defaults h axioms ->
    exists b ds, w_document visit h axioms = Some b /\ Permutation ds (declared h) /\
      func_read handler signed w (initial_map defaults) b = FRet COWL_OK (contents ds h axioms).
  Proof.
    intros Hh D.
    pose proof (known defaults h (decls visit h) (do_map _ _ _ _ _ D) (decls_perm visit visit_perm h)) as K.
    destruct (document_text w visit visit_perm (prefix_in visit h) (fun ns p E => proj1 (K ns p E)) defaults h axioms D (fun _ => eq_refl)) as (b & Eb & El).
    exists b, (decls visit h). split; [exact Eb|]. split; [apply decls_perm; exact visit_perm|].
    unfold func_read. rewrite El. unfold doc_tokens. rewrite (read_decls (prefix_in visit h) handler Hh signed).
    - rewrite (read_body w (prefix_in visit h) handler Hh signed (initial_map defaults ++ decls visit h)
        (fun ns p E => conj (prefix_no_colon p (proj1 (K ns p E))) (proj2 (K ns p E))) _ (decls visit h) _ h axioms
        (do_iris _ _ _ _ _ D) (do_version _ _ _ _ _ D) (do_annot _ _ _ _ _ D) (do_axioms _ _ _ _ _ D) eq_refl).
      reflexivity.
    - rewrite app_length. pose proof (decl_count (decls visit h)). lia.
  Qed.
End Top.
