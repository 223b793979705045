(** Statements about single literals, IRIs and objects in functional syntax. *)

From Coq Require Import String NArith ZArith List Bool Lia Permutation.
From Coq Require Import ZifyBool ZifyNat ZifyN.
From Verif Require Import Bytes ModelTypes ModelObject ModelText ModelPrefixMap SpecPrefixMap SpecObject SpecText ModelOntology ModelChange
  ModelPrtDecoder SpecPrtStream ModelFuncLex ModelFuncParser ModelFuncWriter SpecFunc SpecFuncDoc
  ProofObject ProofText ProofFuncRe ProofFuncLex ProofFuncWrite ProofFuncParse ProofFuncDoc.
Import ListNotations.
Local Open Scope N_scope.

Lemma reads_lex w b ts : reads w b ts ends -> lex w b = Some ts.
Proof.
  intros H. specialize (H [] (or_introl eq_refl)). rewrite !app_nil_r in H. cbn in H. rewrite app_nil_r in H. exact H.
Qed.

Theorem value_back w abbr o b : wt (SOne SLit) o = true -> ~ In 0 (literal_get_value o) -> w_obj abbr o = Some b ->
  exists ts, lex w b = Some (TQuoted (literal_get_value o) :: ts).
Proof.
  intros Hw Hv E.
  assert (Hx : exists y, w_obj abbr o = put [34] +++ put (escape (literal_get_value o)) +++ put [34] +++ y).
  { destruct o as [| | | |v ns rem|v l| |t]; try discriminate Hw; try (eexists; reflexivity).
    - destruct e; vm_compute in Hw; discriminate.
    - destruct t; vm_compute in Hw; discriminate. }
  destruct Hx as (y & Ey). rewrite Ey in E. destruct y as [y|]; [|discriminate]. cbn in E. injection E as <-.
  destruct (lex_total w y) as [ts Et]. exists ts.
  pose proof (reads_quoted w (literal_get_value o) Hv y (starts_any y)) as R.
  replace ((34 :: escape (literal_get_value o) ++ [34]) ++ y) with (34 :: escape (literal_get_value o) ++ 34 :: y) in R
    by (cbn; rewrite <- app_assoc; reflexivity).
  unfold L in R. unfold lex in *. rewrite Et in R. exact R.
Qed.

Section Map.
  Variable w : N.
  Variable visit : tbl -> tbl.
  Hypothesis visit_perm : forall t, Permutation (visit t) t.
  Variable defaults : pmap.
  Variable h : fheader.
  Variable ds : list (bytes * bytes).
  Hypothesis fit : forall pm, fh_pm h = Some pm -> map_fit visit pm defaults.
  Hypothesis ds_perm : Permutation ds (declared h).

  Lemma short_legal ns p : prefix_in visit h ns = Some p -> prefix_name p.
  Proof. intros E. apply (known visit visit_perm defaults h ds fit ds_perm ns p E). Qed.
  Lemma short_known ns p : prefix_in visit h ns = Some p -> ~ In 58 p /\ pmap_ns (initial_map defaults ++ ds) p = Some ns.
  Proof. intros E. destruct (known visit visit_perm defaults h ds fit ds_perm ns p E) as [H K]. split; [now apply prefix_no_colon|exact K]. Qed.
  Lemma abbr_is n : header_abbr visit h n = Some (prefix_in visit h n).
  Proof.
    apply (abbr_ok visit (prefix_in visit h) defaults h); [|reflexivity]. intros pm E. apply fit_ok; auto.
  Qed.

  Theorem iri_back ns rem rest : iri_ok (prefix_in visit h) ns rem ->
    exists b t, w_obj (header_abbr visit h) (OIri ns rem) = Some b /\ lex w b = Some [t] /\
      parse_iri (initial_map defaults ++ ds) (t :: rest) = POk (ns, rem) rest.
  Proof.
    intros H. destruct (good_iri w (prefix_in visit h) short_legal ns rem H) as (b & E & R & _).
    exists b, (iri_token (prefix_in visit h) ns rem). split.
    - cbn [w_obj]. rewrite (w_iri_ext _ _ ns rem abbr_is). exact E.
    - split; [apply reads_lex; exact R|]. apply parse_iri_ok; [exact short_known|exact H].
  Qed.

  Theorem object_back i o rest : wt (SOne i) o = true -> i <> SEntity -> expressible w (prefix_in visit h) o -> calm rest ->
    exists b ts, w_obj (header_abbr visit h) o = Some b /\ lex w b = Some ts /\
      parse_nt (initial_map defaults ++ ds) (nt_of i) (ts ++ rest) = POk o rest.
  Proof.
    intros Hw Hi He Hr. pose proof (one_not_vec _ _ Hw) as Hv.
    destruct (good_obj w (prefix_in visit h) short_legal (header_abbr visit h) (SOne i) o abbr_is Hw Hv He) as (b & E & R & _).
    exists b, (tokens (prefix_in visit h) o). split; [exact E|]. split; [apply reads_lex; exact R|].
    unfold parse_nt. apply (parse_one w (prefix_in visit h) (initial_map defaults ++ ds)); auto.
    - apply parses_all_ok. exact short_known.
    - rewrite app_length. lia.
  Qed.
End Map.

Theorem document_tokens w visit defaults h axioms : (forall t, Permutation (visit t) t) -> doc_ok w visit defaults h axioms ->
  exists b ds, w_document visit h axioms = Some b /\ Permutation ds (declared h) /\
    lex w b = Some (doc_tokens (prefix_in visit h) ds h axioms).
Proof.
  intros V D. pose proof (known visit V defaults h (decls visit h) (do_map _ _ _ _ _ D) (decls_perm visit V h)) as K.
  destruct (document_text w visit V (prefix_in visit h) (fun ns p E => proj1 (K ns p E)) defaults h axioms D (fun _ => eq_refl)) as (b & Eb & El).
  exists b, (decls visit h). split; [exact Eb|]. split; [apply decls_perm; exact V|exact El].
Qed.
