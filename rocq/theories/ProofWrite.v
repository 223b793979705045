(** The texts of single objects can be read back. *)

From Coq Require Import String.
From Coq Require Import NArith ZArith List Bool Lia Permutation.
From Verif Require Import Bytes ModelTypes ModelObject ModelText ModelPrefixMap SpecPrefixMap SpecObject SpecText ModelOntology ModelChange
  ModelPrtDecoder SpecPrtStream ModelFuncLex ModelFuncParser ModelFuncWriter SpecFunc SpecFuncDoc ModelWrite SpecWrite
  ProofObject ProofText ProofFuncRe ProofFuncLex ProofFuncWrite ProofFuncParse ProofFuncDoc ProofFuncTop.
Import ListNotations.
Local Open Scope N_scope.

Definition only (pm : pst) : fheader := mkFHeader (Some pm) None None [] [].

Section Write.
  Variable w : N.
  Variable visit : tbl -> tbl.
  Hypothesis visit_perm : forall t, Permutation (visit t) t.
  Variable defaults : pmap.
  Variable pm : pst.
  Hypothesis global : global_map visit pm defaults.

  Lemma only_fit : forall q, fh_pm (only pm) = Some q -> map_fit visit q defaults.
  Proof. intros q E. injection E as <-. exact (proj1 global). Qed.
  Lemma abbr_of n : map_abbr visit pm n = Some (prefix_of visit pm n).
  Proof. exact (abbr_is visit visit_perm defaults (only pm) only_fit n). Qed.
  Lemma prefix_legal ns p : prefix_of visit pm ns = Some p -> prefix_name p.
  Proof. exact (short_legal visit visit_perm defaults (only pm) (declared (only pm)) only_fit (Permutation_refl _) ns p). Qed.
  Lemma prefix_known ns p : prefix_of visit pm ns = Some p -> ~ In 58 p /\ pmap_ns (initial_map defaults) p = Some ns.
  Proof.
    intros E. split; [apply prefix_no_colon; exact (prefix_legal ns p E)|].
    pose proof (fit_ok visit pm defaults visit_perm (proj1 global)) as H. unfold prefix_of in E.
    destruct (mo_lookup _ _ _ H ns) as (s & x & El & Hx). rewrite El in E. destruct x as [x|]; [|discriminate]. injection E as <-.
    destruct (Hx x eq_refl) as (_ & k & v & Hin & Ek & Ev). subst ns. rewrite initial_standard.
    assert (Ht : In (stx x, stx v) (texts (fwd pm))) by (rewrite <- Ek; apply in_map_iff; exists (k, v); auto).
    apply pmap_unique.
    - apply in_or_app. right. apply (Permutation_in _ (Permutation_sym (proj2 global))). exact Ht.
    - intros n'. rewrite in_app_iff. intros [Hs|Hd].
      + rewrite <- Ek in Hs. symmetry. apply (mo_standard _ _ _ H k v n' Hin Hs).
      + apply (mo_defaults _ _ _ H (stx x) n' (stx v) Hd Ht).
  Qed.

  Lemma text_good s o : wt s o = true -> is_vec o = false -> expressible w (prefix_of visit pm) o ->
    good w (func_write visit pm o) (tokens (prefix_of visit pm) o).
  Proof. intros. unfold func_write. eapply (good_obj w (prefix_of visit pm) prefix_legal); eauto. exact abbr_of. Qed.

  Theorem text_back debug i o rest : wt (SOne i) o = true -> i <> SEntity -> expressible w (prefix_of visit pm) o -> calm rest ->
    exists b ts, to_string (functional visit pm) debug o = Some b /\ lex w b = Some ts /\
      parse_nt (initial_map defaults) (nt_of i) (ts ++ rest) = POk o rest.
  Proof.
    intros Hw Hi He Hr. destruct (text_good _ _ Hw (one_not_vec _ _ Hw) He) as (b & E & R & _).
    exists b, (tokens (prefix_of visit pm) o). split; [exact E|]. split; [apply reads_lex; exact R|].
    apply (parse_whole w (prefix_of visit pm) (initial_map defaults) prefix_known); auto.
  Qed.
  Theorem text_same debug i a b : wt (SOne i) a = true -> wt (SOne i) b = true -> i <> SEntity ->
    expressible w (prefix_of visit pm) a -> expressible w (prefix_of visit pm) b ->
    to_string (functional visit pm) debug a = to_string (functional visit pm) debug b -> a = b.
  Proof.
    intros Ha Hb Hi Ea Eb E. destruct (text_back debug i a [] Ha Hi Ea I) as (x & ts & X & Lx & Px).
    destruct (text_back debug i b [] Hb Hi Eb I) as (y & us & Y & Ly & Py). rewrite X, Y in E. injection E as <-. rewrite Lx in Ly. injection Ly as <-.
    rewrite Px in Py. now injection Py.
  Qed.

  Lemma each_line axioms : (forall a, In a axioms -> wt (SOne SAxiom) a = true /\ expressible w (prefix_of visit pm) a) -> forall debug,
    exists ts, map (to_string (functional visit pm) debug) axioms = map Some ts /\
      w_each (map (fun a => func_write visit pm a +++ put [10]) axioms) = Some (concat (map (fun t => t ++ [10]) ts)).
  Proof.
    intros H debug. induction axioms as [|a l IH]; [exists []; split; reflexivity|].
    destruct IH as (ts & E & F); [intros; apply H; now right|].
    destruct (H a (or_introl eq_refl)) as [Hw He]. destruct (text_good _ _ Hw (one_not_vec _ _ Hw) He) as (b & G & _).
    exists (b :: ts). cbn [map w_each concat]. rewrite E, F, G. split; [f_equal; exact G|reflexivity].
  Qed.
  Theorem paste_back debug handler signed axioms : (forall l, handler l = COWL_OK) ->
    (forall a, In a axioms -> wt (SOne SAxiom) a = true /\ expressible w (prefix_of visit pm) a) ->
    exists ts, map (to_string (functional visit pm) debug) axioms = map Some ts /\
      func_read handler signed w (initial_map defaults) (pasted ts) = FRet COWL_OK (map (fun a => (CHANGE_ADD, DAxiom a)) axioms).
  Proof.
    intros Hh H. destruct (each_line axioms H debug) as (ts & E & F). exists ts. split; [exact E|].
    set (h := mkFHeader None None None [] []).
    assert (Lo : line w (put (bs "Ontology") +++ put [40] +++ w_iri_version None None +++ put [10]) (TKw ONTOLOGY :: TLParen :: id_tokens h)).
    { apply (line_ontology w h); [intros i []|now intros]. }
    assert (Lx : line w (w_each (map (fun a => func_write visit pm a +++ put [10]) axioms)) (flat_map (tokens (prefix_of visit pm)) axioms)).
    { apply line_each. intros a Ha. apply good_line. destruct (H a Ha) as [Hw He]. exact (text_good _ _ Hw (one_not_vec _ _ Hw) He). }
    assert (Lf : line w w_footer [TRParen]).
    { exists [41; 10]. split; [reflexivity|]. split; [|right; exists 41, [10]; split; reflexivity].
      change [41; 10] with ([41] ++ [10]). rewrite <- (app_nil_r [TRParen]).
      apply reads_app_any; [apply reads_rpar | apply reads_blank_char; reflexivity]. }
    destruct (line_app _ _ _ _ _ Lo (line_app _ _ _ _ _ Lx Lf)) as (b & Eb & R & _). rewrite F in Eb.
    assert (Ex : b = pasted ts) by (cbn in Eb; injection Eb as <-; reflexivity). subst b.
    unfold func_read.
    replace (lex w (pasted ts)) with (Some ((TKw ONTOLOGY :: TLParen :: id_tokens h) ++ flat_map (tokens (prefix_of visit pm)) axioms ++ [TRParen])).
    2:{ specialize (R [] ltac:(left; reflexivity)). rewrite app_nil_r in R. unfold lex. unfold L in R at 1. rewrite R.
        unfold L. cbn [List.length lex_loop option_map]. rewrite app_nil_r. reflexivity. }
    pose proof (read_body w (prefix_of visit pm) handler Hh signed (initial_map defaults) prefix_known
      (List.length ((TKw ONTOLOGY :: TLParen :: id_tokens h) ++ flat_map (tokens (prefix_of visit pm)) axioms ++ [TRParen])) [] [] h axioms) as B.
    etransitivity; [apply B; [intros ? []|now intros|intros ? []|exact H|reflexivity]|].
    unfold contents. cbn. now rewrite map_map.
  Qed.
End Write.
