(** Concrete cases for PropertiesFunc. *)

From Coq Require Import String NArith ZArith List Bool Lia Permutation.
From Coq Require Import ZifyBool ZifyNat ZifyN.
From Verif Require Import Bytes ModelTypes ModelObject ModelText SpecObject SpecText ProofObject ProofText ModelPrefixMap SpecPrefixMap ModelOntology SpecOntology
  ProofOntology ProofOntologyQuery ModelChange SpecChange ModelPrtDecoder SpecPrt SpecPrtStream SpecPrtStore ModelFuncLex ModelFuncParser ModelFuncWriter SpecFunc SpecFuncDoc
  ProofPrefixMap ExamplesPrefix ExamplesChange ExamplesPrt ExamplesPrtStream ExamplesPrtStore.
Import ListNotations.
Local Open Scope N_scope.

(** * A sufficient check for contents that can be written *)

Definition fx_letter (c : N) : bool := (65 <=? c) && (c <=? 90) || (97 <=? c) && (c <=? 122).
Definition fx_start (c : N) : bool := fx_letter c || (128 <=? c) && (c <=? 255).
Definition fx_inner (c : N) : bool := fx_start c || (c =? 95) || (c =? 45) || ((48 <=? c) && (c <=? 57)) || (c =? 46).
Definition fx_last (s : bytes) : bool := negb (last s 0 =? 46).
Definition fx_local (s : bytes) : bool :=
  match s with c :: r => (fx_start c || (c =? 95) || (48 <=? c) && (c <=? 57)) && forallb fx_inner r && fx_last s | [] => false end.
Definition fx_prefix (s : bytes) : bool :=
  match s with c :: r => fx_start c && forallb fx_inner r && fx_last s | [] => true end.
Definition fx_char (c : N) : bool := (32 <? c) && negb (existsb (N.eqb c) [60; 62; 34; 123; 125; 124; 94; 96; 92]).

Lemma fx_last_ok s : fx_last s = true -> no_final_dot s.
Proof. unfold fx_last, no_final_dot. intros H u ->. rewrite last_last in H. discriminate. Qed.
Lemma fx_inner_ok r : forallb fx_inner r = true -> Forall inner_char r.
Proof.
  intros H. apply Forall_forall. intros c Hc. rewrite forallb_forall in H. specialize (H c Hc).
  unfold fx_inner, fx_start, fx_letter in H. unfold inner_char, letter, non_ascii, is_digit. lia.
Qed.
Lemma fx_local_ok s : fx_local s = true -> local_name s.
Proof.
  destruct s as [|c r]; [discriminate|]. unfold fx_local. intros H. apply andb_true_iff in H as [H H3]. apply andb_true_iff in H as [H1 H2].
  exists c, r. split; auto. split; [|split; [now apply fx_inner_ok|now apply fx_last_ok]].
  unfold fx_start, fx_letter in H1. unfold letter, non_ascii, is_digit. lia.
Qed.
Lemma fx_prefix_ok s : fx_prefix s = true -> prefix_name s.
Proof.
  destruct s as [|c r]; [now left|]. unfold fx_prefix. intros H. apply andb_true_iff in H as [H H3]. apply andb_true_iff in H as [H1 H2].
  right. exists c, r. split; auto. split; [|split; [now apply fx_inner_ok|now apply fx_last_ok]].
  unfold fx_start, fx_letter in H1. unfold letter, non_ascii. lia.
Qed.
Lemma fx_char_ok s : forallb fx_char s = true -> Forall iri_char s.
Proof.
  intros H. apply Forall_forall. intros c Hc. rewrite forallb_forall in H. specialize (H c Hc).
  unfold fx_char in H. apply andb_true_iff in H as [H1 H2]. split; [lia|]. intros Hin. apply negb_true_iff in H2.
  assert (existsb (N.eqb c) [60; 62; 34; 123; 125; 124; 94; 96; 92] = true); [|congruence].
  apply existsb_exists. exists c. split; auto. apply N.eqb_refl.
Qed.

Section Check.
  Variable w : N.
  Variable short : bytes -> option bytes.
  Definition fx_iri (ns rem : bytes) : bool :=
    match iri_from_string (ns ++ rem) with Some (a, b) => bytes_eqb a ns && bytes_eqb b rem | None => false end &&
    (if match rem with [] => true | _ => match short ns with None => true | _ => false end end then forallb fx_char (ns ++ rem) else fx_local rem).
  Lemma fx_iri_ok ns rem : fx_iri ns rem = true -> iri_ok short ns rem.
  Proof.
    unfold fx_iri. intros H. apply andb_true_iff in H as [H1 H2].
    destruct (iri_from_string_canonical (ns ++ rem)) as [[E1 E2]|(E1 & a & b & E2 & E3)]; [rewrite E2 in H1; discriminate|].
    rewrite E2 in H1. apply andb_true_iff in H1 as [A B]. apply bytes_eqb_eq in A, B. subst a b. split; auto. split; auto.
    destruct (match rem with [] => true | _ => match short ns with None => true | _ => false end end); [apply fx_char_ok|apply fx_local_ok]; exact H2.
  Qed.
  Definition fx_lang (l : bytes) : bool := match l with [] => false | _ => forallb (fun c => (97 <=? c) && (c <=? 122)) l end.
  Lemma fx_lang_ok l : fx_lang l = true -> lang_tag l.
  Proof.
    intros H. exists l, []. cbn. rewrite app_nil_r. split; auto. destruct l as [|c l]; [discriminate|]. split; [discriminate|]. split; [|constructor].
    apply Forall_forall. intros x Hx. unfold fx_lang in H. rewrite forallb_forall in H. specialize (H x Hx). unfold small. lia.
  Qed.
  Definition fx_value (v : bytes) : bool := forallb (fun c => negb (c =? 0)) v.
  Lemma fx_value_ok v : fx_value v = true -> value_ok v.
  Proof. intros H Hin. unfold fx_value in H. rewrite forallb_forall in H. specialize (H 0 Hin). discriminate. Qed.

  Fixpoint fx_obj (o : obj) : bool :=
    match o with
    | OStr _ _ => false
    | OIri ns rem | OEnt _ ns rem => fx_iri ns rem
    | OAnon id => fx_local id
    | OLit v ns rem => fx_value v && negb (prim_eqb (OEnt ET_DATATYPE ns rem) rdf_lang_string) &&
        negb (prim_eqb (OEnt ET_DATATYPE ns rem) rdf_plain_literal) && fx_iri ns rem
    | OLang v l => fx_value v && fx_lang l
    | OVec _ l => forallb fx_obj l
    | OComp t fs opt n =>
        forallb fx_obj fs && match opt with Some p => fx_obj p | None => true end &&
        forallb (fun f => match f with OVec _ l => (least t <=? List.length l)%nat | _ => true end) fs && (n <? 2 ^ w) &&
        match t, fs with OT_A_SUB_OBJ_PROP, OComp _ _ _ _ :: _ => false | _, _ => true end
    end.
  Lemma fx_fold l : Forall (fun x => fx_obj x = true -> expressible w short x) l -> forallb fx_obj l = true ->
    fold_right (fun x P => expressible w short x /\ P) True l.
  Proof.
    induction 1 as [|x l Hx F IH]; cbn; auto. intros H. apply andb_true_iff in H as [H1 H2]. auto.
  Qed.
  Lemma fx_obj_ok o : fx_obj o = true -> expressible w short o.
  Proof.
    induction o as [i s|ns rem|e ns rem|id|v ns rem|v l|ord l IH|t fs opt n IH IHo] using obj_ind'; cbn [fx_obj expressible]; intros H.
    - discriminate.
    - now apply fx_iri_ok.
    - now apply fx_iri_ok.
    - now apply fx_local_ok.
    - apply andb_true_iff in H as [H H4]. apply andb_true_iff in H as [H H3]. apply andb_true_iff in H as [H1 H2].
      split; [now apply fx_value_ok|]. split; [|split; [|now apply fx_iri_ok]].
      + intros E. rewrite E in H2. vm_compute in H2. discriminate.
      + intros E. rewrite E in H3. vm_compute in H3. discriminate.
    - apply andb_true_iff in H as [H1 H2]. split; [now apply fx_value_ok|now apply fx_lang_ok].
    - now apply fx_fold.
    - repeat (apply andb_true_iff in H as [H ?]). split; [now apply fx_fold|]. split; [destruct opt; auto|].
      split; [|split; [lia|]].
      + apply Forall_forall. intros f Hf. match goal with K : forallb (fun f => match f with OVec _ _ => _ | _ => _ end) fs = true |- _ => rewrite forallb_forall in K; specialize (K f Hf) end.
        destruct f; auto. lia.
      + destruct t; auto. destruct fs as [|[] fs]; auto; discriminate.
  Qed.
End Check.

Definition fx_names (pm : pst) : bool := forallb (fun e => fx_prefix (fst e) && forallb fx_char (snd e)) (texts (fwd pm)).
Lemma fx_names_ok pm p n : fx_names pm = true -> In (p, n) (texts (fwd pm)) -> prefix_name p /\ Forall iri_char n.
Proof.
  unfold fx_names. rewrite forallb_forall. intros H Hin. specialize (H _ Hin). cbn in H. apply andb_true_iff in H as [H1 H2].
  split; [now apply fx_prefix_ok|now apply fx_char_ok].
Qed.
Lemma fx_quiet ops : Forall keeps ops -> check0 quiet_b ops = true -> quiet_map id_visit (ex_map ops).
Proof.
  intros K Q. destruct (init_good ex_rc ex_rc_nz) as (s0 & c & E0 & G0 & _).
  destruct (run_good id_visit id_visit_perm ops s0 K G0) as (s & rs & E & _).
  exists ex_rc, [], ops, s0, c, s0, [], rs. split; [exact ex_rc_nz|]. split; auto. split; [constructor|]. split; auto. split; [reflexivity|]. split.
  - apply (check_spec _ _ quiet_b_spec). unfold check0 in Q. rewrite E0 in Q. exact Q.
  - unfold ex_map, run0. rewrite E0, E. reflexivity.
Qed.

(** * Round trips *)

(** The ontology of ExamplesPrtStore.v: prefix x, IRI, version, import, annotation, two axioms. *)
Definition fx_defaults : pmap := [(bs "skos", bs "http://www.w3.org/2004/02/skos/core#")].
Lemma fx_map_fit : map_fit id_visit po_map fx_defaults.
Proof.
  constructor.
  - apply fx_quiet; [repeat constructor|vm_compute; reflexivity].
  - intros p n. apply fx_names_ok. vm_compute. reflexivity.
  - intros p n n' [E|[]]. injection E as <- <-. intros H.
    assert (existsb (fun e => bytes_eqb (fst e) (bs "skos")) (texts (fwd po_map)) = false) by (vm_compute; reflexivity).
    assert (existsb (fun e => bytes_eqb (fst e) (bs "skos")) (texts (fwd po_map)) = true); [|congruence].
    apply existsb_exists. eexists. split; [exact H|]. apply bytes_eqb_refl.
Qed.
Lemma fx_full_ok o : fx_obj 32 in_full o = true -> (exists ns rem, o = OIri ns rem) -> full_iri_ok o.
Proof. intros H (ns & rem & ->). exists ns, rem. split; auto. apply (fx_iri_ok in_full). exact H. Qed.
Definition fx_head : fheader := onto_fheader po_full.
Ltac fx_list H := revert H; match goal with |- In _ ?l -> _ => let v := eval vm_compute in l in replace l with v by (vm_compute; reflexivity) end.
Lemma fx_doc_ok : doc_ok 32 id_visit fx_defaults fx_head [px_axiom; ps_assert; ps_chain].
Proof.
  constructor.
  - intros pm E. injection E as <-. exact fx_map_fit.
  - intros i H. fx_list H. intros [<-|[<-|[<-|[]]]]; (apply fx_full_ok; [vm_compute; reflexivity|eauto]).
  - intros _. vm_compute. discriminate.
  - intros a H. fx_list H. intros [<-|[]]. split; [vm_compute; reflexivity|apply fx_obj_ok; vm_compute; reflexivity].
  - intros a [<-|[<-|[<-|[]]]]; (split; [vm_compute; reflexivity|apply fx_obj_ok; vm_compute; reflexivity]).
Qed.
Lemma fx_writable : writable 32 id_visit fx_defaults po_full po_axioms.
Proof.
  constructor.
  - exact fx_map_fit.
  - intros i H. assert (Hi : In (r_obj i) [px_iri "onto"; px_iri "v1"; px_iri "imp"]).
    { apply (in_map r_obj) in H. fx_list H. exact (fun h => h). }
    destruct Hi as [<-|[<-|[<-|[]]]]; (apply fx_full_ok; [vm_compute; reflexivity|eexists; eexists; reflexivity]).
  - intros _. vm_compute. discriminate.
  - intros a H. assert (Ha : In (r_obj a) [ps_note]) by (apply (in_map r_obj) in H; fx_list H; exact (fun h => h)).
    destruct Ha as [<-|[]]. split; [vm_compute; reflexivity|apply fx_obj_ok; vm_compute; reflexivity].
  - intros a [<-|[<-|[]]]; apply fx_obj_ok; vm_compute; reflexivity.
Qed.
Lemma fx_reached : reached po_heap 32 (x_onto po_full).
Proof.
  destruct po_case as (H & (rs & log & E) & _). exists po_es, rs, log. auto.
Qed.
Definition fx_value_hard : bytes := bs "say ""hi"" \ or \\"" end\".
Definition fx_literal : obj := OLang fx_value_hard (bs "en").

Lemma fx_literal_case : wt (SOne SLit) fx_literal = true /\ ~ In 0 (literal_get_value fx_literal) /\
  exists b, w_obj (fun _ => Some None) fx_literal = Some b /\ lex 32 b = Some [TQuoted (literal_get_value fx_literal); TLang (bs "en")].
Proof.
  split; [reflexivity|]. split; [apply fx_value_ok; vm_compute; reflexivity|].
  let v := eval vm_compute in (w_obj (fun _ => Some None) fx_literal) in match v with Some ?b => exists b end.
  split; vm_compute; reflexivity.
Qed.
Lemma fx_nul_case : exists v v' b, w_obj (fun _ => Some None) (OLit v (bs "http://www.w3.org/2001/XMLSchema#") (bs "string")) = Some b /\
  lex 32 b = Some [TQuoted v'] /\ v' <> v.
Proof.
  exists [97; 0; 98], [97], (bs """a"""). split; [vm_compute; reflexivity|]. split; [vm_compute; reflexivity|discriminate].
Qed.
Lemma fx_iri_case : map_fit id_visit po_map fx_defaults /\
  iri_ok (prefix_in id_visit fx_head) px_ns (bs "onto") /\ prefix_in id_visit fx_head px_ns <> None.
Proof.
  split; [exact fx_map_fit|]. split; [apply fx_iri_ok; vm_compute; reflexivity|]. vm_compute. discriminate.
Qed.
Lemma fx_object_case : map_fit id_visit po_map fx_defaults /\ wt (SOne SAxiom) ps_chain = true /\
  expressible 32 (prefix_in id_visit fx_head) ps_chain /\ calm [TRParen].
Proof.
  split; [exact fx_map_fit|]. split; [vm_compute; reflexivity|]. split; [apply fx_obj_ok; vm_compute; reflexivity|exact I].
Qed.
Lemma fx_tokens_case : doc_ok 32 id_visit fx_defaults fx_head [px_axiom; ps_assert; ps_chain] /\
  List.length (doc_tokens (prefix_in id_visit fx_head) (declared fx_head) fx_head [px_axiom; ps_assert; ps_chain]) = 61%nat.
Proof. split; [exact fx_doc_ok|vm_compute; reflexivity]. Qed.
Lemma fx_document_case : doc_ok 32 id_visit fx_defaults fx_head [px_axiom; ps_assert; ps_chain] /\
  fh_iri fx_head <> None /\ fh_version fx_head <> None /\ fh_imports fx_head <> [] /\ fh_annot fx_head <> [].
Proof. split; [exact fx_doc_ok|]. repeat split; vm_compute; discriminate. Qed.
Definition fx_src : tbl := [(vstr 40 (bs "skos"), vstr 41 (bs "http://www.w3.org/2004/02/skos/core#"))].
Lemma fx_src_distinct : distinct_keys fx_src.
Proof. repeat constructor. Qed.
Lemma fx_new_map : exists pm, new_map id_visit fx_defaults pm.
Proof.
  destruct (init_good ex_rc ex_rc_nz) as (s0 & c & E0 & G0 & _).
  destruct (merge_good id_visit id_visit_perm s0 fx_src false fx_src_distinct G0) as (pm & c' & E & _).
  exists pm, ex_rc, fx_src, s0, c, c'. split; [exact ex_rc_nz|]. split; [exact fx_src_distinct|]. split; [reflexivity|]. split; [exact E0|exact E].
Qed.
Lemma fx_writable_case : reached po_heap 32 (x_onto po_full) /\ contains (x_onto po_full) po_axioms /\
  writable 32 id_visit fx_defaults po_full po_axioms /\ (exists pm, new_map id_visit fx_defaults pm) /\
  List.length po_axioms = 2%nat.
Proof.
  split; [exact fx_reached|]. split; [exact po_contains|]. split; [exact fx_writable|]. split; [exact fx_new_map|reflexivity].
Qed.

(** * Counterexamples *)

Definition fx_with (ops : list pop) : fheader := mkFHeader (Some (ex_map ops)) None None [] [].
Definition fx_decl (ns rem : string) : obj := mk_annot OT_A_DECL [OEnt ET_CLASS (bs ns) (bs rem)] None.
Definition fx_read (b : bytes) : fres := func_read (fun _ => COWL_OK) true 32 (initial_map []) b.
(** What reading the text of a document gives. *)
Definition fx_trip (h : fheader) (axioms : list obj) : option fres := option_map fx_read (w_document id_visit h axioms).

(** The declaration of <http://ex.org/1#a.>, with a prefix for http://ex.org/1#. *)
Lemma fx_dot : iri_from_string (bs "http://ex.org/1#a.") = Some (bs "http://ex.org/1#", bs "a.") /\
  fx_trip (fx_with [PAdd s_ex s_n1 false]) [fx_decl "http://ex.org/1#" "a."] =
  Some (FRet ERR_SYNTAX [(CHANGE_ADD, DPrefix (bs "ex") (bs "http://ex.org/1#"))]).
Proof. split; vm_compute; reflexivity. Qed.
(** A namespace that lost its prefix when the prefix was bound to another namespace. *)
Definition fx_stale_ops : list pop := [PAdd s_ex s_n1 false; PGetPrefix (stx s_n1); PAdd s_ex (vstr 30 (bs "http://ex.org/2#")) true].
Lemma fx_stale : Forall keeps fx_stale_ops /\ fx_trip (fx_with fx_stale_ops) [fx_decl "http://ex.org/1#" "a"] =
  Some (FRet COWL_OK [(CHANGE_ADD, DPrefix (bs "ex") (bs "http://ex.org/2#")); (CHANGE_ADD, DAxiom (fx_decl "http://ex.org/2#" "a"))]).
Proof. split; [repeat constructor|vm_compute; reflexivity]. Qed.
(** A blank in an IRI. *)
Lemma fx_blank : iri_from_string (bs "http://ex.org/1#a b") = Some (bs "http://ex.org/1#a ", bs "b") /\
  fx_trip (fx_with []) [fx_decl "http://ex.org/1#a " "b"] = Some (FRet ERR_SYNTAX []).
Proof. repeat split; vm_compute; reflexivity. Qed.
(** EquivalentClasses with one class; an inverse property as a sub-property. *)
Definition fx_one : obj := mk_annot OT_A_EQUIV_CLASSES [OVec false [OEnt ET_CLASS (bs "http://ex.org/1#") (bs "A")]] None.
Lemma fx_one_lost : is_axiom_object fx_one /\ fx_trip (fx_with []) [fx_one] = Some (FRet ERR_SYNTAX []).
Proof. split; vm_compute; reflexivity. Qed.
Definition fx_inv : obj :=
  mk_annot OT_A_SUB_OBJ_PROP [mk_plain OT_OPE_INV_OBJ_PROP [OEnt ET_OBJ_PROP (bs "http://ex.org/1#") (bs "p")];
    OEnt ET_OBJ_PROP (bs "http://ex.org/1#") (bs "q")] None.
Lemma fx_inv_ub : is_axiom_object fx_inv /\ w_document id_visit (fx_with []) [fx_inv] = None.
Proof. split; vm_compute; reflexivity. Qed.
(** A version without an IRI. *)
Definition fx_version : fheader := mkFHeader None None (Some (px_iri "v1")) [px_iri "imp"] [].
Lemma fx_version_lost : fh_iri fx_version = None /\ fh_version fx_version = Some (px_iri "v1") /\ fx_trip fx_version [] = Some (FRet COWL_OK [(CHANGE_ADD, DIri (px_iri "v1")); (CHANGE_ADD, DImport (px_iri "imp"))]).
Proof. repeat split; vm_compute; reflexivity. Qed.
(** A prefix that the reader binds to something else from the start. *)
Lemma fx_default : exists b, w_document id_visit (fx_with [PAdd s_ex s_n1 false]) [fx_decl "http://ex.org/1#" "a"] = Some b /\
  func_read (fun _ => COWL_OK) true 32 (initial_map [(bs "ex", bs "http://ex.org/2#")]) b =
  FRet COWL_OK [(CHANGE_ADD, DPrefix (bs "ex") (bs "http://ex.org/1#")); (CHANGE_ADD, DAxiom (fx_decl "http://ex.org/2#" "a"))].
Proof.
  let v := eval vm_compute in (w_document id_visit (fx_with [PAdd s_ex s_n1 false]) [fx_decl "http://ex.org/1#" "a"]) in
  match v with Some ?b => exists b end. split; vm_compute; reflexivity.
Qed.
