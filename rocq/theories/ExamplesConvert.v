(** Concrete conversions. *)

From Coq Require Import String NArith ZArith List Bool Lia Permutation.
From Verif Require Import Bytes ModelTypes ModelObject ModelText SpecObject SpecText ProofIter ProofPrtValue ModelPrefixMap SpecPrefixMap
  ModelOntology SpecOntology ProofOntology ProofOntologyQuery ModelChange SpecChange ProofPrtStore ModelPrtEncoder ModelPrtDecoder ModelPrtWriter SpecPrt SpecPrtStream SpecPrtStore ModelFuncLex ModelFuncParser ModelFuncWriter
  SpecFunc SpecFuncDoc SpecFuncRead SpecFuncStable SpecConvert ExamplesPrefix ExamplesChange ExamplesPrt ExamplesPrtStream ExamplesPrtStore ExamplesFunc ExamplesFuncRead ExamplesFuncStable.
Import ListNotations.
Local Open Scope N_scope.

(** * A text that is converted *)

Definition xc_text : bytes :=
  bs "Prefix(ex:=<http://ex.org/1#>) Ontology(<http://ex.org/1#onto> <http://ex.org/1#v1> Import(<http://ex.org/1#imp>) Annotation(rdfs:comment ""hi""@EN) " ++
  bs "Declaration(Class(ex:C)) SubClassOf(Annotation(rdfs:label ""hi""@en) ex:C ObjectMinCardinality(007 ex:p ObjectOneOf(_:n1 ex:d))) " ++
  bs "SubObjectPropertyOf(ObjectPropertyChain(ex:p ObjectInverseOf(ex:q)) ex:r) DataPropertyAssertion(ex:dp ex:e ""3.25""^^xsd:decimal))".
Definition xc_log : list dchange := Eval vm_compute in fs_log [] xc_text.
Lemma xc_read : func_read (fun _ => COWL_OK) true 32 (initial_map []) xc_text = FRet COWL_OK xc_log.
Proof. vm_compute. reflexivity. Qed.
Lemma xc_tag : literal_kept 32 (OLang (bs "hi") (bs "en")).
Proof. split; [discriminate|]. repeat constructor; intros [A B]; vm_compute in A, B; (now apply A) || (now apply B). Qed.
Lemma xc_decimal : literal_kept 32 (OLit (bs "3.25") xsd_ns (bs "decimal")).
Proof. split; [intros [E _]; discriminate E|exact (proj1 px_dec_kept)]. Qed.
Lemma xc_prefixes p ns : In (p, ns) (initial_map [] ++ declarations xc_log) -> fits 32 p /\ fits 32 ns.
Proof.
  set (l := _ ++ _). let v := eval vm_compute in l in replace l with v by (vm_compute; reflexivity).
  intros H. cbn [In] in H. repeat destruct H as [H|H]; try (inversion H; subst; split; px_fits).
Qed.
Definition xc_nss : list bytes := standard_namespaces ++ [bs "http://ex.org/1#"].
Lemma xc_convertible : convertible 32 (initial_map [] ++ declarations xc_log) xc_log.
Proof.
  pose proof xc_tag as L1. pose proof xc_decimal as L2. constructor.
  - assert (F : Forall (storable 32) (annots_in xc_log ++ axioms_in xc_log)).
    { set (l := _ ++ _). let v := eval vm_compute in l in replace l with v by (vm_compute; reflexivity).
      repeat first [ apply Forall_nil | apply Forall_cons | apply st_comp_opt | apply st_comp | apply st_vec | apply st_ent | apply st_iri | apply st_anon
        | apply st_lang | apply st_lit | exact L1 | exact L2 | px_fits | match goal with |- _ < _ => vm_compute; reflexivity end ]. }
    now apply Forall_forall.
  - eapply ps_all; [reflexivity|]. set (l := flat_map occ _). let v := eval vm_compute in l in replace l with v by (vm_compute; reflexivity).
    repeat (apply Forall_cons; [first [split; [vm_compute; reflexivity|split; px_fits]|px_fits]|]). constructor.
  - exact xc_prefixes.
  - constructor.
    + apply po_ids_ok. vm_compute. reflexivity.
    + exists xc_nss. split; [intros n H; apply in_or_app; auto|]. split; [|split; [|vm_compute; reflexivity]].
      * set (l := _ ++ _). let v := eval vm_compute in l in replace l with v by (vm_compute; reflexivity).
        intros p ns H. cbn [In] in H. repeat destruct H as [H|H]; try (inversion H; subst; vm_compute; tauto).
      * intros o p ns rem Io M E. revert o p Io M ns rem E.
        eapply (ps_all (fun p => forall ns rem, ident p = OIri ns rem -> In ns xc_nss)); [reflexivity|].
        set (l := flat_map occ _). let v := eval vm_compute in l in replace l with v by (vm_compute; reflexivity).
        repeat (apply Forall_cons; [intros ns rem E; first [discriminate E|inversion E; subst; vm_compute; tauto]|]). constructor.
    + vm_compute. reflexivity.
Qed.
Lemma xc_case : func_read (fun _ => COWL_OK) true 32 (initial_map []) xc_text = FRet COWL_OK xc_log /\
  convertible 32 (initial_map [] ++ declarations xc_log) xc_log /\ e_anon (e_init 32) = true /\
  (List.length xc_log = 9 /\ List.length (axioms_in xc_log) = 4)%nat /\
  exists heap ps x0, Forall2 stands_for ps (map snd xc_log) /\ Forall (part_in_heap heap) ps /\ x_onto x0 = o_empty true /\ new_map id_visit [] (x_pm x0).
Proof.
  split; [exact xc_read|]. split; [exact xc_convertible|]. split; [reflexivity|]. split; [split; reflexivity|].
  exists (fs_heap (map snd xc_log)), (fs_parts 0 (map snd xc_log)), (fs_full []).
  split; [apply fs_stand|]. split; [exact (fs_in_heap [] (map snd xc_log))|]. split; [reflexivity|exact (fs_new_map [] fs_no_src)].
Qed.

(** * Texts that are not *)

Definition xc_trip (b : bytes) : option (ret * dres unit) :=
  match fs_trip [] b with
  | Some (x, _) => match w_run id_visit (fun l => l) (fun _ => true) 32 [WOntology x] (e_init 32) with
                   | Some ([c], e) => Some (c, px_read (e_out e))
                   | _ => None
                   end
  | None => None
  end.
Lemma xc_converted b r : xc_trip b = Some (COWL_OK, r) -> converted id_visit 32 px_anon b (fs_log [] b) r.
Proof.
  unfold xc_trip, fs_trip, converted, fs_log. destruct (func_read _ true 32 _ b) as [c log| |] eqn:E; [|discriminate..].
  destruct (c =? COWL_OK)%Z eqn:Ec; [|discriminate]. apply Z.eqb_eq in Ec. subst c.
  destruct (fr_apply (fs_parts 0 (map snd log)) (fs_full [])) as [x|] eqn:Ea; [|discriminate].
  destruct (w_run id_visit (fun l => l) (fun _ => true) 32 [WOntology x] (e_init 32)) as [[[|c [|]] e]|] eqn:Ew; try discriminate. intros [= -> <-].
  split; [reflexivity|]. exists (fs_heap (map snd log)), (fs_parts 0 (map snd log)), (fs_full []), x, e.
  split; [apply fs_stand|]. split; [exact (fs_in_heap [] (map snd log))|]. split; [reflexivity|]. split; [exact (fs_new_map [] fs_no_src)|]. split; [now apply fr_apply_receives|].
  split; [exact Ew|reflexivity].
Qed.
(** A number that is not written in the shortest way; an IRI that is split at another place; a large cardinality. *)
Definition xc_number : bytes := bs "Ontology(Annotation(rdfs:label ""007""^^xsd:integer))".
Definition xc_annot (v : bytes) : obj :=
  mk_annot OT_ANNOTATION [OEnt ET_ANNOT_PROP (bs "http://www.w3.org/2000/01/rdf-schema#") (bs "label");
    OLit v (bs "http://www.w3.org/2001/XMLSchema#") (bs "integer")] None.
Lemma xc_number_case : exists s, converted id_visit 32 px_anon xc_number (fs_log [] xc_number) (DRet tt s) /\ d_code s = COWL_OK /\
  annots_in (fs_log [] xc_number) = [xc_annot (bs "007")] /\ annots_in (d_log s) = [xc_annot (bs "7")].
Proof.
  assert (H : exists s, xc_trip xc_number = Some (COWL_OK, DRet tt s) /\ d_code s = COWL_OK /\ annots_in (d_log s) = [xc_annot (bs "7")]).
  { eexists. split; [vm_compute; reflexivity|]. split; vm_compute; reflexivity. }
  destruct H as (s & H & C & A). exists s. split; [now apply xc_converted|]. split; [exact C|]. split; [vm_compute; reflexivity|exact A].
Qed.
Definition xc_split : bytes := bs "Prefix(ex:=<http://x/a>) Ontology(Declaration(Class(ex:1b)))".
Lemma xc_split_case : exists s, converted id_visit 32 px_anon xc_split (fs_log [] xc_split) (DRet tt s) /\ d_code s = COWL_OK /\
  axioms_in (fs_log [] xc_split) = [fx_decl "http://x/a1" "b"] /\ axioms_in (d_log s) = [fx_decl "http://x/" "a1b"].
Proof.
  assert (H : exists s, xc_trip xc_split = Some (COWL_OK, DRet tt s) /\ d_code s = COWL_OK /\ axioms_in (d_log s) = [fx_decl "http://x/" "a1b"]).
  { eexists. split; [vm_compute; reflexivity|]. split; vm_compute; reflexivity. }
  destruct H as (s & H & C & A). exists s. split; [now apply xc_converted|]. split; [exact C|]. split; [vm_compute; reflexivity|exact A].
Qed.
Definition xc_card : bytes := bs "Ontology(SubClassOf(owl:Thing ObjectMinCardinality(2147483648 owl:topObjectProperty)))".
Definition xc_card_axiom (n : N) : obj :=
  mk_annot OT_A_SUB_CLASS [OEnt ET_CLASS (bs "http://www.w3.org/2002/07/owl#") (bs "Thing");
    OComp OT_CE_OBJ_MIN_CARD [OEnt ET_OBJ_PROP (bs "http://www.w3.org/2002/07/owl#") (bs "topObjectProperty")] None n] None.
Lemma xc_card_case : exists s, converted id_visit 32 px_anon xc_card (fs_log [] xc_card) (DRet tt s) /\ d_code s = COWL_OK /\
  axioms_in (fs_log [] xc_card) = [xc_card_axiom 2147483648] /\ axioms_in (d_log s) = [xc_card_axiom 0].
Proof.
  assert (H : exists s, xc_trip xc_card = Some (COWL_OK, DRet tt s) /\ d_code s = COWL_OK /\ axioms_in (d_log s) = [xc_card_axiom 0]).
  { eexists. split; [vm_compute; reflexivity|]. split; vm_compute; reflexivity. }
  destruct H as (s & H & C & A). exists s. split; [now apply xc_converted|]. split; [exact C|]. split; [vm_compute; reflexivity|exact A].
Qed.

(** * The other direction *)

(** The ontology of ExamplesPrtStore.v as a stream, received by a new ontology. *)
Definition xc_bytes : bytes := Eval vm_compute in
  match w_run id_visit (fun l => l) (fun _ => true) 32 [WOntology po_full] (e_init 32) with Some (_, e) => e_out e | None => [] end.
Definition xc_state : dst := Eval vm_compute in match px_read xc_bytes with DRet _ s => s | _ => d_init [] end.
Lemma xc_state_read : read_ontology 32 px_anon (fun _ => COWL_OK) xc_bytes = DRet tt xc_state.
Proof. vm_compute. reflexivity. Qed.
Definition xc_parts : list part := fs_parts 0 (map snd (d_log xc_state)).
Definition xc_full : full := match fr_apply xc_parts (fr_new []) with Some x => x | None => fr_new [] end.
Lemma xc_applied : fr_apply xc_parts (fr_new []) = Some xc_full.
Proof. vm_compute. reflexivity. Qed.
Lemma xc_map : x_pm xc_full = ex_map [PAdd (vstr 1000 (bs "x")) (vstr 1001 px_ns) true].
Proof. vm_compute. reflexivity. Qed.
Lemma xc_fit : map_fit id_visit (x_pm xc_full) [].
Proof.
  rewrite xc_map. constructor; [|intros p n; apply fx_names_ok; vm_compute; reflexivity|intros p n n' []].
  apply fx_quiet; [repeat constructor|vm_compute; reflexivity].
Qed.
Lemma xc_writable l : contains (x_onto xc_full) l -> writable 32 id_visit [] xc_full l.
Proof.
  intros C. rewrite (contains_eq _ _ C). constructor.
  - exact xc_fit.
  - intros i H. assert (Hi : In (r_obj i) [px_iri "onto"; px_iri "v1"; px_iri "imp"]).
    { apply (in_map r_obj) in H. fx_list H. exact (fun h => h). }
    destruct Hi as [<-|[<-|[<-|[]]]]; (apply fx_full_ok; [vm_compute; reflexivity|eexists; eexists; reflexivity]).
  - intros _. vm_compute. discriminate.
  - intros a H. assert (Ha : In (r_obj a) [ps_note]) by (apply (in_map r_obj) in H; fx_list H; exact (fun h => h)).
    destruct Ha as [<-|[]]. split; [vm_compute; reflexivity|apply fx_obj_ok; vm_compute; reflexivity].
  - intros a H. assert (Ha : In (r_obj a) [px_axiom; ps_assert]) by (apply (in_map r_obj) in H; fx_list H; exact (fun h => h)).
    destruct Ha as [<-|[<-|[]]]; apply fx_obj_ok; vm_compute; reflexivity.
Qed.
Lemma xc_back_case : read_ontology 32 px_anon (fun _ => COWL_OK) xc_bytes = DRet tt xc_state /\ List.length (d_log xc_state) = 7%nat /\
  Forall (fun c => fst c = CHANGE_ADD) (d_log xc_state) /\
  exists heap ps x0, Forall2 stands_for ps (map snd (d_log xc_state)) /\ Forall (part_in_heap heap) ps /\ x_onto x0 = o_empty true /\ map_reached id_visit (x_pm x0) /\
    exists x, receives (change_apply id_visit 32 CHANGE_ADD) ps x0 (Some (x, COWL_OK)) /\ forall l, contains (x_onto x) l -> writable 32 id_visit [] x l.
Proof.
  split; [exact xc_state_read|]. split; [reflexivity|]. split; [repeat constructor|].
  exists (fs_heap (map snd (d_log xc_state))), xc_parts, (fr_new []). split; [apply fs_stand|]. split; [exact (fs_in_heap [] _)|]. split; [reflexivity|].
  split; [apply ex_map_reached; constructor|]. exists xc_full. split; [exact (fr_apply_receives _ _ _ xc_applied)|exact xc_writable].
Qed.

(** A stream with an axiom that has one operand. *)
Definition xc_one_full : full := mkFull (po_onto [EAddAxiom (mkRef 1 fx_one)]) (ex_map []) [].
Definition xc_one : bytes := Eval vm_compute in
  match w_run id_visit (fun l => l) (fun _ => true) 32 [WOntology xc_one_full] (e_init 32) with Some (_, e) => e_out e | None => [] end.
Lemma xc_one_case : converted_back id_visit 32 px_anon xc_one [(CHANGE_ADD, DAxiom fx_one)] (FRet ERR_SYNTAX []).
Proof.
  assert (H : exists s, read_ontology 32 px_anon (fun _ => COWL_OK) xc_one = DRet tt s /\ d_code s = COWL_OK /\ d_log s = [(CHANGE_ADD, DAxiom fx_one)]).
  { eexists. split; [vm_compute; reflexivity|]. split; vm_compute; reflexivity. }
  assert (G : exists x t, fr_apply (fs_parts 0 [DAxiom fx_one]) (fr_new []) = Some x /\ w_ontology id_visit x = Some t /\
    func_read (fun _ => COWL_OK) true 32 (initial_map []) t = FRet ERR_SYNTAX []).
  { eexists _, _. split; [vm_compute; reflexivity|]. split; [vm_compute; reflexivity|vm_compute; reflexivity]. }
  destruct H as (s & E & C & L). destruct G as (x & t & Ex & Et & Er).
  exists s, (fs_heap [DAxiom fx_one]), (fs_parts 0 [DAxiom fx_one]), (fr_new []), x, t. split; [exact E|]. split; [exact C|]. split; [exact L|].
  split; [repeat constructor|]. split; [exact (fs_stand [DAxiom fx_one] 0)|]. split; [exact (fs_in_heap [] [DAxiom fx_one])|]. split; [reflexivity|].
  split; [apply ex_map_reached; constructor|]. split; [now apply fr_apply_receives|]. split; [exact Et|exact Er].
Qed.
