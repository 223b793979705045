(** C75. *)

From Coq Require Import String.
From Coq Require Import NArith ZArith List Bool Permutation.
From Verif Require Import Bytes ModelTypes ModelObject SpecObject ModelPrefixMap ModelOntology SpecOntology ModelChange SpecChange
  ModelPrtEncoder ModelPrtDecoder ModelPrtWriter SpecPrt SpecPrtStream SpecPrtStore ModelFuncParser ModelFuncWriter SpecFunc SpecFuncDoc SpecFuncRead SpecConvert.
From Verif Require Import ProofConvert ExamplesPrefix ExamplesPrt ExamplesFunc ExamplesFuncStable ExamplesConvert.
Import ListNotations.
Local Open Scope N_scope.

(** ** C75 *)

(** A text in functional syntax is read into a new ontology [x], and [x] is written in ProtocOWL. The bytes are read
    without error, and a new ontology that receives what they say has exactly the axioms, annotations, imports, IRI and
    version that the text delivered.
    Missing from the full claim: texts whose contents are not [convertible] (refuted below). *)
Theorem C75_to_protocowl_partial : forall w, width w -> forall visit, (forall t, Permutation (visit t) t) ->
  forall visit_refs, (forall l, Permutation (visit_refs l) l) -> forall alive anon_id handler, (forall l, (0 <= handler l)%Z) ->
  forall signed defaults b log, func_read (fun _ => COWL_OK) signed w (initial_map defaults) b = FRet COWL_OK log ->
  convertible w (initial_map defaults ++ declarations log) log ->
  (forall o p, In o (objects_in log) -> mentions p o -> alive p = true) ->
  forall heap ps x0, Forall2 stands_for ps (map snd log) -> Forall (part_in_heap heap) ps -> x_onto x0 = o_empty true -> new_map visit defaults (x_pm x0) ->
  forall e, e_anon e = true ->
  exists x e' b' s, receives (change_apply visit w CHANGE_ADD) ps x0 (Some (x, COWL_OK)) /\
    w_run visit visit_refs alive w [WOntology x] e = Some ([COWL_OK], e') /\ e_out e' = e_out e ++ b' /\
    read_ontology w anon_id handler b' = DRet tt s /\ (0 <= d_code s)%Z /\
    forall heap' ps' y0, Forall2 stands_for ps' (map snd (d_log s)) -> Forall (part_in_heap heap') ps' -> x_onto y0 = o_empty true -> map_reached visit (x_pm y0) ->
      exists y, receives (change_apply visit w CHANGE_ADD) ps' y0 (Some (y, COWL_OK)) /\ has_contents (x_onto y) log.
Proof. exact convert_text. Qed.
Print Assumptions C75_to_protocowl_partial.

Example C75_to_protocowl_case : func_read (fun _ => COWL_OK) true 32 (initial_map []) xc_text = FRet COWL_OK xc_log /\
  convertible 32 (initial_map [] ++ declarations xc_log) xc_log /\ e_anon (e_init 32) = true /\
  (List.length xc_log = 9 /\ List.length (axioms_in xc_log) = 4)%nat /\
  exists heap ps x0, Forall2 stands_for ps (map snd xc_log) /\ Forall (part_in_heap heap) ps /\ x_onto x0 = o_empty true /\ new_map id_visit [] (x_pm x0).
Proof. exact xc_case. Qed.

(** A ProtocOWL stream of additions is read into a new ontology [x], which always takes all of it. If [x] can be expressed
    as text, the text is read without error, and a new ontology that receives it has the same contents and prefixes.
    Missing from the full claim: streams with contents that the syntax cannot express (refuted below). *)
Theorem C75_to_text_partial : forall w visit, (forall t, Permutation (visit t) t) -> forall anon_id handler b s, read_ontology w anon_id handler b = DRet tt s ->
  Forall (fun c => fst c = CHANGE_ADD) (d_log s) ->
  forall heap ps x0, Forall2 stands_for ps (map snd (d_log s)) -> Forall (part_in_heap heap) ps -> x_onto x0 = o_empty true -> map_reached visit (x_pm x0) ->
  exists x, receives (change_apply visit w CHANGE_ADD) ps x0 (Some (x, COWL_OK)) /\
    forall defaults signed, (forall l, contains (x_onto x) l -> writable w visit defaults x l) ->
    exists b' log, w_ontology visit x = Some b' /\ func_read (fun _ => COWL_OK) signed w (initial_map defaults) b' = FRet COWL_OK log /\
    forall heap' ps' y0, Forall2 stands_for ps' (map snd log) -> Forall (part_in_heap heap') ps' -> x_onto y0 = o_empty true -> new_map visit defaults (x_pm y0) ->
      exists y, receives (change_apply visit w CHANGE_ADD) ps' y0 (Some (y, COWL_OK)) /\ same_contents y x /\ forall p n, ns_text x p (Some n) -> ns_text y p (Some n).
Proof. exact convert_stream. Qed.
Print Assumptions C75_to_text_partial.

Example C75_to_text_case : read_ontology 32 px_anon (fun _ => COWL_OK) xc_bytes = DRet tt xc_state /\ List.length (d_log xc_state) = 7%nat /\
  Forall (fun c => fst c = CHANGE_ADD) (d_log xc_state) /\
  exists heap ps x0, Forall2 stands_for ps (map snd (d_log xc_state)) /\ Forall (part_in_heap heap) ps /\ x_onto x0 = o_empty true /\ map_reached id_visit (x_pm x0) /\
    exists x, receives (change_apply id_visit 32 CHANGE_ADD) ps x0 (Some (x, COWL_OK)) /\ forall l, contains (x_onto x) l -> writable 32 id_visit [] x l.
Proof. exact xc_back_case. Qed.

(** A number with leading zeros loses them. *)
Theorem C75_number_refuted : exists b log s, converted id_visit 32 px_anon b log (DRet tt s) /\ d_code s = COWL_OK /\
  annots_in log = [xc_annot (bs "007")] /\ annots_in (d_log s) = [xc_annot (bs "7")].
Proof. exact (ex_intro _ _ (ex_intro _ _ xc_number_case)). Qed.
Print Assumptions C75_number_refuted.
(** A class gets another IRI object: the same text, divided elsewhere, so that the two are not equal. *)
Theorem C75_split_refuted : exists b log s, converted id_visit 32 px_anon b log (DRet tt s) /\ d_code s = COWL_OK /\
  axioms_in log = [mk_annot OT_A_DECL [OEnt ET_CLASS (bs "http://x/a1") (bs "b")] None] /\
  axioms_in (d_log s) = [mk_annot OT_A_DECL [OEnt ET_CLASS (bs "http://x/") (bs "a1b")] None].
Proof. exact (ex_intro _ _ (ex_intro _ _ xc_split_case)). Qed.
Print Assumptions C75_split_refuted.
(** A cardinality of 2^31 becomes 0. *)
Theorem C75_cardinality_refuted : exists b log s, converted id_visit 32 px_anon b log (DRet tt s) /\ d_code s = COWL_OK /\
  axioms_in log = [xc_card_axiom 2147483648] /\ axioms_in (d_log s) = [xc_card_axiom 0].
Proof. exact (ex_intro _ _ (ex_intro _ _ xc_card_case)). Qed.
Print Assumptions C75_cardinality_refuted.
(** A stream with an axiom of one operand becomes a text that cannot be read. *)
Theorem C75_one_refuted : exists b, converted_back id_visit 32 px_anon b [(CHANGE_ADD, DAxiom fx_one)] (FRet ERR_SYNTAX []).
Proof. exact (ex_intro (fun b => converted_back id_visit 32 px_anon b _ _) xc_one xc_one_case). Qed.
Print Assumptions C75_one_refuted.
