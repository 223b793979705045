(** C68: what was read in functional syntax can be saved and loaded again. *)

From Coq Require Import String NArith ZArith List Bool Permutation.
From Verif Require Import Bytes ModelTypes ModelObject ModelText SpecObject SpecText ModelPrefixMap SpecPrefixMap ModelOntology SpecOntology ModelChange SpecChange
  ModelPrtDecoder SpecPrtStore ModelFuncLex ModelFuncParser ModelFuncWriter SpecFunc SpecFuncDoc SpecFuncRead SpecFuncStable ProofFuncStable
  ExamplesPrefix ExamplesFunc ExamplesFuncStable.
Import ListNotations.
Local Open Scope N_scope.

(** ** C68 *)

(** A text is read into a new ontology [x]. Then [x] can be written, the result can be read, and reading it into
    another new ontology gives the same contents and the same prefixes.
    Missing from the full claim: texts with contents that are not [stable_part], texts that redefine a default prefix
    (both refuted below). *)
Theorem C68_reload_partial : forall visit w signed defaults b log, (forall t, Permutation (visit t) t) ->
  Forall is_byte b -> legal_defaults defaults ->
  func_read (fun _ => COWL_OK) signed w (initial_map defaults) b = FRet COWL_OK log ->
  agrees defaults (declarations log) -> Forall (stable_part (map snd (initial_map defaults ++ declarations log))) (map snd log) ->
  forall heap ps x0, Forall2 stands_for ps (map snd log) -> Forall (part_in_heap heap) ps -> x_onto x0 = o_empty true -> new_map visit defaults (x_pm x0) ->
  exists x b' log', receives (change_apply visit w CHANGE_ADD) ps x0 (Some (x, COWL_OK)) /\ w_ontology visit x = Some b' /\
    func_read (fun _ => COWL_OK) signed w (initial_map defaults) b' = FRet COWL_OK log' /\
    forall heap' ps' y0, Forall2 stands_for ps' (map snd log') -> Forall (part_in_heap heap') ps' -> x_onto y0 = o_empty true -> new_map visit defaults (x_pm y0) ->
      exists y, receives (change_apply visit w CHANGE_ADD) ps' y0 (Some (y, COWL_OK)) /\ same_contents y x /\ forall p n, ns_text y p n <-> ns_text x p n.
Proof. exact stable_round_trip. Qed.
Print Assumptions C68_reload_partial.

Example C68_reload_case : Forall is_byte fs_text /\ legal_defaults fx_defaults /\
  func_read (fun _ => COWL_OK) true 32 (initial_map fx_defaults) fs_text = FRet COWL_OK fs_text_log /\ agrees fx_defaults (declarations fs_text_log) /\
  Forall (stable_part (map snd (initial_map fx_defaults ++ declarations fs_text_log))) (map snd fs_text_log) /\
  (List.length fs_text_log = 10 /\ List.length (axioms_in fs_text_log) = 4 /\ List.length (declarations fs_text_log) = 2)%nat /\
  exists heap ps x0, Forall2 stands_for ps (map snd fs_text_log) /\ Forall (part_in_heap heap) ps /\ x_onto x0 = o_empty true /\
    new_map id_visit fx_defaults (x_pm x0).
Proof. exact fs_case. Qed.

(** An IRI that ends in a full stop in a namespace with a prefix: what is written cannot be read. *)
Theorem C68_dot_refuted : exists b log x b' log', saved id_visit 32 true [] b log x (Some b') /\
  func_read (fun _ => COWL_OK) true 32 (initial_map []) b' = FRet ERR_SYNTAX log'.
Proof. destruct fs_dot_case as (x & b' & H & log' & E). exact (ex_intro _ _ (ex_intro _ _ (ex_intro _ x (ex_intro _ b' (ex_intro _ log' (conj H E)))))). Qed.
Print Assumptions C68_dot_refuted.

(** A text that declares a default prefix with another namespace: a class gets another IRI. *)
Theorem C68_rebind_refuted : exists b log x b' log', saved id_visit 32 true [(bs "ex", bs "http://a/")] b log x (Some b') /\
  axioms_in log = [mk_annot OT_A_DECL [OEnt ET_CLASS (bs "http://b/") (bs "D")] None] /\
  func_read (fun _ => COWL_OK) true 32 (initial_map [(bs "ex", bs "http://a/")]) b' = FRet COWL_OK log' /\
  axioms_in log' = [mk_annot OT_A_DECL [OEnt ET_CLASS (bs "http://a/") (bs "D")] None].
Proof. exact (ex_intro _ _ (ex_intro _ _ fs_rebind_case)). Qed.
Print Assumptions C68_rebind_refuted.

(** A zero byte in a string: the value is cut off. *)
Theorem C68_nul_refuted : exists b log x b' log' p q, saved id_visit 32 true [] b log x (Some b') /\
  annots_in log = [mk_annot OT_ANNOTATION [p; OLit [97; 0; 98] (fst q) (snd q)] None] /\
  func_read (fun _ => COWL_OK) true 32 (initial_map []) b' = FRet COWL_OK log' /\
  annots_in log' = [mk_annot OT_ANNOTATION [p; OLit [97] (fst q) (snd q)] None].
Proof.
  destruct fs_nul_case as (x & b' & log' & H).
  exact (ex_intro _ _ (ex_intro _ _ (ex_intro _ x (ex_intro _ b' (ex_intro _ log' (ex_intro _ _ (ex_intro _ (bs "http://www.w3.org/2001/XMLSchema#", bs "string") H))))))).
Qed.
Print Assumptions C68_nul_refuted.

(** An abbreviated IRI with a digit after the colon: a class that is not equal to the one that was read. *)
Theorem C68_split_refuted : exists b log x b' log', saved id_visit 32 true [] b log x (Some b') /\
  axioms_in log = [mk_annot OT_A_DECL [OEnt ET_CLASS (bs "http://x/a1") (bs "b")] None] /\
  func_read (fun _ => COWL_OK) true 32 (initial_map []) b' = FRet COWL_OK log' /\
  axioms_in log' = [mk_annot OT_A_DECL [OEnt ET_CLASS (bs "http://x/") (bs "a1b")] None].
Proof. exact (ex_intro _ _ (ex_intro _ _ fs_split_case)). Qed.
Print Assumptions C68_split_refuted.

(** A plain literal whose text after the at sign is not a language tag: what is written cannot be read. *)
Theorem C68_tag_refuted : exists b log x b' log', saved id_visit 32 true [] b log x (Some b') /\
  func_read (fun _ => COWL_OK) true 32 (initial_map []) b' = FRet ERR_SYNTAX log'.
Proof. destruct fs_tag_case as (x & b' & H & log' & E). exact (ex_intro _ _ (ex_intro _ _ (ex_intro _ x (ex_intro _ b' (ex_intro _ log' (conj H E)))))). Qed.
Print Assumptions C68_tag_refuted.

(** An inverse property as a sub-property: writing is undefined behaviour. *)
Theorem C68_inverse_refuted : exists b log x, saved id_visit 32 true [] b log x None /\ List.length (axioms_in log) = 1%nat.
Proof. exact (ex_intro _ _ (ex_intro _ _ fs_inverse_case)). Qed.
Print Assumptions C68_inverse_refuted.
