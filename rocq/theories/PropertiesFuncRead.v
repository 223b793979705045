(** C47, C57, C58, C60, C61, C62: reading arbitrary texts in functional syntax. Statements use the models for the
    lexer, the parser, the prefix map and the ontology, SpecFuncRead.v for what a reader delivers. The text, the order in
    which hash tables are visited, the default prefix map, the signedness of char and the width of ulib_uint are
    arbitrary; so is the change handler, unless the statement says that it accepts what it is given. *)

From Coq Require Import String NArith ZArith List Bool Permutation.
From Verif Require Import Bytes ModelTypes ModelObject SpecObject ModelText SpecText ModelPrefixMap SpecPrefixMap ModelOntology SpecOntology ModelChange SpecChange
  ModelPrtDecoder SpecPrtStore ModelFuncLex ModelFuncParser ModelFuncWriter SpecFunc SpecFuncDoc SpecFuncRead.
From Verif Require Import ProofFuncReadTop ProofFuncPrefix ProofFuncInto ProofFuncCut ExamplesPrefix ExamplesChange ExamplesFunc ExamplesFuncRead.
Import ListNotations.
Local Open Scope N_scope.

(** ** C47 *)

(** A text is a sequence of prefix declarations and a rest, which is read with these declarations after the initial map.
    When they do not contradict each other or the default map, an abbreviated IRI is read as the IRI that the prefix map
    of the ontology gives for it once the changes are applied.
    Missing from the full claim: declarations that are not [coherent] (refuted below). *)
Theorem C47_partial : forall visit w signed defaults b c log, (forall t, Permutation (visit t) t) ->
  func_read (fun _ => COWL_OK) signed w (initial_map defaults) b = FRet c log ->
  exists ds body, lex w b = Some (flat_map decl_tokens ds ++ body) /\ (forall e rest, body <> decl_tokens e ++ rest) /\ declarations log = ds /\
    (forall r, body = TKw ONTOLOGY :: TLParen :: r ->
       parse_id (fun _ => COWL_OK) signed (initial_map defaults ++ ds) (map (fun e => (CHANGE_ADD, DPrefix (fst e) (snd e))) ds) r = FRet c log) /\
    (coherent defaults ds -> forall ps dst dst', Forall2 stands_for ps (map snd log) -> new_map visit defaults (x_pm dst) ->
       receives (change_apply visit w CHANGE_ADD) ps dst (Some (dst', COWL_OK)) ->
       forall p rem rest, ~ In 58 p ->
         parse_iri (initial_map defaults ++ ds) (TPnameLn (p ++ 58 :: rem) :: rest) =
         match pm_parse_short_iri (x_pm dst') (p ++ 58 :: rem) with Some (Some iri) => POk iri rest | _ => PFail ERR_SYNTAX end).
Proof. exact short_iris_agree. Qed.
Print Assumptions C47_partial.

Example C47_case : func_read (fun _ => COWL_OK) true 32 (initial_map fx_defaults) fr_text = FRet COWL_OK fr_log /\
  declarations fr_log = [(bs "ex", bs "http://ex.org/1#")] /\ coherent fx_defaults (declarations fr_log) /\
  exists dst dst', Forall2 stands_for fr_parts (map snd fr_log) /\ new_map id_visit fx_defaults (x_pm dst) /\
    receives (change_apply id_visit 32 CHANGE_ADD) fr_parts dst (Some (dst', COWL_OK)).
Proof. exact fr_short_case. Qed.

(** A prefix declared twice: names are read in the first namespace, the map of the ontology resolves them in the second. *)
Theorem C47_twice_refuted : exists b n n' log ps dst', fx_read b = FRet COWL_OK log /\
  log = [(CHANGE_ADD, DPrefix (bs "a") n); (CHANGE_ADD, DPrefix (bs "a") n'); (CHANGE_ADD, DAxiom (mk_annot OT_A_DECL [OEnt ET_CLASS n (bs "C")] None))] /\
  Forall2 stands_for ps (map snd log) /\ receives (change_apply id_visit 32 CHANGE_ADD) ps (fr_new []) (Some (dst', COWL_OK)) /\
  pm_parse_short_iri (x_pm dst') (bs "a:C") = Some (Some (n', bs "C")) /\ n <> n'.
Proof. exact fr_twice_all. Qed.
Print Assumptions C47_twice_refuted.
(** A prefix of the default map that the text declares differently: names are read in the namespace of the default map,
    the map of the ontology resolves them in the one of the text. *)
Theorem C47_default_refuted : exists b n n' log ps dst', func_read (fun _ => COWL_OK) true 32 (initial_map [(bs "a", n')]) b = FRet COWL_OK log /\
  log = [(CHANGE_ADD, DPrefix (bs "a") n); (CHANGE_ADD, DAxiom (mk_annot OT_A_DECL [OEnt ET_CLASS n' (bs "C")] None))] /\
  Forall2 stands_for ps (map snd log) /\ receives (change_apply id_visit 32 CHANGE_ADD) ps fr_def (Some (dst', COWL_OK)) /\
  pm_parse_short_iri (x_pm dst') (bs "a:C") = Some (Some (n, bs "C")) /\ n <> n'.
Proof. exact fr_default_all. Qed.
Print Assumptions C47_default_refuted.

(** ** C57 *)

(** Reading ends, with success, a syntax error or a memory error; undefined behaviour needs a literal with the datatype
    rdf:langString or rdf:PlainLiteral and no language tag.
    Missing from the full claim: texts with such a literal (refuted below). *)
Theorem C57_partial : forall handler signed w m b, func_read handler signed w m b <> FFuel /\
  (forall c log, func_read handler signed w m b = FRet c log -> c = COWL_OK \/ c = ERR_SYNTAX \/ c = ERR_MEM) /\
  (forall log, func_read handler signed w m b = FCrash log -> exists ds body, lex w b = Some (flat_map decl_tokens ds ++ body) /\
     (forall e rest, body <> decl_tokens e ++ rest) /\ untagged (m ++ ds) body).
Proof. exact read_safe. Qed.
Print Assumptions C57_partial.

Example C57_case : func_read (fun _ => COWL_OK) true 32 (initial_map fx_defaults) fr_text = FRet COWL_OK fr_log /\
  fx_read (bs "Ontology()" ++ bs "garbage") = FRet ERR_SYNTAX [].
Proof. exact (conj fr_read (proj2 fr_nul)). Qed.

(** A literal of type rdf:PlainLiteral without a tag is a call of cowl_literal whose result is dereferenced. *)
Theorem C57_refuted : exists b, fx_read b = FCrash [].
Proof. exact (ex_intro _ _ fr_plain). Qed.
Print Assumptions C57_refuted.

(** ** C58 *)

(** An accepted text is prefix declarations, "Ontology(" and its contents, a closing parenthesis, and then nothing or a
    byte that the parser takes for the end of the input.
    Missing from the full claim: that nothing follows (refuted below). *)
Theorem C58_complete_partial : forall handler signed w m b log, func_read handler signed w m b = FRet COWL_OK log ->
  exists ds u x, lex w b = Some (flat_map decl_tokens ds ++ [TKw ONTOLOGY; TLParen] ++ u ++ [TRParen] ++ x) /\
    (x = [] \/ exists c x', x = TChar c :: x' /\ In c b /\ (c = 0 \/ signed = true /\ 128 <= c)).
Proof. exact accepted_complete. Qed.
Print Assumptions C58_complete_partial.

(** A text cut short is not read as a smaller ontology: if a part at the start of a text is accepted by itself, the whole
    text delivers the same changes and nothing else. *)
Theorem C58_cut : forall handler signed w m b1 b2 log, func_read handler signed w m b1 = FRet COWL_OK log ->
  func_read handler signed w m (b1 ++ b2) = FRet COWL_OK log \/ func_read handler signed w m (b1 ++ b2) = FRet ERR_SYNTAX log.
Proof. exact read_longer. Qed.
Print Assumptions C58_cut.

Example C58_case : func_read (fun _ => COWL_OK) true 32 (initial_map fx_defaults) fr_text = FRet COWL_OK fr_log /\ List.length fr_log = 7%nat /\
  fx_read (bs "Ontology()" ++ bs "garbage") = FRet ERR_SYNTAX [].
Proof. exact (conj fr_read (conj (proj1 fr_log_length) (proj2 fr_nul))). Qed.

(** What follows a zero byte is ignored. *)
Theorem C58_nul_refuted : exists b, fx_read (bs "Ontology()" ++ [0] ++ b) = FRet COWL_OK [] /\ fx_read (bs "Ontology()" ++ b) = FRet ERR_SYNTAX [].
Proof. exact (ex_intro _ _ fr_nul). Qed.
Print Assumptions C58_nul_refuted.
(** With a signed char, so is what follows a letter outside ASCII. *)
Theorem C58_high_refuted : exists b, fx_read (bs "Ontology()" ++ [195; 169] ++ bs " " ++ b) = FRet COWL_OK [] /\ b <> [].
Proof. exact (ex_intro _ (bs "garbage") (conj fr_high fr_garbage)). Qed.
Print Assumptions C58_high_refuted.

(** ** C60 *)

(** Whatever the text, the changes delivered are additions of objects of the right category, in the order prefixes, IRI,
    version, imports and annotations, axioms, with one IRI and one version at most; even when reading fails. *)
Theorem C60_order : forall handler signed w m b log,
  (exists c, func_read handler signed w m b = FRet c log) \/ func_read handler signed w m b = FCrash log ->
  Forall sound_change log /\ in_document_order log.
Proof. exact read_sound. Qed.
Print Assumptions C60_order.

Example C60_case : func_read (fun _ => COWL_OK) true 32 (initial_map fx_defaults) fr_text = FRet COWL_OK fr_log /\
  List.length fr_log = 7%nat /\ List.length (axioms_in fr_log) = 2%nat /\ List.length (annots_in fr_log) = 1%nat /\
  List.length (imports_in fr_log) = 1%nat /\ List.length (iris_in fr_log) = 1%nat /\ List.length (versions_in fr_log) = 1%nat.
Proof. exact (conj fr_read fr_log_length). Qed.

(** ** C61 *)

(** When the handler fails, reading fails and the handler is not called again, except that the version is still delivered
    when the IRI that precedes it is rejected.
    Missing from the full claim: that exception, and the code of the handler (refuted below). *)
Theorem C61_stop_partial : forall handler signed w m b log,
  (exists c, func_read handler signed w m b = FRet c log) \/ func_read handler signed w m b = FCrash log ->
  forall a x later, log = a ++ x :: later -> (handler (a ++ [x]) < 0)%Z ->
    (exists c, func_read handler signed w m b = FRet c log /\ (c < 0)%Z) /\
    (later = [] \/ exists i v, snd x = DIri i /\ map snd later = [DVersion v]).
Proof. exact read_obeys. Qed.
Print Assumptions C61_stop_partial.

Example C61_case : exists a x, fr_third (a ++ [x]) = (-9)%Z /\
  func_read fr_third true 32 (initial_map []) fr_text = FRet ERR_SYNTAX (a ++ [x]) /\ List.length a = 2%nat.
Proof. exact fr_obeys_case. Qed.

(** The handler always answers -9: it is called twice, and the code returned is COWL_ERR_SYNTAX. *)
Theorem C61_again_refuted : exists b i v, func_read (fun _ => (-9)%Z) true 32 (initial_map []) b =
  FRet ERR_SYNTAX [(CHANGE_ADD, DIri i); (CHANGE_ADD, DVersion v)].
Proof. exact (ex_intro _ _ (ex_intro _ _ (ex_intro _ _ fr_again))). Qed.
Print Assumptions C61_again_refuted.

(** ** C62 *)

(** A new ontology takes all the changes that reading any text delivers, and then contains exactly the objects delivered:
    every axiom, with its multiplicity, the annotations and imports in their order, the IRI and the version. *)
Theorem C62_into : forall visit w signed defaults b c log, (forall t, Permutation (visit t) t) ->
  func_read (fun _ => COWL_OK) signed w (initial_map defaults) b = FRet c log ->
  forall heap ps dst, Forall2 stands_for ps (map snd log) -> Forall (part_in_heap heap) ps ->
  x_onto dst = o_empty true -> new_map visit defaults (x_pm dst) ->
  exists dst', receives (change_apply visit w CHANGE_ADD) ps dst (Some (dst', COWL_OK)) /\ reached heap w (x_onto dst') /\
    (forall l, contains (x_onto dst') l -> Permutation (map r_obj l) (axioms_in log)) /\
    (forall l, delivers (fun S call s => iterate_annot call (x_onto dst') s) l -> map r_obj l = annots_in log) /\
    (forall l, delivers (fun S call s => iterate_imports call (x_onto dst') s) l -> map r_obj l = imports_in log) /\
    match option_map r_obj (o_iri (x_onto dst')) with Some i => iris_in log = [i] | None => iris_in log = [] end /\
    match option_map r_obj (o_version (x_onto dst')) with Some i => versions_in log = [i] | None => versions_in log = [] end.
Proof. exact read_into. Qed.
Print Assumptions C62_into.

Example C62_case : func_read (fun _ => COWL_OK) true 32 (initial_map fx_defaults) fr_text = FRet COWL_OK fr_log /\ List.length fr_log = 7%nat /\
  Forall2 stands_for fr_parts (map snd fr_log) /\ Forall (part_in_heap fr_heap) fr_parts /\
  exists dst, x_onto dst = o_empty true /\ new_map id_visit fx_defaults (x_pm dst).
Proof. exact fr_into_case. Qed.
