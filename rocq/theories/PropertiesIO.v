(** C59, C65, C66, C67: reusing a functional writer, writing with any writer, files, start-up. Statements use ModelIO.v for
    the code and SpecIO.v for what should happen. Readers and writers supplied by clients are arbitrary. *)

From Coq Require Import String NArith ZArith List Bool.
From Verif Require Import Bytes ModelTypes ModelObject SpecObject ModelPrefixMap SpecPrefixMap ModelOntology SpecOntology ModelChange SpecChange
  ModelPrtDecoder ModelFuncWriter ModelIO SpecIO.
From Verif Require Import ExamplesPrefix ExamplesOntology ExamplesChange ExamplesFunc ProofIO ExamplesIO.
Import ListNotations.
Local Open Scope Z_scope.

(** ** C59 *)

(** Missing from the full claim: documents without a prefix map after documents with one (refuted below). *)

(** Whatever documents were written before, no use of the writer touches a prefix map that is gone. *)
Theorem C59_safe_partial : forall visit ops s own op own', session visit ops s own -> may s own op own' -> maps_stay (ops ++ [op]) ->
  exists s' b, f_step visit s op = Some (s', b).
Proof. exact reuse_safe. Qed.
Print Assumptions C59_safe_partial.

Example C59_safe_case : exists s own, session id_visit io_two s own /\
  match contents s 1, contents s 2 with None, Some _ => true | _, _ => false end && fw_on s = true.
Proof. exact io_two_session. Qed.

(** The prefix maps a client owns stay alive. *)
Theorem C59_alive_partial : forall visit ops s own id, session visit ops s own -> maps_stay ops -> own id <> 0%N -> contents s id <> None.
Proof. exact reuse_alive. Qed.
Print Assumptions C59_alive_partial.

(** Once the writer is freed and the client has given back its references, no prefix map is left. *)
Theorem C59_no_leak_partial : forall visit ops s own, session visit ops s own -> maps_stay ops -> fw_on s = false ->
  (forall id, own id = 0%N) -> fw_rc s = [].
Proof. exact reuse_no_leak. Qed.
Print Assumptions C59_no_leak_partial.

Example C59_no_leak_case : exists s own, session id_visit (io_two ++ [FFree]) s own /\ maps_stay (io_two ++ [FFree]) /\ fw_on s = false /\ fw_rc s = [].
Proof. exact io_two_freed. Qed.

(** The next document has the text that a new writer would write. *)
Theorem C59_text_partial : forall visit ops s own pm iri version imports annot axioms,
  session visit ops s own -> maps_stay (ops ++ [FHeader pm iri version imports annot]) -> fw_on s = true ->
  (forall id, pm = Some id -> own id <> 0%N) ->
  exists s', f_run visit s (FHeader pm iri version imports annot :: map FAxiom axioms ++ [FFooter]) =
    Some (s', w_document visit (mkFHeader (match pm with None => None | Some id => contents s id end) iri version imports annot) axioms).
Proof. exact reuse_text. Qed.
Print Assumptions C59_text_partial.

Example C59_text_case : match f_run id_visit f_start io_two with Some (_, b) => b | None => None end = Some (
  bs "Prefix(ex:=<http://ex.org/1#>)" ++ nl ++ bs "Ontology(" ++ nl ++ bs "Declaration(Class(ex:A))" ++ nl ++ bs ")" ++ nl ++
  bs "Prefix(ex:=<http://ex.org/2#>)" ++ nl ++ bs "Prefix(e:=<http://ex.org/1#>)" ++ nl ++ bs "Ontology(" ++ nl ++
  bs "Declaration(Class(e:A))" ++ nl ++ bs ")" ++ nl)%list.
Proof. exact io_two_text. Qed.

(** A header without prefix map after one with a map leaves the writer with a map it has released. *)
Theorem C59_dangling_refuted : exists ops s own op own', session id_visit ops s own /\ may s own op own' /\ f_step id_visit s op = None.
Proof. exact dangling. Qed.
Print Assumptions C59_dangling_refuted.

(** Or the client's own map is freed. *)
Theorem C59_alive_refuted : exists ops s own id, session id_visit ops s own /\ own id <> 0%N /\ contents s id = None.
Proof. exact stolen. Qed.
Print Assumptions C59_alive_refuted.

(** And the text uses prefixes that the document does not declare. *)
Theorem C59_text_refuted : exists ops s own a s' b, session id_visit ops s own /\ fw_on s = true /\
  f_run id_visit s [FHeader None None None [] []; FAxiom a; FFooter] = Some (s', Some b) /\
  b = (bs "Ontology(" ++ nl ++ bs "Declaration(Class(ex:A))" ++ nl ++ bs ")" ++ nl)%list /\
  w_document id_visit (mkFHeader None None None [] []) [a] =
    Some (bs "Ontology(" ++ nl ++ bs "Declaration(Class(<http://ex.org/1#A>))" ++ nl ++ bs ")" ++ nl)%list.
Proof. exact stale_prefixes. Qed.
Print Assumptions C59_text_refuted.

(** ** C65 *)

(** Missing from the full claim: writers that answer a positive code (refuted below). *)

(** The header, each axiom, the footer, until a call fails; the result is the code of that call, or OK. *)
Theorem C65_calls_partial : forall w o imports annots axioms, streaming w -> pieces o imports annots axioms -> plain_answers w ->
  exists calls r, write_ontology w [] o = Some (calls, r) /\ makes w [] (document_calls o imports annots axioms) calls r.
Proof. exact calls_in_order. Qed.
Print Assumptions C65_calls_partial.

Example C65_calls_case : full_reached ex_heap id_visit 32 io_onto /\ pieces io_onto [at_ 8; at_ 10] [at_ 6] io_axioms /\
  write_ontology (io_writer 0 0) [] io_onto = Some ([io_header; WAxiom (at_ 1); WAxiom (at_ 3); WAxiom (at_ 4); WFooter], 0).
Proof. exact (conj io_reached (conj io_pieces io_complete)). Qed.
Example C65_writer_case : streaming (io_writer 3 (-7)) /\ plain_answers (io_writer 3 (-7)).
Proof. exact io_fails. Qed.

(** Whatever the writer answers, no piece is given to it twice or out of order. *)
Theorem C65_once : forall w o imports annots axioms, streaming w -> pieces o imports annots axioms ->
  forall calls r, write_ontology w [] o = Some (calls, r) ->
  exists done rest, header_call o imports annots :: map WAxiom axioms = done ++ rest /\ (calls = done \/ calls = done ++ [WFooter]).
Proof. exact no_call_twice. Qed.
Print Assumptions C65_once.

(** Whatever the writer answers, a call that returns an error is the last one, and its code is returned. *)
Theorem C65_error : forall w o imports annots axioms, streaming w -> pieces o imports annots axioms ->
  forall calls r pre c post r', write_ontology w [] o = Some (calls, r) -> calls = pre ++ c :: post ->
  answers w pre c r' -> r' < 0 -> post = [] /\ r = r'.
Proof. exact error_is_last. Qed.
Print Assumptions C65_error.

Example C65_error_case : write_ontology (io_writer 3 (-7)) [] io_onto = Some ([io_header; WAxiom (at_ 1); WAxiom (at_ 3)], -7).
Proof. exact io_error. Qed.

(** A writer with a function for whole ontologies gets the ontology in one call, and nothing else. *)
Theorem C65_whole : forall w f o, wi_ontology w = Some f -> write_ontology w [] o = Some ([WOntology o], f [] o).
Proof. exact whole_writer. Qed.
Print Assumptions C65_whole.

(** A writer that has neither that function nor the three for streaming gets nothing, and there is an error. *)
Theorem C65_unable : forall w o, wi_ontology w = None -> wi_header w = None \/ wi_axiom w = None \/ wi_footer w = None ->
  exists r, write_ontology w [] o = Some ([], r) /\ r < 0.
Proof. exact unable. Qed.
Print Assumptions C65_unable.

(** The functions with which a client streams an ontology itself. *)
Theorem C65_piece : forall w before,
  (forall h, handed w before (wi_header w) (WHeader h) (write_header w before h)) /\
  (forall a, handed w before (wi_axiom w) (WAxiom a) (write_axiom w before a)) /\
  handed w before (wi_footer w) WFooter (write_footer w before).
Proof. exact one_call. Qed.
Print Assumptions C65_piece.

Example C65_whole_case : write_ontology (mkWImpl None None None (Some (fun _ _ => -3))) [] io_onto = Some ([WOntology io_onto], -3).
Proof. reflexivity. Qed.
Example C65_unable_case : write_ontology (mkWImpl (Some (fun _ _ => 0)) (Some (fun _ _ => 0)) None None) [] io_onto = Some ([], -1).
Proof. reflexivity. Qed.

(** A writer that answers COWL_STOP to an axiom gets no further axioms, but the footer, and the result is OK. *)
Theorem C65_stop_refuted : exists w o imports annots axioms calls a,
  full_reached ex_heap id_visit 32 o /\ streaming w /\ pieces o imports annots axioms /\
  write_ontology w [] o = Some (calls, COWL_OK) /\ In a axioms /\ ~ In (WAxiom a) calls.
Proof. exact axiom_lost. Qed.
Print Assumptions C65_stop_refuted.

(** ** C66 *)

(** Missing from the full claim: readers and writers that return positive codes (refuted below and by C65_stop_refuted). *)

(** If saving succeeds, the writer got the whole ontology, between opening the file and closing it without error. *)
Theorem C66_saved_partial : forall w o imports annots axioms, streaming w -> pieces o imports annots axioms ->
  forall opened closed evs, plain_answers w -> write_ontology_to_path w [] opened closed o = Some (evs, 0) ->
  0 <= opened /\ closed = 0 /\ evs = [FOpen; FUse (document_calls o imports annots axioms); FClose].
Proof. exact saved. Qed.
Print Assumptions C66_saved_partial.

Example C66_saved_case : write_ontology_to_path (io_writer 0 0) [] 0 0 io_onto =
  Some ([FOpen; FUse [io_header; WAxiom (at_ 1); WAxiom (at_ 3); WAxiom (at_ 4); WFooter]; FClose], 0).
Proof. exact io_saved. Qed.

(** Any writer: nothing is written if the file cannot be opened; otherwise the file is closed once, at the end, and a failure of
    writing or closing is reported. *)
Theorem C66_write_file : forall w opened closed o evs r, write_ontology_to_path w [] opened closed o = Some (evs, r) ->
  (opened < 0 /\ evs = [] /\ r = opened) \/
  (0 <= opened /\ exists calls c, write_ontology w [] o = Some (calls, c) /\ evs = [FOpen; FUse calls; FClose] /\
     (r < 0 <-> c < 0 \/ closed < 0)).
Proof. exact file_written. Qed.
Print Assumptions C66_write_file.

Example C66_write_file_case : write_ontology_to_path (io_writer 3 (-7)) [] 0 0 io_onto =
  Some ([FOpen; FUse [io_header; WAxiom (at_ 1); WAxiom (at_ 3)]; FClose], -7).
Proof. vm_compute. reflexivity. Qed.

(** Loading a file that can be opened and closed is reading its contents. *)
Theorem C66_path_partial : forall visit w p opened o, plain_results p -> 0 <= opened ->
  read_ontology_from_path visit w p opened 0 o = read_ontology visit w p o.
Proof. exact path_is_read. Qed.
Print Assumptions C66_path_partial.

Example C66_path_case : plain_results io_reader /\
  io_seen (read_ontology_from_path id_visit 32 io_reader 0 0 (Some io_fresh)) = Some (Some ([at_ 1], [at_ 8]), 0, 0%nat).
Proof. exact (conj io_reader_plain io_read). Qed.

(** An ontology is returned only if opening, reading and closing went well, and it is the one reading gives. *)
Theorem C66_loaded : forall visit w p opened closed o o' r n, read_ontology_from_path visit w p opened closed o = Some (Some o', r, n) ->
  0 <= opened /\ 0 <= closed /\ r = closed /\ n = O /\ exists r', read_ontology visit w p o = Some (Some o', r', O) /\ 0 <= r'.
Proof. exact loaded. Qed.
Print Assumptions C66_loaded.

Example C66_loaded_case : exists o, read_ontology_from_path id_visit 32 io_reader 0 0 (Some io_fresh) = Some (Some o, 0, 0%nat).
Proof. exact io_read_some. Qed.

(** Otherwise there is an error code and the ontology is released once. *)
Theorem C66_not_loaded : forall visit w p opened closed o r n,
  read_ontology_from_path visit w p opened closed (Some o) = Some (None, r, n) -> n = 1%nat /\ r < 0.
Proof. exact not_loaded. Qed.
Print Assumptions C66_not_loaded.

Example C66_not_loaded_case : read_ontology_from_path id_visit 32 io_reader 0 (-9) (Some io_fresh) = Some (None, -9, 1%nat).
Proof. exact io_not_closed. Qed.

(** Any handler: it is not called if the file cannot be opened; otherwise the file is closed once, at the end, and a failure
    of reading or closing is reported. *)
Theorem C66_file : forall (T : Type) (h : change_type -> part -> T -> option (T * ret)) p opened closed s evs s' r,
  read_path h p opened closed s = Some (evs, s', r) ->
  (opened < 0 /\ evs = [] /\ s' = s /\ r = opened) \/
  (0 <= opened /\ evs = [FOpen; FUse s'; FClose] /\ exists c, read h p s = Some (s', c) /\ (r < 0 <-> c < 0 \/ closed < 0)).
Proof. exact @file_read. Qed.
Print Assumptions C66_file.

Example C66_file_case : read_ontology_from_path id_visit 32 io_reader (-8) 0 (Some io_fresh) = Some (None, -8, 1%nat).
Proof. exact io_not_opened. Qed.

(** A code that is not an error is handed on when reading from a stream and replaced by OK when reading from a path. *)
Theorem C66_code_refuted : exists p fresh o, read_ontology id_visit 32 p (Some fresh) = Some (Some o, COWL_NO, O) /\
  read_ontology_from_path id_visit 32 p 0 0 (Some fresh) = Some (Some o, COWL_OK, O).
Proof. exact code_lost. Qed.
Print Assumptions C66_code_refuted.

(** ** C67 *)

(** Missing from the full claim: allocations that fail after the first one (refuted below). *)

(** Any sequence of calls: the library is running as expected, holds its nine globals or nothing, and only reports
    COWL_ERR_MEM. *)
Theorem C67_balanced_partial : forall ops, Forall none_or_first ops ->
  exists g rs, g_run g_start ops = Some (g, rs) /\ g_initialized g = running ops /\
    List.length (g_live g) = (if running ops then 9 else 0)%nat /\ (forall r, In r rs -> r = 0 \/ r = ERR_MEM).
Proof. exact balanced. Qed.
Print Assumptions C67_balanced_partial.

Example C67_balanced_case : Forall none_or_first io_calls /\ running io_calls = true.
Proof. exact io_calls_ok. Qed.

(** No memory for any of the vocabularies: a NULL pointer is dereferenced. *)
Theorem C67_vocabulary : forall g fails k, g_initialized g = false -> (forall j, g_holds g j = None) -> fails KEmpty = false ->
  In k vocabularies -> fails k = true -> cowl_init fails g = None.
Proof. exact vocabulary_failure. Qed.
Print Assumptions C67_vocabulary.

Theorem C67_vocabulary_refuted : exists fails, cowl_init fails g_start = None.
Proof. exact vocabulary_crash. Qed.
Print Assumptions C67_vocabulary_refuted.

(** No memory for the default prefix map: what was created before is never given back. *)
Theorem C67_leak_refuted : exists fails g1 g2 rs2,
  g_run g_start [GInit fails; GDeinit] = Some (g1, [ERR_MEM]) /\ g_live g1 <> [] /\
  g_run g1 [GInit (fun _ => false); GDeinit] = Some (g2, rs2) /\ rs2 = [COWL_OK] /\ g_live g2 = g_live g1.
Proof. exact startup_leak. Qed.
Print Assumptions C67_leak_refuted.
