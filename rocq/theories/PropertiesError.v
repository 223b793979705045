(** The error information of readers. *)

From Coq Require Import String NArith ZArith List Bool.
From Verif Require Import Bytes ModelText SpecText ModelError SpecError ProofError ProofErrorText ExamplesError.
Import ListNotations.
Local Open Scope list_scope.
Local Open Scope Z_scope.

(** * C79: the last error of a reader describes the last reading *)

(** Whatever was read before with the functional reader, whatever the text: the last error has the code returned, the
    message that was given and the line, or says nothing if reading succeeded.
    Missing: texts that the handler refuses, errors of the scanner's buffer, and with an older Bison lack of memory; see
    the refutations. *)
Theorem C79_functional_partial : forall yynomem h codes r steps ret r',
  readings (func_read yynomem) h new_reader codes r -> Forall (reported yynomem) steps ->
  func_read yynomem (FParse steps) r = Some (ret, r') ->
  tells ret (last_error r') /\
  (forall s, hd_error steps = Some s ->
     ret < 0 /\ exists e, last_error r' = Some e /\ message e = said s /\ (forall n, line_of s = Some n -> e_line e = n)).
Proof. exact functional_tells. Qed.
Print Assumptions C79_functional_partial.

(** Whatever was read before with the ProtocOWL reader: if the stream does not fail, the code returned is that of the
    first error met, and the last error has that code, what was said then, and the number of bytes read; if there
    was none, the last error says nothing.
    Missing: streams that fail, and, after a failed reading, a reading in which nothing at all happens; see the
    refutations. *)
Theorem C79_protocowl_partial : forall h codes r x ret r',
  readings prt_read h new_reader codes r -> p_init x = OK -> Forall no_stream_error (p_steps x) ->
  prt_read x r = Some (ret, r') ->
  (first_error (p_steps x) <> None \/ p_steps x <> [] \/ Forall (fun c => 0 <= c) codes) ->
  tells ret (last_error r') /\
  (forall c m, first_error (p_steps x) = Some (c, m) ->
     ret = c /\ exists e, last_error r' = Some e /\ message e = m /\ e_byte e = p_bytes x /\ e_line e = 0%N /\ e_col e = 0%N) /\
  (first_error (p_steps x) = None -> 0 <= ret).
Proof. exact protocowl_tells. Qed.
Print Assumptions C79_protocowl_partial.

(** After the first error nothing that happens, not even a failure of the stream, changes the answer or the last error.
    Missing: readings in which the stream fails first; see the refutations. *)
Theorem C79_protocowl_stop_partial : forall h codes r a b n,
  readings prt_read h new_reader codes r -> Forall no_stream_error a -> first_error a <> None ->
  prt_read (mkPrt OK (a ++ b) n) r = prt_read (mkPrt OK a n) r.
Proof. exact protocowl_stop. Qed.
Print Assumptions C79_protocowl_stop_partial.
(** A case: the stream fails and two more errors come after the first. *)
Example C79_protocowl_stop_case : exists r, prt_read (mkPrt OK ([PCode OK; PSyntax (bs "first")] ++ [PStream ERR_IO; PCode ERR_IO; PSyntax (bs "last")]) 7) new_reader = Some (ERR_SYNTAX, r) /\
  message (r_err r) = Some (bs "first") /\ e_byte (r_err r) = 7%N /\ first_error [PCode OK; PSyntax (bs "first")] <> None.
Proof. eexists. split; [vm_compute; reflexivity|]. repeat split; discriminate. Qed.

(** The messages: for every sequence of readings, with any errors, no message is freed twice, the message of the last
    error is there, and none is left when the reader is freed. *)
Theorem C79_functional_messages : forall yynomem h, exists codes r r',
  readings (func_read yynomem) h new_reader codes r /\ free_reader r = Some r' /\ r_live r' = [] /\
  (forall e b t, last_error r = Some e -> e_msg e = Some (b, t) -> In b (r_live r)).
Proof. exact functional_messages. Qed.
Print Assumptions C79_functional_messages.

(** The same for the ProtocOWL reader. *)
Theorem C79_protocowl_messages : forall h, exists codes r r',
  readings prt_read h new_reader codes r /\ free_reader r = Some r' /\ r_live r' = [] /\
  (forall e b t, last_error r = Some e -> e_msg e = Some (b, t) -> In b (r_live r)).
Proof. exact protocowl_messages. Qed.
Print Assumptions C79_protocowl_messages.

(** Three texts read one after the other. *)
Example C79_functional_case : exists r,
  readings (func_read true) texts new_reader [ERR_SYNTAX; ERR_SYNTAX; OK] r /\ tells OK (last_error r).
Proof. exact texts_case. Qed.
(** Two files read one after the other, with several errors in the second. *)
Example C79_protocowl_case : exists r, readings prt_read files new_reader [ERR_SYNTAX; ERR_SYNTAX] r /\
  error_text names (last_error r) = Some (bs "syntax error: expected 4 bytes, got 1 (byte 20)").
Proof. exact files_case. Qed.

(** If the handler refuses an axiom, an import, an annotation or an IRI, the functional reader fails without an error. *)
Theorem C79_refused_refuted : exists r, func_read true (FParse [FRefused]) new_reader = Some (ERR_SYNTAX, r) /\
  ~ tells ERR_SYNTAX (last_error r) /\ error_text names (last_error r) = Some [].
Proof. exact refused_witness. Qed.
Print Assumptions C79_refused_refuted.

(** If it refuses a prefix declaration, the code of the error is not the one returned. *)
Theorem C79_code_refuted : exists r, func_read true (FParse [FCode ERR 1]) new_reader = Some (ERR_SYNTAX, r) /\
  ~ tells ERR_SYNTAX (last_error r).
Proof. exact code_witness. Qed.
Print Assumptions C79_code_refuted.

(** With a Bison that does not define YYNOMEM, lack of memory is returned as a syntax error. *)
Theorem C79_memory_refuted : exists r, func_read false (FParse [FMem 1]) new_reader = Some (ERR_SYNTAX, r) /\
  ~ tells ERR_SYNTAX (last_error r).
Proof. exact memory_witness. Qed.
Print Assumptions C79_memory_refuted.

(** If the stream fails, the ProtocOWL reader fails without an error. *)
Theorem C79_stream_refuted : exists r, prt_read (mkPrt OK [PStream ERR_IO] 0) new_reader = Some (ERR_IO, r) /\
  ~ tells ERR_IO (last_error r) /\ error_text names (last_error r) = Some [].
Proof. exact stream_witness. Qed.
Print Assumptions C79_stream_refuted.

(** Reading an empty ontology after a file that was rejected succeeds with the message of the rejected file. *)
Theorem C79_stale_refuted : exists r,
  readings prt_read [mkPrt OK [PSyntax (bs "invalid format version 2")] 1; mkPrt OK [] 1] new_reader [ERR_SYNTAX; OK] r /\
  ~ tells OK (last_error r).
Proof. exact stale_witness. Qed.
Print Assumptions C79_stale_refuted.

(** cowl_reader_last_error does not return NULL if no error occurred. *)
Theorem C79_null_refuted : exists r, func_read true (FParse []) new_reader = Some (OK, r) /\ last_error r <> None.
Proof. exact null_witness. Qed.
Print Assumptions C79_null_refuted.

(** If the scanner cannot be allocated, nothing is read, and neither the code returned nor the error tells. *)
Theorem C79_scanner_refuted : exists r, func_read true FNoScanner new_reader = Some (OK, r) /\ tells OK (last_error r).
Proof. exact scanner_witness. Qed.
Print Assumptions C79_scanner_refuted.

(** * C80: the text of an error *)

(** The text of an error begins with the name of the code and contains the message and every part of the location. *)
Theorem C80_shows : forall ulib e, e_code e < 0 -> exists t, error_text ulib (Some e) = Some t /\
  (exists rest, t = ret_to_string ulib (e_code e) ++ rest) /\
  (forall m, message e = Some m -> exists a b, t = a ++ m ++ b) /\
  (e_line e <> 0%N -> mentions t (bs "line ") (e_line e)) /\
  (e_col e <> 0%N -> mentions t (bs "col ") (e_col e)) /\
  (e_byte e <> 0%N -> mentions t (bs "byte ") (e_byte e)).
Proof. exact text_shows. Qed.
Print Assumptions C80_shows.

(** The text is empty exactly if there is no error. *)
Theorem C80_empty : forall ulib e, (forall c, c < 0 -> ulib c <> []) ->
  (error_text ulib e = Some [] <-> forall x, e = Some x -> 0 <= e_code x).
Proof. exact text_nothing. Qed.
Print Assumptions C80_empty.

(** Errors with the same text have the same name, message and location. Missing: messages with an opening bracket. *)
Theorem C80_same_partial : forall ulib e1 e2, e_code e1 < 0 -> e_code e2 < 0 ->
  clear_name (ret_to_string ulib (e_code e1)) -> clear_name (ret_to_string ulib (e_code e2)) ->
  clear_message e1 -> clear_message e2 -> error_text ulib (Some e1) = error_text ulib (Some e2) ->
  ret_to_string ulib (e_code e1) = ret_to_string ulib (e_code e2) /\ message e1 = message e2 /\
  e_line e1 = e_line e2 /\ e_col e1 = e_col e2 /\ e_byte e1 = e_byte e2.
Proof. exact text_same. Qed.
Print Assumptions C80_same_partial.

(** The first of the texts of C79. *)
Example C80_case : exists r,
  func_read true (FParse [FResolve (bs "failed to resolve ex:A") 3]) new_reader = Some (ERR_SYNTAX, r) /\
  error_text names (last_error r) = Some (bs "syntax error: failed to resolve ex:A (line 3)").
Proof. exact first_text_case. Qed.
(** Two errors that meet the assumptions. *)
Example C80_same_case : exists e1 e2,
  (e_code e1 < 0 /\ e_code e2 < 0) /\ (clear_name (ret_to_string names (e_code e1)) /\ clear_name (ret_to_string names (e_code e2))) /\
  (clear_message e1 /\ clear_message e2) /\ e1 <> e2 /\ error_text names (Some e1) = error_text names (Some e2) /\
  error_text names (Some e1) = Some (bs "memory error: no room (line 12, byte 345)").
Proof. exact same_text_case. Qed.

(** A message with a bracket can look like a location. *)
Theorem C80_same_refuted : exists e1 e2, e_code e1 = ERR_SYNTAX /\ e_code e2 = ERR_SYNTAX /\
  error_text names (Some e1) = error_text names (Some e2) /\ e_line e1 <> e_line e2.
Proof. exact same_text_witness. Qed.
Print Assumptions C80_same_refuted.
