(** Cases: readings that meet the assumptions of the theorems about errors, and readings that refute the general claims. *)

From Coq Require Import String NArith ZArith List Bool Lia.
From Verif Require Import Bytes ModelText SpecText ModelError SpecError ProofError ProofErrorText.
Import ListNotations.
Local Open Scope list_scope.
Local Open Scope Z_scope.

(** Names for codes. *)
Definition names (c : Z) : bytes := if c =? ERR_MEM then bs "memory error" else if c =? ERR_IO then bs "I/O error" else bs "generic error".

(** A text with an unknown prefix in line 3, then one with a syntax error in line 7, then a good one. *)
Definition texts : list func_reading := [FParse [FResolve (bs "failed to resolve ex:A") 3]; FParse [FSyntax 7]; FParse []].
Lemma texts_case : exists r, readings (func_read true) texts new_reader [ERR_SYNTAX; ERR_SYNTAX; OK] r /\ tells OK (last_error r).
Proof.
  eexists. split.
  - repeat (econstructor; [reflexivity|]). constructor.
  - right. eexists. split; [reflexivity|]. cbn. repeat split. apply Z.le_refl.
Qed.
Lemma first_text_case : exists r, func_read true (FParse [FResolve (bs "failed to resolve ex:A") 3]) new_reader = Some (ERR_SYNTAX, r) /\
  error_text names (last_error r) = Some (bs "syntax error: failed to resolve ex:A (line 3)").
Proof. eexists. split; reflexivity. Qed.

(** A handler refuses an axiom. *)
Lemma refused_witness : exists r, func_read true (FParse [FRefused]) new_reader = Some (ERR_SYNTAX, r) /\
  ~ tells ERR_SYNTAX (last_error r) /\ error_text names (last_error r) = Some [].
Proof.
  eexists. split; [reflexivity|]. split; [|reflexivity]. cbn. intros (e & E & C). injection E as <-. discriminate.
Qed.
(** A handler refuses a prefix declaration. *)
Lemma code_witness : exists r, func_read true (FParse [FCode ERR 1]) new_reader = Some (ERR_SYNTAX, r) /\
  ~ tells ERR_SYNTAX (last_error r).
Proof. eexists. split; [reflexivity|]. cbn. intros (e & E & C). injection E as <-. discriminate. Qed.
(** An older Bison, and memory runs out. *)
Lemma memory_witness : exists r, func_read false (FParse [FMem 1]) new_reader = Some (ERR_SYNTAX, r) /\
  ~ tells ERR_SYNTAX (last_error r).
Proof. eexists. split; [reflexivity|]. cbn. intros (e & E & C). injection E as <-. discriminate. Qed.

(** A file with another version, then one that delivers an axiom and is cut off. *)
Definition files : list prt_reading :=
  [mkPrt OK [PSyntax (bs "invalid format version 2")] 1; mkPrt OK [PCode OK; PCode NO; PSyntax (bs "expected 4 bytes, got 1"); PCode ERR_MEM] 20].
Lemma files_case : exists r, readings prt_read files new_reader [ERR_SYNTAX; ERR_SYNTAX] r /\
  error_text names (last_error r) = Some (bs "syntax error: expected 4 bytes, got 1 (byte 20)").
Proof.
  eexists. split.
  - repeat (econstructor; [reflexivity|]). constructor.
  - reflexivity.
Qed.
(** The stream fails at the first byte. *)
Lemma stream_witness : exists r, prt_read (mkPrt OK [PStream ERR_IO] 0) new_reader = Some (ERR_IO, r) /\
  ~ tells ERR_IO (last_error r) /\ error_text names (last_error r) = Some [].
Proof. eexists. split; [reflexivity|]. split; [|reflexivity]. cbn. intros (e & E & C). injection E as <-. discriminate. Qed.
(** A file with another version, then the file of the single byte 1, an empty ontology. *)
Lemma stale_witness : exists r, readings prt_read [mkPrt OK [PSyntax (bs "invalid format version 2")] 1; mkPrt OK [] 1] new_reader [ERR_SYNTAX; OK] r /\
  ~ tells OK (last_error r).
Proof.
  eexists. split.
  - repeat (econstructor; [reflexivity|]). constructor.
  - cbn. intros [E|(e & E & _ & M & _)]; [discriminate|]. injection E as <-. discriminate.
Qed.
(** The same, but the stream of the second reading fails: the message of the first remains. *)
Lemma stale_message_witness : exists r e, readings prt_read [mkPrt OK [PSyntax (bs "invalid format version 2")] 1; mkPrt OK [PStream ERR_IO] 0] new_reader [ERR_SYNTAX; ERR_IO] r /\
  last_error r = Some e /\ message e = Some (bs "invalid format version 2").
Proof.
  eexists _, _. split.
  - repeat (econstructor; [reflexivity|]). constructor.
  - split; reflexivity.
Qed.
(** After a good text there is an error all the same. *)
Lemma null_witness : exists r, func_read true (FParse []) new_reader = Some (OK, r) /\ last_error r <> None.
Proof. eexists. split; [reflexivity|]. discriminate. Qed.
(** The scanner cannot be allocated: nothing is read. *)
Lemma scanner_witness : exists r, func_read true FNoScanner new_reader = Some (OK, r) /\ tells OK (last_error r).
Proof.
  eexists. split; [reflexivity|]. right. eexists. split; [reflexivity|]. cbn. repeat split. apply Z.le_refl.
Qed.

(** Two errors with the same text. *)
Lemma same_text_witness : exists e1 e2, e_code e1 = ERR_SYNTAX /\ e_code e2 = ERR_SYNTAX /\
  error_text names (Some e1) = error_text names (Some e2) /\ e_line e1 <> e_line e2.
Proof.
  exists (mkError ERR_SYNTAX 0 3 0 (Some (0%N, bs "failed to resolve ex:A"))),
         (mkError ERR_SYNTAX 0 0 0 (Some (0%N, bs "failed to resolve ex:A (line 3)"))).
  repeat split. cbn. discriminate.
Qed.
(** Two errors to which the theorem about texts applies. *)
Lemma same_text_case : exists e1 e2,
  (e_code e1 < 0 /\ e_code e2 < 0) /\ (clear_name (ret_to_string names (e_code e1)) /\ clear_name (ret_to_string names (e_code e2))) /\
  (clear_message e1 /\ clear_message e2) /\ e1 <> e2 /\ error_text names (Some e1) = error_text names (Some e2) /\
  error_text names (Some e1) = Some (bs "memory error: no room (line 12, byte 345)").
Proof.
  exists (mkError ERR_MEM 345 12 0 (Some (0%N, bs "no room"))), (mkError ERR_MEM 345 12 0 (Some (1%N, bs "no room"))).
  repeat split; try reflexivity; try discriminate; try (cbn; intuition discriminate).
  - injection H as <-. discriminate.
  - injection H as <-. cbn. intuition discriminate.
  - injection H as <-. discriminate.
  - injection H as <-. cbn. intuition discriminate.
Qed.
