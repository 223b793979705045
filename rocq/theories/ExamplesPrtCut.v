(** Concrete cases for PropertiesPrtCut. *)

From Coq Require Import String NArith ZArith List Bool.
From Verif Require Import Bytes ModelTypes ModelObject ModelText SpecObject ModelPrefixMap ModelOntology ModelChange
  ModelPrtValue ModelPrtEncoder ModelPrtDecoder ModelPrtWriter SpecPrt SpecPrtStream SpecPrtCut ExamplesPrt ExamplesPrtStream.
Import ListNotations.
Local Open Scope N_scope.

(** SubObjectPropertyOf(Annotation(:c "hi"@en) :p :q) *)
Definition pc_sub : obj := mk_annot OT_A_SUB_OBJ_PROP [px_ent ET_OBJ_PROP "p"; px_ent ET_OBJ_PROP "q"] (Some (OVec false [ps_note])).
(** Declaration(Class(:A)) and the above, written as a file of 55 bytes. *)
Definition pc_calls : list wcall := [WHeader ps_plain; WAxiom (ps_ref 1 ps_decl); WAxiom (ps_ref 2 pc_sub); WFooter].
(** The first [n] bytes of it. *)
Definition pc_part (n : nat) : bytes := firstn n (ps_bytes pc_calls).
(** [n] bytes are read with the given code and changes. *)
Definition pc_gives (n : nat) (c : ret) (l : list dchange) : Prop :=
  exists s, px_read (pc_part n) = DRet tt s /\ d_code s = c /\ d_log s = l.

Ltac pc n := let r := eval vm_compute in (px_read (pc_part n)) in
  match r with DRet _ ?s => exists s; split; [vm_compute; reflexivity|split; vm_compute; reflexivity] end.

Definition pc_add (o : obj) : dchange := (CHANGE_ADD, DAxiom o).
Lemma pc_written : exists e, ps_run pc_calls = Some (repeat COWL_OK 4, e) /\ e_out e = pc_part 55 /\ pc_part 55 = pc_part 44 ++ skipn 44 (pc_part 55).
Proof.
  let r := eval vm_compute in (ps_run pc_calls) in match r with Some (_, ?e) => exists e end.
  split; [vm_compute; reflexivity|]. split; vm_compute; reflexivity.
Qed.
Lemma pc_whole : pc_gives 55 COWL_OK [pc_add ps_decl; pc_add pc_sub].
Proof. unfold pc_gives. pc 55%nat. Qed.
(** Cut after the first axiom. *)
Lemma pc_unnoticed : pc_gives 41 COWL_OK [pc_add ps_decl].
Proof. unfold pc_gives. pc 41%nat. Qed.
(** Cut after the header of the second axiom. *)
Lemma pc_crash : px_read (pc_part 42) = DUB OT_A_SUB_OBJ_PROP.
Proof. vm_compute. reflexivity. Qed.
(** Cut before its annotations. *)
Lemma pc_bare : pc_gives 44 ERR_SYNTAX [pc_add ps_decl; pc_add (mk_annot OT_A_SUB_OBJ_PROP [px_ent ET_OBJ_PROP "p"; px_ent ET_OBJ_PROP "q"] None)].
Proof. unfold pc_gives. pc 44%nat. Qed.
(** Cut in the middle of the first axiom. *)
Lemma pc_middle : pc_gives 40 ERR_SYNTAX [].
Proof. unfold pc_gives. pc 40%nat. Qed.
(** A part of the session of C38, read without an error. *)
Lemma pc_session : exists s, let b := ps_bytes (WHeader ps_header :: ps_body ++ [WFooter]) in
  px_read (firstn 255 b) = DRet tt s /\ d_code s = COWL_OK /\ List.length (d_log s) = 9%nat /\ b = firstn 255 b ++ skipn 255 b.
Proof.
  let r := eval vm_compute in (px_read (firstn 255 (ps_bytes (WHeader ps_header :: ps_body ++ [WFooter])))) in
  match r with DRet _ ?s => exists s end. cbv zeta. repeat split; vm_compute; reflexivity.
Qed.
