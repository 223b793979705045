(** C70: ProtocOWL streams that are cut short. Statements use ModelPrtDecoder.v and ModelPrtWriter.v for the
    library functions, SpecPrtCut.v and SpecPrtStream.v for their meaning. The change handler is arbitrary: its
    answers, too, are a function of the changes it has seen. *)

From Coq Require Import String NArith ZArith List Bool Permutation.
From Verif Require Import Bytes ModelTypes ModelObject SpecObject ModelText ModelPrefixMap ModelOntology ModelChange
  ModelPrtValue ModelPrtEncoder ModelPrtDecoder ModelPrtWriter SpecPrt SpecPrtStream SpecPrtCut.
From Verif Require Import ProofPrtCut ExamplesPrt ExamplesPrtStream ExamplesPrtCut.
Import ListNotations.
Local Open Scope N_scope.

(** ** C70 *)

(** Whatever the bytes are, and wherever they are cut: the changes the part delivers are how the changes of the
    whole begin, unless the part is rejected and its last change is a SubObjectPropertyOf axiom, which then
    differs from that of the whole in the annotations only.
    Missing from the full claim: that exception, and the parts on which the reader dereferences a null pointer
    (both refuted below). *)
Theorem C70_cut_partial : forall w anon_id handler p q s s',
  read_ontology w anon_id handler p = DRet tt s -> read_ontology w anon_id handler (p ++ q) = DRet tt s' ->
  begins (d_log s) (d_log s') \/
  ((d_code s < 0)%Z /\ exists l c operands annot annot' m,
     d_log s = l ++ [(c, DAxiom (OComp OT_A_SUB_OBJ_PROP operands annot 0))] /\ annot = None /\
     d_log s' = l ++ [(c, DAxiom (OComp OT_A_SUB_OBJ_PROP operands annot' 0))] ++ m).
Proof. exact read_part. Qed.
Print Assumptions C70_cut_partial.

Example C70_cut_partial_case : pc_gives 40 ERR_SYNTAX [] /\ pc_gives 55 COWL_OK [pc_add ps_decl; pc_add pc_sub].
Proof. exact (conj pc_middle pc_whole). Qed.

(** A part that is read without an error delivers nothing that the whole would not. *)
Theorem C70_accepted : forall w anon_id handler p q s s',
  read_ontology w anon_id handler p = DRet tt s -> read_ontology w anon_id handler (p ++ q) = DRet tt s' ->
  (0 <= d_code s)%Z -> begins (d_log s) (d_log s').
Proof. exact read_part_ok. Qed.
Print Assumptions C70_accepted.

Example C70_accepted_case : pc_gives 41 COWL_OK [pc_add ps_decl] /\ pc_gives 55 COWL_OK [pc_add ps_decl; pc_add pc_sub].
Proof. exact (conj pc_unnoticed pc_whole). Qed.

(** A part of what a writer wrote, read without an error, delivers for each component of the ontology the first
    few of the changes the writer was asked for. *)
Theorem C70_written : forall w, width w -> forall visit, (forall t, Permutation (visit t) t) ->
  forall visit_refs alive anon_id handler, (forall l, (0 <= handler l)%Z) ->
  forall h body e, session w h body -> e_anon e = true ->
  exists rs e' b, w_run visit visit_refs alive w (WHeader h :: body ++ [WFooter]) e = Some (rs, e') /\ e_out e' = e_out e ++ b /\
    forall p q s, b = p ++ q -> read_ontology w anon_id handler p = DRet tt s -> (0 <= d_code s)%Z ->
    forall k, begins (filter (concerns k) (d_log s)) (filter (concerns k) (asked h body)).
Proof. exact written_part. Qed.
Print Assumptions C70_written.

Example C70_written_case : session 32 ps_header ps_body /\ e_anon (e_init 32) = true /\
  exists s, let b := ps_bytes (WHeader ps_header :: ps_body ++ [WFooter]) in
  px_read (firstn 255 b) = DRet tt s /\ d_code s = COWL_OK /\ List.length (d_log s) = 9%nat /\ b = firstn 255 b ++ skipn 255 b.
Proof. exact (conj ps_session (conj eq_refl pc_session)). Qed.

(** Cut before its annotations, an axiom of a file cowl wrote is delivered without them. *)
Theorem C70_bare_refuted : exists e, ps_run pc_calls = Some (repeat COWL_OK 4, e) /\ e_out e = pc_part 55 /\
  pc_gives 55 COWL_OK [pc_add ps_decl; pc_add pc_sub] /\
  pc_gives 44 ERR_SYNTAX [pc_add ps_decl; pc_add (mk_annot OT_A_SUB_OBJ_PROP [px_ent ET_OBJ_PROP "p"; px_ent ET_OBJ_PROP "q"] None)].
Proof. exact (match pc_written with ex_intro _ e (conj a (conj b _)) => ex_intro _ e (conj a (conj b (conj pc_whole pc_bare))) end). Qed.
Print Assumptions C70_bare_refuted.
(** Cut after one of its axioms, the same file is read as if it were complete. *)
Theorem C70_unnoticed_refuted : exists e, ps_run pc_calls = Some (repeat COWL_OK 4, e) /\ e_out e = pc_part 55 /\
  pc_gives 41 COWL_OK [pc_add ps_decl].
Proof. exact (match pc_written with ex_intro _ e (conj a (conj b _)) => ex_intro _ e (conj a (conj b pc_unnoticed)) end). Qed.
Print Assumptions C70_unnoticed_refuted.
(** Cut one byte later, it makes the reader dereference a null pointer. *)
Theorem C70_crash_refuted : exists e, ps_run pc_calls = Some (repeat COWL_OK 4, e) /\ e_out e = pc_part 55 /\
  px_read (pc_part 42) = DUB OT_A_SUB_OBJ_PROP.
Proof. exact (match pc_written with ex_intro _ e (conj a (conj b _)) => ex_intro _ e (conj a (conj b pc_crash)) end). Qed.
Print Assumptions C70_crash_refuted.
