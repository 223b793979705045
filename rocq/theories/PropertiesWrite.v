(** C74. *)

From Coq Require Import String.
From Coq Require Import NArith ZArith List Bool Permutation.
From Verif Require Import Bytes ModelTypes ModelObject SpecObject ModelText ModelPrefixMap SpecPrefixMap ModelOntology SpecOntology ModelChange SpecChange
  ModelPrtDecoder SpecPrtStream SpecPrtStore ModelFuncLex ModelFuncParser ModelFuncWriter SpecFunc SpecFuncDoc ModelWrite SpecWrite.
From Verif Require Import ProofWrite ExamplesPrefix ExamplesChange ExamplesPrt ExamplesPrtStream ExamplesPrtStore ExamplesFunc ExamplesWrite.
Import ListNotations.
Local Open Scope N_scope.

(** ** C74 *)

(** The texts that cowl_to_string returns for axioms can be pasted into a document: the document is read
    without error, and the axioms delivered are the original ones, in order.
    Missing from the full claim: axioms that a text cannot express (refuted below, and in C43 and C44), a
    global prefix map with a prefix bound twice (refuted below). *)
Theorem C74_paste_partial : forall w visit, (forall t, Permutation (visit t) t) -> forall defaults pm, global_map visit pm defaults ->
  forall debug handler signed axioms, (forall l, handler l = COWL_OK) ->
  (forall a, In a axioms -> wt (SOne SAxiom) a = true /\ expressible w (prefix_of visit pm) a) ->
  exists ts, map (to_string (functional visit pm) debug) axioms = map Some ts /\
    func_read handler signed w (initial_map defaults) (pasted ts) = FRet COWL_OK (map (fun a => (CHANGE_ADD, DAxiom a)) axioms).
Proof. exact paste_back. Qed.
Print Assumptions C74_paste_partial.

(** Two objects of the same sort that have the same text are the same.
    Missing from the full claim: as above; objects of different sorts may have the same text. *)
Theorem C74_same_partial : forall w visit, (forall t, Permutation (visit t) t) -> forall defaults pm, global_map visit pm defaults ->
  forall debug i a b, wt (SOne i) a = true -> wt (SOne i) b = true -> i <> SEntity ->
  expressible w (prefix_of visit pm) a -> expressible w (prefix_of visit pm) b ->
  to_string (functional visit pm) debug a = to_string (functional visit pm) debug b -> a = b.
Proof. exact text_same. Qed.
Print Assumptions C74_same_partial.

Example C74_case : global_map id_visit po_map xw_defaults /\
  (forall a, In a [px_axiom; ps_assert; ps_chain] -> wt (SOne SAxiom) a = true /\ expressible 32 (prefix_of id_visit po_map) a) /\
  prefix_of id_visit po_map px_ns <> None /\ px_axiom <> ps_chain.
Proof. exact (conj xw_global (conj xw_axioms xw_short)). Qed.

(** Entities of different kinds may have the same text. *)
Theorem C74_kind_refuted : exists a b, a <> b /\
  to_string (functional id_visit po_map) xw_debug a = to_string (functional id_visit po_map) xw_debug b /\
  wt (SOne SEntity) a = true /\ wt (SOne SEntity) b = true /\ to_string (functional id_visit po_map) xw_debug a <> None.
Proof. exact xw_kind. Qed.
Print Assumptions C74_kind_refuted.
(** Literals that differ after a zero byte have the same text. *)
Theorem C74_zero_refuted : exists a b, a <> b /\
  to_string (functional id_visit po_map) xw_debug a = to_string (functional id_visit po_map) xw_debug b /\
  wt (SOne SLit) a = true /\ wt (SOne SLit) b = true /\ to_string (functional id_visit po_map) xw_debug a <> None.
Proof. exact xw_zero. Qed.
Print Assumptions C74_zero_refuted.
(** After a prefix of the global map was bound to another namespace, two IRIs have the same text. *)
Theorem C74_stale_refuted : exists ops a b, Forall keeps ops /\ a <> b /\ wt (SOne SIri) a = true /\ wt (SOne SIri) b = true /\
  to_string (functional id_visit (ex_map ops)) xw_debug a = Some (bs "ex:a") /\
  to_string (functional id_visit (ex_map ops)) xw_debug b = Some (bs "ex:a").
Proof. exact xw_stale. Qed.
Print Assumptions C74_stale_refuted.
(** The text of an axiom with one operand is rejected. *)
Theorem C74_one_refuted : exists a t, is_axiom_object a /\ to_string (functional id_visit po_map) xw_debug a = Some t /\
  func_read (fun _ => COWL_OK) true 32 (initial_map xw_defaults) (pasted [t]) = FRet ERR_SYNTAX [].
Proof. destruct xw_one as (t & E & F). exists fx_one, t. exact (conj (proj1 fx_one_lost) (conj E F)). Qed.
Print Assumptions C74_one_refuted.
