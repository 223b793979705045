(** Texts of concrete objects. *)

From Coq Require Import String.
From Coq Require Import NArith ZArith List Bool Permutation.
From Verif Require Import Bytes ModelTypes ModelObject SpecObject ModelText ModelPrefixMap SpecPrefixMap ModelOntology SpecOntology ModelChange SpecChange
  ModelPrtDecoder SpecPrtStream SpecPrtStore ModelFuncLex ModelFuncParser ModelFuncWriter SpecFunc SpecFuncDoc ModelWrite SpecWrite.
From Verif Require Import ProofObject ProofFuncDoc ExamplesPrefix ExamplesChange ExamplesPrt ExamplesPrtStream ExamplesPrtStore ExamplesFunc.
Import ListNotations.
Local Open Scope N_scope.

(** The map of ExamplesPrtStore.v, as the global map. *)
Definition xw_defaults : pmap := texts (fwd po_map).
Lemma xw_global : global_map id_visit po_map xw_defaults.
Proof.
  split; [|apply Permutation_refl]. constructor.
  - apply fx_quiet; [repeat constructor|vm_compute; reflexivity].
  - intros p n. apply fx_names_ok. vm_compute. reflexivity.
  - intros p n n' H H'.
    assert (U : forallb (fun e => forallb (fun f => implb (bytes_eqb (fst e) (fst f)) (bytes_eqb (snd e) (snd f))) (texts (fwd po_map))) (texts (fwd po_map)) = true)
      by (vm_compute; reflexivity).
    rewrite forallb_forall in U. specialize (U _ H). cbv beta in U. rewrite forallb_forall in U. specialize (U _ H'). cbn [fst snd] in U. rewrite bytes_eqb_refl in U.
    now apply bytes_eqb_eq.
Qed.
Definition xw_debug (_ : obj) : bytes := [].
Lemma xw_axioms a : In a [px_axiom; ps_assert; ps_chain] ->
  wt (SOne SAxiom) a = true /\ expressible 32 (prefix_of id_visit po_map) a.
Proof. intros [<-|[<-|[<-|[]]]]; (split; [vm_compute; reflexivity|apply fx_obj_ok; vm_compute; reflexivity]). Qed.
Lemma xw_short : prefix_of id_visit po_map px_ns <> None /\ px_axiom <> ps_chain.
Proof. split; [vm_compute; discriminate|discriminate]. Qed.

(** A class and an object property; literals with a zero byte; IRIs after a prefix was bound again. *)
Lemma xw_kind : exists a b, a <> b /\ to_string (functional id_visit po_map) xw_debug a = to_string (functional id_visit po_map) xw_debug b /\
  wt (SOne SEntity) a = true /\ wt (SOne SEntity) b = true /\ to_string (functional id_visit po_map) xw_debug a <> None.
Proof.
  exists (OEnt ET_CLASS px_ns (bs "a")), (OEnt ET_OBJ_PROP px_ns (bs "a")). split; [discriminate|]. split; [vm_compute; reflexivity|].
  split; [reflexivity|]. split; [reflexivity|vm_compute; discriminate].
Qed.
Lemma xw_zero : exists a b, a <> b /\ to_string (functional id_visit po_map) xw_debug a = to_string (functional id_visit po_map) xw_debug b /\
  wt (SOne SLit) a = true /\ wt (SOne SLit) b = true /\ to_string (functional id_visit po_map) xw_debug a <> None.
Proof.
  exists (OLang [97; 0; 98] (bs "en")), (OLang [97; 0; 99] (bs "en")). split; [discriminate|]. split; [vm_compute; reflexivity|].
  split; [reflexivity|]. split; [reflexivity|vm_compute; discriminate].
Qed.
Lemma xw_stale : exists ops a b, Forall keeps ops /\ a <> b /\ wt (SOne SIri) a = true /\ wt (SOne SIri) b = true /\
  to_string (functional id_visit (ex_map ops)) xw_debug a = Some (bs "ex:a") /\
  to_string (functional id_visit (ex_map ops)) xw_debug b = Some (bs "ex:a").
Proof.
  exists (fx_stale_ops), (OIri (bs "http://ex.org/1#") (bs "a")), (OIri (bs "http://ex.org/2#") (bs "a")).
  split; [exact (proj1 fx_stale)|]. split; [discriminate|]. split; [reflexivity|]. split; [reflexivity|]. split; vm_compute; reflexivity.
Qed.
(** The axiom fx_one, with one operand. *)
Lemma xw_one : exists t, to_string (functional id_visit po_map) xw_debug fx_one = Some t /\
  func_read (fun _ => COWL_OK) true 32 (initial_map xw_defaults) (pasted [t]) = FRet ERR_SYNTAX [].
Proof.
  let v := eval vm_compute in (to_string (functional id_visit po_map) xw_debug fx_one) in match v with Some ?b => exists b end.
  split; vm_compute; reflexivity.
Qed.
