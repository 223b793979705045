(** Specification vocabulary for reading arbitrary texts in functional syntax. *)

From Coq Require Import NArith ZArith List Bool String.
From Verif Require Import Bytes ModelTypes ModelObject ModelText SpecObject SpecText ModelChange ModelPrtDecoder ModelFuncLex ModelFuncParser SpecFunc.
Import ListNotations.
Local Open Scope N_scope.

(** Somewhere in the tokens there is a string with a datatype, which the prefixes [m] resolve to rdf:langString or
    rdf:PlainLiteral, and without a language tag. *)
Definition untagged (m : pmap) (ts : list token) : Prop :=
  exists pre v ts' i r, ts = pre ++ TQuoted v :: TCaret :: ts' /\ parse_iri m ts' = POk i r /\
    (fst i = bs "http://www.w3.org/1999/02/22-rdf-syntax-ns#" /\ (snd i = bs "langString" \/ snd i = bs "PlainLiteral")) /\
    ~ exists a b, tagged v a b.

(** A change that an ontology can apply: an addition whose object is of the right category. *)
Definition sound_change (c : dchange) : Prop :=
  fst c = CHANGE_ADD /\
  match snd c with
  | DPrefix _ _ => True
  | DIri o | DVersion o | DImport o => wt (SOne SIri) o = true
  | DAnnot o => wt (SOne SAnnot) o = true
  | DAxiom o => wt (SOne SAxiom) o = true
  end.

(** The order of the parts of a document. *)
Definition rank (p : dpart) : nat :=
  match p with DPrefix _ _ => 0 | DIri _ => 1 | DVersion _ => 2 | DImport _ | DAnnot _ => 3 | DAxiom _ => 4 end.
Definition in_document_order (log : list dchange) : Prop :=
  ForallOrdPairs (fun a b => (rank (snd a) <= rank (snd b))%nat) log /\
  (forall l1 a l2 b l3, log = l1 ++ a :: l2 ++ b :: l3 -> rank (snd a) = rank (snd b) -> rank (snd a) <> 1%nat /\ rank (snd a) <> 2%nat).

(** The prefix declarations among the changes. *)
Definition declarations (log : list dchange) : list (bytes * bytes) :=
  flat_map (fun c => match snd c with DPrefix p n => [(p, n)] | _ => [] end) log.
(** The other parts. *)
Definition iris_in (log : list dchange) : list obj := flat_map (fun c => match snd c with DIri o => [o] | _ => [] end) log.
Definition versions_in (log : list dchange) : list obj := flat_map (fun c => match snd c with DVersion o => [o] | _ => [] end) log.
Definition imports_in (log : list dchange) : list obj := flat_map (fun c => match snd c with DImport o => [o] | _ => [] end) log.
Definition annots_in (log : list dchange) : list obj := flat_map (fun c => match snd c with DAnnot o => [o] | _ => [] end) log.
Definition axioms_in (log : list dchange) : list obj := flat_map (fun c => match snd c with DAxiom o => [o] | _ => [] end) log.
