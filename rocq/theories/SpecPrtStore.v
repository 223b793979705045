(** Specification vocabulary for whole ontologies in ProtocOWL. *)

From Coq Require Import NArith ZArith List Bool Permutation.
From Verif Require Import Bytes ModelTypes ModelObject ModelPrefixMap SpecObject ModelOntology SpecOntology ModelChange SpecChange.
From Verif Require Import ModelPrtEncoder ModelPrtDecoder ModelPrtWriter SpecPrt SpecPrtStream.
Import ListNotations.
Local Open Scope N_scope.

(** The prefixes, IRI, version, imports and annotations of an ontology. *)
Definition onto_header (x : full) : header :=
  mkHeader (Some (fwd (x_pm x))) (o_iri (x_onto x)) (o_version (x_onto x)) (vec_data (o_imports (x_onto x)))
    (vec_data (o_annot (x_onto x))).
(** Everything in an ontology whose axioms are [l], as changes. *)
Definition asked_ontology (x : full) (l : list ref) : list dchange := asked (onto_header x) (map WAxiom l).

(** The axioms and annotations a history added, removed since or not: the writer stores their primitives. *)
Definition added_objs (es : list edit) : list obj :=
  flat_map (fun e => match e with EAddAxiom a | EAddAnnot a => [r_obj a] | _ => [] end) es.
Definition all_objs (es : list edit) (x : full) (l : list ref) : list obj :=
  passed_header (onto_header x) ++ map r_obj l ++ added_objs es.

(** An ontology with the history [es] and the axioms [l] that can be stored (see SpecPrtStream.v). *)
Record storing (w : N) (es : list edit) (x : full) (l : list ref) : Prop := {
  sg_header : header_ok w (onto_header x);
  sg_axioms : forall a, In a l -> storable w (r_obj a);
  sg_portable : forall o p, In o (all_objs es x l) -> mentions p o -> portable w p;
  sg_room : room w (header_prefixes (onto_header x)) (all_objs es x l) (asked_ontology x l)
}.

(** A change as delivered to the handler of an ontology: an object in place of a value. *)
Inductive stands_for : part -> dpart -> Prop :=
| sf_prefix p n : stands_for (PPrefix p n) (DPrefix (stx p) (stx n))
| sf_iri i : stands_for (PIri i) (DIri (r_obj i))
| sf_version i : stands_for (PVersion i) (DVersion (r_obj i))
| sf_import i : stands_for (PImport i) (DImport (r_obj i))
| sf_annot a : stands_for (PAnnot a) (DAnnot (r_obj a))
| sf_axiom a : stands_for (PAxiom a) (DAxiom (r_obj a)).
(** Pointers with the same identity point to the same object. *)
Definition part_in_heap (heap : N -> obj) (p : part) : Prop :=
  match p with PPrefix _ _ => True | PIri a | PVersion a | PImport a | PAnnot a | PAxiom a => r_obj a = heap (r_id a) end.

(** The same IRI, version, imports, annotations and axioms. *)
Record same_contents (x y : full) : Prop := {
  sc_iri : option_map r_obj (o_iri (x_onto x)) = option_map r_obj (o_iri (x_onto y));
  sc_version : option_map r_obj (o_version (x_onto x)) = option_map r_obj (o_version (x_onto y));
  sc_imports : forall l m, delivers (fun S call s => iterate_imports call (x_onto x) s) l ->
    delivers (fun S call s => iterate_imports call (x_onto y) s) m -> map r_obj l = map r_obj m;
  sc_annots : forall l m, delivers (fun S call s => iterate_annot call (x_onto x) s) l ->
    delivers (fun S call s => iterate_annot call (x_onto y) s) m -> map r_obj l = map r_obj m;
  sc_axioms : forall l m, contains (x_onto x) l -> contains (x_onto y) m -> Permutation (map r_obj l) (map r_obj m)
}.
