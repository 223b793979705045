(** Specification of the texts of single objects. *)

From Coq Require Import String.
From Coq Require Import NArith List Bool Permutation.
From Verif Require Import Bytes ModelTypes ModelObject ModelPrefixMap SpecPrefixMap ModelOntology ModelChange ModelPrtDecoder SpecPrtStream
  ModelFuncLex ModelFuncParser ModelFuncWriter SpecFunc SpecFuncDoc.
Import ListNotations.
Local Open Scope N_scope.

(** The prefix by which a prefix map abbreviates a namespace. *)
Definition prefix_of (visit : tbl -> tbl) (pm : pst) (ns : bytes) : option bytes :=
  match get_prefix visit pm ns with Some (_, Some p) => Some (stx p) | _ => None end.
(** The global prefix map [pm] is in a proper state, and [defaults] are its bindings, in any order. *)
Definition global_map (visit : tbl -> tbl) (pm : pst) (defaults : pmap) : Prop :=
  map_fit visit pm defaults /\ Permutation defaults (texts (fwd pm)).
(** A document without header that consists of these texts, one in each line. *)
Definition pasted (ts : list bytes) : bytes := bs "Ontology(" ++ [10] ++ concat (map (fun t => t ++ [10]) ts) ++ bs ")" ++ [10].
