(** Vocabulary for the memory a ProtocOWL writer with a bounded index needs. *)

From Coq Require Import NArith ZArith List Bool.
From Verif Require Import Bytes ModelTypes ModelObject SpecObject ModelOntology ModelPrtEncoder ModelPrtWriter SpecPrt SpecPrtStream.
Import ListNotations.
Local Open Scope N_scope.

(** Imports, annotations and axioms of an ontology. *)
Definition waiting (o : onto) : N :=
  N.of_nat (List.length (vec_data (o_imports o)) + List.length (vec_data (o_annot o)) + List.length (axioms_in_order o)).

(** Calls that do not change the size of the index. *)
Definition steady (c : wcall) : Prop := match c with WIndexSize _ => False | _ => True end.

(** The index size and the number of primitives in any one of the objects are small in comparison with what
    ulib_uint can count. *)
Definition modest (w n : N) (objs : list obj) : Prop :=
  n + 4 < 2 ^ w /\ forall o l, In o objs -> occurrences o l -> n + 2 * N.of_nat (List.length l) < 2 ^ w.

(** The index has room for all namespaces, besides the standard ones, and all identifiers that a client uses. *)
Definition enough (n : N) (prefixes : list (bytes * bytes)) (objs : list obj) : Prop :=
  exists ids nss, incl standard_namespaces nss /\ (forall p ns, In (p, ns) prefixes -> In ns nss) /\
    (forall o p, In o objs -> mentions p o -> In (ident p) ids /\ forall ns rem, ident p = OIri ns rem -> In ns nss) /\
    N.of_nat (List.length ids + List.length nss) <= n + 5.
(** Calls that do not ask the writer to forget what it knows. *)
Definition no_reset (c : wcall) : Prop := match c with WReset _ => False | _ => True end.
