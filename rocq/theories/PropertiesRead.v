(** The functional syntax reader as a user of the library's objects. *)

From Coq Require Import NArith List Bool Permutation.
From Verif Require Import Bytes ModelTypes ModelHeader ModelText ModelHeap SpecHeap SpecIsolate ModelReadRules ModelReadOwn SpecRead.
From Verif Require Import ProofReadTop ExamplesIsolate ExamplesRead.
Import ListNotations.
Local Open Scope N_scope.

(** Whatever tokens the document consists of, well-formed or not, wherever it ends and whatever the handler
    does, the reader makes no invalid access: nothing freed, NULL or of another type is accessed.
    Missing (see SpecRead.v, expected): literals of type rdf:langString or rdf:PlainLiteral without a tag, and
    objects with so many references that the counter overflows; running out of memory. *)
Theorem C77_safe_partial : forall huge fresh e vs lib global l s out o,
  allocator fresh -> sound huge fresh e vs lib s out -> global_map huge lib s out global ->
  reads huge fresh e vs lib global l s out o -> o <> None.
Proof. exact read_safe. Qed.
Print Assumptions C77_safe_partial.

(** When the reader is done, by success or by an error, it has kept nothing and has given up nothing it did not have:
    memory is as the ownership rule demands for the references of the program alone. Missing: as above. *)
Theorem C77_nothing_kept_partial : forall huge fresh e vs lib global l s out b s' out',
  allocator fresh -> sound huge fresh e vs lib s out -> global_map huge lib s out global ->
  reads huge fresh e vs lib global l s out (Some (b, s', out')) -> sound huge fresh e vs lib s' out'.
Proof. exact read_sound. Qed.
Print Assumptions C77_nothing_kept_partial.

(** In particular the count of every object in memory is the number of references to it from the program, from the
    library and from other objects, and the program or the library can get to every object: none is lost. Missing:
    as above. *)
Theorem C77_counts_partial : forall huge fresh e vs lib global l s out b s' out',
  allocator fresh -> sound huge fresh e vs lib s out -> global_map huge lib s out global ->
  reads huge fresh e vs lib global l s out (Some (b, s', out')) ->
  (forall a c, lookup (s_heap s') a = Some c -> ref_of huge c = N.of_nat (references (lib ++ out') s' a)) /\
  (forall a, alive s' a -> usable (lib ++ out') s' a).
Proof. exact read_counts. Qed.
Print Assumptions C77_counts_partial.

(** A document with a prefix, an ontology IRI and SubClassOf(Annotation(rdfs:comment "hi"@en)
    ObjectIntersectionOf(ex:A ex:B) ex:C), read by a handler that retains the four objects it is given. *)
Example C77_document_case : exists e vs lib s s' out',
  sound false next e vs lib s [] /\ global_map false lib s [] [] /\
  reads false next e vs lib [] document s [] (Some (0, s', out')) /\ List.length out' = 4%nat /\ s_heap s' <> s_heap s.
Proof. exact document_example. Qed.

(** The same document, cut off after the intersection: the three objects handed over so far remain. *)
Example C77_cut_case : exists e vs lib s s' out',
  sound false next e vs lib s [] /\ reads false next e vs lib [] cut s [] (Some (0, s', out')) /\ List.length out' = 3%nat /\
  List.length (s_heap s') = (4 + List.length (s_heap s))%nat.
Proof. exact cut_example. Qed.

(** The buffers of the scanner are not always freed: a quoted string where the grammar does not allow one is
    lost, as the value of its token has no destructor. *)
Theorem C77_buffer_refuted : exists e vs lib s b s' out',
  sound false next e vs lib s [] /\ reads false next e vs lib [] stray s [] (Some (b, s', out')) /\ b = 1.
Proof. exact stray_example. Qed.
Print Assumptions C77_buffer_refuted.

(** The assumption on literals is needed: a document with "x"^^rdf:langString makes the reader access NULL. *)
Theorem C77_tag_refuted : exists e vs lib s,
  sound false next e vs lib s [] /\ runs false next e (fun _ _ => True) (client false next e lib) (read_document vs [] untagged) s [] None.
Proof. exact untagged_example. Qed.
Print Assumptions C77_tag_refuted.
