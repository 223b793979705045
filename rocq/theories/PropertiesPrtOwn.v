(** The ProtocOWL reader as a user of the library's objects. *)

From Coq Require Import NArith List Bool Permutation.
From Verif Require Import Bytes ModelTypes ModelHeader ModelText ModelHeap SpecHeap SpecIsolate ModelReadOwn SpecRead ModelPrtOwn SpecPrtOwn.
From Verif Require Import ProofPrtOwn ExamplesIsolate ExamplesPrtOwn.
Import ListNotations.
Local Open Scope N_scope.

(** Whatever bytes the stream has, wherever it ends or fails and whatever the handler does, the reader makes no
    invalid access: nothing freed, NULL or of another type is accessed.
    Missing (see SpecPrtOwn.v, foreseen): the operands that C39 shows to be NULL for certain files, literals of type
    rdf:langString or rdf:PlainLiteral without a tag, objects with so many references that the counter overflows;
    running out of memory. *)
Theorem C78_safe_partial : forall huge fresh e vs lib random fuel inner input s out o,
  allocator fresh -> sound huge fresh e vs lib s out ->
  decodes huge fresh e vs lib random fuel inner input s out o -> o <> None.
Proof. exact decode_safe. Qed.
Print Assumptions C78_safe_partial.

(** When the reader is done, by success or by an error, it has kept nothing and has given up nothing it did not have:
    memory is as the ownership rule demands for the references of the program alone. Missing: as above. *)
Theorem C78_nothing_kept_partial : forall huge fresh e vs lib random fuel inner input s out b s' out',
  allocator fresh -> sound huge fresh e vs lib s out ->
  decodes huge fresh e vs lib random fuel inner input s out (Some (b, s', out')) -> sound huge fresh e vs lib s' out'.
Proof. exact decode_sound. Qed.
Print Assumptions C78_nothing_kept_partial.

(** In particular the count of every object in memory is the number of references to it from the program, from the
    library and from other objects, and the program or the library can get to every object: none is lost. Missing:
    as above. *)
Theorem C78_counts_partial : forall huge fresh e vs lib random fuel inner input s out b s' out',
  allocator fresh -> sound huge fresh e vs lib s out ->
  decodes huge fresh e vs lib random fuel inner input s out (Some (b, s', out')) ->
  (forall a c, lookup (s_heap s') a = Some c -> ref_of huge c = N.of_nat (references (lib ++ out') s' a)) /\
  (forall a, alive s' a -> usable (lib ++ out') s' a).
Proof. exact decode_counts. Qed.
Print Assumptions C78_counts_partial.

(** A file with a prefix, the IRI of the ontology, an annotated axiom about an intersection and an assertion about an
    individual without identifier, read by a handler that retains the five objects it is given. *)
Example C78_file_case : exists e vs lib s s' out',
  sound false next e vs lib s [] /\
  decodes false next e vs lib ids 20 20 file s [] (Some (true, s', out')) /\ List.length out' = 5%nat /\ s_heap s' <> s_heap s.
Proof. exact file_example. Qed.

(** The same file, cut off in the middle of an axiom: reading fails, the three objects handed over so far remain. *)
Example C78_cut_case : exists e vs lib s s' out',
  sound false next e vs lib s [] /\
  decodes false next e vs lib ids 20 20 cut_file s [] (Some (false, s', out')) /\ List.length out' = 3%nat.
Proof. exact cut_file_example. Qed.

(** The assumption about NULL is needed: a file of two bytes makes the reader access NULL. *)
Theorem C78_null_refuted : exists e vs lib s,
  sound false next e vs lib s [] /\ decodes_if (expected false e) false next e vs lib ids 20 20 [1; 19] s [] None.
Proof. exact null_example. Qed.
Print Assumptions C78_null_refuted.
