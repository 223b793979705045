(** C81: the library keeps readers and writers as long as they are needed, and no longer. *)

From Coq Require Import NArith List Bool.
From Verif Require Import ModelPlugin SpecPlugin ProofPlugin ExamplesPlugin.
Import ListNotations.
Local Open Scope N_scope.

(** After any calls that obey the rules, a further call that does accesses no object that is not in memory. Missing:
    NULL as the default. *)
Theorem C81_safe_partial : forall h s own c, history false h s own -> obeys false c s own -> exec c s <> None.
Proof. exact safe_holds. Qed.
Print Assumptions C81_safe_partial.

(** No context is freed twice; at any time, those freed are those of the readers and writers to which the client has no
    reference and which are not a default. Missing: NULL as the default. *)
Theorem C81_freed_partial : forall h s own, history false h s own ->
  NoDup (p_freed s) /\ forall i, i < p_next s -> (In i (p_freed s) <-> own i = 0%nat /\ forall k, get_default k s <> Some i).
Proof. exact freed_holds. Qed.
Print Assumptions C81_freed_partial.

(** The default is the last one set, until the library is deinitialized. *)
Theorem C81_last_partial : forall h k i h2 s own, history false (h ++ [CSet k (Some i)] ++ h2) s own -> Forall (leaves k) h2 ->
  get_default k s = Some i.
Proof. exact last_default. Qed.
Print Assumptions C81_last_partial.

(** When the library is deinitialized and the client has no references left, all readers and writers were freed. *)
Theorem C81_end_partial : forall h s own, history false (h ++ [CDeinit]) s own -> (forall i, own i = 0%nat) ->
  forall i, i < p_next s -> In i (p_freed s).
Proof. exact end_holds. Qed.
Print Assumptions C81_end_partial.

(** A writer to which only the library has a reference is in use. *)
Example C81_case : exists s own, history false [CInit; CMake Writer; CRetain 1; CSet Writer (Some 2); CRelease 2] s own /\
  obeys false (CUse 2) s own /\ own 2 = 0%nat /\ get_default Writer s = Some 2 /\ ~ In 2 (p_freed s) /\ p_next s = 3.
Proof. exact swap_use. Qed.
(** It is freed when it is replaced, the others at the end. *)
Example C81_end_case : exists s own, history false swap s own /\ (forall i, own i = 0%nat) /\ p_freed s = [1; 0; 2] /\ p_next s = 3.
Proof. exact swap_end. Qed.

(** With NULL, the claim is false: cowl_set_writer(NULL) accesses NULL. *)
Theorem C81_null_refuted : exists s own, history true [CInit] s own /\ obeys true (CSet Writer None) s own /\ exec (CSet Writer None) s = None.
Proof. exact null_witness. Qed.
Print Assumptions C81_null_refuted.

(** So is it if a default is set before cowl_init, which the documentation forbids: the reader is never freed. *)
Theorem C81_early_refuted : exists s, go [CMake Reader; CSet Reader (Some 0); CRelease 0; CInit; CDeinit] start = Some s /\
  p_next s = 3 /\ ~ In 0 (p_freed s) /\ get_default Reader s = None /\ get_default Writer s = None.
Proof. exact early_witness. Qed.
Print Assumptions C81_early_refuted.
