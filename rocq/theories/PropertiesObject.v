(** Properties C01-C09 and C34: structural equality, hashing, iteration over primitives, operand queries,
    tables and storing iterators. Statements use ModelObject.v / ModelTable.v for the library
    functions and SpecObject.v / SpecTable.v for their meaning. *)

From Coq Require Import NArith ZArith String List Bool.
From Verif Require Import Bytes ModelTypes ModelObject ModelTable SpecObject SpecTable.
From Verif Require Import ProofObject ProofIter ProofHash ProofAxiom ProofTable ExamplesObject.
Import ListNotations.
Local Open Scope N_scope.

(** ** C01 *)

Theorem C01_equals_reflexive : forall o, cowl_equals o o = true.
Proof. exact equals_refl. Qed.
Print Assumptions C01_equals_reflexive.

Theorem C01_equals_transitive : forall a b c s s' s'',
  wt s a = true -> wt s' b = true -> wt s'' c = true -> same_order a b -> same_order b c ->
  cowl_equals a b = true -> cowl_equals b c = true -> cowl_equals a c = true.
Proof. exact equals_trans. Qed.
Print Assumptions C01_equals_transitive.

(** Missing from the full claim: objects with repeated operands, for which symmetry fails. *)
Theorem C01_equals_symmetric_partial : forall a b s s',
  wt s a = true -> wt s' b = true -> same_order a b -> dup_free a -> dup_free b ->
  cowl_equals a b = cowl_equals b a.
Proof. exact equals_sym_dup_free. Qed.
Print Assumptions C01_equals_symmetric_partial.

Theorem C01_equals_symmetric_refuted : exists a b,
  is_axiom_object a /\ is_axiom_object b /\ cowl_equals a b = true /\ cowl_equals b a = false.
Proof. exact sym_counterexample. Qed.
Print Assumptions C01_equals_symmetric_refuted.

(** A bare operand vector against the same vector turned into a property chain. *)
Theorem C01_equals_mixed_order_refuted : exists a b,
  wt (SMany false SObjProp) a = true /\ wt SSubProp b = true /\ cowl_equals a b = true /\ cowl_equals b a = false.
Proof. exact mixed_order_counterexample. Qed.
Print Assumptions C01_equals_mixed_order_refuted.

Example C01_case : is_axiom_object ex_equiv /\ is_axiom_object ex_equiv' /\ is_axiom_object ex_chain /\ is_axiom_object ex_opa.
Proof. exact ex_wt. Qed.
Example C01_case_dup_free : dup_free ex_equiv /\ dup_free ex_equiv' /\ dup_free ex_chain /\ dup_free ex_opa.
Proof. exact ex_dup_free. Qed.

(** ** C02 *)

(** Missing from the full claim: objects with repeated operands, for which it fails. *)
Theorem C02_equal_objects_hash_equally_partial : forall ptr_hash str_hash combine a b s s',
  wt s a = true -> wt s' b = true -> same_order a b -> dup_free a -> dup_free b ->
  cowl_equals a b = true ->
  cowl_hash ptr_hash str_hash combine a = cowl_hash ptr_hash str_hash combine b.
Proof. exact equals_hash. Qed.
Print Assumptions C02_equal_objects_hash_equally_partial.

Theorem C02_equal_objects_hash_equally_refuted : exists ptr_hash str_hash combine a b,
  is_axiom_object a /\ is_axiom_object b /\ cowl_equals a b = true /\ cowl_equals b a = true /\
  cowl_hash ptr_hash str_hash combine a <> cowl_hash ptr_hash str_hash combine b.
Proof. exact hash_counterexample. Qed.
Print Assumptions C02_equal_objects_hash_equally_refuted.

Example C02_case : seq ex_equiv ex_equiv' /\ ex_equiv <> ex_equiv'.
Proof. exact ex_equiv_seq. Qed.

(** ** C03 *)

(** Missing from the full claim: objects with repeated operands, for which it fails. *)
Theorem C03_equality_is_structural_partial : forall a b s s',
  wt s a = true -> wt s' b = true -> same_order a b -> dup_free a -> dup_free b ->
  (cowl_equals a b = true <-> seq a b).
Proof. exact equals_seq. Qed.
Print Assumptions C03_equality_is_structural_partial.

Theorem C03_equality_is_structural_refuted :
  (exists a b, is_axiom_object a /\ is_axiom_object b /\ cowl_equals a b = true /\ ~ seq a b) /\
  (exists a b, is_axiom_object a /\ is_axiom_object b /\ seq a b /\ cowl_equals a b = false).
Proof. exact (conj structural_counterexample structural_counterexample'). Qed.
Print Assumptions C03_equality_is_structural_refuted.

(** Structural equivalence, the yardstick, is an equivalence relation. *)
Theorem C03_structural_equivalence : (forall a, seq a a) /\ (forall a b, seq a b -> seq b a) /\
  (forall a b c, seq a b -> seq b c -> seq a c).
Proof. exact seq_equivalence. Qed.
Print Assumptions C03_structural_equivalence.

Example C03_case : seq ex_equiv ex_equiv' /\ ex_equiv <> ex_equiv'.
Proof. exact ex_equiv_seq. Qed.

(** ** C04 *)

Theorem C04_iteration_visits_the_signature : forall o l flags S (call : S -> obj -> S * ret) st,
  well_formed o -> occurrences o l -> (forall s x, snd (call s x) = COWL_CONTINUE) ->
  iterate_primitives call flags o st =
  IRet (fold_left (fun s x => fst (call s x)) (filter (enabled flags) l) st) COWL_OK.
Proof. exact iterate_all. Qed.
Print Assumptions C04_iteration_visits_the_signature.

Theorem C04_every_object_has_one_signature : forall o, exists! l, occurrences o l.
Proof. exact occurrences_exists_unique. Qed.
Print Assumptions C04_every_object_has_one_signature.

Example C04_case : occurrences ex_equiv [ex_A; ex_p; ex_B; ex_q; owl_thing; ex_ap "note"; rdf_lang_string].
Proof. exact ex_occurrences. Qed.

(** ** C05 *)

Theorem C05_iteration_stops_on_request : forall o l, well_formed o -> occurrences o l -> forall flags,
  delivers (fun S call s => iterate_primitives call flags o s) (filter (enabled flags) l).
Proof. exact iterate_delivers. Qed.
Print Assumptions C05_iteration_stops_on_request.

(** For tables the stop code is lost when the callback stops on a value. *)
Theorem C05_table_iteration_refuted : exists t v k p,
  In (k, Some v) (tbl_entries t) /\ proper_table t /\ mentions p (pv_obj v) /\ table_has_primitive t p = Some false.
Proof. exact table_has_primitive_counterexample. Qed.
Print Assumptions C05_table_iteration_refuted.

(** Missing from the full claim: the stop code, when the callback stops on a value. *)
Theorem C05_table_iteration_partial : forall es l flags, well_formed_entries es -> entry_occurrences es l ->
  forall S (call : S -> obj -> S * ret) s, exists done rest s' r r',
  filter (enabled flags) l = done ++ rest /\ called call s done s' r /\
  table_iterate_primitives call flags es s = IRet s' r' /\
  (r = 0%Z -> rest = [] /\ r' = 0%Z) /\ (r' = r \/ r' = 0%Z).
Proof. exact table_calls. Qed.
Print Assumptions C05_table_iteration_partial.

Example C05_case_table : well_formed_entries (tbl_entries (ex_table 0 ex_A ex_B)) /\
  exists l, entry_occurrences (tbl_entries (ex_table 0 ex_A ex_B)) l /\ (2 < List.length l)%nat.
Proof. exact ex_table_entries. Qed.

(** ** C06 *)

Theorem C06_has_primitive : forall o p k, well_formed o -> kind p = Some k ->
  decides (has_primitive o p) (mentions p o).
Proof. exact has_primitive_decides. Qed.
Print Assumptions C06_has_primitive.

(** On interned strings (not well-formed in the sense above) the query is undefined behaviour. *)
Theorem C06_has_primitive_string_refuted : exists o p k, kind p = Some k /\ has_primitive o p = None.
Proof. exact string_counterexample. Qed.
Print Assumptions C06_has_primitive_string_refuted.

Theorem C06_axiom_has_primitive : forall a p k, is_axiom_object a -> kind p = Some k ->
  decides (axiom_has_primitive a p PS_ANY) (mentions p a).
Proof. exact axiom_has_primitive_any. Qed.
Print Assumptions C06_axiom_has_primitive.

Theorem C06_axiom_has_primitive_at : forall a p k position,
  is_axiom_object a -> kind p = Some k -> position <> PS_ANY ->
  decides (axiom_has_primitive a p position) (exists op, operand_at a op position /\ mentions p op).
Proof. exact axiom_has_primitive_pos. Qed.
Print Assumptions C06_axiom_has_primitive_at.

Example C06_case : mentions ex_q ex_equiv /\ ~ mentions ex_C ex_equiv.
Proof. exact ex_mentions. Qed.

(** ** C07 *)

Theorem C07_axiom_equals_with_annotations : forall a b, is_axiom_object a -> is_axiom_object b ->
  axiom_equals a b true = cowl_equals a b.
Proof. exact axiom_equals_full. Qed.
Print Assumptions C07_axiom_equals_with_annotations.

Theorem C07_axiom_equals_without_annotations : forall a b, is_axiom_object a -> is_axiom_object b ->
  axiom_equals a b false = cowl_equals (without_annots a) (without_annots b).
Proof. exact axiom_equals_plain. Qed.
Print Assumptions C07_axiom_equals_without_annotations.

Theorem C07_axiom_equals_structural : forall a b,
  is_axiom_object a -> is_axiom_object b -> dup_free a -> dup_free b ->
  (axiom_equals a b true = true <-> seq a b) /\
  (axiom_equals a b false = true <-> seq (without_annots a) (without_annots b)).
Proof. exact axiom_equals_structural. Qed.
Print Assumptions C07_axiom_equals_structural.

Example C07_case : is_axiom_object ex_equiv /\ is_axiom_object (without_annots ex_equiv) /\ without_annots ex_equiv <> ex_equiv.
Proof. repeat split; discriminate. Qed.

(** ** C08 *)

(** Missing from the full claim: tables sharing value objects or holding NULL values. *)
Theorem C08_table_equality_partial : forall a b, proper_table a -> proper_table b -> disjoint_values a b ->
  decides (table_equals a b) (same_table a b).
Proof. exact table_equals_spec. Qed.
Print Assumptions C08_table_equality_partial.

Theorem C08_table_equality_refuted : exists a b,
  proper_table a /\ proper_table b /\ table_equals a b = Some true /\ ~ same_table a b.
Proof. exact table_counterexample. Qed.
Print Assumptions C08_table_equality_refuted.

Theorem C08_table_null_value_refuted : exists a b,
  proper_table a /\ proper_table b /\ table_equals a b = None.
Proof. exact table_null_counterexample. Qed.
Print Assumptions C08_table_null_value_refuted.

Example C08_case : disjoint_values (ex_table 1 (ex_ind "a") (ex_ind "b")) (ex_table 10 (ex_ind "a") (ex_ind "b")).
Proof. exact ex_table_disjoint. Qed.

(** ** C09 *)

Theorem C09_iterate_operands : forall a position, is_axiom_object a ->
  exists l, operand_sequence a position l /\
            delivers (fun S call s => iterate_operands call a position s) l /\
            (forall op, In op l <-> operand_at a op position).
Proof. exact axiom_iterate_operands. Qed.
Print Assumptions C09_iterate_operands.

Theorem C09_has_operand_primitive : forall a op k position, is_axiom_object a -> kind op = Some k ->
  decides (axiom_has_operand a op position) (operand_at a op position).
Proof. exact has_operand_prim. Qed.
Print Assumptions C09_has_operand_primitive.

Theorem C09_has_operand : forall a op s position, is_axiom_object a -> wt s op = true -> kind op = None ->
  decides (axiom_has_operand a op position) (exists x, operand_at a x position /\ cowl_equals x op = true).
Proof. exact has_operand_struct. Qed.
Print Assumptions C09_has_operand.

Theorem C09_has_operand_with_iri : forall a n r position, is_axiom_object a ->
  decides (axiom_has_operand_with_iri a (OIri n r) position)
          (exists op, operand_at a op position /\ iri_of op = Some (OIri n r)).
Proof. exact has_operand_iri. Qed.
Print Assumptions C09_has_operand_with_iri.

Example C09_case : operand_at ex_opa (ex_ind "a") PS_MIDDLE /\ ~ operand_at ex_opa (ex_ind "a") PS_LEFT.
Proof. exact ex_operand_at. Qed.

(** ** C34 *)

Theorem C34_vector_iterator_collects : forall (run : forall S, (S -> obj -> S * ret) -> S -> ires S) l retain,
  delivers run l -> run _ (iterator_vec retain) ([], []) = IRet (l, if retain then l else []) 0%Z.
Proof. exact vec_collects. Qed.
Print Assumptions C34_vector_iterator_collects.

(** Missing from the full claim: sequences with repetitions. *)
Theorem C34_set_iterator_collects_partial :
  forall (run : forall S, (S -> obj -> S * ret) -> S -> ires S) l retain,
  delivers run l -> Forall simple l -> ForallOrdPairs (fun x y => ~ seq x y) l ->
  run _ (iterator_set retain) ([], []) = IRet (l, if retain then l else []) 0%Z.
Proof. exact set_collects. Qed.
Print Assumptions C34_set_iterator_collects_partial.

(** Whatever is delivered, the set iterator holds a prefix of it, and retains exactly what it holds. *)
Theorem C34_set_iterator_retains : forall (run : forall S, (S -> obj -> S * ret) -> S -> ires S) l retain,
  delivers run l -> exists held rest r, l = held ++ rest /\
  run _ (iterator_set retain) ([], []) = IRet (held, if retain then held else []) r.
Proof. exact set_retains. Qed.
Print Assumptions C34_set_iterator_retains.

Theorem C34_count_iterator_counts : forall (run : forall S, (S -> obj -> S * ret) -> S -> ires S) l w,
  delivers run l -> run _ (iterator_count w) 0 = IRet (N.of_nat (List.length l) mod 2 ^ w) 0%Z.
Proof. exact count_counts. Qed.
Print Assumptions C34_count_iterator_counts.

Theorem C34_set_iterator_collects_refuted : exists o l x, well_formed o /\ occurrences o l /\ In x l /\
  exists s r, iterate_primitives (iterator_set false) PF_ALL o ([], []) = IRet s r /\ ~ In x (fst s) /\ r = COWL_STOP.
Proof. exact set_counterexample. Qed.
Print Assumptions C34_set_iterator_collects_refuted.

Example C34_case : Forall simple (occ ex_opa) /\ ForallOrdPairs (fun x y => ~ seq x y) (occ ex_opa).
Proof. exact ex_set_ok. Qed.
Example C34_case_delivers : delivers (fun S call s => iterate_primitives call PF_ALL ex_opa s) (occ ex_opa).
Proof. exact ex_delivers. Qed.
