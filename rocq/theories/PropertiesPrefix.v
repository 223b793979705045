(** Properties C20-C23 and C51: prefix maps. Statements use ModelPrefixMap.v for the library functions
    and SpecPrefixMap.v for their meaning. [visit] is any order of visiting hash tables; [r] gives
    the references the client holds when the map is created. *)

From Coq Require Import NArith ZArith String List Bool Permutation.
From Verif Require Import Bytes ModelTypes ModelObject ModelText ModelPrefixMap SpecPrefixMap
  ProofPrefixMap ProofPrefixRev ProofPrefixSafe ExamplesPrefix.
Import ListNotations.
Local Open Scope N_scope.

(** ** C20 *)

(** The client keeps its strings alive ([r i <> 0] and no [PRelease]); see C51 for clients that do
    not. *)
Theorem C20_prefix_map_is_finite_map : forall visit r ops,
  (forall t, Permutation (visit t) t) -> (forall i, r i <> 0) -> Forall keeps ops ->
  exists s0 c s rs m, pm_init r = Some (s0, c) /\ pm_run visit s0 ops = Some (s, rs) /\ a_run a_init ops m rs /\ answers s m.
Proof. exact history_refines. Qed.
Print Assumptions C20_prefix_map_is_finite_map.

Example C20_case : Forall keeps ex_ops.
Proof. exact ex_keeps. Qed.
Example C20_case_outcome : ns_after ex_ops (bs "ex") = Some (Some (bs "http://ex.org/1#")) /\
                   ns_after ex_ops (bs "owl") = Some (Some owl_ns) /\
                   prefix_after ex_ops (bs "http://ex.org/1#") = Some (Some (bs "e")) /\
                   prefix_after ex_ops (bs "http://ex.org/2#") = Some None.
Proof. exact ex_outcome. Qed.

(** ** C21 *)

Theorem C21_reverse_lookup_refuted : exists ops n p x, Forall keeps ops /\
  prefix_after ops n = Some (Some p) /\ ns_after ops p = Some (Some x) /\ x <> n.
Proof. exact reverse_counterexample. Qed.
Print Assumptions C21_reverse_lookup_refuted.

Theorem C21_reverse_lookup_unbound_refuted : exists ops n p, Forall keeps ops /\
  prefix_after ops n = Some (Some p) /\ ns_after ops p = Some None.
Proof. exact reverse_missing_counterexample. Qed.
Print Assumptions C21_reverse_lookup_unbound_refuted.

(** Missing from the full claim: histories that bind a bound prefix to a different namespace after something else than
    additions (a look-up by namespace or a removal). *)
Theorem C21_reverse_lookup_partial : forall visit r ops1 ops2 n,
  (forall t, Permutation (visit t) t) -> (forall i, r i <> 0) -> Forall keeps (ops1 ++ ops2) -> Forall adds ops1 ->
  exists s0 c s1 rs1, pm_init r = Some (s0, c) /\ pm_run visit s0 ops1 = Some (s1, rs1) /\
  (all_calls quiet visit s1 ops2 ->
   exists s rs s' p m, pm_run visit s0 (ops1 ++ ops2) = Some (s, rs) /\ answers s m /\
     get_prefix visit s n = Some (s', p) /\ shortest_prefix m n (option_map stx p)).
Proof. exact reverse_history. Qed.
Print Assumptions C21_reverse_lookup_partial.

Example C21_case : (forall s0 c, pm_init ex_rc = Some (s0, c) -> all_calls quiet id_visit s0 ex_ops) /\
  Forall adds ex_rebinds /\ Forall keeps ex_rebinds /\ prefix_after ex_rebinds (bs "http://ex.org/1#") = Some None /\
  prefix_after ex_rebinds (bs "http://ex.org/2#") = Some (Some (bs "ex")).
Proof. exact (conj ex_quiet ex_rebinds_case). Qed.

(** ** C22 *)

Theorem C22_short_iri_expansion : forall s m p r, answers s m -> ~ In 58 p ->
  match m p with
  | None => pm_parse_short_iri s (p ++ 58 :: r) = Some None /\
            pm_parse_iri s (p ++ 58 :: r) = Some (iri_from_string (p ++ 58 :: r))
  | Some n => exists ns rem, pm_parse_short_iri s (p ++ 58 :: r) = Some (Some (ns, rem)) /\
                             pm_parse_iri s (p ++ 58 :: r) = Some (Some (ns, rem)) /\ ns ++ rem = n ++ r
  end.
Proof. exact short_iri_expands. Qed.
Print Assumptions C22_short_iri_expansion.

Theorem C22_out_of_bounds_refuted : exists s0 c t,
  pm_init ex_rc = Some (s0, c) /\ pm_parse_short_iri s0 t = None /\ pm_parse_iri s0 t = None.
Proof. exact short_iri_counterexample. Qed.
Print Assumptions C22_out_of_bounds_refuted.

(** Missing from the full claim: texts without a colon that are themselves a bound prefix. *)
Theorem C22_no_colon_partial : forall s m t, answers s m -> ~ In 58 t ->
  match m t with
  | None => pm_parse_short_iri s t = Some None /\ pm_parse_iri s t = Some (iri_from_string t)
  | Some _ => pm_parse_short_iri s t = None
  end.
Proof. exact short_iri_no_colon. Qed.
Print Assumptions C22_no_colon_partial.

Example C22_case : exists s0 c, pm_init ex_rc = Some (s0, c) /\
  pm_parse_iri s0 (bs "owl:Thing") = Some (Some (owl_ns, bs "Thing")) /\
  pm_parse_iri s0 (bs "http://ex.org/a") = Some (Some (bs "http://ex.org/", bs "a")).
Proof. exact ex_short. Qed.

(** ** C23 *)

Theorem C23_reserved_prefixes_pinned : forall visit r ops,
  (forall t, Permutation (visit t) t) -> (forall i, r i <> 0) -> Forall keeps ops ->
  exists s0 c s rs, pm_init r = Some (s0, c) /\ pm_run visit s0 ops = Some (s, rs) /\
  forall p n, In (p, n) standard -> get_ns s p = Some None \/ exists v, get_ns s p = Some (Some v) /\ stx v = n.
Proof. exact reserved_pinned. Qed.
Print Assumptions C23_reserved_prefixes_pinned.

(** ** C51 *)

Theorem C51_remove_ns_refuted : exists ops s0 c, pm_init ex_rc = Some (s0, c) /\
  all_calls lawful id_visit s0 ops /\ pm_run id_visit s0 ops = None.
Proof. exact use_after_free_remove_ns. Qed.
Print Assumptions C51_remove_ns_refuted.

Theorem C51_overwrite_refuted : exists ops s0 c, pm_init ex_rc = Some (s0, c) /\
  all_calls lawful id_visit s0 ops /\ pm_run id_visit s0 ops = None /\
  (forall o, In o ops -> match o with PRemoveNs _ => False | _ => True end).
Proof. exact use_after_free_overwrite. Qed.
Print Assumptions C51_overwrite_refuted.

Theorem C51_same_binding_twice_refuted : exists p n s0 c, pm_init ex_rc = Some (s0, c) /\
  all_calls lawful id_visit s0 [PAdd p n false; PRelease n; PAdd p n true] /\
  pm_run id_visit s0 [PAdd p n false; PRelease n; PAdd p n true] = None.
Proof. exact use_after_free_same_ns. Qed.
Print Assumptions C51_same_binding_twice_refuted.

(** Missing from the full claim: overwriting a bound prefix, and removing a namespace whose stored
    string the client does not own. *)
Theorem C51_no_use_after_free_partial : forall visit r ops, (forall t, Permutation (visit t) t) ->
  (forall k v, In (k, v) reserved -> r (sid k) <> 0 /\ r (sid v) <> 0) ->
  exists s0 c, pm_init r = Some (s0, c) /\
  (all_calls fair visit s0 ops -> exists s rs, pm_run visit s0 ops = Some (s, rs)).
Proof. exact safe_history. Qed.
Print Assumptions C51_no_use_after_free_partial.

Example C51_case : forall s0 c, pm_init ex_rc = Some (s0, c) -> all_calls fair id_visit s0 fair_ops.
Proof. exact ex_fair. Qed.
