(** C71: identifiers of entities. Statements use ModelIds.v for the code and SpecIds.v for the histories of a client. *)

From Coq Require Import NArith List Bool.
From Verif Require Import ModelTypes ModelIds SpecIds ProofIds ExamplesIds.
Import ListNotations.
Local Open Scope N_scope.

(** ** C71 *)

(** A client that releases only what it holds never makes the library touch a freed entity, whichever allocations fail. *)
Theorem C71_safe : forall l s own op, history l s own -> may s own op -> exists r s', ids_step s op = Some (r, s').
Proof. exact ids_safe. Qed.
Print Assumptions C71_safe.

(** The identifier of an entity leads back to this entity and no other. *)
Theorem C71_resolve : forall l s own t iri a, history l s own -> is_entity s a t iri ->
  exists id, entity_get_id s a = Some id /\ forall b, entity_with_id s id = Some b <-> b = a.
Proof. exact ids_resolve. Qed.
Print Assumptions C71_resolve.

(** What is found by an identifier is an entity that has it. *)
Theorem C71_found : forall l s own id a, history l s own -> entity_with_id s id = Some a ->
  entity_get_id s a = Some id /\ exists t iri, is_entity s a t iri.
Proof. exact ids_found. Qed.
Print Assumptions C71_found.

(** An entity that was ever returned stays what it is, with its identifier, also after the client has released it. *)
Theorem C71_lasting : forall l s own s' own' t iri a id, history l s own -> later s own s' own' ->
  was_given l t iri a -> entity_get_id s a = Some id -> is_entity s' a t iri /\ entity_get_id s' a = Some id.
Proof. exact ids_lasting. Qed.
Print Assumptions C71_lasting.

(** Asking again for an entity gives the one given before, also after the client has released it, and also if no memory is left. *)
Theorem C71_same : forall l s own t iri a put fresh pushed, history l s own -> was_given l t iri a ->
  may s own (IGet t iri put fresh pushed) -> exists s', ids_step s (IGet t iri put fresh pushed) = Some (Some a, s').
Proof. exact ids_same. Qed.
Print Assumptions C71_same.

(** A new entity gets the next identifier: it is greater than all others, and all smaller ones are in use. *)
Theorem C71_increasing : forall l s own t iri put fresh pushed a s', history l s own -> may s own (IGet t iri put fresh pushed) ->
  ids_step s (IGet t iri put fresh pushed) = Some (Some a, s') -> (forall u, ~ is_entity s a t u) ->
  exists id, entity_get_id s' a = Some id /\ (forall b i, entity_get_id s b = Some i -> i < id) /\
    (forall i, i < id -> exists b, entity_get_id s b = Some i).
Proof. exact ids_increasing. Qed.
Print Assumptions C71_increasing.

(** Shutting down frees the entities that nobody else holds; the others are freed with their last reference. *)
Theorem C71_end : forall l s own, history l s own -> exists s' s'', ids_deinit s = Some s' /\
  (forall a, In a own <-> exists t iri, is_entity s' a t iri) /\ releases own s' = Some s'' /\ i_heap s'' = [].
Proof. exact ids_end. Qed.
Print Assumptions C71_end.

(** Two entities with the same IRI, a failed allocation, and the release of the first entity. *)
Example C71_case : history id_calls id_state [200] /\ entity_get_id id_state 100 = Some 0 /\ entity_with_id id_state 1 = Some 200 /\
  entity_with_id id_state 2 = None /\ was_given id_calls OT_CE_CLASS 7 100.
Proof. exact id_case. Qed.
Example C71_end_case : match ids_deinit id_state with Some s => map fst (i_heap s) = [200] | None => False end.
Proof. reflexivity. Qed.
