(** What identifiers of entities should be. *)

From Coq Require Import NArith List Bool.
From Verif Require Import ModelTypes ModelIds.
Import ListNotations.
Local Open Scope N_scope.

(** The references a client holds, one entry for each. *)
Fixpoint give_back (a : N) (own : list N) : list N :=
  match own with [] => [] | b :: l => if b =? a then l else b :: give_back a l end.

(** What a client may do when it holds [own]: retain and release entities it holds. The allocator returns an
    address that is not in use. *)
Definition may (s : ids) (own : list N) (op : iop) : Prop :=
  match op with
  | IGet t iri _ fresh _ => type_is_entity t = true /\ (forall a, fresh = Some a -> entity_at (i_heap s) a = None)
  | IRetain a => In a own
  | IRelease a => In a own
  end.
(** What it holds then. *)
Definition holds (own : list N) (op : iop) (result : option N) : list N :=
  match op with
  | IRelease a => give_back a own
  | _ => match result with Some a => a :: own | None => own end
  end.

(** Histories: the calls and what each of them returned, the state, and what the client holds. *)
Inductive history : list (iop * option N) -> ids -> list N -> Prop :=
| h_start : history [] ids_init []
| h_step l s own op r s' : history l s own -> may s own op -> ids_step s op = Some (r, s') ->
    history (l ++ [(op, r)]) s' (holds own op r).

(** [a] is an entity of type [t] with an IRI. *)
Definition is_entity (s : ids) (a : N) (t : otype) (iri : N) : Prop :=
  exists x, entity_at (i_heap s) a = Some x /\ en_type x = t /\ en_iri x = iri.

(** Some call of the history returned [a] for this type and IRI. *)
Definition was_given (l : list (iop * option N)) (t : otype) (iri a : N) : Prop :=
  exists put fresh pushed, In (IGet t iri put fresh pushed, Some a) l.

(** The client goes on. *)
Inductive later : ids -> list N -> ids -> list N -> Prop :=
| l_same s own : later s own s own
| l_step s own s' own' op r s'' : later s own s' own' -> may s' own' op -> ids_step s' op = Some (r, s'') ->
    later s own s'' (holds own' op r).

(** Releases references one after the other. *)
Fixpoint releases (l : list N) (s : ids) : option ids :=
  match l with [] => Some s | a :: l' => match entity_release s a with None => None | Some s' => releases l' s' end end.
