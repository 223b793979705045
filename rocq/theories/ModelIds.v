(** Entities with identifiers: the library built with COWL_ENTITY_IDS.

    Models src/cowl_entity.c with the parts under "#if COWL_ENTITY_IDS". The heap model (ModelHeap.v) is of
    the default build, where entities have no identifiers. Here objects other than entities are not modelled:
    IRIs are addresses. Simplifications: counts and identifiers are unbounded numbers; a hash table is the
    list of its keys. Allocations may fail: the flags of a call say which. *)

From Coq Require Import NArith List Bool.
From Verif Require Import ModelTypes.
Import ListNotations.
Local Open Scope N_scope.

(** src/cowl_entity_private.h:22-28 struct CowlEntity, and the reference count of its header *)
Record entity := mkEntity { en_type : otype; en_iri : N; en_id : N; en_ref : N }.

(** Live entities by address; the keys of inst_tbl; id_map. src/cowl_entity.c:23-27 *)
Record ids := mkIds { i_heap : list (N * entity); i_tbl : list N; i_map : list N }.

(** The entity at an address; a freed address is undefined behaviour. *)
Fixpoint entity_at (h : list (N * entity)) (a : N) : option entity :=
  match h with [] => None | (b, x) :: h' => if b =? a then Some x else entity_at h' a end.
(** Another value at a live address. *)
Fixpoint entity_set (h : list (N * entity)) (a : N) (x : entity) : list (N * entity) :=
  match h with [] => [] | (b, y) :: h' => if b =? a then (b, x) :: h' else (b, y) :: entity_set h' a x end.
(** ulib_free *)
Fixpoint entity_drop (h : list (N * entity)) (a : N) : list (N * entity) :=
  match h with [] => [] | (b, y) :: h' => if b =? a then h' else (b, y) :: entity_drop h' a end.

(** src/cowl_entity.c:36-39 inst_tbl_eq, searching the keys; a freed key is undefined behaviour *)
Fixpoint tbl_find (h : list (N * entity)) (l : list N) (t : otype) (iri : N) : option (option N) :=
  match l with
  | [] => Some None
  | a :: l' =>
      match entity_at h a with
      | None => None
      | Some x => if (en_iri x =? iri) && otype_eqb (en_type x) t then Some (Some a) else tbl_find h l' t iri
      end
  end.
(** src/cowl_object.c:157-160 cowl_retain and cowl_incr_ref *)
Definition incr_ref (s : ids) (a : N) : option ids :=
  match entity_at (i_heap s) a with
  | None => None
  | Some x => Some (mkIds (entity_set (i_heap s) a (mkEntity (en_type x) (en_iri x) (en_id x) (en_ref x + 1))) (i_tbl s) (i_map s))
  end.
(** src/cowl_entity.c:41-47 cowl_entity_api_init *)
Definition ids_init : ids := mkIds [] [] [].

(** src/cowl_entity.c:58-77 cowl_entity_alloc; [fresh] is the address ulib_alloc returns, NULL if there is
    none; [pushed] says that uvec_push succeeds. The new count is 1, incremented for id_map. *)
Definition entity_alloc (fresh : option N) (pushed : bool) (s : ids) (t : otype) (iri : N) : option N * ids :=
  match fresh with
  | None => (None, s)
  | Some a =>
      if pushed then
        (Some a, mkIds ((a, mkEntity t iri (N.of_nat (List.length (i_map s))) 2) :: i_heap s) (i_tbl s) (i_map s ++ [a]))
      else (None, s)
  end.
(** src/cowl_entity.c:85-106 cowl_entity_get_impl; [put] says that uhash_put succeeds *)
Definition entity_get (put : bool) (fresh : option N) (pushed : bool) (s : ids) (t : otype) (iri : N) : option (option N * ids) :=
  match tbl_find (i_heap s) (i_tbl s) t iri with
  | None => None
  | Some (Some a) => match incr_ref s a with None => None | Some s' => Some (Some a, s') end
  | Some None =>
      if put then
        match entity_alloc fresh pushed s t iri with
        | (Some a, s') => Some (Some a, mkIds (i_heap s') (a :: i_tbl s') (i_map s'))
        | (None, s') => Some (None, s')
        end
      else Some (None, s)
  end.
(** src/cowl_entity.c:79-83 cowl_entity_free *)
Definition entity_free (s : ids) (a : N) : option ids :=
  match entity_at (i_heap s) a with
  | None => None
  | Some x =>
      match tbl_find (i_heap s) (i_tbl s) (en_type x) (en_iri x) with
      | None => None
      | Some k =>
          let tbl := match k with Some b => filter (fun c => negb (c =? b)) (i_tbl s) | None => i_tbl s end in
          Some (mkIds (entity_drop (i_heap s) a) tbl (i_map s))
      end
  end.
(** src/cowl_object.c:171-194 cowl_release of an entity *)
Definition entity_release (s : ids) (a : N) : option ids :=
  match entity_at (i_heap s) a with
  | None => None
  | Some x =>
      if en_ref x =? 1 then entity_free s a
      else Some (mkIds (entity_set (i_heap s) a (mkEntity (en_type x) (en_iri x) (en_id x) (en_ref x - 1))) (i_tbl s) (i_map s))
  end.
(** src/cowl_entity.c:49-57 cowl_entity_api_deinit: the table is emptied first *)
Definition ids_deinit (s : ids) : option ids :=
  match fold_left (fun r a => match r with None => None | Some s => entity_release s a end) (i_map s) (Some (mkIds (i_heap s) [] (i_map s))) with
  | None => None
  | Some s => Some (mkIds (i_heap s) (i_tbl s) [])
  end.

(** src/cowl_entity.c:141-143 cowl_entity_get_id *)
Definition entity_get_id (s : ids) (a : N) : option N := option_map en_id (entity_at (i_heap s) a).
(** src/cowl_entity.c:145-147 cowl_entity_with_id *)
Definition entity_with_id (s : ids) (id : N) : option N :=
  if id <? N.of_nat (List.length (i_map s)) then nth_error (i_map s) (N.to_nat id) else None.

(** What a client does. *)
Inductive iop : Type :=
| IGet (t : otype) (iri : N) (put : bool) (fresh : option N) (pushed : bool)   (* cowl_class, cowl_datatype, ... *)
| IRetain (a : N)                                                             (* cowl_retain *)
| IRelease (a : N).                                                           (* cowl_release *)

(** A call, and the reference it returns. *)
Definition ids_step (s : ids) (op : iop) : option (option N * ids) :=
  match op with
  | IGet t iri put fresh pushed => entity_get put fresh pushed s t iri
  | IRetain a => option_map (fun s => (Some a, s)) (incr_ref s a)
  | IRelease a => option_map (fun s => (None, s)) (entity_release s a)
  end.
