(** Specification of prefix maps: a finite map from prefixes to namespaces. *)

From Coq Require Import NArith ZArith List Bool String.
From Verif Require Import Bytes ModelTypes ModelObject ModelText ModelPrefixMap.
Import ListNotations.
Local Open Scope N_scope.

(** The four reserved prefixes and the namespaces they are pinned to. *)
Definition standard : list (bytes * bytes) :=
  [(bs "owl", bs "http://www.w3.org/2002/07/owl#");
   (bs "rdf", bs "http://www.w3.org/1999/02/22-rdf-syntax-ns#");
   (bs "rdfs", bs "http://www.w3.org/2000/01/rdf-schema#");
   (bs "xsd", bs "http://www.w3.org/2001/XMLSchema#")].

(** Abstract prefix map. *)
Definition amap := bytes -> option bytes.

(** The namespace a prefix really gets when asked to be bound to [n]. *)
Definition pinned_ns (p n n' : bytes) : Prop :=
  In (p, n') standard \/ ((forall x, ~ In (p, x) standard) /\ n' = n).

(** [m'] results from asking [m] to bind [p] to [n]; [changed] tells whether it did. *)
Definition a_add (m : amap) (p n : bytes) (overwrite : bool) (m' : amap) (changed : bool) : Prop :=
  (forall q, q <> p -> m' q = m q) /\
  match m p with
  | Some old =>
      if overwrite then changed = true /\ exists n', pinned_ns p n n' /\ m' p = Some n'
      else changed = false /\ m' p = Some old
  | None => changed = true /\ exists n', pinned_ns p n n' /\ m' p = Some n'
  end.

(** All bindings of a source map are added, in any order. *)
Definition a_merge (m : amap) (src : list (bytes * bytes)) (overwrite : bool) (m' : amap) (changed : bool) : Prop :=
  (forall p, (forall n, ~ In (p, n) src) -> m' p = m p) /\
  (forall p n, In (p, n) src ->
     if overwrite then exists n', pinned_ns p n n' /\ m' p = Some n'
     else match m p with
          | Some old => m' p = Some old
          | None => exists n', pinned_ns p n n' /\ m' p = Some n'
          end) /\
  (changed = true <-> exists p n, In (p, n) src /\ (overwrite = true \/ m p = None)).

(** Effect of one call on the abstract map, with the code it returns. *)
Definition a_step (m : amap) (o : pop) (m' : amap) (r : ret) : Prop :=
  match o with
  | PAdd p n ow => exists b, a_add m (stx p) (stx n) ow m' b /\ r = (if b then COWL_OK else COWL_NO)
  | PRemovePrefix p =>
      m' p = None /\ (forall q, q <> p -> m' q = m q) /\
      (r = COWL_OK /\ m p <> None \/ r = COWL_NO /\ m p = None)
  | PRemoveNs n =>
      (forall q, m q = Some (stx n) -> m' q = None) /\ (forall q, m q <> Some (stx n) -> m' q = m q) /\
      (r = COWL_OK /\ (exists q, m q = Some (stx n)) \/ r = COWL_NO /\ (forall q, m q <> Some (stx n)))
  | PMerge src ow => exists b, a_merge m (map (fun e => (stx (fst e), stx (snd e))) src) ow m' b /\
                               r = (if b then COWL_OK else COWL_NO)
  | PGetPrefix _ | PRelease _ => (forall q, m' q = m q) /\ r = COWL_OK
  end.

Inductive a_run : amap -> list pop -> amap -> list ret -> Prop :=
| a_run_nil m m' : (forall q, m' q = m q) -> a_run m [] m' []
| a_run_cons m o m1 r ops m' rs : a_step m o m1 r -> a_run m1 ops m' rs -> a_run m (o :: ops) m' (r :: rs).

(** A freshly created map. *)
Definition a_init : amap := fun p =>
  match find (fun e => bytes_eqb (fst e) p) standard with Some e => Some (snd e) | None => None end.

(** What the concrete map answers. *)
Definition answers (s : pst) (m : amap) : Prop :=
  forall p, exists r, get_ns s p = Some r /\ option_map stx r = m p.

(** * Discipline of the client *)

(** Number of references the forward table holds on a string. *)
Fixpoint held (t : tbl) (i : N) : N :=
  match t with
  | [] => 0
  | (k, v) :: t' => (if sid k =? i then 1 else 0) + (if sid v =? i then 1 else 0) + held t' i
  end.

(** The client keeps a reference of its own on every string. *)
Definition client_keeps_all (s : pst) : Prop := forall i, held (fwd s) i < rc s i.

(** No look-up table contains two entries for the same key. *)
Definition distinct_keys (t : tbl) : Prop := ForallOrdPairs (fun e f => stx (fst e) <> stx (fst f)) t.

(** A call that never gives up a client reference; the tables passed in are maps. *)
Definition keeps (o : pop) : Prop :=
  match o with PRelease _ => False | PMerge src _ => distinct_keys src | _ => True end.

(** A call that does not bind an already bound prefix to a different namespace. *)
Definition no_rebind (s : pst) (p n : str) (overwrite : bool) : Prop :=
  overwrite = true -> forall old, get_ns s (stx p) = Some (Some old) -> pinned_ns (stx p) (stx n) (stx old).
Definition quiet (s : pst) (o : pop) : Prop :=
  match o with
  | PAdd p n ow => no_rebind s p n ow
  | PMerge src ow => forall k v, In (k, v) src -> no_rebind s k v ow
  | _ => True
  end.

(** A call that only adds bindings. *)
Definition adds (o : pop) : Prop := match o with PAdd _ _ _ | PMerge _ _ => True | _ => False end.

(** What a reverse look-up should answer. *)
Definition shortest_prefix (m : amap) (n : bytes) (p : option bytes) : Prop :=
  match p with
  | Some p => m p = Some n /\ forall q, m q = Some n -> (List.length p <= List.length q)%nat
  | None => forall q, m q <> Some n
  end.

(** * Ownership, for clients that do give back their references *)

(** The client owns a reference to the string. *)
Definition client_owns (s : pst) (x : str) : Prop := held (fwd s) (sid x) < rc s (sid x).

(** The string [n] is the interned one: no other string object in the map has the same text. *)
Definition interned_in (t : tbl) (n : str) : Prop := forall k v, In (k, v) t -> stx v = stx n -> v = n.

(** Calls whose strings are alive and interned, that bind no bound prefix, and that give back only
    owned references. Removing a namespace additionally needs the client to own both its argument
    and the stored namespace string. *)
Definition fair (s : pst) (o : pop) : Prop :=
  match o with
  | PAdd p n ow =>
      rc s (sid p) <> 0 /\ rc s (sid (intern_ns p n)) <> 0 /\ interned_in (fwd s) (intern_ns p n) /\
      (ow = false \/ get_ns s (stx p) = Some None)
  | PRemovePrefix _ | PGetPrefix _ => True
  | PRemoveNs n => client_owns s n /\ forall k v, In (k, v) (fwd s) -> stx v = stx n -> client_owns s v
  | PMerge src ow =>
      ow = false /\ forall k v, In (k, v) src ->
        rc s (sid k) <> 0 /\ rc s (sid (intern_ns k v)) <> 0 /\ interned_in (fwd s) (intern_ns k v) /\
        forall k' v', In (k', v') src -> stx (intern_ns k' v') = stx (intern_ns k v) -> intern_ns k' v' = intern_ns k v
  | PRelease x => client_owns s x
  end.

(** Calls that respect reference counting: arguments are owned (or, for the namespace, what interning
    returned: alive and the only string with its text), and only owned references are given back. *)
Definition lawful (s : pst) (o : pop) : Prop :=
  match o with
  | PAdd p n _ => client_owns s p /\ rc s (sid (intern_ns p n)) <> 0 /\ interned_in (fwd s) (intern_ns p n)
  | PRemovePrefix _ | PGetPrefix _ => True
  | PRemoveNs n => client_owns s n
  | PMerge src _ => forall k v, In (k, v) src -> client_owns s k /\ client_owns s v
  | PRelease x => client_owns s x
  end.

(** Every call of the history satisfies [P] in the state it is made in. *)
Inductive all_calls (P : pst -> pop -> Prop) (visit : tbl -> tbl) : pst -> list pop -> Prop :=
| all_nil s : all_calls P visit s []
| all_cons s o ops : P s o -> (forall s' r, pm_step visit s o = Some (s', r) -> all_calls P visit s' ops) ->
    all_calls P visit s (o :: ops).
