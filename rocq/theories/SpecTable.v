(** Specification of tables: finite maps from objects (up to structural equivalence) to values. *)

From Coq Require Import NArith List Bool.
From Verif Require Import ModelTypes ModelObject ModelTable SpecObject.
Import ListNotations.

(** Two values agree: both absent or structurally equivalent. *)
Definition same_value (v w : option pval) : Prop :=
  match v, w with
  | None, None => True
  | Some x, Some y => seq (pv_obj x) (pv_obj y)
  | _, _ => False
  end.

(** Tables with the same keys, equivalent keys carrying the same value. *)
Definition same_table (a b : table) : Prop :=
  tbl_is_map a = tbl_is_map b /\
  (forall k v, In (k, v) (tbl_entries a) ->
     exists k' w, In (k', w) (tbl_entries b) /\ seq k k' /\ (tbl_is_map a = true -> same_value v w)) /\
  (forall k w, In (k, w) (tbl_entries b) ->
     exists k' v, In (k', v) (tbl_entries a) /\ seq k' k /\ (tbl_is_map a = true -> same_value v w)).

(** An object that can be a key or a value: duplicate-free, not a bare vector. *)
Definition simple (o : obj) : Prop := dup_free o /\ exists i, wt (SOne i) o = true.

(** A table as the hash table library maintains it: no two entries with equivalent keys. *)
Definition proper_table (t : table) : Prop :=
  ForallOrdPairs (fun e f => ~ seq (fst e) (fst f)) (tbl_entries t) /\
  (forall k v, In (k, v) (tbl_entries t) -> simple k) /\
  (forall k v, In (k, Some v) (tbl_entries t) -> simple (pv_obj v)).

(** No value object is in both tables, and every key of the left table has a value. *)
Definition disjoint_values (a b : table) : Prop :=
  (forall k v, In (k, v) (tbl_entries a) -> v <> None) /\
  (forall k v k' w, In (k, Some v) (tbl_entries a) -> In (k', Some w) (tbl_entries b) -> pv_addr v <> pv_addr w).

(** The primitives mentioned by the entries of a table, each key before its value. *)
Inductive entry_occurrences : list (obj * option pval) -> list obj -> Prop :=
| eo_nil : entry_occurrences [] []
| eo_key k es lk l : occurrences k lk -> entry_occurrences es l -> entry_occurrences ((k, None) :: es) (lk ++ l)
| eo_pair k v es lk lv l : occurrences k lk -> occurrences (pv_obj v) lv -> entry_occurrences es l ->
    entry_occurrences ((k, Some v) :: es) (lk ++ lv ++ l).

(** Keys and values are objects the library can build. *)
Definition well_formed_entries (es : list (obj * option pval)) : Prop :=
  forall k v, In (k, v) es -> well_formed k /\ forall p, v = Some p -> well_formed (pv_obj p).
