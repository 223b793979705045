(** Ontologies: contents, indices, queries, filters, edits.

    Models src/cowl_ontology.c, include/cowl_axiom_filter.h, src/cowl_axiom_filter_private.h and the
    parts of src/cowl_vector.c they use.

    Simplifications. Allocation never fails. A pointer to an object is a [ref]: the identity of the
    allocation and the value of the object. Counts are natural numbers unless a width is given. The
    eight maps [refs[COWL_PT_COUNT]] are one association list: map [i] consists of the entries whose
    key has primitive type [i] (a key is only ever looked up in the map of its own type,
    src/cowl_ontology.c:76-79,467-471,522-526). Keys are compared by content, which for primitives is
    pointer comparison (C11). [axioms_by_type] is an association list; a missing entry is a NULL
    vector. The prefix map of an ontology is modelled in ModelChange.v. *)

From Coq Require Import NArith ZArith List Bool Arith.
From Verif Require Import Bytes ModelTypes ModelObject ModelHeader.
Import ListNotations.
Local Open Scope nat_scope.

(** A pointer to an object: identity of the allocation, value of the object. *)
Record ref := mkRef { r_id : N; r_obj : obj }.

(** Effects on reference counts, in order: src/cowl_object.c:157-160 (retain), 171-194 (release). *)
Inductive ev : Set := Retain (id : N) | Release (id : N).

(** src/cowl_ontology_private.h:23-32 struct CowlOntology. [o_indexing] is the negated flag bit
    (src/cowl_ontology.c:67-73). *)
Record onto := mkOnto {
  o_iri : option ref;
  o_version : option ref;
  o_imports : option (list ref);
  o_annot : option (list ref);
  o_types : list (N * list ref);
  o_refs : list (obj * option (list ref));
  o_indexing : bool
}.

(** src/cowl_ontology.c:36-44 cowl_ontology; 71-73 cowl_ontology_disable_indexing *)
Definition o_empty (indexing : bool) : onto := mkOnto None None None None [] [] indexing.

(** src/cowl_vector.c:107-110 cowl_vector_get_data: a NULL vector reads as an empty one. *)
Definition vec_data (v : option (list ref)) : list ref := match v with Some l => l | None => [] end.
(** include/cowl_vector.h:140-142 cowl_vector_count *)
Definition vec_count (v : option (list ref)) : nat := length (vec_data v).

(** ulib uhash on a primitive map: src/cowl_table.c:37 (HASH_GEN(primitive, map)), keys by identity. *)
Fixpoint map_get (m : list (obj * option (list ref))) (p : obj) : option (option (list ref)) :=
  match m with
  | [] => None
  | (k, v) :: m' => if prim_eqb k p then Some v else map_get m' p
  end.
(** ulib uhmap_set_val on a key known to be present. *)
Fixpoint map_set (m : list (obj * option (list ref))) (p : obj) (v : option (list ref)) : list (obj * option (list ref)) :=
  match m with
  | [] => []
  | (k, w) :: m' => if prim_eqb k p then (k, v) :: m' else (k, w) :: map_set m' p v
  end.

(** src/cowl_ontology.c:75-79 pindex; a missing key reads as NULL *)
Definition pindex (m : list (obj * option (list ref))) (p : obj) : option (list ref) :=
  match map_get m p with Some v => v | None => None end.

(** Entry of an axiom type in [axioms_by_type]. *)
Fixpoint type_get (m : list (N * list ref)) (t : N) : option (list ref) :=
  match m with
  | [] => None
  | (k, v) :: m' => if N.eqb k t then Some v else type_get m' t
  end.
(** Assignment of an entry of [axioms_by_type]. *)
Fixpoint type_set (m : list (N * list ref)) (t : N) (v : list ref) : list (N * list ref) :=
  match m with
  | [] => [(t, v)]
  | (k, w) :: m' => if N.eqb k t then (k, v) :: m' else (k, w) :: type_set m' t v
  end.
(** src/cowl_ontology.c:81-84 tindex *)
Definition tindex (o : onto) (t : N) : option (list ref) := type_get (o_types o) t.

(** include/cowl_axiom.h:54-56 cowl_axiom_get_type *)
Definition ax_type (a : obj) : N := axiom_type_num (get_type a).

(** All axiom types, COWL_AT_FIRST .. COWL_AT_COUNT - 1. *)
Definition all_axiom_types : list N := map N.of_nat (seq 0 37).

(** * Choosing an index *)

(** src/cowl_ontology.c:86-91 struct BestPrimitiveCtx: [None] count stands for ULIB_UINT_MAX, which no
    vector reaches. *)
Record best_ctx := mkBest { b_count : option nat; b_prim : option obj; b_index : option (list ref) }.

(** src/cowl_ontology.c:93-105 best_pindex_foreach *)
Definition best_pindex_foreach (m : list (obj * option (list ref))) (c : best_ctx) (p : obj) : best_ctx * ret :=
  let index := pindex m p in
  let count := vec_count index in
  if match b_count c with None => true | Some n => count <? n end
  then (mkBest (Some count) (Some p) index, COWL_CONTINUE)
  else (c, COWL_CONTINUE).

(** src/cowl_ontology.c:107-114 best_pindex; [None] is undefined behaviour of the iteration. *)
Definition best_pindex (m : list (obj * option (list ref))) (x : obj) : option best_ctx :=
  match iterate_primitives (best_pindex_foreach m) PF_ALL x (mkBest None None None) with
  | IUB => None
  | IRet c _ => Some c
  end.

(** src/cowl_ontology.c:116-120 best_index_between *)
Definition best_index_between (a b : option (list ref)) : option (list ref) :=
  match a, b with
  | None, _ => b
  | _, None => a
  | Some _, Some _ => if vec_count a <? vec_count b then a else b
  end.

(** src/cowl_ontology.c:122-127 best_index, as called: with the type of an axiom. Outer [None]: undefined
    behaviour. *)
Definition best_index (o : onto) (x : obj) (t : N) : option (option (list ref)) :=
  if N.ltb t AT_COUNT then
    match tindex o t with
    | None => Some None
    | Some v =>
        if is_primitive x then Some (best_index_between (pindex (o_refs o) x) (Some v)) else
        match best_pindex (o_refs o) x with
        | None => None
        | Some c => Some (best_index_between (b_index c) (Some v))
        end
    end
  else
    if is_primitive x then Some (pindex (o_refs o) x) else
    match best_pindex (o_refs o) x with None => None | Some c => Some (b_index c) end.

(** * Queries *)

(** ulib_uint arithmetic of the given width. *)
Definition uint (w : N) (n : nat) : N := (N.of_nat n mod 2 ^ w)%N.

(** src/cowl_ontology.c:161-169 cowl_ontology_axiom_count *)
Definition axiom_count (w : N) (o : onto) : N :=
  fold_left (fun c t => (c + N.of_nat (vec_count (tindex o t))) mod 2 ^ w)%N all_axiom_types 0%N.
(** src/cowl_ontology.c:171-173 cowl_ontology_import_count *)
Definition import_count (o : onto) : nat := vec_count (o_imports o).
(** src/cowl_ontology.c:175-177 cowl_ontology_axiom_count_for_type *)
Definition count_for_type (o : onto) (t : N) : nat := vec_count (tindex o t).
(** src/cowl_ontology.c:179-185 cowl_ontology_axiom_count_for_types *)
Definition count_for_types (w : N) (o : onto) (types : N) : option N :=
  match foreach_types types with
  | None => None
  | Some l => Some (fold_left (fun c t => (c + N.of_nat (count_for_type o t)) mod 2 ^ w)%N l 0%N)
  end.
(** src/cowl_ontology.c:187-196 cowl_ontology_axiom_count_for_primitive *)
Definition count_for_primitive (w : N) (o : onto) (p : obj) : N :=
  let count := vec_count (pindex (o_refs o) p) in
  match p with
  | OEnt _ ns rem => uint w (count + vec_count (pindex (o_refs o) (OIri ns rem)))
  | _ => uint w count
  end.
(** Entries of the map of primitive type [i]. *)
Definition refs_of (o : onto) (i : ptype) : list (obj * option (list ref)) :=
  filter (fun e => N.eqb (ptype_num (primitive_get_type (get_type (fst e)))) (ptype_num i)) (o_refs o).
(** src/cowl_ontology.c:198-208 cowl_ontology_primitive_count *)
Definition primitive_count (o : onto) (flags : N) : nat :=
  fold_left (fun c i => if pf_has flags i then c + length (refs_of o i) else c) all_ptypes 0.
(** src/cowl_ontology.c:210-220 cowl_ontology_has_primitive *)
Definition o_has_primitive (o : onto) (p : obj) : bool :=
  match map_get (o_refs o) p with
  | Some _ => true
  | None => match p with
            | OEnt _ ns rem => match map_get (o_refs o) (OIri ns rem) with Some _ => true | None => false end
            | _ => false
            end
  end.
(** include/cowl_vector.h:166-168 cowl_vector_contains (argument order of the equality: see ModelObject.v) *)
Definition vec_contains (l : list ref) (x : obj) : bool := existsb (fun y => cowl_equals x (r_obj y)) l.
(** src/cowl_ontology.c:222-225 cowl_ontology_has_axiom *)
Definition has_axiom (o : onto) (a : ref) : option bool :=
  match best_index o (r_obj a) (ax_type (r_obj a)) with
  | None => None
  | Some None => Some false
  | Some (Some v) => Some (vec_contains v (r_obj a))
  end.
(** src/cowl_ontology.c:485-487 cowl_ontology_has_import *)
Definition has_import (o : onto) (i : ref) : bool :=
  match o_imports o with None => false | Some l => vec_contains l (r_obj i) end.

Section OntologyIteration.
  Context {S : Type}.
  (** include/cowl_iterator.h: a callback with a mutable context. It must not edit the ontology. *)
  Variable call : S -> ref -> S * ret.

  (** include/cowl_iterator.h cowl_iterator_call *)
  Definition ref_call (a : ref) (s : S) : ires S := let (s', r) := call s a in IRet s' r.
  (** src/cowl_ontology.c:227-233 cowl_ontology_iterate_annot *)
  Definition iterate_annot (o : onto) (s : S) : ires S := iter_loop ref_call (vec_data (o_annot o)) s.
  (** src/cowl_ontology.c:235-241 cowl_ontology_iterate_imports *)
  Definition iterate_imports (o : onto) (s : S) : ires S := iter_loop ref_call (vec_data (o_imports o)) s.
  (** src/cowl_ontology.c:265-272 cowl_ontology_iterate_axioms_of_type *)
  Definition iterate_axioms_of_type (o : onto) (t : N) (s : S) : ires S :=
    iter_loop ref_call (vec_data (tindex o t)) s.
  (** src/cowl_ontology.c:255-263 cowl_ontology_iterate_axioms *)
  Definition iterate_axioms (o : onto) (s : S) : ires S :=
    iter_loop (fun t s => iter_loop ref_call (vec_data (tindex o t)) s) all_axiom_types s.
  (** src/cowl_ontology.c:274-281 cowl_ontology_iterate_axioms_of_types *)
  Definition iterate_axioms_of_types (o : onto) (types : N) (s : S) : ires S :=
    match foreach_types types with
    | None => IUB
    | Some l => iter_loop (fun t s => iterate_axioms_of_type o t s) l s
    end.
  (** src/cowl_ontology.c:283-301 cowl_ontology_iterate_axioms_for_primitive *)
  Definition iterate_axioms_for_primitive (o : onto) (p : obj) (s : S) : ires S :=
    match iter_loop ref_call (vec_data (pindex (o_refs o) p)) s with
    | IUB => IUB
    | IRet s' r =>
        if should_stop r then IRet s' r else
        match p with
        | OEnt _ ns rem => iter_loop ref_call (vec_data (pindex (o_refs o) (OIri ns rem))) s'
        | _ => IRet s' COWL_CONTINUE
        end
    end.
End OntologyIteration.

Section OntologyPrimitives.
  Context {S : Type}.
  (** include/cowl_iterator.h: a callback with a mutable context. *)
  Variable call : S -> obj -> S * ret.
  (** Visiting order of a hash map: unspecified by ulib. *)
  Variable visit : list (obj * option (list ref)) -> list (obj * option (list ref)).
  (** Whether a primitive object is still allocated: the maps do not own their keys
      (src/cowl_ontology.c:459-465,497-516 store them without cowl_retain). *)
  Variable alive : obj -> bool.

  (** src/cowl_ontology.c:243-253 cowl_ontology_iterate_primitives; reading a freed key is undefined. *)
  Definition o_iterate_primitives (o : onto) (flags : N) (s : S) : ires S :=
    iter_loop (fun i s =>
      if pf_has flags i then
        iter_loop (fun e s => if alive (fst e) then iterate_primitives call flags (fst e) s else IUB)
          (visit (refs_of o i)) s
      else IRet s COWL_CONTINUE) all_ptypes s.

  (** src/cowl_ontology.c:399-403 iterate_related_foreach_foreach: skip the primitive itself *)
  Definition related_operand (p : obj) (s : S) (op : obj) : S * ret :=
    if prim_eqb p op then (s, COWL_CONTINUE) else call s op.
  (** src/cowl_ontology.c:405-411 iterate_related_foreach *)
  Definition related_axiom (p : obj) (types position : N) (a : ref) (s : S) : ires S :=
    if negb (af_has types (ax_type (r_obj a))) then IRet s COWL_CONTINUE else
    match axiom_has_operand (r_obj a) p PS_ANY with
    | None => IUB
    | Some false => IRet s COWL_CONTINUE
    | Some true => iterate_operands (related_operand p) (r_obj a) position s
    end.
  (** src/cowl_ontology.c:413-425 cowl_ontology_iterate_related *)
  Definition iterate_related (o : onto) (p : obj) (types position : N) (s : S) : ires S :=
    iter_loop (related_axiom p types position) (vec_data (pindex (o_refs o) p)) s.
End OntologyPrimitives.

(** * Filters *)

(** include/cowl_axiom_filter.h:26-38 struct CowlAxiomFilter; the closure is a pure function. *)
Record afilter := mkFilter { f_types : N; f_prims : list obj; f_closure : option (ref -> bool) }.

(** ulib uvec_push_unique; include/cowl_axiom_filter.h:99-105 cowl_axiom_filter_add_primitive *)
Definition filter_add_primitive (f : afilter) (p : obj) : afilter :=
  if existsb (fun q => cowl_equals p q) (f_prims f) then f
  else mkFilter (f_types f) (f_prims f ++ [p]) (f_closure f).
(** ulib uvec_unordered_remove on primitives: include/cowl_axiom_filter.h:113-119
    cowl_axiom_filter_remove_primitive. Simplification: the order of the remaining primitives is kept
    (they are only used as a set). *)
Fixpoint remove_prim (l : list obj) (p : obj) : list obj :=
  match l with [] => [] | q :: l' => if prim_eqb p q then l' else q :: remove_prim l' p end.

(** src/cowl_axiom_filter_private.h:36-41 cowl_axiom_filter_matches_types *)
Definition matches_types (f : afilter) (a : ref) : bool :=
  N.eqb (f_types f) AF_ALL || af_has (f_types f) (ax_type (r_obj a)).
(** src/cowl_axiom_filter_private.h:43-50 cowl_axiom_filter_matches_primitives *)
Fixpoint matches_primitives (l : list obj) (a : ref) : option bool :=
  match l with
  | [] => Some true
  | p :: l' => match has_primitive (r_obj a) p with
               | None => None
               | Some false => Some false
               | Some true => matches_primitives l' a
               end
  end.
(** src/cowl_axiom_filter_private.h:52-56 cowl_axiom_filter_matches_filter *)
Definition matches_closure (f : afilter) (a : ref) : bool :=
  match f_closure f with None => true | Some c => c a end.
(** src/cowl_axiom_filter_private.h:58-64 cowl_axiom_filter_matches *)
Definition filter_matches (f : afilter) (a : ref) : option bool :=
  if matches_types f a then
    match matches_primitives (f_prims f) a with
    | None => None
    | Some false => Some false
    | Some true => Some (matches_closure f a)
    end
  else Some false.

(** src/cowl_ontology.c:303-325 best_pindex_for_filter: the updated filter and the chosen primitive.
    [None]: undefined behaviour. *)
Definition best_pindex_for_filter (w : N) (o : onto) (f : afilter) : option (afilter * option obj) :=
  match best_pindex (o_refs o) (OVec false (f_prims f)) with
  | None => None
  | Some c =>
      let count := vec_count (b_index c) in
      match
        (if Nat.eqb count 0 || af_has_none (f_types f) then Some (AF_NONE, None)
         else if af_has_all (f_types f) then Some (AF_ALL, b_prim c)
         else match count_for_types w o (f_types f) with
              | None => None
              | Some n => Some (f_types f, if N.ltb n (N.of_nat count) then None else b_prim c)
              end)
      with
      | None => None
      | Some (types, None) => Some (mkFilter types (f_prims f) (f_closure f), None)
      | Some (types, Some p) => Some (mkFilter types (remove_prim (f_prims f) p) (f_closure f), Some p)
      end
  end.

Section MatchingIteration.
  Context {S : Type}.
  (** include/cowl_iterator.h: a callback with a mutable context. *)
  Variable call : S -> ref -> S * ret.

  (** src/cowl_ontology.c:332-336 iterate_axioms_matching_foreach; the context remembers undefined
      behaviour of the filter. *)
  Definition matching_foreach (f : afilter) (s : bool * S) (a : ref) : (bool * S) * ret :=
    match filter_matches f a with
    | None => ((true, snd s), COWL_STOP)
    | Some false => (s, COWL_CONTINUE)
    | Some true => let (s', r) := call (snd s) a in ((fst s, s'), r)
    end.
  (** Result of an iteration with [matching_foreach]. *)
  Definition strip (r : ires (bool * S)) : ires S :=
    match r with IUB => IUB | IRet (true, _) _ => IUB | IRet (false, s) c => IRet s c end.

  (** src/cowl_ontology.c:338-390 cowl_ontology_iterate_axioms_matching *)
  Definition iterate_axioms_matching (w : N) (o : onto) (filter : afilter) (s : S) : ires S :=
    match best_pindex_for_filter w o filter with
    | None => IUB
    | Some (f, best) =>
        if N.eqb (f_types f) AF_NONE then IRet s COWL_CONTINUE else
        let check_types := negb (N.eqb (f_types f) AF_ALL) in
        let check_prims := negb (Nat.eqb (length (f_prims f)) 0) in
        let check_filter := match f_closure f with Some _ => true | None => false end in
        match best with
        | Some p =>
            if check_types || check_prims || check_filter then
              strip (iterate_axioms_for_primitive (matching_foreach f) o p (false, s))
            else iterate_axioms_for_primitive call o p s
        | None =>
            let f' := mkFilter AF_ALL (f_prims f) (f_closure f) in
            if negb check_types && negb check_prims && negb check_filter then iterate_axioms call o s
            else if check_types && negb check_prims && negb check_filter then
              iterate_axioms_of_types call o (f_types f) s
            else if check_types then strip (iterate_axioms_of_types (matching_foreach f') o (f_types f) (false, s))
            else strip (iterate_axioms (matching_foreach f') o (false, s))
        end
    end.
End MatchingIteration.

(** * Edits *)

(** src/cowl_ontology.c:427-437 cowl_ontology_set_iri, cowl_ontology_set_version: the field and the effects
    on reference counts (cowl_release(NULL) is a no-op). *)
Definition set_field (old new : option ref) : option ref * list ev :=
  (new, match old with Some r => [Release (r_id r)] | None => [] end ++
        match new with Some r => [Retain (r_id r)] | None => [] end).

(** src/cowl_ontology.c:444-447 vector_ptr_add, src/cowl_vector.c:177-182 cowl_vector_add *)
Definition vector_ptr_add (v : option (list ref)) (x : ref) : option (list ref) * list ev :=
  (Some (vec_data v ++ [x]), [Retain (r_id x)]).
(** ulib uvec_index_of: the first element equal to the argument. *)
Fixpoint first_equal (l : list ref) (x : obj) : option nat :=
  match l with
  | [] => None
  | y :: l' => if cowl_equals x (r_obj y) then Some 0 else option_map S (first_equal l' x)
  end.
(** ulib uvec_remove_at: the order of the others is kept. *)
Definition remove_at (l : list ref) (i : nat) : list ref := firstn i l ++ skipn (S i) l.
(** ulib uvec_unordered_remove_at: the last element takes the place of the removed one. *)
Definition unordered_remove_at (l : list ref) (i : nat) : list ref :=
  match rev l with
  | [] => []
  | z :: r => let l' := rev r in
              if Nat.eqb (S i) (length l) then l' else firstn i l' ++ z :: skipn (S i) l'
  end.
(** src/cowl_vector.c:193-202 cowl_vector_remove: the released object is the argument. *)
Definition vector_remove (ordered : bool) (l : list ref) (x : ref) : list ref * bool * list ev :=
  match first_equal l (r_obj x) with
  | None => (l, false, [])
  | Some i => ((if ordered then remove_at l i else unordered_remove_at l i), true, [Release (r_id x)])
  end.
(** src/cowl_ontology.c:449-457 vector_ptr_remove; the vectors of an ontology are ordered (445,506). *)
Definition vector_ptr_remove (v : option (list ref)) (x : ref) : option (list ref) * bool * list ev :=
  match v with
  | None => (None, false, [])
  | Some l =>
      let '(l', removed, log) := vector_remove true l x in
      ((if removed && Nat.eqb (length l') 0 then None else Some l'), removed, log)
  end.

(** src/cowl_ontology.c:459-465 add_primitive_to_map, 467-471 add_annot_foreach *)
Definition add_annot_foreach (m : list (obj * option (list ref))) (p : obj) : list (obj * option (list ref)) * ret :=
  (match map_get m p with Some _ => m | None => m ++ [(p, None)] end, COWL_OK).
(** src/cowl_ontology.c:497-516 add_axiom_to_map, 522-526 index_axiom_foreach; the vector does not retain
    (cowl_vector_push, src/cowl_vector.c:184-191) *)
Definition index_axiom_foreach (a : ref) (m : list (obj * option (list ref))) (p : obj)
  : list (obj * option (list ref)) * ret :=
  (match map_get m p with
   | None => m ++ [(p, Some [a])]
   | Some v => map_set m p (Some (vec_data v ++ [a]))
   end, COWL_OK).
(** src/cowl_ontology.c:534-540 cowl_ontology_add_axiom, 518-520 add_axiom, 528-532 index_axiom.
    [None]: undefined behaviour. *)
Definition add_axiom (o : onto) (a : ref) : option (onto * list ev) :=
  let t := ax_type (r_obj a) in
  let types := type_set (o_types o) t (vec_data (tindex o t) ++ [a]) in
  if o_indexing o then
    match iterate_primitives (index_axiom_foreach a) PF_ALL (r_obj a) (o_refs o) with
    | IUB => None
    | IRet m _ =>
        Some (mkOnto (o_iri o) (o_version o) (o_imports o) (o_annot o) types m (o_indexing o), [Retain (r_id a)])
    end
  else Some (mkOnto (o_iri o) (o_version o) (o_imports o) (o_annot o) types (o_refs o) (o_indexing o), [Retain (r_id a)]).

(** src/cowl_ontology.c:473-479 cowl_ontology_add_annot. [None]: undefined behaviour. *)
Definition add_annot (o : onto) (a : ref) : option (onto * list ev) :=
  match iterate_primitives add_annot_foreach PF_ALL (r_obj a) (o_refs o) with
  | IUB => None
  | IRet m _ =>
      let (v, l) := vector_ptr_add (o_annot o) a in
      Some (mkOnto (o_iri o) (o_version o) (o_imports o) v (o_types o) m (o_indexing o), l)
  end.

(** Index of the last element with the given identity: the reverse loops of
    src/cowl_ontology.c:545-551,558-563. *)
Fixpoint last_index (l : list ref) (id : N) : option nat :=
  match l with
  | [] => None
  | y :: l' => match last_index l' id with
               | Some i => Some (S i)
               | None => if N.eqb (r_id y) id then Some 0 else None
               end
  end.
(** src/cowl_ontology.c:545-551 and 558-563: removes the last occurrence of a pointer. *)
Definition remove_ptr (l : list ref) (id : N) : list ref :=
  match last_index l id with Some i => unordered_remove_at l i | None => l end.
(** src/cowl_ontology.c:542-552 remove_axiom_from_map, 566-571 unindex_axiom_foreach *)
Definition unindex_foreach (id : N) (m : list (obj * option (list ref))) (p : obj)
  : list (obj * option (list ref)) * ret :=
  (match pindex m p with None => m | Some v => map_set m p (Some (remove_ptr v id)) end, COWL_CONTINUE).
(** src/cowl_ontology.c:554-564 remove_axiom, 573-577 unindex_axiom, 579-583 remove_and_unindex. [None]:
    undefined behaviour (the vector of the axiom's type is NULL, or the iteration). *)
Definition remove_and_unindex (o : onto) (a : ref) : option (onto * list ev) :=
  let t := ax_type (r_obj a) in
  match tindex o t with
  | None => None
  | Some v =>
      match iterate_primitives (unindex_foreach (r_id a)) PF_ALL (r_obj a) (o_refs o) with
      | IUB => None
      | IRet m _ =>
          Some (mkOnto (o_iri o) (o_version o) (o_imports o) (o_annot o)
                  (type_set (o_types o) t (remove_ptr v (r_id a))) m (o_indexing o),
                [Release (r_id a)])
      end
  end.
(** src/cowl_ontology.c:585-597 cowl_ontology_remove_axiom *)
Definition remove_axiom (o : onto) (a : ref) : option (onto * bool * list ev) :=
  match best_index o (r_obj a) (ax_type (r_obj a)) with
  | None => None
  | Some None => Some (o, false, [])
  | Some (Some v) =>
      if existsb (fun y => cowl_equals (r_obj a) (r_obj y)) (rev v) then
        match remove_and_unindex o a with
        | None => None
        | Some (o', l) => Some (o', true, l)
        end
      else Some (o, false, [])
  end.

(** The vector scanned by src/cowl_ontology.c:599-609: a primitive's or a type's. *)
Inductive handle : Type := HPrim (p : obj) | HType (t : N).
(** Current contents of that vector. *)
Definition h_vec (o : onto) (h : handle) : option (list ref) :=
  match h with HPrim p => pindex (o_refs o) p | HType t => tindex o t end.
(** src/cowl_ontology.c:602-607: the reverse loop; [i] elements are left. Reading an index that is not
    below the current count is undefined behaviour. *)
Fixpoint remove_loop (h : handle) (f : afilter) (i : nat) (o : onto) (count : nat) (log : list ev)
  : option (onto * nat * list ev) :=
  match i with
  | O => Some (o, count, log)
  | S i' =>
      match nth_error (vec_data (h_vec o h)) i' with
      | None => None
      | Some a =>
          match filter_matches f a with
          | None => None
          | Some false => remove_loop h f i' o count log
          | Some true =>
              match remove_and_unindex o a with
              | None => None
              | Some (o', l) => remove_loop h f i' o' (S count) (log ++ l)
              end
          end
      end
  end.
(** src/cowl_ontology.c:599-609 remove_matching *)
Definition remove_matching (o : onto) (h : handle) (f : afilter) : option (onto * nat * list ev) :=
  match h_vec o h with
  | None => Some (o, 0, [])
  | Some v => remove_loop h f (length v) o 0 []
  end.
(** src/cowl_ontology.c:624-629: the loop over the types of the filter *)
Fixpoint remove_types (l : list N) (f : afilter) (o : onto) (count : nat) (log : list ev)
  : option (onto * nat * list ev) :=
  match l with
  | [] => Some (o, count, log)
  | t :: l' =>
      match remove_matching o (HType t) f with
      | None => None
      | Some (o', c, lg) => remove_types l' f o' (count + c) (log ++ lg)
      end
  end.
(** src/cowl_ontology.c:611-633 cowl_ontology_remove_axioms_matching *)
Definition remove_axioms_matching (w : N) (o : onto) (filter : afilter) : option (onto * nat * list ev) :=
  if N.eqb (f_types filter) AF_NONE then Some (o, 0, []) else
  match best_pindex_for_filter w o filter with
  | None => None
  | Some (f, Some p) => remove_matching o (HPrim p) f
  | Some (f, None) =>
      match foreach_types (f_types f) with
      | None => None
      | Some l => remove_types l (mkFilter AF_ALL (f_prims f) (f_closure f)) o 0 []
      end
  end.

(** src/cowl_ontology.c:47-66 cowl_ontology_free, src/cowl_vector.c:87-99: releases in order. Simplification:
    nobody else holds the vectors, so releasing a vector releases its elements. *)
Definition o_free (o : onto) : list ev :=
  let rel l := map (fun a => Release (r_id a)) l in
  rel (match o_iri o with Some i => [i] | None => [] end) ++
  rel (match o_version o with Some i => [i] | None => [] end) ++
  rel (vec_data (o_imports o)) ++ rel (vec_data (o_annot o)) ++
  flat_map (fun t => rel (vec_data (tindex o t))) all_axiom_types.

(** * Histories *)

(** The edits a client can make. *)
Inductive edit : Type :=
| EAddAxiom (a : ref)
| ERemoveAxiom (a : ref)
| ERemoveMatching (f : afilter)
| EAddAnnot (a : ref)
| ERemoveAnnot (a : ref)
| EAddImport (i : ref)
| ERemoveImport (i : ref)
| ESetIri (i : option ref)
| ESetVersion (i : option ref).

(** One edit: new state, returned number (0/1 for booleans and for success), effects on reference counts.
    src/cowl_ontology.c:427-437,473-495,534-540,585-597,611-633 *)
Definition o_step (w : N) (o : onto) (e : edit) : option (onto * nat * list ev) :=
  match e with
  | EAddAxiom a => match add_axiom o a with None => None | Some (o', l) => Some (o', 0, l) end
  | ERemoveAxiom a => match remove_axiom o a with
                      | None => None
                      | Some (o', b, l) => Some (o', if b then 1 else 0, l)
                      end
  | ERemoveMatching f => remove_axioms_matching w o f
  | EAddAnnot a => match add_annot o a with None => None | Some (o', l) => Some (o', 0, l) end
  | ERemoveAnnot a =>
      let '(v, b, l) := vector_ptr_remove (o_annot o) a in
      Some (mkOnto (o_iri o) (o_version o) (o_imports o) v (o_types o) (o_refs o) (o_indexing o),
            if b then 1 else 0, l)
  | EAddImport i =>
      let (v, l) := vector_ptr_add (o_imports o) i in
      Some (mkOnto (o_iri o) (o_version o) v (o_annot o) (o_types o) (o_refs o) (o_indexing o), 0, l)
  | ERemoveImport i =>
      let '(v, b, l) := vector_ptr_remove (o_imports o) i in
      Some (mkOnto (o_iri o) (o_version o) v (o_annot o) (o_types o) (o_refs o) (o_indexing o),
            if b then 1 else 0, l)
  | ESetIri i =>
      let (v, l) := set_field (o_iri o) i in
      Some (mkOnto v (o_version o) (o_imports o) (o_annot o) (o_types o) (o_refs o) (o_indexing o), 0, l)
  | ESetVersion i =>
      let (v, l) := set_field (o_version o) i in
      Some (mkOnto (o_iri o) v (o_imports o) (o_annot o) (o_types o) (o_refs o) (o_indexing o), 0, l)
  end.

(** A history: final state, returned numbers in order, accumulated effects. *)
Fixpoint o_run (w : N) (o : onto) (es : list edit) : option (onto * list nat * list ev) :=
  match es with
  | [] => Some (o, [], [])
  | e :: es' =>
      match o_step w o e with
      | None => None
      | Some (o', r, l) =>
          match o_run w o' es' with
          | None => None
          | Some (o'', rs, ls) => Some (o'', r :: rs, l ++ ls)
          end
      end
  end.
