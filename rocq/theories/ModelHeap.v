(** Objects in memory: reference counts, ownership, interning.

    Models src/cowl_object_private.h, the memory side of src/cowl_object.c, src/cowl_string.c,
    src/cowl_iri.c, src/cowl_entity.c, src/cowl_anon_ind.c, src/cowl_literal.c and src/cowl_vector.c, the
    composite constructors of include/*.h, and library start and stop (src/cowl_config.c,
    src/cowl_vocab.c and the vocabularies).

    An object is a cell at an address: its header word (ModelHeader.v) and what it points to. The
    allocator may return any address that is not in use, so freed addresses can be reused. Touching an
    address that holds no object, freeing it, dereferencing NULL, reading an object as if it were of
    another type and reading past its fields are errors.

    Simplifications. Allocation never fails. Texts are stored in the string object itself; the memory of
    the raw string is not modelled. Tables, prefix maps, readers and writers are not modelled here; an
    ontology has no prefix map of its own. COWL_ENTITY_IDS is off (the default, CMakeLists.txt:36). *)

From Coq Require Import NArith List Bool Arith String.
From Verif Require Import Bytes ModelTypes ModelObject ModelHeader ModelText.
Import ListNotations.
Local Open Scope N_scope.

(** * Memory *)

(** One field of a composite object, src/cowl_object_private.h:24-30: a pointer or a number. *)
Inductive slot : Set := Obj (a : N) | UInt (n : N).

(** src/cowl_ontology_private.h:23-32 struct CowlOntology without the prefix map. The vectors of imports
    and axioms and those of the index belong to the ontology alone and are part of it here; NULL and the
    empty vector are not told apart. The index [n_refs], one table for all types of primitives, does not
    own its keys or axioms; [None] is a NULL vector. *)
Record onto : Type := mkOnto {
  n_iri : option N;
  n_version : option N;
  n_imports : list N;
  n_annot : option N;
  n_axioms : list (otype * list N);
  n_refs : list (N * option (list N))
}.

(** What follows the header of an object. *)
Inductive body : Type :=
| BStr (text : bytes)          (* src/cowl_string_private.h:17-22 struct CowlString *)
| BVec (items : list N)        (* src/cowl_vector_private.h struct CowlVector *)
| BIri (ns rem : N)            (* src/cowl_iri_private.h struct CowlIRI *)
| BEnt (iri : N)               (* src/cowl_entity_private.h struct CowlEntity *)
| BAnon (id : N)               (* src/cowl_anon_ind_private.h struct CowlAnonInd *)
| BComp (fields : list slot)   (* src/cowl_object_private.h:24-30 struct CowlComposite *)
| BOnto (o : onto).            (* src/cowl_ontology_private.h struct CowlOntology *)

(** An object in memory. *)
Record cell := mkCell { c_hdr : N; c_body : body }.

(** The objects in memory by address. *)
Definition heap := list (N * cell).

(** The object at an address. *)
Fixpoint lookup {A : Type} (h : list (N * A)) (a : N) : option A :=
  match h with
  | [] => None
  | (b, c) :: h' => if b =? a then Some c else lookup h' a
  end.
(** Overwrites the object at an address. *)
Fixpoint store {A : Type} (h : list (N * A)) (a : N) (c : A) : list (N * A) :=
  match h with
  | [] => []
  | (b, d) :: h' => if b =? a then (b, c) :: h' else (b, d) :: store h' a c
  end.
(** Frees an address. *)
Fixpoint drop {A : Type} (h : list (N * A)) (a : N) : list (N * A) :=
  match h with
  | [] => []
  | (b, d) :: h' => if b =? a then h' else (b, d) :: drop h' a
  end.

(** Memory and the instance tables: [inst_tbl] of src/cowl_string.c:21, src/cowl_iri.c:25,
    src/cowl_entity.c:23 and src/cowl_anon_ind.c:24. A table is the list of the addresses in it. [s_n]
    counts allocations. *)
Record state := mkState {
  s_heap : heap;
  s_str : list N;
  s_iri : list N;
  s_ent : list N;
  s_ano : list N;
  s_n : N
}.

(** What can go wrong. *)
Inductive err : Set :=
| EFreed     (* access to an address that holds no object *)
| ENull      (* NULL dereference *)
| EKind      (* object of the wrong type *)
| EBounds    (* field index out of range *)
| EStuck.    (* recursion bound of the model reached *)

(** Result of a C function: a value and the new memory, or an error. *)
Inductive res (A : Type) : Type :=
| Ok (x : A) (s : state)
| Err (e : err).
Arguments Ok {A}.
Arguments Err {A}.

(** A C function as an action on memory. *)
Definition act (A : Type) := state -> res A.
(** Returns a value. *)
Definition ret {A} (x : A) : act A := fun s => Ok x s.
(** Fails. *)
Definition fail {A} (e : err) : act A := fun _ => Err e.
(** Runs two actions in sequence. *)
Definition bind {A B} (m : act A) (k : A -> act B) : act B :=
  fun s => match m s with Ok x s' => k x s' | Err e => Err e end.

Declare Scope act_scope.
Delimit Scope act_scope with act.
Notation "x <- m ;; k" := (bind m (fun x => k)) (at level 61, m at next level, right associativity) : act_scope.
Notation "m ;; k" := (bind m (fun _ => k)) (at level 61, right associativity) : act_scope.
Local Open Scope act_scope.

(** Runs an action on every element of a list, in order. *)
Fixpoint each {A} (f : A -> act unit) (l : list A) : act unit :=
  match l with
  | [] => ret tt
  | x :: l' => f x ;; each f l'
  end.
(** Runs an action on every element of a list, in order, and collects the results. *)
Fixpoint mapm {A B} (f : A -> act B) (l : list A) : act (list B) :=
  match l with
  | [] => ret []
  | x :: l' => y <- f x ;; ys <- mapm f l' ;; ret (y :: ys)
  end.

(** Replaces the memory. *)
Definition with_heap (s : state) (h : heap) : state := mkState h (s_str s) (s_iri s) (s_ent s) (s_ano s) (s_n s).

(** Dereferences a pointer. *)
Definition read (a : N) : act cell :=
  fun s => match lookup (s_heap s) a with Some c => Ok c s | None => Err EFreed end.
(** Writes through a pointer. *)
Definition write (a : N) (c : cell) : act unit :=
  fun s => match lookup (s_heap s) a with
           | Some _ => Ok tt (with_heap s (store (s_heap s) a c))
           | None => Err EFreed
           end.
(** ulib_free *)
Definition free (a : N) : act unit :=
  fun s => match lookup (s_heap s) a with
           | Some _ => Ok tt (with_heap s (drop (s_heap s) a))
           | None => Err EFreed
           end.
(** A pointer that must not be NULL. *)
Definition nonnull (p : option N) : act N := match p with Some a => ret a | None => fail ENull end.

(** The instance tables. *)
Inductive table_id : Set := TStr | TIri | TEnt | TAno.
(** Contents of an instance table. *)
Definition table (t : table_id) (s : state) : list N :=
  match t with TStr => s_str s | TIri => s_iri s | TEnt => s_ent s | TAno => s_ano s end.
(** Replaces the contents of an instance table. *)
Definition set_table (t : table_id) (l : list N) (s : state) : state :=
  match t with
  | TStr => mkState (s_heap s) l (s_iri s) (s_ent s) (s_ano s) (s_n s)
  | TIri => mkState (s_heap s) (s_str s) l (s_ent s) (s_ano s) (s_n s)
  | TEnt => mkState (s_heap s) (s_str s) (s_iri s) l (s_ano s) (s_n s)
  | TAno => mkState (s_heap s) (s_str s) (s_iri s) (s_ent s) l (s_n s)
  end.
(** ulib uhash_put on a key not in the table, followed by uhash_set_key. *)
Definition table_add (t : table_id) (a : N) : act unit := fun s => Ok tt (set_table t (a :: table t s) s).
(** ulib uhash_delete *)
Definition table_del (t : table_id) (a : N) : act unit :=
  fun s => Ok tt (set_table t (List.remove N.eq_dec a (table t s)) s).
(** The search of uhash_put, uhash_get and uhset_remove: the first key that compares equal. The model
    compares with every key in some order, a hash table only with those of the same bucket; comparing
    reads the key. *)
Fixpoint find_key (eq : N -> act bool) (keys : list N) : act (option N) :=
  match keys with
  | [] => ret None
  | k :: keys' => b <- eq k ;; if b then ret (Some k) else find_key eq keys'
  end.
(** Search in a table. *)
Definition table_find (t : table_id) (eq : N -> act bool) : act (option N) :=
  fun s => find_key eq (table t s) s.
(** ulib uhset_remove: removes the key that compares equal, if any. *)
Definition table_remove (t : table_id) (eq : N -> act bool) : act unit :=
  k <- table_find t eq ;; match k with Some a => table_del t a | None => ret tt end.

(** Layout of the library's own objects: [empty] of src/cowl_string.c:22 and the vocabulary objects the
    constructors use. *)
Record env := mkEnv {
  e_empty : N;
  e_thing : N;          (* cowl_owl_vocab()->cls.thing *)
  e_literal : N;        (* cowl_rdfs_vocab()->dt.literal *)
  e_lang_string : N;    (* cowl_rdf_vocab()->dt.lang_string *)
  e_plain_literal : N;  (* cowl_rdf_vocab()->dt.plain_literal *)
  e_string : N          (* cowl_xsd_vocab()->dt.string *)
}.

Section Heap.

(** Width of the header word (ModelHeader.v). *)
Variable huge : bool.
(** The allocator: address chosen by the n-th allocation, given the memory at that time. *)
Variable fresh : N -> heap -> N.

(** * src/cowl_object_private.h, src/cowl_object_flags.h *)

(** src/cowl_object_private.h:37-40 cowl_get_ref, on an object *)
Definition ref_of (c : cell) : N := hd_get_ref huge (c_hdr c).
(** src/cowl_object_flags.h:63-64 cowl_object_flags_get_type, on an object *)
Definition type_of (c : cell) : option otype := otype_of_num (hd_get_type huge (c_hdr c)).
(** src/cowl_object_private.h:53-56 cowl_get_bit, on an object *)
Definition bit_of (c : cell) : bool := hd_get_bit huge (c_hdr c).

(** src/cowl_object_private.h:42-45 cowl_incr_ref *)
Definition incr_ref (a : N) : act unit :=
  c <- read a ;; write a (mkCell (hd_incr huge (c_hdr c)) (c_body c)).
(** src/cowl_object_private.h:47-51 cowl_decr_ref: the new count *)
Definition decr_ref (a : N) : act N :=
  c <- read a ;; write a (mkCell (hd_decr huge (c_hdr c)) (c_body c)) ;;
  c' <- read a ;; ret (ref_of c').
(** src/cowl_object_private.h:53-56 cowl_get_bit *)
Definition get_bit (a : N) : act bool := c <- read a ;; ret (bit_of c).
(** src/cowl_object_private.h:58-61 cowl_set_bit *)
Definition set_bit (a : N) : act unit :=
  c <- read a ;; write a (mkCell (hd_set_bit huge (c_hdr c)) (c_body c)).
(** src/cowl_object.c:196-198 cowl_get_type; [None] for a number that is no object type *)
Definition get_type_at (a : N) : act (option otype) := c <- read a ;; ret (type_of c).

(** src/cowl_object.c:157-160 cowl_retain *)
Definition retain (p : option N) : act N := a <- nonnull p ;; incr_ref a ;; ret a.

(** ulib_alloc followed by the assignment of a new object; COWL_OBJECT_BIT_INIT of
    src/cowl_object_private.h:32-34. *)
Definition alloc (t : otype) (bit : bool) (b : body) : act N :=
  fun s => let a := fresh (s_n s) (s_heap s) in
           Ok a (mkState ((a, mkCell (hd_init huge (otype_num t) bit) b) :: s_heap s)
                         (s_str s) (s_iri s) (s_ent s) (s_ano s) (s_n s + 1)).

(** * Reading objects *)

(** string->raw_string *)
Definition text_at (a : N) : act bytes :=
  c <- read a ;; match c_body c with BStr t => ret t | _ => fail EKind end.
(** src/cowl_iri.c:160-166 cowl_iri_get_ns, cowl_iri_get_rem *)
Definition iri_at (a : N) : act (N * N) :=
  c <- read a ;; match c_body c with BIri ns rem => ret (ns, rem) | _ => fail EKind end.
(** src/cowl_entity.c:131-133 cowl_entity_get_iri *)
Definition ent_iri_at (a : N) : act N :=
  c <- read a ;; match c_body c with BEnt i => ret i | _ => fail EKind end.
(** src/cowl_anon_ind.c:136-138 cowl_anon_ind_get_id *)
Definition anon_id_at (a : N) : act N :=
  c <- read a ;; match c_body c with BAnon i => ret i | _ => fail EKind end.
(** vec->data *)
Definition items_at (a : N) : act (list N) :=
  c <- read a ;; match c_body c with BVec l => ret l | _ => fail EKind end.
(** The fields of an object cast to CowlComposite. *)
Definition fields_at (a : N) : act (list slot) :=
  c <- read a ;; match c_body c with BComp l => ret l | _ => fail EKind end.
(** The members of a CowlOntology. *)
Definition onto_at (a : N) : act onto :=
  c <- read a ;; match c_body c with BOnto o => ret o | _ => fail EKind end.
(** A pointer that may be NULL. *)
Definition opt_list (p : option N) : list N := match p with Some a => [a] | None => [] end.

(** The first [n] fields read as pointers: [fields[i].obj]. *)
Fixpoint pointers (n : nat) (l : list slot) : act (list N) :=
  match n, l with
  | O, _ => ret []
  | S n', Obj a :: l' => r <- pointers n' l' ;; ret (a :: r)
  | S n', UInt _ :: l' => fail EKind
  | S n', [] => fail EBounds
  end.

(** * Key comparison of the instance tables *)

(** src/cowl_string.c:227-229 cowl_string_equals. Equal texts have equal hashes, so the comparison of
    the hashes changes nothing. *)
Definition str_eq (t : bytes) (k : N) : act bool := u <- text_at k ;; ret (bytes_eqb u t).
(** src/cowl_iri.c:33-36 inst_tbl_eq: namespaces by pointer, remainders by text *)
Definition iri_eq (ns rem : N) (k : N) : act bool :=
  p <- iri_at k ;;
  if fst p =? ns then u <- text_at (snd p) ;; t <- text_at rem ;; ret (bytes_eqb u t) else ret false.
(** src/cowl_entity.c:36-39 inst_tbl_eq: cowl_primitive_equals compares pointers
    (src/cowl_primitive_private.h) *)
Definition ent_eq (t : otype) (iri : N) (k : N) : act bool :=
  i <- ent_iri_at k ;;
  if i =? iri then u <- get_type_at k ;; ret (match u with Some u => otype_eqb u t | None => false end)
  else ret false.
(** src/cowl_anon_ind.c:30-32 inst_tbl_eq *)
Definition anon_eq (t : bytes) (k : N) : act bool :=
  i <- anon_id_at k ;; u <- text_at i ;; ret (bytes_eqb u t).

(** * Release *)

(** What a call of cowl_release still has to do: release a pointer, or free an object whose fields
    have been released. *)
Inductive todo : Set := Rel (a : N) | Fin (a : N).

(** src/cowl_object.c:175-193 and the functions it calls, up to the recursive calls: the last reference
    to the object is gone. Returns the calls of cowl_release on the fields, then ulib_free.

    - strings: src/cowl_string.c:187-192 cowl_string_free
    - vectors: src/cowl_vector.c:87-99 cowl_vector_free
    - IRIs: src/cowl_iri.c:60-65 cowl_iri_free
    - literals: src/cowl_literal.c:111-115 cowl_literal_free
    - anonymous individuals: src/cowl_anon_ind.c:57-61 cowl_anon_ind_free
    - entities: src/cowl_entity.c:79-83 cowl_entity_free
    - ontologies: src/cowl_ontology.c:48-66 cowl_ontology_free
    - others: src/cowl_object.c:162-169 release_impl

    The fields are read before the first of them is released. *)
Definition dispose (a : N) : act (list todo) :=
  t <- get_type_at a ;;
  match t with
  | None => fail EKind
  | Some OT_STRING =>
      b <- get_bit a ;;
      (if b then u <- text_at a ;; table_remove TStr (str_eq u) else ret tt) ;;
      _ <- text_at a ;;
      ret [Fin a]
  | Some OT_VECTOR => l <- items_at a ;; ret (map Rel l ++ [Fin a])
  | Some OT_IRI =>
      p <- iri_at a ;;
      table_remove TIri (iri_eq (fst p) (snd p)) ;;
      ret [Rel (fst p); Rel (snd p); Fin a]
  | Some OT_LITERAL => f <- fields_at a ;; l <- pointers 2 f ;; ret (map Rel l ++ [Fin a])
  | Some OT_I_ANONYMOUS =>
      i <- anon_id_at a ;;
      u <- text_at i ;;
      table_remove TAno (anon_eq u) ;;
      ret [Rel i; Fin a]
  | Some OT_ONTOLOGY =>
      o <- onto_at a ;;
      ret (map Rel (opt_list (n_iri o) ++ opt_list (n_version o) ++ n_imports o ++ opt_list (n_annot o) ++
                    flat_map snd (n_axioms o)) ++ [Fin a])
  | Some OT_TABLE | Some OT_PREFIX_MAP | Some OT_READER | Some OT_WRITER => fail EKind
  | Some t =>
      if type_is_entity t then
        i <- ent_iri_at a ;;
        table_remove TEnt (ent_eq t i) ;;
        ret [Rel i; Fin a]
      else
        b <- get_bit a ;;
        f <- fields_at a ;;
        l <- pointers (type_field_count t + (if b then 1 else 0)) f ;;
        ret (map Rel l ++ [Fin a])
  end.

(** src/cowl_object.c:171-194 cowl_release, with the recursion written as a list of pending calls.
    [fuel] bounds their number. *)
Fixpoint release_loop (fuel : nat) (work : list todo) : act unit :=
  match work with
  | [] => ret tt
  | w :: work' =>
      match fuel with
      | O => fail EStuck
      | S fuel' =>
          match w with
          | Rel a => n <- decr_ref a ;;
                     if n =? 0 then l <- dispose a ;; release_loop fuel' (l ++ work')
                     else release_loop fuel' work'
          | Fin a => free a ;; release_loop fuel' work'
          end
      end
  end.

(** An upper bound of the number of calls: every call lowers a count or frees an object. *)
Definition weight (h : heap) : nat :=
  fold_right (fun x n => N.to_nat (ref_of (snd x)) + 1 + n)%nat O h.

(** src/cowl_object.c:171-194 cowl_release *)
Definition release (p : option N) : act unit :=
  match p with
  | None => ret tt
  | Some a => fun s => release_loop (S (weight (s_heap s))) [Rel a] s
  end.

(** * Strings *)

Variable e : env.

(** src/cowl_string.c:24-37 cowl_string_get *)
Definition string_get (t : bytes) : act N := alloc OT_STRING false (BStr t).
(** src/cowl_string.c:39-63 cowl_string_get_intern *)
Definition string_get_intern (t : bytes) : act N :=
  k <- table_find TStr (str_eq t) ;;
  match k with
  | Some k => retain (Some k)
  | None => a <- string_get t ;; set_bit a ;; table_add TStr a ;; ret a
  end.
(** src/cowl_string.c:90-107 cowl_string_intern *)
Definition string_intern (p : option N) : act (option N) :=
  match p with
  | None => ret None
  | Some a =>
      b <- get_bit a ;;
      if b then ret (Some a) else
      t <- text_at a ;;
      if Nat.eqb (List.length t) 0 then ret (Some (e_empty e)) else
      k <- table_find TStr (str_eq t) ;;
      match k with
      | Some k => ret (Some k)
      | None => table_add TStr a ;; set_bit a ;; ret (Some a)
      end
  end.
(** src/cowl_string.c:109-118 cowl_string_copy *)
Definition string_copy (a : N) : act N := t <- text_at a ;; string_get t.
(** src/cowl_string.c:183-185 cowl_string_empty *)
Definition string_empty : act N := retain (Some (e_empty e)).
(** src/cowl_string.c:151-155 cowl_string, on a raw string that is not null *)
Definition cowl_string (t : bytes) : act N :=
  if Nat.eqb (List.length t) 0 then string_empty else string_get t.
(** src/cowl_string.c:157-181 cowl_string_opt, on a raw string that is not null; [copy] only concerns
    the memory of the raw string *)
Definition string_opt (t : bytes) (intern : bool) : act N :=
  if Nat.eqb (List.length t) 0 then string_empty
  else if intern then string_get_intern t else string_get t.
(** src/cowl_string.c:120-149 cowl_string_get_ns_rem *)
Definition get_ns_rem (t : bytes) (ns_length : nat) : act (N * N) :=
  rhs <- (if Nat.ltb ns_length (List.length t) then string_opt (skipn ns_length t) false else string_empty) ;;
  lhs <- string_opt (firstn ns_length t) true ;;
  ret (lhs, rhs).
(** src/cowl_string.c:199-213 cowl_string_release_copying_raw: the text returned. Taking the raw string
    out of the object leaves a null string in it, which compares equal to itself. *)
Definition release_copying_raw (p : option N) : act (option bytes) :=
  match p with
  | None => ret None
  | Some a =>
      n <- decr_ref a ;;
      t <- text_at a ;;
      if n =? 0 then
        c <- read a ;; write a (mkCell (c_hdr c) (BStr [])) ;;
        b <- get_bit a ;;
        (if b then table_remove TStr (str_eq []) else ret tt) ;;
        free a ;; ret (Some t)
      else ret (Some t)
  end.

(** * IRIs *)

(** src/cowl_iri.c:67-89 cowl_iri_unvalidated with 47-58 cowl_iri_alloc. The model retains the parts
    before it allocates. *)
Definition iri_unvalidated (ns rem : option N) : act (option N) :=
  match ns with
  | None => ret None
  | Some _ =>
      i <- string_intern ns ;;
      match i with
      | None => ret None
      | Some i =>
          r <- nonnull rem ;;
          k <- table_find TIri (iri_eq i r) ;;
          match k with
          | Some k => incr_ref k ;; ret (Some k)
          | None =>
              _ <- retain (Some i) ;; _ <- retain (Some r) ;;
              a <- alloc OT_IRI false (BIri i r) ;; table_add TIri a ;; ret (Some a)
          end
      end
  end.

(** src/cowl_iri.c:91-145 cowl_iri *)
Definition cowl_iri (prefix suffix : option N) : act (option N) :=
  match prefix, suffix with
  | Some p, Some q =>
      p_str <- text_at p ;;
      s_str <- text_at q ;;
      let s_ns_len := xml_ns_length s_str in
      parts <-
        (if Nat.ltb 0 s_ns_len then
           p' <- cowl_string (p_str ++ firstn s_ns_len s_str) ;;
           q' <- string_opt (skipn s_ns_len s_str) false ;; ret (p', q')
         else
           let p_ns_len := xml_ns_length p_str in
           if Nat.ltb p_ns_len (List.length p_str) then
             p' <- string_opt (firstn p_ns_len p_str) true ;;
             q' <- cowl_string (skipn p_ns_len p_str ++ s_str) ;; ret (p', q')
           else
             p' <- retain prefix ;; q' <- retain suffix ;; ret (p', q')) ;;
      iri <- iri_unvalidated (Some (fst parts)) (Some (snd parts)) ;;
      release (Some (fst parts)) ;;
      release (Some (snd parts)) ;;
      ret iri
  | _, _ => ret None
  end.

(** src/cowl_iri.c:147-158 cowl_iri_from_string *)
Definition iri_of_string (t : bytes) : act (option N) :=
  if Nat.leb (ustring_size t) 1 then ret None else
  parts <- get_ns_rem t (xml_ns_length t) ;;
  iri <- iri_unvalidated (Some (fst parts)) (Some (snd parts)) ;;
  release (Some (fst parts)) ;;
  release (Some (snd parts)) ;;
  ret iri.

(** * Entities *)

(** src/cowl_entity.c:85-106 cowl_entity_get_impl with 59-77 cowl_entity_alloc *)
Definition entity_get (t : otype) (iri : option N) : act (option N) :=
  match iri with
  | None => ret None
  | Some i =>
      k <- table_find TEnt (ent_eq t i) ;;
      match k with
      | Some k => incr_ref k ;; ret (Some k)
      | None => _ <- retain iri ;; a <- alloc t false (BEnt i) ;; table_add TEnt a ;; ret (Some a)
      end
  end.

(** src/cowl_entity.c:108-118 cowl_entity_from_string_impl *)
Definition entity_of_string (t : otype) (u : bytes) : act (option N) :=
  i <- iri_of_string u ;;
  match i with
  | None => ret None
  | Some _ => x <- entity_get t i ;; release i ;; ret x
  end.

(** * Anonymous individuals *)

(** src/cowl_anon_ind.c:47-55 anon_ind_alloc, with the insertion in the table *)
Definition anon_alloc (id : N) : act N :=
  _ <- retain (Some id) ;; a <- alloc OT_I_ANONYMOUS false (BAnon id) ;; table_add TAno a ;; ret a.
(** src/cowl_anon_ind.c:63-89 anon_ind with copy_id false *)
Definition anon_of_id (id : N) : act N :=
  t <- text_at id ;;
  k <- table_find TAno (anon_eq t) ;;
  match k with
  | Some k => incr_ref k ;; ret k
  | None => anon_alloc id
  end.
(** src/cowl_anon_ind.c:131-134 cowl_anon_ind_from_string: anon_ind with copy_id true *)
Definition anon_of_string (t : bytes) : act N :=
  k <- table_find TAno (anon_eq t) ;;
  match k with
  | Some k => incr_ref k ;; ret k
  | None => id <- string_get t ;; a <- anon_alloc id ;; release (Some id) ;; ret a
  end.
(** src/cowl_anon_ind.c:91-125 anon_ind_generate. The random identifiers are the elements of [ids]; the
    loop takes the first one that is not in use. [None]: all of them are. *)
Fixpoint anon_generate (ids : list bytes) : act (option N) :=
  match ids with
  | [] => ret None
  | t :: ids' =>
      k <- table_find TAno (anon_eq t) ;;
      match k with
      | Some _ => anon_generate ids'
      | None => id <- cowl_string t ;; a <- anon_alloc id ;; release (Some id) ;; ret (Some a)
      end
  end.
(** src/cowl_anon_ind.c:127-129 cowl_anon_ind *)
Definition anon_ind (id : option N) (ids : list bytes) : act (option N) :=
  match id with
  | Some i => a <- anon_of_id i ;; ret (Some a)
  | None => anon_generate ids
  end.

(** * Composite objects *)

(** src/cowl_object.c:422-433 cowl_get_impl. The model retains the fields before it allocates. *)
Definition get_impl (t : otype) (fields : list (option N)) (opt : option N) : act N :=
  fs <- mapm retain fields ;;
  match opt with
  | None => alloc t false (BComp (map Obj fs))
  | Some o => _ <- retain opt ;; alloc t true (BComp (map Obj fs ++ [Obj o]))
  end.
(** src/cowl_object.c:435-439 cowl_get_impl_annot; include/cowl_vector.h:140-142 cowl_vector_count *)
Definition get_impl_annot (t : otype) (fields : list (option N)) (annot : option N) : act N :=
  match annot with
  | None => get_impl t fields None
  | Some v => l <- items_at v ;; get_impl t fields (if Nat.eqb (List.length l) 0 then None else annot)
  end.
(** src/cowl_object.c:441-459 cowl_get_impl_uint *)
Definition get_impl_uint (t : otype) (fields : list (option N)) (val : N) (opt : option N) : act N :=
  fs <- mapm retain fields ;;
  match opt with
  | None => alloc t false (BComp (map Obj fs ++ [UInt val]))
  | Some o => _ <- retain opt ;; alloc t true (BComp (map Obj fs ++ [Obj o; UInt val]))
  end.

(** * Vectors *)

(** src/cowl_vector.c:57-62 cowl_vector, 64-71 cowl_vector_from_array. The model retains the items before
    it allocates. *)
Definition vector (items : list (option N)) : act N :=
  l <- mapm retain items ;; alloc OT_VECTOR false (BVec l).
(** src/cowl_vector_private.h cowl_vector_set_ordered *)
Definition vector_set_ordered (v : option N) : act unit := a <- nonnull v ;; set_bit a.
(** src/cowl_vector.c:81-85 cowl_vector_ordered_empty *)
Definition vector_ordered_empty : act N := v <- vector [] ;; vector_set_ordered (Some v) ;; ret v.
(** ulib uvec_push on vec->data *)
Definition push_item (v x : N) : act unit :=
  c <- read v ;;
  match c_body c with
  | BVec l => write v (mkCell (c_hdr c) (BVec (l ++ [x])))
  | _ => fail EKind
  end.
(** src/cowl_vector.c:177-182 cowl_vector_add. The model retains the object before it appends it. *)
Definition vector_add (v x : option N) : act unit :=
  v' <- nonnull v ;; x' <- retain x ;; push_item v' x'.
(** src/cowl_vector.c:184-191 cowl_vector_push *)
Definition vector_push (v x : option N) : act unit :=
  v' <- nonnull v ;; x' <- nonnull x ;; push_item v' x'.

(** src/cowl_object.c:461-470 cowl_nary_get_impl with src/cowl_vector.c:25-35 cowl_vector_with_args *)
Definition nary_get_impl (t : otype) (items : list N) : act N :=
  v <- vector (map Some items) ;;
  o <- get_impl t [Some v] None ;;
  release (Some v) ;;
  ret o.
(** src/cowl_has_key_axiom.c:16-25 cowl_has_key_axiom *)
Definition has_key (cls obj_props data_props annot : option N) : act N :=
  o <- (match obj_props with Some _ => retain obj_props | None => vector [] end) ;;
  d <- (match data_props with Some _ => retain data_props | None => vector [] end) ;;
  r <- get_impl_annot OT_A_HAS_KEY [cls; Some o; Some d] annot ;;
  release (Some o) ;; release (Some d) ;;
  ret r.
(** src/cowl_sub_obj_prop_axiom.c:16-20 cowl_sub_obj_prop_chain_axiom *)
Definition chain_axiom (sub super annot : option N) : act N :=
  vector_set_ordered sub ;; get_impl_annot OT_A_SUB_OBJ_PROP [sub; super] annot.
(** src/cowl_obj_quant.c:22-26 cowl_obj_quant, src/cowl_data_quant.c:22-27 cowl_data_quant: [dflt] is
    owl:Thing or rdfs:Literal *)
Definition quant (t : otype) (dflt : N) (prop filler : option N) : act N :=
  get_impl t [prop] (match filler with Some f => if f =? dflt then None else filler | None => None end).

(** How the constructor of a composite type builds it. *)
Inductive ctor : Set :=
| CPlain (n : nat)   (* cowl_get_impl_n *)
| CAnnot (n : nat)   (* cowl_get_impl_n_annot: optional annotations *)
| CUInt (n : nat)    (* cowl_get_impl_n_uint_opt: number and optional filler *)
| CQuant (n : nat)   (* cowl_obj_quant, cowl_data_quant *)
| CHasKey.           (* cowl_has_key_axiom *)

(** The constructors of include/*.h: cowl_facet_restr.h:51, cowl_annotation.h:54, cowl_decl_axiom.h:52,
    cowl_sub_cls_axiom.h:53, cowl_nary_cls_axiom.h:58, cowl_disj_union_axiom.h:53,
    cowl_sub_obj_prop_axiom.h:54, cowl_nary_obj_prop_axiom.h:59, cowl_inv_obj_prop_axiom.h:54,
    cowl_obj_prop_domain_axiom.h:55, cowl_obj_prop_range_axiom.h:55, cowl_obj_prop_char_axiom.h:80,
    cowl_sub_data_prop_axiom.h:54, cowl_nary_data_prop_axiom.h:59, cowl_data_prop_domain_axiom.h:55,
    cowl_data_prop_range_axiom.h:55, cowl_func_data_prop_axiom.h:52, cowl_datatype_def_axiom.h:55,
    cowl_nary_ind_axiom.h:59, cowl_cls_assert_axiom.h:55, cowl_obj_prop_assert_axiom.h:63,81,
    cowl_data_prop_assert_axiom.h:64,82, cowl_annot_assert_axiom.h:56, cowl_sub_annot_prop_axiom.h:53,
    cowl_annot_prop_domain_axiom.h:54, cowl_annot_prop_range_axiom.h:53, cowl_nary_cls.h:63,
    cowl_obj_compl.h:50, cowl_obj_one_of.h:49, cowl_obj_has_value.h:52, cowl_obj_has_self.h:50,
    cowl_obj_card.h:64, cowl_data_has_value.h:52, cowl_data_card.h:64, cowl_nary_data.h:56,
    cowl_data_compl.h:50, cowl_data_one_of.h:49, cowl_datatype_restr.h:51, cowl_inv_obj_prop.h:49;
    src/cowl_obj_quant.c:25, src/cowl_data_quant.c:26, src/cowl_has_key_axiom.c:20. *)
Definition ctor_of (t : otype) : option ctor :=
  match t with
  | OT_FACET_RESTR => Some (CPlain 2)
  | OT_ANNOTATION => Some (CAnnot 2)
  | OT_A_DECL => Some (CAnnot 1)
  | OT_A_SUB_CLASS => Some (CAnnot 2)
  | OT_A_EQUIV_CLASSES | OT_A_DISJ_CLASSES => Some (CAnnot 1)
  | OT_A_DISJ_UNION => Some (CAnnot 2)
  | OT_A_SUB_OBJ_PROP => Some (CAnnot 2)
  | OT_A_EQUIV_OBJ_PROP | OT_A_DISJ_OBJ_PROP => Some (CAnnot 1)
  | OT_A_INV_OBJ_PROP | OT_A_OBJ_PROP_DOMAIN | OT_A_OBJ_PROP_RANGE => Some (CAnnot 2)
  | OT_A_FUNC_OBJ_PROP | OT_A_INV_FUNC_OBJ_PROP | OT_A_REFL_OBJ_PROP | OT_A_IRREFL_OBJ_PROP
  | OT_A_SYMM_OBJ_PROP | OT_A_ASYMM_OBJ_PROP | OT_A_TRANS_OBJ_PROP => Some (CAnnot 1)
  | OT_A_SUB_DATA_PROP => Some (CAnnot 2)
  | OT_A_EQUIV_DATA_PROP | OT_A_DISJ_DATA_PROP => Some (CAnnot 1)
  | OT_A_DATA_PROP_DOMAIN | OT_A_DATA_PROP_RANGE => Some (CAnnot 2)
  | OT_A_FUNC_DATA_PROP => Some (CAnnot 1)
  | OT_A_DATATYPE_DEF => Some (CAnnot 2)
  | OT_A_HAS_KEY => Some CHasKey
  | OT_A_SAME_IND | OT_A_DIFF_IND => Some (CAnnot 1)
  | OT_A_CLASS_ASSERT => Some (CAnnot 2)
  | OT_A_OBJ_PROP_ASSERT | OT_A_NEG_OBJ_PROP_ASSERT | OT_A_DATA_PROP_ASSERT
  | OT_A_NEG_DATA_PROP_ASSERT | OT_A_ANNOT_ASSERT => Some (CAnnot 3)
  | OT_A_SUB_ANNOT_PROP | OT_A_ANNOT_PROP_DOMAIN | OT_A_ANNOT_PROP_RANGE => Some (CAnnot 2)
  | OT_CE_OBJ_INTERSECT | OT_CE_OBJ_UNION | OT_CE_OBJ_COMPL | OT_CE_OBJ_ONE_OF => Some (CPlain 1)
  | OT_CE_OBJ_SOME | OT_CE_OBJ_ALL => Some (CQuant 1)
  | OT_CE_OBJ_HAS_VALUE => Some (CPlain 2)
  | OT_CE_OBJ_HAS_SELF => Some (CPlain 1)
  | OT_CE_OBJ_MIN_CARD | OT_CE_OBJ_MAX_CARD | OT_CE_OBJ_EXACT_CARD => Some (CUInt 1)
  | OT_CE_DATA_SOME | OT_CE_DATA_ALL => Some (CQuant 1)
  | OT_CE_DATA_HAS_VALUE => Some (CPlain 2)
  | OT_CE_DATA_MIN_CARD | OT_CE_DATA_MAX_CARD | OT_CE_DATA_EXACT_CARD => Some (CUInt 1)
  | OT_DR_DATA_INTERSECT | OT_DR_DATA_UNION | OT_DR_DATA_COMPL | OT_DR_DATA_ONE_OF => Some (CPlain 1)
  | OT_DR_DATATYPE_RESTR => Some (CPlain 2)
  | OT_OPE_INV_OBJ_PROP => Some (CPlain 1)
  | _ => None
  end.

(** The constructor of a composite type: required fields, optional field, cardinality. *)
Definition construct (t : otype) (fields : list (option N)) (opt : option N) (val : N) : act N :=
  match ctor_of t, fields with
  | Some (CPlain _), _ => get_impl t fields None
  | Some (CAnnot _), _ => get_impl_annot t fields opt
  | Some (CUInt _), _ => get_impl_uint t fields val opt
  | Some (CQuant _), [p] =>
      quant t (if type_between OT_CE_OBJ_SOME OT_CE_OBJ_ALL t then e_thing e else e_literal e) p opt
  | Some CHasKey, [c; o; d] => has_key c o d opt
  | _, _ => fail EKind
  end.

(** * Literals *)

(** src/cowl_literal.c:80-84 cowl_literal_alloc *)
Definition literal_alloc (value dt_or_lang : option N) (is_lang : bool) : act N :=
  l <- get_impl OT_LITERAL [value; dt_or_lang] None ;;
  (if is_lang then set_bit l else ret tt) ;;
  ret l.
(** src/cowl_literal.c:86-88 cowl_literal_string_alloc *)
Definition literal_string_alloc (value : option N) : act N := literal_alloc value (Some (e_string e)) false.
(** src/cowl_literal.c:59-73 internalize_lang *)
Definition intern_lang (lang : N) : act N :=
  t <- text_at lang ;;
  if is_lower t then i <- string_intern (Some lang) ;; retain i
  else string_opt (to_lower t) true.
(** src/cowl_literal.c:90-96 cowl_literal_lang_alloc *)
Definition lit_lang_alloc (value : option N) (lang : N) : act N :=
  t <- text_at lang ;;
  if Nat.eqb (List.length t) 0 then literal_string_alloc value else
  i <- intern_lang lang ;;
  l <- literal_alloc value (Some i) true ;;
  release (Some i) ;;
  ret l.
(** src/cowl_literal.c:31-57 parse_lang: the value and the language tag, NULL if there is none *)
Definition parse_lang_at (value : N) : act (N * option N) :=
  t <- text_at value ;;
  match parse_lang t with
  | (_, None) => v <- retain (Some value) ;; ret (v, None)
  | (u, Some lang) => v <- string_opt u false ;; l <- string_opt lang true ;; ret (v, Some l)
  end.
(** src/cowl_literal.c:98-105 cowl_literal_parse_lang_alloc *)
Definition lit_parse_lang_alloc (value : N) : act N :=
  p <- parse_lang_at value ;;
  l <- literal_alloc (Some (fst p)) (snd p) true ;;
  release (Some (fst p)) ;;
  release (snd p) ;;
  ret l.
(** src/cowl_literal.c:117-124 cowl_literal *)
Definition literal (value dt_or_lang : option N) : act (option N) :=
  match value with
  | None => ret None
  | Some v =>
      match dt_or_lang with
      | None => l <- literal_string_alloc value ;; ret (Some l)
      | Some d =>
          t <- get_type_at d ;;
          l <- (match t with
                | Some OT_STRING => lit_lang_alloc value d
                | _ => if (d =? e_lang_string e) || (d =? e_plain_literal e) then lit_parse_lang_alloc v
                       else literal_alloc value (Some d) false
                end) ;;
          ret (Some l)
      end
  end.
(** src/cowl_literal.c:126-132 cowl_literal_plain *)
Definition lit_plain (t : bytes) : act N :=
  v <- string_opt t false ;; l <- literal_string_alloc (Some v) ;; release (Some v) ;; ret l.
(** src/cowl_literal.c:134-140 cowl_literal_typed *)
Definition lit_typed (t : bytes) (dt : option N) : act N :=
  v <- string_opt t false ;; l <- literal_alloc (Some v) dt false ;; release (Some v) ;; ret l.
(** src/cowl_literal.c:142-158 cowl_literal_lang *)
Definition lit_lang (t lang : bytes) : act N :=
  v <- string_opt t false ;;
  i <- string_opt lang true ;;
  l <- lit_lang_alloc (Some v) i ;;
  release (Some v) ;; release (Some i) ;;
  ret l.

(** * Equality and primitives *)

(** Compares two lists of objects element by element. *)
Fixpoint all_eq (eq : N -> N -> act bool) (l m : list N) : act bool :=
  match l, m with
  | [], [] => ret true
  | x :: l', y :: m' => b <- eq x y ;; if b then all_eq eq l' m' else ret false
  | _, _ => ret false
  end.
(** ulib uvec_contains *)
Fixpoint some_eq (eq : N -> act bool) (m : list N) : act bool :=
  match m with
  | [] => ret false
  | y :: m' => b <- eq y ;; if b then ret true else some_eq eq m'
  end.
(** src/cowl_vector.c:116-125 cowl_vector_equals_no_order, the loop *)
Fixpoint all_in (eq : N -> N -> act bool) (l m : list N) : act bool :=
  match l with
  | [] => ret true
  | x :: l' => b <- some_eq (eq x) m ;; if b then all_in eq l' m else ret false
  end.

(** The number stored after the [n] pointers of a composite object, src/cowl_object.c:500-505
    cowl_get_uint_field. *)
Definition uint_at (n : nat) (l : list slot) : act N :=
  match nth_error l n with Some (UInt v) => ret v | Some (Obj _) => fail EKind | None => fail EBounds end.

(** src/cowl_object.c:302-337 cowl_equals; src/cowl_vector.c:112-130 cowl_vector_equals;
    src/cowl_literal.c:174-177 cowl_literal_equals. [fuel] bounds the recursion. *)
Fixpoint equals_in (fuel : nat) (a b : N) : act bool :=
  match fuel with
  | O => fail EStuck
  | S fuel' =>
      t <- get_type_at a ;;
      u <- get_type_at b ;;
      match t, u with
      | Some t, Some u =>
          if negb (otype_eqb t u) then ret false else
          match t with
          | OT_STRING => x <- text_at a ;; y <- text_at b ;; ret (bytes_eqb x y)
          | OT_VECTOR =>
              l <- items_at a ;; m <- items_at b ;;
              o <- get_bit a ;;
              if o then all_eq (equals_in fuel') l m
              else if a =? b then ret true
              else if Nat.eqb (List.length l) (List.length m) then all_in (equals_in fuel') l m
              else ret false
          | OT_TABLE => fail EKind
          | OT_LITERAL =>
              f <- fields_at a ;; g <- fields_at b ;;
              p <- pointers 2 f ;; q <- pointers 2 g ;;
              match p, q with
              | [v; d], [w; c] => if d =? c then x <- text_at v ;; y <- text_at w ;; ret (bytes_eqb x y) else ret false
              | _, _ => fail EBounds
              end
          | _ =>
              if type_is_special t || Nat.eqb (type_field_count t) 0 then ret (a =? b) else
              x <- get_bit a ;;
              y <- get_bit b ;;
              if negb (Bool.eqb x y) then ret false else
              let n := (type_field_count t + if x then 1 else 0)%nat in
              f <- fields_at a ;; g <- fields_at b ;;
              p <- pointers n f ;; q <- pointers n g ;;
              r <- all_eq (equals_in fuel') p q ;;
              if negb r then ret false
              else if type_is_card t then v <- uint_at n f ;; w <- uint_at n g ;; ret (v =? w)
              else ret true
          end
      | _, _ => fail EKind
      end
  end.
(** src/cowl_object.c:302-337 cowl_equals. A chain of pointers longer than the number of objects is a
    cycle: the recursion does not end. *)
Definition equals (a b : N) : act bool := fun s => equals_in (S (List.length (s_heap s))) a b s.

(** src/cowl_object.c:388-430 cowl_iterate_primitives, with an iterator that never stops and all types of
    primitives: the primitives in the order of the calls. src/cowl_vector.c
    cowl_vector_iterate_primitives, src/cowl_literal.c:160-163,186-189, src/cowl_obj_quant.c:28-45,
    src/cowl_data_quant.c:29-46, src/cowl_ontology.c:244-254 cowl_ontology_iterate_primitives. [fuel]
    bounds the recursion. A string with the flag set is read as an object with one field. *)
Fixpoint prims_in (fuel : nat) (a : N) : act (list N) :=
  match fuel with
  | O => fail EStuck
  | S fuel' =>
      t <- get_type_at a ;;
      match t with
      | None => fail EKind
      | Some OT_VECTOR => l <- items_at a ;; r <- mapm (prims_in fuel') l ;; ret (List.concat r)
      | Some OT_TABLE | Some OT_PREFIX_MAP | Some OT_READER | Some OT_WRITER => fail EKind
      | Some OT_LITERAL =>
          b <- get_bit a ;;
          if b then prims_in fuel' (e_lang_string e) else
          f <- fields_at a ;; p <- pointers 2 f ;; prims_in fuel' (nth 1 p 0)
      | Some OT_ONTOLOGY => o <- onto_at a ;; r <- mapm (prims_in fuel') (map fst (n_refs o)) ;; ret (List.concat r)
      | Some OT_STRING => b <- get_bit a ;; if b then fail EKind else ret []
      | Some t =>
          if type_is_primitive t then ret [a] else
          b <- get_bit a ;;
          f <- fields_at a ;;
          p <- pointers (type_field_count t + if b then 1 else 0) f ;;
          r <- mapm (prims_in fuel') p ;;
          d <- (if b then ret [] else
                if type_between OT_CE_OBJ_SOME OT_CE_OBJ_ALL t then prims_in fuel' (e_thing e)
                else if type_between OT_CE_DATA_SOME OT_CE_DATA_ALL t then prims_in fuel' (e_literal e)
                else ret []) ;;
          ret (List.concat r ++ d)
      end
  end.
(** src/cowl_object.c:388-430 cowl_iterate_primitives *)
Definition prims (a : N) : act (list N) := fun s => prims_in (S (List.length (s_heap s))) a s.

(** * Ontologies *)

(** src/cowl_ontology.c:36-46 cowl_ontology *)
Definition ontology : act N := alloc OT_ONTOLOGY false (BOnto (mkOnto None None [] None [] [])).
(** Assignment to the members of an ontology. *)
Definition set_onto (a : N) (f : onto -> onto) : act unit :=
  c <- read a ;;
  match c_body c with
  | BOnto o => write a (mkCell (c_hdr c) (BOnto (f o)))
  | _ => fail EKind
  end.
(** onto->iri = p, src/cowl_ontology.c:427-431 *)
Definition with_iri (p : option N) (o : onto) : onto :=
  mkOnto p (n_version o) (n_imports o) (n_annot o) (n_axioms o) (n_refs o).
(** onto->version = p, src/cowl_ontology.c:433-437 *)
Definition with_version (p : option N) (o : onto) : onto :=
  mkOnto (n_iri o) p (n_imports o) (n_annot o) (n_axioms o) (n_refs o).
(** Changes the vector onto->imports, src/cowl_ontology.c:489-495 *)
Definition with_imports (l : list N) (o : onto) : onto :=
  mkOnto (n_iri o) (n_version o) l (n_annot o) (n_axioms o) (n_refs o).
(** onto->annot = p, src/cowl_ontology.c:151-155,444-457 *)
Definition with_annot (p : option N) (o : onto) : onto :=
  mkOnto (n_iri o) (n_version o) (n_imports o) p (n_axioms o) (n_refs o).
(** Changes the vectors onto->axioms_by_type and the tables onto->refs, src/cowl_ontology.c:459-582 *)
Definition with_axioms (l : list (otype * list N)) (r : list (N * option (list N))) (o : onto) : onto :=
  mkOnto (n_iri o) (n_version o) (n_imports o) (n_annot o) l r.

(** src/cowl_ontology.c:427-437 cowl_ontology_set_iri, cowl_ontology_set_version. The model clears the
    member before it releases the old value. *)
Definition set_member (get : onto -> option N) (put : option N -> onto -> onto) (a : N) (p : option N) : act unit :=
  o <- onto_at a ;;
  set_onto a (put None) ;;
  release (get o) ;;
  match p with
  | None => ret tt
  | Some i => _ <- retain p ;; set_onto a (put p)
  end.
(** src/cowl_ontology.c:427-431 cowl_ontology_set_iri *)
Definition set_iri : N -> option N -> act unit := set_member n_iri with_iri.
(** src/cowl_ontology.c:433-437 cowl_ontology_set_version *)
Definition set_version : N -> option N -> act unit := set_member n_version with_version.

(** src/cowl_ontology.c:151-155 cowl_ontology_get_annot, and the first line of 444-447 vector_ptr_add *)
Definition annot_vec (a : N) : act N :=
  o <- onto_at a ;;
  match n_annot o with
  | Some v => ret v
  | None => v <- vector_ordered_empty ;; set_onto a (with_annot (Some v)) ;; ret v
  end.

(** The position of the first element that compares equal. *)
Fixpoint find_at (eq : N -> act bool) (l : list N) : act (option nat) :=
  match l with
  | [] => ret None
  | x :: l' => b <- eq x ;; if b then ret (Some O) else r <- find_at eq l' ;; ret (option_map S r)
  end.
(** ulib uvec_remove_at *)
Definition remove_at {A} (i : nat) (l : list A) : list A := firstn i l ++ skipn (S i) l.
(** ulib uvec_unordered_remove_at: the last element takes the place of the one removed. *)
Definition swap_remove_at (i : nat) (l : list N) : list N :=
  removelast (firstn i l ++ last l 0 :: skipn (S i) l).

(** src/cowl_vector.c:193-203 cowl_vector_remove: the object released is the argument. *)
Definition vector_remove (v x : N) : act bool :=
  l <- items_at v ;;
  r <- find_at (equals x) l ;;
  match r with
  | None => ret false
  | Some i =>
      b <- get_bit v ;;
      c <- read v ;;
      write v (mkCell (c_hdr c) (BVec (if b then remove_at i l else swap_remove_at i l))) ;;
      release (Some x) ;;
      ret true
  end.
(** src/cowl_ontology.c:481-483 cowl_ontology_remove_annot with 449-457 vector_ptr_remove. The model
    clears the member before it releases the vector. *)
Definition remove_annot (a x : N) : act bool :=
  o <- onto_at a ;;
  match n_annot o with
  | None => ret false
  | Some v =>
      r <- vector_remove v x ;;
      if negb r then ret false else
      l <- items_at v ;;
      if Nat.eqb (List.length l) 0 then set_onto a (with_annot None) ;; release (Some v) ;; ret true
      else ret true
  end.
(** src/cowl_ontology.c:489-491 cowl_ontology_add_import. The model retains the IRI first. *)
Definition add_import (a i : N) : act unit :=
  _ <- retain (Some i) ;;
  o <- onto_at a ;;
  set_onto a (with_imports (n_imports o ++ [i])).
(** src/cowl_ontology.c:493-495 cowl_ontology_remove_import; the vector is ordered *)
Definition remove_import (a i : N) : act bool :=
  o <- onto_at a ;;
  r <- find_at (equals i) (n_imports o) ;;
  match r with
  | None => ret false
  | Some n => set_onto a (with_imports (remove_at n (n_imports o))) ;; release (Some i) ;; ret true
  end.

(** The vector of the axioms of a type: src/cowl_ontology.c:82-84 tindex *)
Fixpoint tindex (l : list (otype * list N)) (t : otype) : list N :=
  match l with
  | [] => []
  | (u, v) :: l' => if otype_eqb u t then v else tindex l' t
  end.
(** Changes the vector of the axioms of a type. *)
Fixpoint change_axioms (t : otype) (f : list N -> list N) (l : list (otype * list N)) : list (otype * list N) :=
  match l with
  | [] => [(t, f [])]
  | (u, v) :: l' => if otype_eqb u t then (u, f v) :: l' else (u, v) :: change_axioms t f l'
  end.
(** Changes an entry of the index. *)
Fixpoint change_ref (p : N) (f : option (list N) -> option (list N)) (l : list (N * option (list N))) :
  list (N * option (list N)) :=
  match l with
  | [] => [(p, f None)]
  | (q, v) :: l' => if q =? p then (q, f v) :: l' else (q, v) :: change_ref p f l'
  end.

(** src/cowl_ontology.c:459-465 add_primitive_to_map *)
Definition add_primitive (r : list (N * option (list N))) (p : N) : list (N * option (list N)) :=
  change_ref p (fun v => v) r.
(** src/cowl_ontology.c:497-516 add_axiom_to_map *)
Definition add_ref (x : N) (r : list (N * option (list N))) (p : N) : list (N * option (list N)) :=
  change_ref p (fun v => Some (match v with Some l => l | None => [] end ++ [x])) r.

(** src/cowl_ontology.c:467-479 cowl_ontology_add_annot *)
Definition add_annot (a x : N) : act unit :=
  ps <- prims x ;;
  set_onto a (fun o => with_axioms (n_axioms o) (fold_left add_primitive ps (n_refs o)) o) ;;
  v <- annot_vec a ;;
  vector_add (Some v) (Some x).
(** src/cowl_ontology.c:534-540 cowl_ontology_add_axiom with 518-532. The model collects the primitives
    and retains the axiom first. *)
Definition add_axiom (a x : N) : act unit :=
  b <- get_bit a ;;
  ps <- (if b then ret [] else prims x) ;;
  t <- get_type_at x ;;
  match t with
  | None => fail EKind
  | Some t =>
      _ <- retain (Some x) ;;
      set_onto a (fun o => with_axioms (change_axioms t (fun l => l ++ [x]) (n_axioms o)) (fold_left (add_ref x) ps (n_refs o)) o)
  end.

(** src/cowl_ontology.c:76-80 pindex; [None] is NULL *)
Definition pindex (o : onto) (p : N) : option (list N) :=
  match lookup (n_refs o) p with Some v => v | None => None end.
(** src/cowl_ontology.c:93-115 best_pindex: the shortest of the vectors of the primitives, the first of
    several. NULL counts as empty. Vectors are assumed shorter than ULIB_UINT_MAX. *)
Definition best_pindex (o : onto) (ps : list N) : option (list N) :=
  match
    fold_left (fun best p =>
      let v := pindex o p in
      let n := match v with Some l => List.length l | None => O end in
      match best with
      | Some (m, w) => if Nat.ltb n m then Some (n, v) else best
      | None => Some (n, v)
      end) ps None
  with
  | Some (_, v) => v
  | None => None
  end.
(** src/cowl_ontology.c:117-128 best_index_between, best_index, on an axiom. A missing vector of the type
    counts as empty: in both cases the search fails. *)
Definition best_index (o : onto) (ps : list N) (t : otype) : list N :=
  let v := tindex (n_axioms o) t in
  match best_pindex o ps with
  | Some p => if Nat.ltb (List.length p) (List.length v) then p else v
  | None => v
  end.
(** src/cowl_ontology.c:222-225 cowl_ontology_has_axiom *)
Definition has_axiom (a x : N) : act bool :=
  o <- onto_at a ;;
  ps <- prims x ;;
  t <- get_type_at x ;;
  match t with
  | None => fail EKind
  | Some t => r <- find_at (equals x) (best_index o ps t) ;; ret (match r with Some _ => true | None => false end)
  end.

(** The position of the last element that is a given address. *)
Fixpoint last_at (x : N) (l : list N) : option nat :=
  match l with
  | [] => None
  | y :: l' => match last_at x l' with Some i => Some (S i) | None => if y =? x then Some O else None end
  end.
(** The loops of src/cowl_ontology.c:542-565 remove_axiom_from_map, remove_axiom *)
Definition remove_last (x : N) (l : list N) : list N :=
  match last_at x l with Some i => swap_remove_at i l | None => l end.
(** src/cowl_ontology.c:542-552 remove_axiom_from_map. A key that is not in the table is not added. *)
Definition remove_ref (x : N) (r : list (N * option (list N))) (p : N) : list (N * option (list N)) :=
  match lookup r p with
  | Some (Some l) => change_ref p (fun _ => Some (remove_last x l)) r
  | _ => r
  end.
(** src/cowl_ontology.c:584-596 cowl_ontology_remove_axiom with 554-582. The axiom removed from the
    vectors and released is the argument. The model collects the primitives once. *)
Definition remove_axiom (a x : N) : act bool :=
  o <- onto_at a ;;
  ps <- prims x ;;
  t <- get_type_at x ;;
  match t with
  | None => fail EKind
  | Some t =>
      r <- find_at (equals x) (rev (best_index o ps t)) ;;
      match r with
      | None => ret false
      | Some _ =>
          set_onto a (fun o => with_axioms (change_axioms t (remove_last x) (n_axioms o)) (fold_left (remove_ref x) ps (n_refs o)) o) ;;
          release (Some x) ;;
          ret true
      end
  end.

(** * API calls *)

(** The calls of a client. Pointers the client passes are addresses. *)
Inductive call : Type :=
| KString (t : bytes) (intern : bool)                 (* cowl_string_opt *)
| KEmpty                                              (* cowl_string_empty *)
| KIntern (s : N)                                     (* cowl_string_intern *)
| KCopyRaw (s : N)                                    (* cowl_string_release_copying_raw *)
| KRetain (a : N)                                     (* cowl_retain *)
| KRelease (a : N)                                    (* cowl_release *)
| KIri (prefix suffix : N)                            (* cowl_iri *)
| KIriText (t : bytes)                                (* cowl_iri_from_string *)
| KEntity (t : otype) (iri : N)                       (* cowl_class, cowl_datatype, ... *)
| KEntityText (t : otype) (u : bytes)                 (* cowl_class_from_string, ... *)
| KAnon (id : option N) (ids : list bytes)            (* cowl_anon_ind *)
| KAnonText (t : bytes)                               (* cowl_anon_ind_from_string *)
| KLiteral (value : N) (dt_or_lang : option N)        (* cowl_literal *)
| KLitPlain (t : bytes)                               (* cowl_literal_plain *)
| KLitTyped (t : bytes) (dt : N)                      (* cowl_literal_typed *)
| KLitLang (t lang : bytes)                           (* cowl_literal_lang *)
| KVector (items : list N)                            (* cowl_vector *)
| KVectorOrdered                                      (* cowl_vector_ordered_empty (private) *)
| KVectorAdd (v x : N)                                (* cowl_vector_add *)
| KVectorPush (v x : N)                               (* cowl_vector_push *)
| KConstruct (t : otype) (fields : list (option N)) (opt : option N) (val : N)
                                                      (* the constructors of composite objects *)
| KNary (t : otype) (items : list N)                  (* cowl_obj_intersect_of, ... *)
| KChain (sub super : N) (annot : option N)           (* cowl_sub_obj_prop_chain_axiom *)
| KEquals (a b : N)                                   (* cowl_equals *)
| KPrimitives (a : N)                                 (* cowl_iterate_primitives *)
| KOntology                                           (* cowl_ontology *)
| KSetIri (o : N) (i : option N)                      (* cowl_ontology_set_iri *)
| KSetVersion (o : N) (i : option N)                  (* cowl_ontology_set_version *)
| KGetAnnot (o : N)                                   (* cowl_ontology_get_annot *)
| KAddAnnot (o x : N)                                 (* cowl_ontology_add_annot *)
| KRemoveAnnot (o x : N)                              (* cowl_ontology_remove_annot *)
| KAddImport (o i : N)                                (* cowl_ontology_add_import *)
| KRemoveImport (o i : N)                             (* cowl_ontology_remove_import *)
| KAddAxiom (o x : N)                                 (* cowl_ontology_add_axiom *)
| KHasAxiom (o x : N)                                 (* cowl_ontology_has_axiom *)
| KRemoveAxiom (o x : N).                             (* cowl_ontology_remove_axiom *)

(** The result of a function that returns nothing, or no new reference. *)
Definition none {A} (m : act A) : act (option N) := m ;; ret None.
(** The result of a function that never returns NULL. *)
Definition some (m : act N) : act (option N) := a <- m ;; ret (Some a).

(** Executes a call: the new reference it returns, if any. *)
Definition exec (k : call) : act (option N) :=
  match k with
  | KString t intern => some (string_opt t intern)
  | KEmpty => some string_empty
  | KIntern s => none (string_intern (Some s))
  | KCopyRaw s => none (release_copying_raw (Some s))
  | KRetain a => some (retain (Some a))
  | KRelease a => none (release (Some a))
  | KIri p q => cowl_iri (Some p) (Some q)
  | KIriText t => iri_of_string t
  | KEntity t i => entity_get t (Some i)
  | KEntityText t u => entity_of_string t u
  | KAnon id ids => anon_ind id ids
  | KAnonText t => some (anon_of_string t)
  | KLiteral v d => literal (Some v) d
  | KLitPlain t => some (lit_plain t)
  | KLitTyped t d => some (lit_typed t (Some d))
  | KLitLang t l => some (lit_lang t l)
  | KVector items => some (vector (map Some items))
  | KVectorOrdered => some vector_ordered_empty
  | KVectorAdd v x => none (vector_add (Some v) (Some x))
  | KVectorPush v x => none (vector_push (Some v) (Some x))
  | KConstruct t fs opt val => some (construct t fs opt val)
  | KNary t items => some (nary_get_impl t items)
  | KChain sub super annot => some (chain_axiom (Some sub) (Some super) annot)
  | KEquals a b => none (equals a b)
  | KPrimitives a => none (prims a)
  | KOntology => some ontology
  | KSetIri o i => none (set_iri o i)
  | KSetVersion o i => none (set_version o i)
  | KGetAnnot o => none (annot_vec o)
  | KAddAnnot o x => none (add_annot o x)
  | KRemoveAnnot o x => none (remove_annot o x)
  | KAddImport o i => none (add_import o i)
  | KRemoveImport o i => none (remove_import o i)
  | KAddAxiom o x => none (add_axiom o x)
  | KHasAxiom o x => none (has_axiom o x)
  | KRemoveAxiom o x => none (remove_axiom o x)
  end.

End Heap.

(** * Start and stop *)

(** A vocabulary: namespace, prefix, and the terms with the entity types they are used as. *)
Record group := mkGroup { g_ns : bytes; g_prefix : bytes; g_terms : list (bytes * list otype) }.
(** The objects of a vocabulary: src/cowl_owl_vocab.c and the others, [static ... vocab]. *)
Record vocab := mkVocab { v_ns : N; v_prefix : N; v_iris : list N; v_ents : list (otype * bytes * N) }.

Section Vocab.
Variable huge : bool.
Variable fresh : N -> heap -> N.
Variable e : env.

(** src/cowl_vocab_private.h:33 cowl_iri_vocab: the remainder is never released. *)
Definition vocab_iri (ns : N) (term : bytes * list otype) : act (bytes * list otype * N) :=
  r <- cowl_string huge fresh e (fst term) ;;
  i <- iri_unvalidated huge fresh e (Some ns) (Some r) ;;
  i <- nonnull i ;;
  ret (term, i).
(** src/cowl_vocab_private.h:41-54 cowl_class_vocab and the others *)
Definition vocab_ent (i : N) (rem : bytes) (t : otype) : act (otype * bytes * N) :=
  x <- entity_get huge fresh t (Some i) ;; x <- nonnull x ;; ret (t, rem, x).
(** src/cowl_owl_vocab.c:33-82 cowl_owl_vocab_init and the others. The entities are created term by
    term. *)
Definition vocab_init (g : group) : act vocab :=
  ns <- string_opt huge fresh e (g_ns g) true ;;
  iris <- mapm (vocab_iri ns) (g_terms g) ;;
  p <- cowl_string huge fresh e (g_prefix g) ;;
  ents <- mapm (fun x => mapm (vocab_ent (snd x) (fst (fst x))) (snd (fst x))) iris ;;
  ret (mkVocab ns p (map snd iris) (List.concat ents)).
(** src/cowl_owl_vocab.c:86-123 cowl_owl_vocab_deinit and the others; src/cowl_vocab_private.h:31-54 *)
Definition vocab_free (v : vocab) : act unit :=
  free (v_ns v) ;; free (v_prefix v) ;;
  each (fun i => p <- iri_at i ;; free (snd p) ;; free i) (v_iris v) ;;
  each (fun x => free (snd x)) (v_ents v).
End Vocab.

(** The entity of a given type and remainder among the objects of a vocabulary. *)
Fixpoint vocab_find (l : list (otype * bytes * N)) (t : otype) (rem : bytes) : option N :=
  match l with
  | [] => None
  | (u, r, a) :: l' => if otype_eqb u t && bytes_eqb r rem then Some a else vocab_find l' t rem
  end.

(** Terms that are only IRIs, datatypes and annotation properties. *)
Definition dts (l : list string) : list (bytes * list otype) := map (fun x => (bs x, [OT_DR_DATATYPE])) l.
(** src/cowl_owl_vocab.c:33-84 cowl_owl_vocab_init *)
Definition owl_group : group := mkGroup owl_ns (bs "owl")
  [ (bs "Thing", [OT_CE_CLASS]); (bs "Nothing", [OT_CE_CLASS]);
    (bs "topObjectProperty", [OT_OPE_OBJ_PROP]); (bs "bottomObjectProperty", [OT_OPE_OBJ_PROP]);
    (bs "topDataProperty", [OT_DPE_DATA_PROP]); (bs "bottomDataProperty", [OT_DPE_DATA_PROP]);
    (bs "backwardCompatibleWith", [OT_ANNOT_PROP]); (bs "deprecated", [OT_ANNOT_PROP]);
    (bs "incompatibleWith", [OT_ANNOT_PROP]); (bs "priorVersion", [OT_ANNOT_PROP]);
    (bs "rational", [OT_DR_DATATYPE]); (bs "real", [OT_DR_DATATYPE]); (bs "versionInfo", [OT_ANNOT_PROP]) ].
(** src/cowl_rdf_vocab.c:36-60 cowl_rdf_vocab_init *)
Definition rdf_group : group := mkGroup rdf_ns (bs "rdf")
  ((bs "langRange", []) :: dts ["langString"; "PlainLiteral"; "XMLLiteral"]%string).
(** src/cowl_rdfs_vocab.c:26-53 cowl_rdfs_vocab_init *)
Definition rdfs_group : group := mkGroup rdfs_ns (bs "rdfs")
  [ (bs "comment", [OT_ANNOT_PROP]); (bs "isDefinedBy", [OT_ANNOT_PROP]); (bs "label", [OT_ANNOT_PROP]);
    (bs "Literal", [OT_DR_DATATYPE]); (bs "seeAlso", [OT_ANNOT_PROP]) ].
(** src/cowl_xml_vocab.c:22-33, the first namespace and prefix *)
Definition xml_group : group := mkGroup (bs "http://www.w3.org/XML/1998/namespace") (bs "xml") [].
(** src/cowl_xml_vocab.c:22-33, the second namespace and prefix *)
Definition xmlns_group : group := mkGroup (bs "http://www.w3.org/2000/xmlns/") (bs "xmlns") [].
(** src/cowl_xsd_vocab.c:36-163 cowl_xsd_vocab_init *)
Definition xsd_group : group := mkGroup xsd_ns (bs "xsd")
  (dts ["anyAtomicType"; "anySimpleType"; "anyType"; "anyURI"; "base64Binary"; "boolean"; "byte"; "date";
        "dateTime"; "dateTimeStamp"; "dayTimeDuration"; "decimal"; "double"; "duration"; "ENTITIES"; "ENTITY";
        "float"; "gDay"; "gMonth"; "gMonthDay"; "gYear"; "gYearMonth"; "hexBinary"; "ID"; "IDREF"; "IDREFS";
        "int"; "integer"; "language"; "long"; "Name"; "NCName"; "negativeInteger"; "NMTOKEN"; "NMTOKENS";
        "nonNegativeInteger"; "nonPositiveInteger"; "normalizedString"; "NOTATION"; "positiveInteger";
        "QName"; "short"; "string"; "time"; "token"; "unsignedByte"; "unsignedInt"; "unsignedLong";
        "unsignedShort"; "yearMonthDuration"]%string ++
   map (fun x => (bs x, []))
       ["length"; "minLength"; "maxLength"; "pattern"; "minInclusive"; "minExclusive"; "maxInclusive";
        "maxExclusive"; "totalDigits"; "fractionDigits"]%string).
(** src/cowl_vocab.c:31-46 cowl_vocab_init *)
Definition groups : list group := [owl_group; rdf_group; rdfs_group; xml_group; xmlns_group; xsd_group].

Section Lifetime.
Variable huge : bool.
Variable fresh : N -> heap -> N.

(** Memory before cowl_init. *)
Definition s_zero : state := mkState [] [] [] [] [] 0.

(** src/cowl_config.c:50-66 cowl_init: src/cowl_string.c:65-74 cowl_string_api_init, then the
    vocabularies. The default reader, writer and prefix map are not modelled. While the vocabularies
    are created only [e_empty] is used. *)
Definition lib_init : act (env * list vocab) :=
  empty <- string_get huge fresh [] ;;
  vs <- mapm (vocab_init huge fresh (mkEnv empty 0 0 0 0 0)) groups ;;
  match vs with
  | [owl; rdf; rdfs; _; _; xsd] =>
      thing <- nonnull (vocab_find (v_ents owl) OT_CE_CLASS (bs "Thing")) ;;
      lit <- nonnull (vocab_find (v_ents rdfs) OT_DR_DATATYPE (bs "Literal")) ;;
      ls <- nonnull (vocab_find (v_ents rdf) OT_DR_DATATYPE (bs "langString")) ;;
      pl <- nonnull (vocab_find (v_ents rdf) OT_DR_DATATYPE (bs "PlainLiteral")) ;;
      str <- nonnull (vocab_find (v_ents xsd) OT_DR_DATATYPE (bs "string")) ;;
      ret (mkEnv empty thing lit ls pl str, vs)
  | _ => fail EStuck
  end.

(** src/cowl_config.c:68-78 cowl_deinit: the tables are emptied (ulib uhash_deinit), the empty string
    is released (src/cowl_string.c:76-80), the vocabulary objects are freed whatever their counts. *)
Definition lib_deinit (e : env) (vs : list vocab) : act unit :=
  (fun s => Ok tt (set_table TAno [] s)) ;;
  (fun s => Ok tt (set_table TEnt [] s)) ;;
  (fun s => Ok tt (set_table TIri [] s)) ;;
  release huge (Some (e_empty e)) ;;
  (fun s => Ok tt (set_table TStr [] s)) ;;
  each vocab_free vs.

End Lifetime.
