(** Model: the functions that create objects, when memory can run out.

    ModelHeap.v models these functions with an allocator that always succeeds. Here every request for
    memory may fail, and the functions are followed into the branches they take then. Two kinds of memory
    are told apart: the objects, which live in the heap of ModelHeap.v, and the plain buffers (the bytes
    of copied texts, the arrays of vectors), which are only counted while no object owns them. *)

From Coq Require Import NArith List Bool Arith.
From Verif Require Import Bytes ModelTypes ModelHeader ModelText ModelHeap.
Import ListNotations.
Local Open Scope N_scope.

(** A computation that is given the number of buffers nobody owns yet, and returns the new number. *)
Definition oact (A : Type) := N -> act (A * N).
(** returns a value *)
Definition oret {A} (x : A) : oact A := fun n => ret (x, n).
(** sequencing *)
Definition obind {A B} (m : oact A) (k : A -> oact B) : oact B :=
  fun n => bind (m n) (fun p => k (fst p) (snd p)).
(** a computation of ModelHeap.v *)
Definition lift {A} (m : act A) : oact A := fun n => bind m (fun x => ret (x, n)).

Declare Scope oact_scope.
Delimit Scope oact_scope with oact.
Notation "x <- m ;; k" := (obind m (fun x => k)) (at level 61, m at next level, right associativity) : oact_scope.
Notation "m ;; k" := (obind m (fun _ => k)) (at level 61, right associativity) : oact_scope.

(** The result of uhash_put: the key is new, a key equal to it is present, or memory ran out. *)
Inductive put_res : Set := PNew | PHas (k : N) | PErr.

Section Oom.
Variable huge : bool.
Variable fresh : N -> heap -> N.
Variable e : env.
(** The n-th request for memory fails. *)
Variable full : N -> bool.

Local Open Scope oact_scope.

(** A request for memory (ulib_alloc, ulib_realloc): whether it succeeds. Requests are counted by the
    allocation counter of the state. *)
Definition attempt : oact bool :=
  fun n s => Ok (negb (full (s_n s)), n) (mkState (s_heap s) (s_str s) (s_iri s) (s_ent s) (s_ano s) (s_n s + 1)).
(** A new buffer. Simplification: ulib keeps short texts inside the string, without a buffer; the model
    asks for one whatever the length. *)
Definition raw_new : oact bool :=
  b <- attempt ;; if b then (fun n => ret (true, n + 1)) else oret false.
(** A buffer nobody owns is freed, or an object takes it over. *)
Definition raw_done : oact unit := fun n => if n =? 0 then fail EFreed else ret (tt, n - 1).

(** ulib uhash_put on one of the tables: the table may have to grow, whether or not the key is new. When
    the key is new the caller stores an object in the table (uhash_set_key), or removes the key again
    (uhash_delete); the model adds the object in the first case and does nothing in the second. *)
Definition put (T : table_id) (eq : N -> act bool) : oact put_res :=
  b <- attempt ;;
  if b then
    k <- lift (table_find T eq) ;;
    oret (match k with Some k => PHas k | None => PNew end)
  else oret PErr.

(** * Strings *)

(** src/cowl_string.c:24-37 cowl_string_get. If [copy] is false the caller hands over a buffer. *)
Definition string_get_f (t : bytes) (copy : bool) : oact (option N) :=
  got <- (if copy then raw_new else oret true) ;;
  if got then
    mem <- attempt ;;
    if mem then raw_done ;; a <- lift (string_get huge fresh t) ;; oret (Some a)
    else raw_done ;; oret None
  else oret None.
(** src/cowl_string.c:39-63 cowl_string_get_intern *)
Definition string_get_intern_f (t : bytes) (copy : bool) : oact (option N) :=
  r <- put TStr (str_eq t) ;;
  match r with
  | PNew =>
      p <- string_get_f t copy ;;
      match p with
      | Some a => lift (set_bit huge a) ;; lift (table_add TStr a) ;; oret (Some a)
      | None => oret None
      end
  | PHas k => a <- lift (retain huge (Some k)) ;; (if copy then oret tt else raw_done) ;; oret (Some a)
  | PErr => (if copy then oret tt else raw_done) ;; oret None
  end.
(** src/cowl_string.c:90-107 cowl_string_intern *)
Definition string_intern_f (p : option N) : oact (option N) :=
  match p with
  | None => oret None
  | Some a =>
      b <- lift (get_bit huge a) ;;
      if b then oret (Some a) else
      t <- lift (text_at a) ;;
      if Nat.eqb (List.length t) 0 then oret (Some (e_empty e)) else
      r <- put TStr (str_eq t) ;;
      match r with
      | PNew => lift (table_add TStr a) ;; lift (set_bit huge a) ;; oret (Some a)
      | PHas k => oret (Some k)
      | PErr => oret None
      end
  end.
(** src/cowl_string.c:109-118 cowl_string_copy, of a string with text [t]: the result of ustring_dup is not
    looked at, and a failed one leaves a null text in the copy *)
Definition string_copy_f (t : bytes) : oact (option N) :=
  mem <- attempt ;;
  if mem then
    got <- raw_new ;;
    (if got then raw_done else oret tt) ;;
    a <- lift (string_get huge fresh (if got then t else [])) ;; oret (Some a)
  else oret None.
(** src/cowl_string.c:151-155 cowl_string, which takes over the buffer of the raw string; [None] is the
    null string. An empty raw string has no buffer. *)
Definition cowl_string_f (raw : option bytes) : oact (option N) :=
  match raw with
  | None => oret None
  | Some t =>
      if Nat.eqb (List.length t) 0 then a <- lift (string_empty huge e) ;; oret (Some a)
      else string_get_f t false
  end.
(** src/cowl_string.c:157-181 cowl_string_opt, on a raw string that is not null. An empty raw string has
    no buffer to free. *)
Definition string_opt_f (t : bytes) (copy intern : bool) : oact (option N) :=
  if Nat.eqb (List.length t) 0 then a <- lift (string_empty huge e) ;; oret (Some a)
  else if intern then string_get_intern_f t copy else string_get_f t copy.
(** src/cowl_string.c:120-149 cowl_string_get_ns_rem: both strings or none *)
Definition get_ns_rem_f (t : bytes) (ns_length : nat) : oact (option (N * N)) :=
  rhs <- (if Nat.ltb ns_length (List.length t) then string_opt_f (skipn ns_length t) true false
          else a <- lift (string_empty huge e) ;; oret (Some a)) ;;
  lhs <- string_opt_f (firstn ns_length t) true true ;;
  match lhs, rhs with
  | Some l, Some r => oret (Some (l, r))
  | _, _ => lift (release huge lhs) ;; lift (release huge rhs) ;; oret None
  end.

(** * IRIs *)

(** src/cowl_iri.c:67-89 cowl_iri_unvalidated with 47-58 cowl_iri_alloc. The parts are retained before the
    object is added to memory. *)
Definition iri_unvalidated_f (ns rem : option N) : oact (option N) :=
  match ns with
  | None => oret None
  | Some _ =>
      i <- string_intern_f ns ;;
      match i with
      | None => oret None
      | Some i =>
          r <- lift (nonnull rem) ;;
          p <- put TIri (iri_eq i r) ;;
          match p with
          | PNew =>
              mem <- attempt ;;
              if mem then
                lift (retain huge (Some i)) ;; lift (retain huge (Some r)) ;;
                a <- lift (alloc huge fresh OT_IRI false (BIri i r)) ;; lift (table_add TIri a) ;; oret (Some a)
              else oret None
          | PHas k => lift (incr_ref huge k) ;; oret (Some k)
          | PErr => oret None
          end
      end
  end.
(** src/cowl_iri.c:103-109 and 121-128: a buffer to which two texts are appended. Each of the two may have
    to make it larger. *)
Definition append_two : oact bool :=
  b <- raw_new ;;
  if b then
    c <- attempt ;;
    if c then oret true else raw_done ;; oret false
  else oret false.
(** ulib ustrbuf_to_string: the text in the buffer, or the null string if memory runs out *)
Definition to_string (t : bytes) : oact (option bytes) :=
  b <- attempt ;; if b then oret (Some t) else raw_done ;; oret None.
(** src/cowl_iri.c:91-145 cowl_iri *)
Definition cowl_iri_f (prefix suffix : option N) : oact (option N) :=
  match prefix, suffix with
  | Some p, Some q =>
      p_str <- lift (text_at p) ;;
      s_str <- lift (text_at q) ;;
      let s_ns_len := xml_ns_length s_str in
      parts <-
        (if Nat.ltb 0 s_ns_len then
           b <- append_two ;;
           if b then
             raw <- to_string (p_str ++ firstn s_ns_len s_str) ;;
             p' <- cowl_string_f raw ;;
             q' <- string_opt_f (skipn s_ns_len s_str) true false ;; oret (p', q')
           else oret (None, None)
         else
           let p_ns_len := xml_ns_length p_str in
           if Nat.ltb p_ns_len (List.length p_str) then
             b <- append_two ;;
             if b then
               p' <- string_opt_f (firstn p_ns_len p_str) true true ;;
               raw <- to_string (skipn p_ns_len p_str ++ s_str) ;;
               q' <- cowl_string_f raw ;; oret (p', q')
             else oret (None, None)
           else
             p' <- lift (retain huge prefix) ;; q' <- lift (retain huge suffix) ;; oret (Some p', Some q')) ;;
      iri <- (match parts with
              | (Some _, Some _) => iri_unvalidated_f (fst parts) (snd parts)
              | _ => oret None
              end) ;;
      lift (release huge (fst parts)) ;;
      lift (release huge (snd parts)) ;;
      oret iri
  | _, _ => oret None
  end.
(** src/cowl_iri.c:147-158 cowl_iri_from_string *)
Definition iri_of_string_f (t : bytes) : oact (option N) :=
  if Nat.leb (ustring_size t) 1 then oret None else
  parts <- get_ns_rem_f t (xml_ns_length t) ;;
  match parts with
  | None => oret None
  | Some (l, r) =>
      iri <- iri_unvalidated_f (Some l) (Some r) ;;
      lift (release huge (Some l)) ;;
      lift (release huge (Some r)) ;;
      oret iri
  end.

(** * Entities *)

(** src/cowl_entity.c:85-106 cowl_entity_get_impl with 59-77 cowl_entity_alloc, without identifiers
    (COWL_ENTITY_IDS off) *)
Definition entity_get_f (t : otype) (iri : option N) : oact (option N) :=
  match iri with
  | None => oret None
  | Some i =>
      p <- put TEnt (ent_eq huge t i) ;;
      match p with
      | PNew =>
          mem <- attempt ;;
          if mem then
            lift (retain huge iri) ;;
            a <- lift (alloc huge fresh t false (BEnt i)) ;; lift (table_add TEnt a) ;; oret (Some a)
          else oret None
      | PHas k => lift (incr_ref huge k) ;; oret (Some k)
      | PErr => oret None
      end
  end.
(** src/cowl_entity.c:108-118 cowl_entity_from_string_impl *)
Definition entity_of_string_f (t : otype) (u : bytes) : oact (option N) :=
  i <- iri_of_string_f u ;;
  match i with
  | None => oret None
  | Some _ => x <- entity_get_f t i ;; lift (release huge i) ;; oret x
  end.

(** * Anonymous individuals *)

(** src/cowl_anon_ind.c:47-55 anon_ind_alloc, with the insertion in the table. [id] may be NULL. *)
Definition anon_alloc_f (id : option N) : oact (option N) :=
  mem <- attempt ;;
  if mem then
    i <- lift (retain huge id) ;;
    a <- lift (alloc huge fresh OT_I_ANONYMOUS false (BAnon i)) ;; lift (table_add TAno a) ;; oret (Some a)
  else oret None.
(** src/cowl_anon_ind.c:63-89 anon_ind with copy_id false *)
Definition anon_of_id_f (id : N) : oact (option N) :=
  t <- lift (text_at id) ;;
  p <- put TAno (anon_eq t) ;;
  match p with
  | PNew => anon_alloc_f (Some id)
  | PHas k => lift (incr_ref huge k) ;; oret (Some k)
  | PErr => oret None
  end.
(** src/cowl_anon_ind.c:131-134 cowl_anon_ind_from_string: anon_ind with copy_id true *)
Definition anon_of_string_f (t : bytes) : oact (option N) :=
  p <- put TAno (anon_eq t) ;;
  match p with
  | PNew => id <- string_copy_f t ;; a <- anon_alloc_f id ;; lift (release huge id) ;; oret a
  | PHas k => lift (incr_ref huge k) ;; oret (Some k)
  | PErr => oret None
  end.
(** src/cowl_anon_ind.c:91-125 anon_ind_generate. The random identifiers are the elements of [ids]. *)
Fixpoint anon_generate_f (ids : list bytes) : oact (option N) :=
  match ids with
  | [] => oret None
  | t :: ids' =>
      got <- raw_new ;;
      if got then
        p <- put TAno (anon_eq t) ;;
        match p with
        | PHas _ => raw_done ;; anon_generate_f ids'
        | PErr => raw_done ;; oret None
        | PNew =>
            id <- cowl_string_f (Some t) ;;
            match id with
            | None => oret None
            | Some i => a <- anon_alloc_f (Some i) ;; lift (release huge (Some i)) ;; oret a
            end
        end
      else oret None
  end.
(** src/cowl_anon_ind.c:127-129 cowl_anon_ind *)
Definition anon_ind_f (id : option N) (ids : list bytes) : oact (option N) :=
  match id with
  | Some i => anon_of_id_f i
  | None => anon_generate_f ids
  end.

(** * Composite objects *)

(** src/cowl_object.c:422-459 cowl_get_impl, cowl_get_impl_annot and cowl_get_impl_uint: one allocation,
    before anything else is done; NULL if it fails *)
Definition one_alloc (m : act N) : oact (option N) :=
  mem <- attempt ;; if mem then a <- lift m ;; oret (Some a) else oret None.

(** * Vectors *)

(** src/cowl_vector.c:57-62 cowl_vector with 44-55 cowl_vector_wrap. The array belongs to the client,
    also when the call fails. *)
Definition vector_f (items : list N) : oact (option N) :=
  b <- attempt ;;
  if b then one_alloc (vector huge fresh (map Some items)) else oret None.
(** include/cowl_vector.h:120 cowl_vector_empty: no array to shrink *)
Definition vector_empty_f : oact (option N) := one_alloc (vector huge fresh []).
(** src/cowl_vector.c:81-85 cowl_vector_ordered_empty *)
Definition vector_ordered_empty_f : oact (option N) :=
  v <- vector_empty_f ;; lift (vector_set_ordered huge v) ;; oret v.
(** src/cowl_vector.c:177-182 cowl_vector_add *)
Definition vector_add_f (v x : option N) : oact unit :=
  mem <- attempt ;; if mem then lift (vector_add huge v x) else oret tt.
(** src/cowl_vector.c:184-191 cowl_vector_push *)
Definition vector_push_f (v x : option N) : oact unit :=
  mem <- attempt ;; if mem then lift (vector_push v x) else lift (release huge x).
(** src/cowl_vector.c:26-29: the arguments are pushed one by one; whether all of them fit. Each push may
    need memory, the first one a new array. *)
Fixpoint push_all (first : bool) (items : list N) : oact bool :=
  match items with
  | [] => oret true
  | _ :: l =>
      b <- (if first then raw_new else attempt) ;;
      if b then push_all false l
      else (if first then oret tt else raw_done) ;; oret false
  end.
(** src/cowl_vector.c:25-35 cowl_vector_with_args: the array is not freed if cowl_vector returns NULL *)
Definition vector_with_args_f (items : list N) : oact (option N) :=
  b <- push_all true items ;;
  if b then
    v <- vector_f items ;;
    match v, items with
    | Some _, _ :: _ => raw_done ;; oret v
    | _, _ => oret v
    end
  else oret None.
(** src/cowl_object.c:461-470 cowl_nary_get_impl *)
Definition nary_get_impl_f (t : otype) (items : list N) : oact (option N) :=
  v <- vector_with_args_f items ;;
  match v with
  | None => oret None
  | Some v => o <- one_alloc (get_impl huge fresh t [Some v] None) ;; lift (release huge (Some v)) ;; oret o
  end.
(** src/cowl_has_key_axiom.c:16-25 cowl_has_key_axiom *)
Definition has_key_f (cls obj_props data_props annot : option N) : oact (option N) :=
  o <- (match obj_props with Some _ => a <- lift (retain huge obj_props) ;; oret (Some a) | None => vector_empty_f end) ;;
  d <- (match data_props with Some _ => a <- lift (retain huge data_props) ;; oret (Some a) | None => vector_empty_f end) ;;
  r <- one_alloc (get_impl_annot huge fresh OT_A_HAS_KEY [cls; o; d] annot) ;;
  lift (release huge o) ;; lift (release huge d) ;;
  oret r.
(** src/cowl_sub_obj_prop_axiom.c:16-20 cowl_sub_obj_prop_chain_axiom *)
Definition chain_axiom_f (sub super annot : option N) : oact (option N) :=
  lift (vector_set_ordered huge sub) ;; one_alloc (get_impl_annot huge fresh OT_A_SUB_OBJ_PROP [sub; super] annot).
(** The constructor of a composite type. *)
Definition construct_f (t : otype) (fields : list (option N)) (opt : option N) (val : N) : oact (option N) :=
  match ctor_of t, fields with
  | Some CHasKey, [c; o; d] => has_key_f c o d opt
  | _, _ => one_alloc (construct huge fresh e t fields opt val)
  end.

(** * Literals *)

(** src/cowl_literal.c:80-84 cowl_literal_alloc: the flag is set without a look at the result *)
Definition literal_alloc_f (value dt_or_lang : option N) (is_lang : bool) : oact (option N) :=
  l <- one_alloc (get_impl huge fresh OT_LITERAL [value; dt_or_lang] None) ;;
  (if is_lang then a <- lift (nonnull l) ;; lift (set_bit huge a) else oret tt) ;;
  oret l.
(** src/cowl_literal.c:86-88 cowl_literal_string_alloc *)
Definition literal_string_alloc_f (value : option N) : oact (option N) := literal_alloc_f value (Some (e_string e)) false.
(** src/cowl_literal.c:59-73 internalize_lang *)
Definition intern_lang_f (lang : N) : oact (option N) :=
  t <- lift (text_at lang) ;;
  if is_lower t then
    i <- string_intern_f (Some lang) ;;
    match i with None => oret None | Some _ => a <- lift (retain huge i) ;; oret (Some a) end
  else
    got <- raw_new ;;
    if got then string_opt_f (to_lower t) false true else oret None.
(** src/cowl_literal.c:90-96 cowl_literal_lang_alloc *)
Definition lit_lang_alloc_f (value : option N) (lang : N) : oact (option N) :=
  t <- lift (text_at lang) ;;
  if Nat.eqb (List.length t) 0 then literal_string_alloc_f value else
  i <- intern_lang_f lang ;;
  match i with
  | None => oret None
  | Some _ => l <- literal_alloc_f value i true ;; lift (release huge i) ;; oret l
  end.
(** src/cowl_literal.c:31-57 parse_lang: NULL, or the value and the language tag *)
Definition parse_lang_at_f (value : N) : oact (option (N * option N)) :=
  t <- lift (text_at value) ;;
  match parse_lang t with
  | (_, None) => v <- lift (retain huge (Some value)) ;; oret (Some (v, None))
  | (u, Some lang) =>
      v <- string_opt_f u true false ;;
      match v with
      | None => oret None
      | Some v' =>
          got <- raw_new ;;
          l <- (if got then string_opt_f lang false true else oret None) ;;
          match l with
          | Some l' => oret (Some (v', Some l'))
          | None => lift (release huge v) ;; oret None
          end
      end
  end.
(** src/cowl_literal.c:98-105 cowl_literal_parse_lang_alloc *)
Definition lit_parse_lang_alloc_f (value : N) : oact (option N) :=
  p <- parse_lang_at_f value ;;
  match p with
  | None => oret None
  | Some (v, lang) =>
      l <- literal_alloc_f (Some v) lang true ;;
      lift (release huge (Some v)) ;; lift (release huge lang) ;;
      oret l
  end.
(** src/cowl_literal.c:117-124 cowl_literal *)
Definition literal_f (value dt_or_lang : option N) : oact (option N) :=
  match value with
  | None => oret None
  | Some v =>
      match dt_or_lang with
      | None => literal_string_alloc_f value
      | Some d =>
          t <- lift (get_type_at huge d) ;;
          match t with
          | Some OT_STRING => lit_lang_alloc_f value d
          | _ => if (d =? e_lang_string e) || (d =? e_plain_literal e) then lit_parse_lang_alloc_f v
                 else literal_alloc_f value (Some d) false
          end
      end
  end.
(** src/cowl_literal.c:126-132 cowl_literal_plain, 134-140 cowl_literal_typed *)
Definition lit_copied_f (t : bytes) (dt : option N) : oact (option N) :=
  v <- string_opt_f t true false ;;
  match v with
  | None => oret None
  | Some _ => l <- literal_alloc_f v dt false ;; lift (release huge v) ;; oret l
  end.
(** src/cowl_literal.c:142-158 cowl_literal_lang *)
Definition lit_lang_f (t lang : bytes) : oact (option N) :=
  v <- string_opt_f t true false ;;
  match v with
  | None => oret None
  | Some _ =>
      i <- string_opt_f lang true true ;;
      match i with
      | None => lift (release huge v) ;; oret None
      | Some i' => l <- lit_lang_alloc_f v i' ;; lift (release huge v) ;; lift (release huge i) ;; oret l
      end
  end.

(** * Calls *)

(** Executes a call: the new reference it returns, if any. src/cowl_ontology.c:36-44 cowl_ontology allocates
    the ontology and nothing else. The other functions on ontologies, cowl_equals and
    cowl_iterate_primitives are those of ModelHeap.v: their requests for memory succeed. *)
Definition exec_f (k : call) : oact (option N) :=
  match k with
  | KString t intern => string_opt_f t true intern
  | KIntern s => string_intern_f (Some s) ;; oret None
  | KIri p q => cowl_iri_f (Some p) (Some q)
  | KIriText t => iri_of_string_f t
  | KEntity t i => entity_get_f t (Some i)
  | KEntityText t u => entity_of_string_f t u
  | KAnon id ids => anon_ind_f id ids
  | KAnonText t => anon_of_string_f t
  | KLiteral v d => literal_f (Some v) d
  | KLitPlain t => lit_copied_f t (Some (e_string e))
  | KLitTyped t d => lit_copied_f t (Some d)
  | KLitLang t l => lit_lang_f t l
  | KVector items => vector_f items
  | KVectorOrdered => vector_ordered_empty_f
  | KVectorAdd v x => vector_add_f (Some v) (Some x) ;; oret None
  | KVectorPush v x => vector_push_f (Some v) (Some x) ;; oret None
  | KConstruct t fs opt val => construct_f t fs opt val
  | KNary t items => nary_get_impl_f t items
  | KChain sub super annot => chain_axiom_f (Some sub) (Some super) annot
  | KOntology => one_alloc (ontology huge fresh)
  | _ => lift (exec huge fresh e k)
  end.

End Oom.
