(** Objects as values: equality, hashing, primitive iteration, operand access.

    Models src/cowl_object.c, src/cowl_vector.c, src/cowl_literal.c, src/cowl_axiom.c,
    src/cowl_obj_quant.c, src/cowl_data_quant.c and src/cowl_iterator.c.

    Simplification: a heap object is represented by the tree of its contents. Pointer comparison of
    interned objects (IRIs, entities, anonymous individuals, language tags) is comparison of
    contents; the heap model proves that interning makes the two agree. Tables, ontologies, prefix
    maps, readers and writers are not part of this type; tables have their own model. *)

From Coq Require Import NArith ZArith List Bool String.
From Verif Require Import Bytes ModelTypes.
Import ListNotations.
Local Open Scope N_scope.

(** src/cowl_types.h, src/cowl_string_private.h, src/cowl_iri_private.h, src/cowl_entity_private.h,
    src/cowl_vector_private.h:24-35, src/cowl_literal.c:80-84, include/cowl_impl.h (CowlComposite).
    [OStr interned s]: the flag bit of a string says whether it is in the intern table.
    [OVec ordered items]: the flag bit of a vector says whether it is ordered.
    [OLit v ns rem]: typed literal, datatype IRI ns/rem; [OLang v l]: flag bit set, field 1 = tag.
    [OComp t fields opt n]: composite; flag bit set iff [opt] is present; [n] = the uint stored
    after the fields of cardinality restrictions (0 otherwise). *)
Inductive obj : Type :=
| OStr (interned : bool) (s : bytes)
| OIri (ns rem : bytes)
| OEnt (e : etype) (ns rem : bytes)
| OAnon (id : bytes)
| OLit (v ns rem : bytes)
| OLang (v lang : bytes)
| OVec (ordered : bool) (items : list obj)
| OComp (t : otype) (fields : list obj) (opt : option obj) (n : N).

(** src/cowl_object.c:196-198 cowl_get_type *)
Definition get_type (o : obj) : otype :=
  match o with
  | OStr _ _ => OT_STRING
  | OIri _ _ => OT_IRI
  | OEnt e _ _ => etype_otype e
  | OAnon _ => OT_I_ANONYMOUS
  | OLit _ _ _ => OT_LITERAL
  | OLang _ _ => OT_LITERAL
  | OVec _ _ => OT_VECTOR
  | OComp t _ _ _ => t
  end.

(** src/cowl_object.c:200-202 cowl_is_primitive *)
Definition is_primitive (o : obj) : bool := type_is_primitive (get_type o).
(** src/cowl_object.c:204-206 cowl_is_entity *)
Definition is_entity (o : obj) : bool := type_is_entity (get_type o).

(** src/cowl_owl_vocab.c:34 *)
Definition owl_ns : bytes := bs "http://www.w3.org/2002/07/owl#".
(** src/cowl_rdf_vocab.c:37 *)
Definition rdf_ns : bytes := bs "http://www.w3.org/1999/02/22-rdf-syntax-ns#".
(** src/cowl_rdfs_vocab.c:27 *)
Definition rdfs_ns : bytes := bs "http://www.w3.org/2000/01/rdf-schema#".
(** src/cowl_xsd_vocab.c:37 *)
Definition xsd_ns : bytes := bs "http://www.w3.org/2001/XMLSchema#".
(** src/cowl_xml_vocab.c:24 *)
Definition xml_ns : bytes := bs "http://www.w3.org/XML/1998/namespace".

(** src/cowl_owl_vocab.c:57 vocab.cls.thing *)
Definition owl_thing : obj := OEnt ET_CLASS owl_ns (bs "Thing").
(** src/cowl_rdfs_vocab.c vocab.dt.literal *)
Definition rdfs_literal : obj := OEnt ET_DATATYPE rdfs_ns (bs "Literal").
(** src/cowl_rdf_vocab.c vocab.dt.lang_string *)
Definition rdf_lang_string : obj := OEnt ET_DATATYPE rdf_ns (bs "langString").

(** Pointer comparison of two interned primitives (src/cowl_object.c:314,319). *)
Definition prim_eqb (a b : obj) : bool :=
  match a, b with
  | OIri n r, OIri n' r' => bytes_eqb n n' && bytes_eqb r r'
  | OEnt e n r, OEnt e' n' r' => otype_eqb (etype_otype e) (etype_otype e') && bytes_eqb n n' && bytes_eqb r r'
  | OAnon i, OAnon j => bytes_eqb i j
  | _, _ => false
  end.

(** src/cowl_literal.c:174-177 cowl_literal_equals: field 1 by pointer (datatype or tag, both
    interned), value by content. *)
Definition literal_equals (a b : obj) : bool :=
  match a, b with
  | OLit v n r, OLit v' n' r' => (bytes_eqb n n' && bytes_eqb r r') && bytes_eqb v v'
  | OLang v l, OLang v' l' => bytes_eqb l l' && bytes_eqb v v'
  | _, _ => false
  end.

(** src/cowl_object.c:302-337 cowl_equals, with src/cowl_vector.c:112-130 (vector equality),
    src/cowl_string.c:227 (string equality: equal hashes and equal bytes, i.e. equal bytes) and
    src/cowl_literal.c:174-177 inlined.
    ulib [uvec_contains(vec, item)] is [existsb (cowl_equals item) vec]: the argument order is an
    assumption about ulib. The pointer shortcut of src/cowl_vector.c:117 is dropped: it only answers
    true on identical vectors, where the loop answers true as well. *)
Fixpoint cowl_equals (a b : obj) {struct a} : bool :=
  if negb (otype_eqb (get_type a) (get_type b)) then false else
  match a, b with
  | OStr _ s, OStr _ s' => bytes_eqb s s'
  | OVec o1 l1, OVec _ l2 =>
      if o1 then
        Nat.eqb (List.length l1) (List.length l2) && forall2b cowl_equals l1 l2
      else
        Nat.eqb (List.length l1) (List.length l2) &&
        forallb (fun x => existsb (fun y => cowl_equals x y) l2) l1
  | OLit _ _ _, _ => literal_equals a b
  | OLang _ _, _ => literal_equals a b
  | OIri _ _, _ => prim_eqb a b
  | OEnt _ _ _, _ => prim_eqb a b
  | OAnon _, _ => prim_eqb a b
  | OComp t fs opt n, OComp _ fs' opt' n' =>
      match opt, opt' with
      | None, None => forall2b cowl_equals fs fs'
      | Some p, Some p' => forall2b cowl_equals fs fs' && cowl_equals p p'
      | _, _ => false
      end && (if type_is_card t then n =? n' else true)
  | _, _ => false
  end.

Section Hash.
  (** ulib [ulib_hash_alloc_ptr]: an unknown function of the identity of an object. *)
  Variable ptr_hash : obj -> N.
  (** ulib [ustring_hash]: an unknown function of the bytes. *)
  Variable str_hash : bytes -> N.
  (** ulib [ulib_hash_combine]. *)
  Variable combine : N -> N -> N.

  (** src/cowl_object.c:344-375 cowl_hash, with src/cowl_vector.c:132-152 and
      src/cowl_literal.c:179-184 inlined. A language tag is an interned string, hashed by pointer. *)
  Fixpoint cowl_hash (o : obj) : N :=
    match o with
    | OStr _ s => str_hash s
    | OIri _ _ => ptr_hash o
    | OEnt _ _ _ => ptr_hash o
    | OAnon _ => ptr_hash o
    | OLit v ns rem =>
        combine (combine (combine 6151 (otype_num OT_LITERAL)) (str_hash v)) (ptr_hash (OEnt ET_DATATYPE ns rem))
    | OLang v l =>
        combine (combine (combine 6151 (otype_num OT_LITERAL)) (str_hash v)) (ptr_hash (OStr true l))
    | OVec true l => fold_left (fun h x => combine h (cowl_hash x)) l 0
    | OVec false l => fold_left (fun h x => N.lxor h (cowl_hash x)) l 0
    | OComp t fs opt n =>
        let h := fold_left (fun h x => combine h (cowl_hash x)) fs (combine 6151 (otype_num t)) in
        let h := match opt with Some p => combine h (cowl_hash p) | None => h end in
        if type_is_card t then combine h n else h
    end.
End Hash.

(** * Iteration *)

(** include/cowl_ret.h: COWL_OK = COWL_CONTINUE, COWL_NO = COWL_STOP; errors are negative. *)
Definition ret := Z.
(** include/cowl_ret.h *)
Definition COWL_OK : ret := 0%Z.
(** include/cowl_ret.h *)
Definition COWL_NO : ret := 1%Z.
(** include/cowl_ret.h COWL_CONTINUE *)
Definition COWL_CONTINUE : ret := COWL_OK.
(** include/cowl_ret.h COWL_STOP *)
Definition COWL_STOP : ret := COWL_NO.
(** include/cowl_ret.h cowl_should_stop *)
Definition should_stop (r : ret) : bool := negb (Z.eqb r 0).

(** Outcome of an iteration: final callback context and return code, or undefined behaviour. *)
Inductive ires (S : Type) : Type :=
| IRet (s : S) (r : ret)
| IUB.
Arguments IRet {S}.
Arguments IUB {S}.

(** Loop "call; if (cowl_should_stop(ret)) return ret;" over an array, e.g.
    src/cowl_vector.c:157-161 and src/cowl_object.c:414-419. *)
Definition iter_loop {S A} (step : A -> S -> ires S) : list A -> S -> ires S :=
  fix loop (l : list A) (s : S) : ires S :=
    match l with
    | [] => IRet s COWL_CONTINUE
    | x :: l' =>
        match step x s with
        | IUB => IUB
        | IRet s' r => if should_stop r then IRet s' r else loop l' s'
        end
    end.

(** include/cowl_primitive_flags.h: bit of a primitive type in a flag set. *)
Definition pf_has (flags : N) (p : ptype) : bool := N.testbit flags (ptype_num p).
(** include/cowl_primitive_flags.h cowl_primitive_flags_from_type *)
Definition pf_of (p : ptype) : N := N.shiftl 1 (ptype_num p).
(** include/cowl_primitive_flags.h COWL_PF_ALL *)
Definition PF_ALL : N := 255.

Section Iterate.
  Context {S : Type}.
  (** include/cowl_iterator.h: a callback with a mutable context. *)
  Variable call : S -> obj -> S * ret.

  (** include/cowl_iterator.h cowl_iterator_call *)
  Definition iterator_call (o : obj) (s : S) : ires S := let (s', r) := call s o in IRet s' r.

  (** src/cowl_object.c:383-386 iterate_pf *)
  Definition iterate_pf (p : ptype) (o : obj) (flags : N) (s : S) : ires S :=
    if pf_has flags p then iterator_call o s else IRet s COWL_CONTINUE.

  (** src/cowl_object.c:388-420 cowl_iterate_primitives, with src/cowl_vector.c:154-162,
      src/cowl_literal.c:186-189, src/cowl_obj_quant.c:28-38 and src/cowl_data_quant.c:29-39 inlined.
      Strings reach the default branch: zero fields, plus one if the flag bit is set, in which
      case memory past the string header is read as an object (undefined behaviour).
      For the quantifiers the missing filler is the vocabulary entity (a class / datatype), on which
      cowl_iterate_primitives is iterate_pf. *)
  Fixpoint iterate_primitives (flags : N) (o : obj) (s : S) {struct o} : ires S :=
    match o with
    | OStr interned _ => if interned then IUB else IRet s COWL_CONTINUE
    | OIri _ _ => iterate_pf PT_IRI o flags s
    | OEnt e _ _ => iterate_pf (PT_ENT e) o flags s
    | OAnon _ => iterate_pf PT_ANON_IND o flags s
    | OLit _ ns rem => iterate_pf (PT_ENT ET_DATATYPE) (OEnt ET_DATATYPE ns rem) flags s
    | OLang _ _ => iterate_pf (PT_ENT ET_DATATYPE) rdf_lang_string flags s
    | OVec _ l => iter_loop (fun x s => iterate_primitives flags x s) l s
    | OComp t fs opt _ =>
        let quant (pt : ptype) (dflt : obj) : ires S :=
          match fs with
          | [] => IUB
          | p :: _ =>
              match iterate_primitives flags p s with
              | IUB => IUB
              | IRet s' r =>
                  if should_stop r then IRet s' r else
                  match opt with
                  | Some f => iterate_primitives flags f s'
                  | None => iterate_pf pt dflt flags s'
                  end
              end
          end in
        match t with
        | OT_CE_OBJ_SOME | OT_CE_OBJ_ALL => quant (PT_ENT ET_CLASS) owl_thing
        | OT_CE_DATA_SOME | OT_CE_DATA_ALL => quant (PT_ENT ET_DATATYPE) rdfs_literal
        | _ =>
            match iter_loop (fun x s => iterate_primitives flags x s) fs s with
            | IUB => IUB
            | IRet s' r =>
                if should_stop r then IRet s' r else
                match opt with
                | None => IRet s' COWL_CONTINUE
                | Some p => iterate_primitives flags p s'
                end
            end
        end
    end.
End Iterate.

(** src/cowl_iterator.c:44-50,80-85 cowl_iterator_contains: pointer comparison when the searched
    object is a primitive, cowl_equals otherwise. No context is modified. *)
Definition iterator_contains (target : obj) : unit -> obj -> unit * ret :=
  fun _ o =>
    (tt, if (if is_primitive target then prim_eqb o target else cowl_equals o target)
         then COWL_STOP else COWL_CONTINUE).

(** src/cowl_object.c:377-381 cowl_has_primitive. *)
Definition has_primitive (o p : obj) : option bool :=
  match iterate_primitives (iterator_contains p) (pf_of (primitive_get_type (get_type p))) o tt with
  | IUB => None
  | IRet _ r => Some (Z.eqb r COWL_STOP)
  end.

(** * Accessors *)

(** src/cowl_object.c:478-480,482-485 cowl_get_fields(object, include_opt, &count): the fields
    seen through the type's field count, then the optional one if asked for. *)
Definition get_fields (o : obj) (include_opt : bool) : list obj :=
  match o with
  | OComp t fs opt _ =>
      firstn (type_field_count t) fs ++
      (if include_opt then match opt with Some p => [p] | None => [] end else [])
  | _ => []
  end.

(** src/cowl_object.c:495-498 cowl_get_opt_field *)
Definition get_opt_field (o : obj) : option obj :=
  match o with OComp _ _ opt _ => opt | _ => None end.

(** src/cowl_obj_quant.c:28-31, src/cowl_data_quant.c:29-32: the filler getters. *)
Definition quant_filler (t : otype) (opt : option obj) : obj :=
  match opt with
  | Some f => f
  | None => match t with
            | OT_CE_OBJ_SOME | OT_CE_OBJ_ALL => owl_thing
            | _ => rdfs_literal
            end
  end.

(** src/cowl_axiom.c:22-37 cowl_axiom_equals *)
Definition axiom_equals (a b : obj) (annotations : bool) : bool :=
  if negb (otype_eqb (get_type a) (get_type b)) then false else
  let fa := get_fields a annotations in
  let fb := get_fields b annotations in
  Nat.eqb (List.length fa) (List.length fb) && forall2b cowl_equals fa fb.

(** include/cowl_position.h: bit indices of LEFT, RIGHT, MIDDLE. *)
Definition PS_LEFT : N := 1.
(** include/cowl_position.h *)
Definition PS_RIGHT : N := 2.
(** include/cowl_position.h *)
Definition PS_MIDDLE : N := 4.
(** include/cowl_position.h *)
Definition PS_ANY : N := 7.

(** src/cowl_axiom.c:53-60 index_allowed; the table row is indexed by n - 1, so n = 0 or n > 3, or
    i >= n, would read outside the table (undefined behaviour, [None]). *)
Definition index_allowed (n i : nat) (position : N) : option bool :=
  let row := match n with
             | 1%nat => Some [PS_ANY]
             | 2%nat => Some [PS_LEFT; PS_RIGHT]
             | 3%nat => Some [PS_LEFT; PS_MIDDLE; PS_RIGHT]
             | _ => None
             end in
  match row with
  | None => None
  | Some r => match nth_error r i with
              | None => None
              | Some m => Some (negb (N.land position m =? 0))
              end
  end.

Section Operands.
  Context {S : Type}.
  (** include/cowl_iterator.h: a callback with a mutable context. *)
  Variable call : S -> obj -> S * ret.

  (** src/cowl_axiom.c:62-84 cowl_axiom_iterate_operands: loop from index [i] on. *)
  Fixpoint iterate_operands_from (n i : nat) (position : N) (fs : list obj) (s : S) : ires S :=
    match fs with
    | [] => IRet s COWL_CONTINUE
    | op :: fs' =>
        match index_allowed n i position with
        | None => IUB
        | Some false => iterate_operands_from n (1 + i) position fs' s
        | Some true =>
            let r := match op with
                     | OVec _ l => iter_loop (iterator_call call) l s
                     | _ => iterator_call call op s
                     end in
            match r with
            | IUB => IUB
            | IRet s' rc => if should_stop rc then IRet s' rc
                            else iterate_operands_from n (1 + i) position fs' s'
            end
        end
    end.

  (** src/cowl_axiom.c:62-84 cowl_axiom_iterate_operands *)
  Definition iterate_operands (axiom : obj) (position : N) (s : S) : ires S :=
    let fs := get_fields axiom false in
    iterate_operands_from (List.length fs) 0 position fs s.
End Operands.

(** Reads "... == COWL_STOP" off an iteration result. *)
Definition stopped {S} (r : ires S) : option bool :=
  match r with IUB => None | IRet _ rc => Some (Z.eqb rc COWL_STOP) end.

(** src/cowl_axiom.c:39-42 cowl_axiom_has_operand *)
Definition axiom_has_operand (axiom operand : obj) (position : N) : option bool :=
  stopped (iterate_operands (iterator_contains operand) axiom position tt).

(** src/cowl_object.c:237-242 cowl_get_iri *)
Definition get_iri (o : obj) : option obj :=
  match o with
  | OEnt _ ns rem => Some (OIri ns rem)
  | OIri ns rem => Some o
  | _ => None
  end.

(** src/cowl_object.c:244-246 cowl_has_iri: pointer comparison of the IRIs ([iri] is not NULL). *)
Definition has_iri (o iri : obj) : bool :=
  match get_iri o with Some i => prim_eqb i iri | None => false end.

(** src/cowl_axiom.c:44-51 cowl_axiom_has_operand_with_iri *)
Definition axiom_has_operand_with_iri (axiom iri : obj) (position : N) : option bool :=
  stopped (iterate_operands (fun (_ : unit) o => (tt, if has_iri o iri then COWL_STOP else COWL_CONTINUE)) axiom position tt).

(** src/cowl_axiom.c:86-89 operand_has_primitive, as an iterator whose context remembers undefined
    behaviour of the nested call. *)
Definition operand_has_primitive (p : obj) (ub : bool) (o : obj) : bool * ret :=
  if prim_eqb o p then (ub, COWL_STOP) else
  match has_primitive o p with
  | None => (true, COWL_STOP)
  | Some b => (ub, if b then COWL_STOP else COWL_CONTINUE)
  end.

(** src/cowl_axiom.c:91-96 cowl_axiom_has_primitive *)
Definition axiom_has_primitive (axiom p : obj) (position : N) : option bool :=
  if position =? PS_ANY then has_primitive axiom p else
  match iterate_operands (operand_has_primitive p) axiom position false with
  | IUB => None
  | IRet true _ => None
  | IRet false r => Some (Z.eqb r COWL_STOP)
  end.

(** * Constructors *)

(** src/cowl_object.c:435-439 cowl_get_impl_annot (via include/cowl_impl.h cowl_get_impl_N_annot):
    an empty annotation vector is the same as none. *)
Definition mk_annot (t : otype) (fs : list obj) (annot : option obj) : obj :=
  OComp t fs (match annot with Some (OVec _ []) => None | a => a end) 0.
(** src/cowl_object.c:422-433 cowl_get_impl without optional field *)
Definition mk_plain (t : otype) (fs : list obj) : obj := OComp t fs None 0.
(** src/cowl_obj_quant.c:22-26 and src/cowl_data_quant.c:22-27: the universal filler is dropped. *)
Definition mk_quant (t : otype) (prop : obj) (filler : option obj) : obj :=
  OComp t [prop]
    (match filler with
     | Some f => if prim_eqb f (match t with OT_CE_OBJ_SOME | OT_CE_OBJ_ALL => owl_thing | _ => rdfs_literal end)
                 then None else Some f
     | None => None
     end) 0.
(** src/cowl_object.c:441-459 cowl_get_impl_uint (cardinality restrictions: include/cowl_obj_card.h,
    include/cowl_data_card.h) *)
Definition mk_card (t : otype) (prop : obj) (n : N) (filler : option obj) : obj := OComp t [prop] filler n.
