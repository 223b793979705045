(** Specification of references, ownership and histories of calls. *)

From Coq Require Import NArith List Bool Arith.
From Verif Require Import Bytes ModelTypes ModelHeader SpecHeader ModelText ModelHeap.
Import ListNotations.
Local Open Scope N_scope.

(** The pointers to other objects stored in an object. *)
Definition pointers_of (b : body) : list N :=
  match b with
  | BStr _ => []
  | BVec l => l
  | BIri ns rem => [ns; rem]
  | BEnt i => [i]
  | BAnon i => [i]
  | BComp l => flat_map (fun f => match f with Obj a => [a] | UInt _ => [] end) l
  | BOnto o => opt_list (n_iri o) ++ opt_list (n_version o) ++ n_imports o ++ opt_list (n_annot o) ++
               flat_map snd (n_axioms o)
  end.

(** How often an address occurs in a list. *)
Definition count (a : N) (l : list N) : nat := count_occ N.eq_dec l a.

(** Number of pointers to an address stored in the objects in memory. *)
Fixpoint pointers_to (a : N) (h : heap) : nat :=
  match h with
  | [] => O
  | (_, c) :: h' => count a (pointers_of (c_body c)) + pointers_to a h'
  end%nat.

(** Number of references to an address: those held outside memory and those stored in objects. *)
Definition references (held : list N) (s : state) (a : N) : nat := (count a held + pointers_to a (s_heap s))%nat.

(** There is an object at this address. *)
Definition alive (s : state) (a : N) : Prop := exists c, lookup (s_heap s) a = Some c.

(** There is a path of pointers from one object to another. *)
Inductive reach (s : state) : N -> N -> Prop :=
| reach_here a : alive s a -> reach s a a
| reach_step a c b d : lookup (s_heap s) a = Some c -> In b (pointers_of (c_body c)) -> reach s b d -> reach s a d.

(** What a client may pass to a call: objects it can get to from the references held. *)
Definition usable (held : list N) (s : state) (a : N) : Prop := exists r, In r held /\ reach s r a.

(** The object at an address has this type. *)
Definition has_type (huge : bool) (s : state) (a : N) (t : otype) : Prop :=
  exists c, lookup (s_heap s) a = Some c /\ type_of huge c = Some t.
(** The string at an address has this text. *)
Definition has_text (s : state) (a : N) (t : bytes) : Prop :=
  exists c, lookup (s_heap s) a = Some c /\ c_body c = BStr t.

(** An optional argument: NULL, or an object that satisfies the condition. *)
Definition optional (P : N -> Prop) (p : option N) : Prop := match p with Some a => P a | None => True end.
(** A required argument: not NULL and satisfies the condition. *)
Definition required (P : N -> Prop) (p : option N) : Prop := match p with Some a => P a | None => False end.

(** The ontology at an address. *)
Definition onto_is (s : state) (a : N) (o : onto) : Prop :=
  exists c, lookup (s_heap s) a = Some c /\ c_body c = BOnto o.
(** The vector at an address has these items. *)
Definition has_items (s : state) (a : N) (l : list N) : Prop :=
  exists c, lookup (s_heap s) a = Some c /\ c_body c = BVec l.

(** Two objects have the same contents: strings with the same text, vectors of the same length whose
    items have partners, objects of the same type whose fields agree. *)
Inductive twins (huge : bool) (s : state) : N -> N -> Prop :=
| tw_same a : twins huge s a a
| tw_text a b t : has_text s a t -> has_text s b t -> twins huge s a b
| tw_items a b l m : has_items s a l -> has_items s b m -> List.length l = List.length m ->
    (forall x, In x l -> exists y, In y m /\ twins huge s x y) -> twins huge s a b
| tw_fields a b c d fs gs : lookup (s_heap s) a = Some c -> lookup (s_heap s) b = Some d ->
    type_of huge c = type_of huge d -> c_body c = BComp fs -> c_body d = BComp gs ->
    twin_slots huge s fs gs -> twins huge s a b
with twin_slots (huge : bool) (s : state) : list slot -> list slot -> Prop :=
| ts_nil : twin_slots huge s [] []
| ts_obj a b l m : twins huge s a b -> twin_slots huge s l m -> twin_slots huge s (Obj a :: l) (Obj b :: m)
| ts_uint n l m : twin_slots huge s l m -> twin_slots huge s (UInt n :: l) (UInt n :: m).

(** The parts of an object in which cowl_iterate_primitives looks for primitives: the items of a vector,
    the fields of a composite object, the datatype of a literal. *)
Definition parts (huge : bool) (c : cell) : list N :=
  match c_body c with
  | BVec l => l
  | BComp fs =>
      match type_of huge c with
      | Some OT_LITERAL => if bit_of huge c then [] else match fs with [_; Obj d] => [d] | _ => [] end
      | _ => pointers_of (BComp fs)
      end
  | _ => []
  end.
(** An object is another one, one of its parts, a part of a part, ... *)
Inductive inside (huge : bool) (s : state) : N -> N -> Prop :=
| in_here a : inside huge s a a
| in_part a c b d : lookup (s_heap s) a = Some c -> In b (parts huge c) -> inside huge s b d -> inside huge s a d.
(** No part of the object is a string or an ontology. *)
Definition clean (huge : bool) (s : state) (a : N) : Prop :=
  forall b, inside huge s a b -> ~ has_type huge s b OT_STRING /\ ~ has_type huge s b OT_ONTOLOGY.

(** The ownership rule. Arguments are usable and of the documented type; only own references are
    released or given away. [own] are the client's references, [lib] those of the library. *)
Definition allowed (huge : bool) (e : env) (lib own : list N) (s : state) (k : call) : Prop :=
  let ok := usable (lib ++ own) s in
  let str a := ok a /\ has_type huge s a OT_STRING in
  let vec a := ok a /\ has_type huge s a OT_VECTOR in
  let iri a := ok a /\ has_type huge s a OT_IRI in
  let ont a := ok a /\ has_type huge s a OT_ONTOLOGY in
  let axiom a := ok a /\ (exists t, has_type huge s a t /\ type_is_axiom t = true) /\ clean huge s a in
  match k with
  | KString _ _ | KEmpty | KIriText _ | KAnonText _ | KLitPlain _ | KLitLang _ _ | KVectorOrdered => True
  | KIntern a => str a
  | KCopyRaw a => In a own /\ has_type huge s a OT_STRING
  | KRetain a => ok a
  | KRelease a => In a own
  | KIri p q => str p /\ str q
  | KEntity t i => type_is_entity t = true /\ ok i /\ has_type huge s i OT_IRI
  | KEntityText t _ => type_is_entity t = true
  | KAnon id _ => optional str id
  | KLiteral v d =>
      str v /\
      optional (fun d => ok d /\
        ((d = e_lang_string e \/ d = e_plain_literal e) ->
         forall t, has_text s v t -> snd (parse_lang t) <> None)) d
  | KLitTyped _ d => ok d
  | KVector items => Forall ok items
  | KVectorAdd v x => vec v /\ ok x
  | KVectorPush v x => vec v /\ In x own
  | KConstruct t fs opt _ =>
      match ctor_of t with
      | Some (CPlain n) => List.length fs = n /\ Forall (required ok) fs
      | Some (CAnnot n) => List.length fs = n /\ Forall (required ok) fs /\ optional vec opt
      | Some (CUInt n) => List.length fs = n /\ Forall (required ok) fs /\ optional ok opt
      | Some (CQuant n) => List.length fs = n /\ Forall (required ok) fs /\ optional ok opt
      | Some CHasKey =>
          exists c o d, fs = [Some c; o; d] /\ ok c /\ optional ok o /\ optional ok d /\ optional vec opt
      | None => False
      end
  | KNary t items => (ctor_of t = Some (CPlain 1) \/ ctor_of t = Some (CAnnot 1)) /\ Forall ok items
  | KChain sub super annot => vec sub /\ ok super /\ optional vec annot
  | KEquals a b => ok a /\ ok b
  | KPrimitives a => ok a /\ clean huge s a
  | KOntology => True
  (* an IRI the ontology already has is set again only if something else refers to it *)
  | KSetIri o i =>
      ont o /\ optional (fun i => iri i /\
        forall p, onto_is s o p -> n_iri p = Some i -> (2 <= references (lib ++ own) s i)%nat) i
  | KSetVersion o i =>
      ont o /\ optional (fun i => iri i /\
        forall p, onto_is s o p -> n_version p = Some i -> (2 <= references (lib ++ own) s i)%nat) i
  | KGetAnnot o => ont o
  | KAddAnnot o x => ont o /\ ok x /\ has_type huge s x OT_ANNOTATION /\ clean huge s x
  (* no other object uses the vector of annotations; those with the contents of [x] are [x] *)
  | KRemoveAnnot o x =>
      ont o /\ ok x /\ has_type huge s x OT_ANNOTATION /\
      forall p v l, onto_is s o p -> n_annot p = Some v -> has_items s v l ->
        pointers_to v (s_heap s) = 1%nat /\ (forall y, In y l -> twins huge s x y -> y = x)
  | KAddImport o i | KRemoveImport o i => ont o /\ iri i
  | KAddAxiom o x | KHasAxiom o x => ont o /\ axiom x
  (* the axioms with the contents of [x] are [x] *)
  | KRemoveAxiom o x =>
      ont o /\ axiom x /\
      forall p t y, onto_is s o p -> In y (tindex (n_axioms p) t) -> twins huge s x y -> y = x
  end.

(** The call does not put a vector or an ontology inside itself. *)
Definition no_cycle (s : state) (k : call) : Prop :=
  match k with
  | KVectorAdd v x | KVectorPush v x => ~ reach s x v
  | KAddAxiom o x => ~ reach s x o
  | KAddAnnot o x => ~ reach s x o /\ forall p v, onto_is s o p -> n_annot p = Some v -> ~ reach s x v
  | _ => True
  end.

(** Gives up one reference. *)
Fixpoint give_up (a : N) (own : list N) : list N :=
  match own with
  | [] => []
  | b :: own' => if b =? a then own' else b :: give_up a own'
  end.

(** The client's references after a call that returned [r]. *)
Definition after (k : call) (r : option N) (own : list N) : list N :=
  match k with
  | KRelease a | KCopyRaw a => give_up a own
  | KVectorPush _ x => give_up x own
  | _ => match r with Some a => a :: own | None => own end
  end.

(** Number of pointers passed to a call. *)
Definition size (k : call) : nat :=
  match k with
  | KVector l | KNary _ l => List.length l
  | KConstruct _ fs _ _ => List.length fs
  | _ => 0
  end.
(** No object has so many references that the call could exceed the documented limit
    (src/cowl_object_flags.h:26-30). *)
Definition room (huge : bool) (held : list N) (s : state) (k : call) : Prop :=
  forall a, N.of_nat (references held s a + size k + 8) <= max_refs huge.

(** The calls that remove something from an object. *)
Definition removes (k : call) : bool :=
  match k with
  | KSetIri _ _ | KSetVersion _ _ | KRemoveAnnot _ _ | KRemoveImport _ _ | KRemoveAxiom _ _ => true
  | _ => false
  end.
(** The objects they remove it from. *)
Definition target (s : state) (k : call) (a : N) : Prop :=
  match k with
  | KSetIri o _ | KSetVersion o _ | KRemoveImport o _ | KRemoveAxiom o _ => a = o
  | KRemoveAnnot o _ => a = o \/ exists p, onto_is s o p /\ n_annot p = Some a
  | _ => False
  end.
(** There is a path of pointers from one object to another that exists in both states. *)
Inductive still (s s' : state) : N -> N -> Prop :=
| still_here a : still s s' a a
| still_step a c c' b d : lookup (s_heap s) a = Some c -> lookup (s_heap s') a = Some c' ->
    In b (pointers_of (c_body c)) -> In b (pointers_of (c_body c')) -> still s s' b d -> still s s' a d.
(** What an object may turn into: vectors are extended, ontologies keep what they point to. *)
Inductive grown : body -> body -> Prop :=
| gr_same b : grown b b
| gr_vec l m : grown (BVec l) (BVec (l ++ m))
| gr_onto o p : incl (pointers_of (BOnto o)) (pointers_of (BOnto p)) -> grown (BOnto o) (BOnto p).
(** Two vectors or two ontologies. *)
Inductive edited : body -> body -> Prop :=
| ed_vec l m : edited (BVec l) (BVec m)
| ed_onto o p : edited (BOnto o) (BOnto p).

(** The references the library keeps: the empty string and, for each vocabulary, namespace, prefix,
    IRIs, their remainders and the entities. *)
Definition library (e : env) (vs : list vocab) (s : state) : list N :=
  e_empty e ::
  flat_map (fun v =>
    v_ns v :: v_prefix v ::
    flat_map (fun i => i :: match lookup (s_heap s) i with
                            | Some (mkCell _ (BIri _ rem)) => [rem]
                            | _ => []
                            end) (v_iris v) ++
    map snd (v_ents v)) vs.

(** Histories: start the library, then any calls that obey the ownership rule, do not put a vector or
    an ontology inside itself and stay below the limit on references. *)
Inductive history (huge : bool) (fresh : N -> heap -> N) (e : env) (vs : list vocab) (lib : list N) :
  state -> list N -> Prop :=
| hist_start s : lib_init huge fresh s_zero = Ok (e, vs) s -> lib = library e vs s ->
    history huge fresh e vs lib s []
| hist_call s own k r s' : history huge fresh e vs lib s own ->
    allowed huge e lib own s k -> no_cycle s k -> room huge (lib ++ own) s k ->
    exec huge fresh e k s = Ok r s' -> history huge fresh e vs lib s' (after k r own).

(** Histories of calls that obey the ownership rule, without the other two conditions. *)
Inductive owned (huge : bool) (fresh : N -> heap -> N) (e : env) (vs : list vocab) (lib : list N) :
  state -> list N -> Prop :=
| owned_start s : lib_init huge fresh s_zero = Ok (e, vs) s -> lib = library e vs s ->
    owned huge fresh e vs lib s []
| owned_call s own k r s' : owned huge fresh e vs lib s own -> allowed huge e lib own s k ->
    exec huge fresh e k s = Ok r s' -> owned huge fresh e vs lib s' (after k r own).

(** The allocator never returns an address in use. *)
Definition allocator (fresh : N -> heap -> N) : Prop := forall n h, lookup h (fresh n h) = None.

(** The object is an IRI with this namespace and remainder. *)
Definition iri_key (s : state) (a : N) (ns rem : bytes) : Prop :=
  exists c i r, lookup (s_heap s) a = Some c /\ c_body c = BIri i r /\ has_text s i ns /\ has_text s r rem.
(** The object is an entity of this type with this IRI. *)
Definition entity_key (huge : bool) (s : state) (a : N) (t : otype) (i : N) : Prop :=
  exists c, lookup (s_heap s) a = Some c /\ type_of huge c = Some t /\ c_body c = BEnt i.
(** The object is an anonymous individual with this identifier. *)
Definition anon_key (s : state) (a : N) (t : bytes) : Prop :=
  exists c i, lookup (s_heap s) a = Some c /\ c_body c = BAnon i /\ has_text s i t.
(** The interned strings: the empty one of the library and those with the flag set. *)
Definition interned (huge : bool) (e : env) (s : state) (a : N) (t : bytes) : Prop :=
  has_text s a t /\ (a = e_empty e \/ exists c, lookup (s_heap s) a = Some c /\ bit_of huge c = true).
