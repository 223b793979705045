(** Specification of calls during which memory may run out. *)

From Coq Require Import NArith List Bool Arith.
From Verif Require Import Bytes ModelTypes ModelHeader SpecHeader ModelText ModelHeap SpecHeap ModelOom.
Import ListNotations.
Local Open Scope N_scope.

(** The calls that look at the result of every request for memory. The others are: anonymous individuals
    from a text, literals with a language tag, the empty ordered vector, key axioms without one of the two
    vectors. Random identifiers are not empty. *)
Definition checked (huge : bool) (e : env) (s : state) (k : call) : Prop :=
  match k with
  | KAnonText _ | KLitLang _ _ | KVectorOrdered => False
  | KLiteral _ (Some d) => ~ has_type huge s d OT_STRING /\ d <> e_lang_string e /\ d <> e_plain_literal e
  | KConstruct OT_A_HAS_KEY fs _ _ => Forall (fun f => f <> None) fs
  | KAnon None ids => Forall (fun t => t <> []) ids
  | _ => True
  end.

(** The calls that create an object and return it. *)
Definition creates (k : call) : bool :=
  match k with
  | KString _ _ | KIri _ _ | KIriText _ | KEntity _ _ | KEntityText _ _ | KAnon _ _ | KLiteral _ _ | KLitPlain _
  | KLitTyped _ _ | KVector _ | KConstruct _ _ _ _ | KNary _ _ | KChain _ _ _ | KOntology => true
  | _ => false
  end.

(** Memory has the same objects in both states, with the same types, contents and numbers of references.
    Flags that were set stay set. *)
Definition unchanged (huge : bool) (s s' : state) : Prop := forall a,
  match lookup (s_heap s) a, lookup (s_heap s') a with
  | Some c, Some c' => type_of huge c' = type_of huge c /\ c_body c' = c_body c /\ ref_of huge c' = ref_of huge c /\
      (bit_of huge c = true -> bit_of huge c' = true)
  | None, None => True
  | _, _ => False
  end.

(** The object is a literal with this value and datatype. *)
Definition literal_is (huge : bool) (s : state) (a v d : N) : Prop :=
  exists c, lookup (s_heap s) a = Some c /\ type_of huge c = Some OT_LITERAL /\ c_body c = BComp [Obj v; Obj d].
(** The object has this type, and its first fields are these. *)
Definition fields_are (huge : bool) (s : state) (a : N) (t : otype) (ks : list N) : Prop :=
  exists c o, lookup (s_heap s) a = Some c /\ type_of huge c = Some t /\ pointers_of (c_body c) = ks ++ o.

(** The object returned by a call is what the client asked for. *)
Definition asked (huge : bool) (e : env) (s s' : state) (k : call) (a : N) : Prop :=
  match k with
  | KString t intern => has_text s' a t /\ (intern = true -> interned huge e s' a t)
  | KIri p q => forall n m, has_text s p n -> has_text s q m -> exists x y, iri_key s' a x y /\ x ++ y = n ++ m
  | KIriText t => exists x y, iri_key s' a x y /\ x ++ y = t
  | KEntity t i => entity_key huge s' a t i
  | KEntityText t u => exists i x y, entity_key huge s' a t i /\ iri_key s' i x y /\ x ++ y = u
  | KAnon (Some i) _ => forall t, has_text s i t -> anon_key s' a t
  | KAnon None ids => exists t, In t ids /\ anon_key s' a t
  | KLiteral v d => literal_is huge s' a v (match d with Some d => d | None => e_string e end)
  | KLitPlain t => exists v, literal_is huge s' a v (e_string e) /\ has_text s' v t
  | KLitTyped t d => exists v, literal_is huge s' a v d /\ has_text s' v t
  | KVector l => has_items s' a l
  | KConstruct t fs _ _ => exists ks, fs = map Some ks /\ fields_are huge s' a t ks
  | KNary t l => exists v, fields_are huge s' a t [v] /\ has_items s' v l
  | KChain sub super _ => fields_are huge s' a OT_A_SUB_OBJ_PROP [sub; super]
  | KOntology => has_type huge s' a OT_ONTOLOGY
  | _ => True
  end.

(** Histories in which memory may run out: in each call that looks at the results of its requests, any
    of the requests may fail. In the other calls none does. *)
Inductive fhistory (huge : bool) (fresh : N -> heap -> N) (e : env) (vs : list vocab) (lib : list N) :
  state -> list N -> Prop :=
| fh_start s : lib_init huge fresh s_zero = Ok (e, vs) s -> lib = library e vs s ->
    fhistory huge fresh e vs lib s []
| fh_call full s own k r n s' : fhistory huge fresh e vs lib s own ->
    allowed huge e lib own s k -> no_cycle s k -> room huge (lib ++ own) s k -> checked huge e s k ->
    exec_f huge fresh e full k 0 s = Ok (r, n) s' -> fhistory huge fresh e vs lib s' (after k r own)
| fh_plain s own k r s' : fhistory huge fresh e vs lib s own ->
    allowed huge e lib own s k -> no_cycle s k -> room huge (lib ++ own) s k ->
    exec huge fresh e k s = Ok r s' -> fhistory huge fresh e vs lib s' (after k r own).

(** The client asks for something that cannot be had: an IRI without text. Random identifiers may all be
    in use; the calls that draw one are left out. *)
Definition hopeless (k : call) : bool :=
  match k with
  | KIriText [] | KEntityText _ [] | KAnon None _ => true
  | _ => false
  end.
