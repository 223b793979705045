(** Specification of what a call can touch. *)

From Coq Require Import NArith List Bool.
From Verif Require Import Bytes ModelTypes ModelHeader ModelText ModelHeap SpecHeap.
Import ListNotations.
Local Open Scope N_scope.

(** The optional argument of the constructor of a composite type. Some constructors have none. *)
Definition optional_argument (t : otype) (opt : option N) : option N :=
  match ctor_of t with Some (CPlain _) => None | _ => opt end.
(** The objects passed to a call. *)
Definition arguments (k : call) : list N :=
  match k with
  | KString _ _ | KEmpty | KIriText _ | KEntityText _ _ | KAnonText _ | KLitPlain _ | KLitLang _ _
  | KVectorOrdered | KOntology => []
  | KIntern a | KCopyRaw a | KRetain a | KRelease a | KPrimitives a | KGetAnnot a => [a]
  | KIri p q => [p; q]
  | KEntity _ i => [i]
  | KAnon id _ => opt_list id
  | KLiteral v d => v :: opt_list d
  | KLitTyped _ d => [d]
  | KVector l | KNary _ l => l
  | KVectorAdd v x | KVectorPush v x | KEquals v x => [v; x]
  | KConstruct t fs opt _ => flat_map opt_list fs ++ opt_list (optional_argument t opt)
  | KChain sub super annot => sub :: super :: opt_list annot
  | KSetIri o i | KSetVersion o i => o :: opt_list i
  | KAddAnnot o x | KRemoveAnnot o x | KAddImport o x | KRemoveImport o x
  | KAddAxiom o x | KHasAxiom o x | KRemoveAxiom o x => [o; x]
  end.

(** Objects of which there is one for each content, so that a call may return one that exists: IRIs,
    entities, anonymous individuals and interned strings. *)
Definition unique (huge : bool) (s : state) (a : N) : Prop :=
  exists c, lookup (s_heap s) a = Some c /\
  match type_of huge c with
  | Some OT_IRI | Some OT_I_ANONYMOUS => True
  | Some OT_STRING => bit_of huge c = true
  | Some t => type_is_entity t = true
  | None => False
  end.

(** An object no pointer leads to from any of the objects [from], the library or a unique object. *)
Definition apart (huge : bool) (lib from : list N) (s : state) (v : N) : Prop :=
  alive s v /\
  (forall a, In a from \/ In a lib \/ unique huge s a -> ~ reach s a v).

(** Calls made by a part of a program that has the references [mine], while the rest of the program has
    the references [rest]: it passes only what it can get to from its own references and releases only
    those. *)
Inductive works (huge : bool) (fresh : N -> heap -> N) (e : env) (lib rest : list N) :
  state -> list N -> state -> list N -> Prop :=
| work_none s mine : works huge fresh e lib rest s mine s mine
| work_call s mine k r s1 s2 mine2 :
    allowed huge e lib mine s k -> no_cycle s k -> room huge (lib ++ mine ++ rest) s k ->
    exec huge fresh e k s = Ok r s1 -> works huge fresh e lib rest s1 (after k r mine) s2 mine2 ->
    works huge fresh e lib rest s mine s2 mine2.
