(** Specification vocabulary for objects, independent of the algorithms in ModelObject.v:
    which objects are well-formed, when two objects are structurally equivalent (OWL 2 Structural
    Specification, section 2.1), and which primitives occur in an object. *)

From Coq Require Import NArith ZArith List Bool String.
From Verif Require Import Bytes ModelTypes ModelObject.
Import ListNotations.
Local Open Scope N_scope.

(** * Well-formed objects *)

(** Syntactic categories of OWL 2 constructs as they appear in the constructor signatures of
    include/cowl_*.h. *)
Inductive isort : Set :=
| SEnt (e : etype)          (** an entity of the given type *)
| SEntity                   (** any entity *)
| SIri
| SInd                      (** named or anonymous individual *)
| SLit
| SCls                      (** class expression *)
| SRange                    (** data range *)
| SObjProp                  (** object property or inverse *)
| SFacet                    (** facet restriction *)
| SAnnot                    (** annotation *)
| SAnnotVal                 (** IRI, anonymous individual or literal *)
| SAnnotSubj                (** IRI or anonymous individual *)
| SAxiom.

(** A constructor argument: one construct, an operand vector, or (first operand of
    SubObjectPropertyOf) an object property expression or an ordered property chain. *)
Inductive sort : Set :=
| SOne (i : isort)
| SMany (ordered : bool) (i : isort)
| SSubProp.

(** Object types admitted by a category. *)
Definition isort_has (i : isort) (t : otype) : bool :=
  match i with
  | SEnt e => otype_eqb t (etype_otype e)
  | SEntity => existsb (fun e => otype_eqb t (etype_otype e)) all_etypes
  | SIri => otype_eqb t OT_IRI
  | SInd => otype_eqb t OT_I_NAMED || otype_eqb t OT_I_ANONYMOUS
  | SLit => otype_eqb t OT_LITERAL
  | SCls => match t with
            | OT_CE_CLASS | OT_CE_OBJ_INTERSECT | OT_CE_OBJ_UNION | OT_CE_OBJ_COMPL | OT_CE_OBJ_ONE_OF
            | OT_CE_OBJ_SOME | OT_CE_OBJ_ALL | OT_CE_OBJ_HAS_VALUE | OT_CE_OBJ_HAS_SELF
            | OT_CE_OBJ_MIN_CARD | OT_CE_OBJ_MAX_CARD | OT_CE_OBJ_EXACT_CARD
            | OT_CE_DATA_SOME | OT_CE_DATA_ALL | OT_CE_DATA_HAS_VALUE
            | OT_CE_DATA_MIN_CARD | OT_CE_DATA_MAX_CARD | OT_CE_DATA_EXACT_CARD => true
            | _ => false
            end
  | SRange => match t with
              | OT_DR_DATATYPE | OT_DR_DATA_INTERSECT | OT_DR_DATA_UNION | OT_DR_DATA_COMPL
              | OT_DR_DATA_ONE_OF | OT_DR_DATATYPE_RESTR => true
              | _ => false
              end
  | SObjProp => otype_eqb t OT_OPE_OBJ_PROP || otype_eqb t OT_OPE_INV_OBJ_PROP
  | SFacet => otype_eqb t OT_FACET_RESTR
  | SAnnot => otype_eqb t OT_ANNOTATION
  | SAnnotVal => otype_eqb t OT_IRI || otype_eqb t OT_I_ANONYMOUS || otype_eqb t OT_LITERAL
  | SAnnotSubj => otype_eqb t OT_IRI || otype_eqb t OT_I_ANONYMOUS
  | SAxiom => match t with
              | OT_A_DECL | OT_A_SUB_CLASS | OT_A_EQUIV_CLASSES | OT_A_DISJ_CLASSES | OT_A_DISJ_UNION
              | OT_A_SUB_OBJ_PROP | OT_A_EQUIV_OBJ_PROP | OT_A_DISJ_OBJ_PROP | OT_A_INV_OBJ_PROP
              | OT_A_OBJ_PROP_DOMAIN | OT_A_OBJ_PROP_RANGE | OT_A_FUNC_OBJ_PROP | OT_A_INV_FUNC_OBJ_PROP
              | OT_A_REFL_OBJ_PROP | OT_A_IRREFL_OBJ_PROP | OT_A_SYMM_OBJ_PROP | OT_A_ASYMM_OBJ_PROP
              | OT_A_TRANS_OBJ_PROP | OT_A_SUB_DATA_PROP | OT_A_EQUIV_DATA_PROP | OT_A_DISJ_DATA_PROP
              | OT_A_DATA_PROP_DOMAIN | OT_A_DATA_PROP_RANGE | OT_A_FUNC_DATA_PROP | OT_A_DATATYPE_DEF
              | OT_A_HAS_KEY | OT_A_SAME_IND | OT_A_DIFF_IND | OT_A_CLASS_ASSERT | OT_A_OBJ_PROP_ASSERT
              | OT_A_NEG_OBJ_PROP_ASSERT | OT_A_DATA_PROP_ASSERT | OT_A_NEG_DATA_PROP_ASSERT
              | OT_A_ANNOT_ASSERT | OT_A_SUB_ANNOT_PROP | OT_A_ANNOT_PROP_DOMAIN
              | OT_A_ANNOT_PROP_RANGE => true
              | _ => false
              end
  end.

(** What may follow the mandatory operands of a construct. *)
Inductive optsort : Set :=
| NoOpt
| OptAnnots                 (** a non-empty vector of annotations *)
| OptFiller (i : isort) (dflt : option obj)  (** a filler, different from the implicit default *).

(** Operand categories of every composite construct, from the constructor signatures in
    include/cowl_*.h (see DESIGN.md for the table of headers). *)
Definition construct_sig (t : otype) : option (list sort * optsort) :=
  match t with
  | OT_FACET_RESTR => Some ([SOne SIri; SOne SLit], NoOpt)
  | OT_ANNOTATION => Some ([SOne (SEnt ET_ANNOT_PROP); SOne SAnnotVal], OptAnnots)
  | OT_A_DECL => Some ([SOne SEntity], OptAnnots)
  | OT_A_SUB_CLASS => Some ([SOne SCls; SOne SCls], OptAnnots)
  | OT_A_EQUIV_CLASSES | OT_A_DISJ_CLASSES => Some ([SMany false SCls], OptAnnots)
  | OT_A_DISJ_UNION => Some ([SOne (SEnt ET_CLASS); SMany false SCls], OptAnnots)
  | OT_A_SUB_OBJ_PROP => Some ([SSubProp; SOne SObjProp], OptAnnots)
  | OT_A_EQUIV_OBJ_PROP | OT_A_DISJ_OBJ_PROP => Some ([SMany false SObjProp], OptAnnots)
  | OT_A_INV_OBJ_PROP => Some ([SOne SObjProp; SOne SObjProp], OptAnnots)
  | OT_A_OBJ_PROP_DOMAIN | OT_A_OBJ_PROP_RANGE => Some ([SOne SObjProp; SOne SCls], OptAnnots)
  | OT_A_FUNC_OBJ_PROP | OT_A_INV_FUNC_OBJ_PROP | OT_A_REFL_OBJ_PROP | OT_A_IRREFL_OBJ_PROP
  | OT_A_SYMM_OBJ_PROP | OT_A_ASYMM_OBJ_PROP | OT_A_TRANS_OBJ_PROP => Some ([SOne SObjProp], OptAnnots)
  | OT_A_SUB_DATA_PROP => Some ([SOne (SEnt ET_DATA_PROP); SOne (SEnt ET_DATA_PROP)], OptAnnots)
  | OT_A_EQUIV_DATA_PROP | OT_A_DISJ_DATA_PROP => Some ([SMany false (SEnt ET_DATA_PROP)], OptAnnots)
  | OT_A_DATA_PROP_DOMAIN => Some ([SOne (SEnt ET_DATA_PROP); SOne SCls], OptAnnots)
  | OT_A_DATA_PROP_RANGE => Some ([SOne (SEnt ET_DATA_PROP); SOne SRange], OptAnnots)
  | OT_A_FUNC_DATA_PROP => Some ([SOne (SEnt ET_DATA_PROP)], OptAnnots)
  | OT_A_DATATYPE_DEF => Some ([SOne (SEnt ET_DATATYPE); SOne SRange], OptAnnots)
  | OT_A_HAS_KEY => Some ([SOne SCls; SMany false SObjProp; SMany false (SEnt ET_DATA_PROP)], OptAnnots)
  | OT_A_SAME_IND | OT_A_DIFF_IND => Some ([SMany false SInd], OptAnnots)
  | OT_A_CLASS_ASSERT => Some ([SOne SCls; SOne SInd], OptAnnots)
  | OT_A_OBJ_PROP_ASSERT | OT_A_NEG_OBJ_PROP_ASSERT =>
      Some ([SOne SObjProp; SOne SInd; SOne SInd], OptAnnots)
  | OT_A_DATA_PROP_ASSERT | OT_A_NEG_DATA_PROP_ASSERT =>
      Some ([SOne (SEnt ET_DATA_PROP); SOne SInd; SOne SLit], OptAnnots)
  | OT_A_ANNOT_ASSERT => Some ([SOne (SEnt ET_ANNOT_PROP); SOne SAnnotSubj; SOne SAnnotVal], OptAnnots)
  | OT_A_SUB_ANNOT_PROP => Some ([SOne (SEnt ET_ANNOT_PROP); SOne (SEnt ET_ANNOT_PROP)], OptAnnots)
  | OT_A_ANNOT_PROP_DOMAIN | OT_A_ANNOT_PROP_RANGE => Some ([SOne (SEnt ET_ANNOT_PROP); SOne SIri], OptAnnots)
  | OT_CE_OBJ_INTERSECT | OT_CE_OBJ_UNION => Some ([SMany false SCls], NoOpt)
  | OT_CE_OBJ_COMPL => Some ([SOne SCls], NoOpt)
  | OT_CE_OBJ_ONE_OF => Some ([SMany false SInd], NoOpt)
  | OT_CE_OBJ_SOME | OT_CE_OBJ_ALL => Some ([SOne SObjProp], OptFiller SCls (Some owl_thing))
  | OT_CE_OBJ_HAS_VALUE => Some ([SOne SObjProp; SOne SInd], NoOpt)
  | OT_CE_OBJ_HAS_SELF => Some ([SOne SObjProp], NoOpt)
  | OT_CE_OBJ_MIN_CARD | OT_CE_OBJ_MAX_CARD | OT_CE_OBJ_EXACT_CARD =>
      Some ([SOne SObjProp], OptFiller SCls None)
  | OT_CE_DATA_SOME | OT_CE_DATA_ALL => Some ([SOne (SEnt ET_DATA_PROP)], OptFiller SRange (Some rdfs_literal))
  | OT_CE_DATA_HAS_VALUE => Some ([SOne (SEnt ET_DATA_PROP); SOne SLit], NoOpt)
  | OT_CE_DATA_MIN_CARD | OT_CE_DATA_MAX_CARD | OT_CE_DATA_EXACT_CARD =>
      Some ([SOne (SEnt ET_DATA_PROP)], OptFiller SRange None)
  | OT_DR_DATA_INTERSECT | OT_DR_DATA_UNION => Some ([SMany false SRange], NoOpt)
  | OT_DR_DATA_COMPL => Some ([SOne SRange], NoOpt)
  | OT_DR_DATA_ONE_OF => Some ([SMany false SLit], NoOpt)
  | OT_DR_DATATYPE_RESTR => Some ([SOne (SEnt ET_DATATYPE); SMany false SFacet], NoOpt)
  | OT_OPE_INV_OBJ_PROP => Some ([SOne (SEnt ET_OBJ_PROP)], NoOpt)
  | _ => None
  end.

(** The six cardinality restrictions. *)
Definition is_card_restr (t : otype) : bool :=
  match t with
  | OT_CE_OBJ_MIN_CARD | OT_CE_OBJ_MAX_CARD | OT_CE_OBJ_EXACT_CARD
  | OT_CE_DATA_MIN_CARD | OT_CE_DATA_MAX_CARD | OT_CE_DATA_EXACT_CARD => true
  | _ => false
  end.

(** [wt s o]: the object [o] can be passed where the constructors expect category [s]. *)
Fixpoint wt (s : sort) (o : obj) {struct o} : bool :=
  match o with
  | OStr _ _ => false
  | OIri _ _ | OEnt _ _ _ | OAnon _ | OLit _ _ _ | OLang _ _ =>
      match s with
      | SOne i => isort_has i (get_type o)
      | SMany _ _ => false
      | SSubProp => isort_has SObjProp (get_type o)
      end
  | OVec ord l =>
      match s with
      | SOne _ => false
      | SMany ord' i => Bool.eqb ord ord' && forallb (fun x => wt (SOne i) x) l
      | SSubProp => ord && forallb (fun x => wt (SOne SObjProp) x) l
      end
  | OComp t fs opt n =>
      match s with
      | SOne i => isort_has i t
      | SMany _ _ => false
      | SSubProp => isort_has SObjProp t
      end &&
      match construct_sig t with
      | None => false
      | Some (sorts, os) =>
          forall2b (fun f s' => wt s' f) fs sorts &&
          match os, opt with
          | _, None => true
          | NoOpt, Some _ => false
          | OptAnnots, Some v => wt (SMany false SAnnot) v && match v with OVec _ [] => false | _ => true end
          | OptFiller i d, Some v =>
              wt (SOne i) v && match d with Some x => negb (prim_eqb v x) | None => true end
          end &&
          (if is_card_restr t then true else n =? 0)
      end
  end.

(** A well-formed object: fits some category. *)
Definition well_formed (o : obj) : Prop := exists s, wt s o = true.

(** * Structural equivalence *)

(** OWL 2 structural equivalence. Operands of unordered lists are compared as sets, property chains
    as sequences; the optional part (annotations, filler) must be present on both sides or on none. *)
Inductive seq : obj -> obj -> Prop :=
| seq_str i j s : seq (OStr i s) (OStr j s)
| seq_iri ns rem : seq (OIri ns rem) (OIri ns rem)
| seq_ent e ns rem : seq (OEnt e ns rem) (OEnt e ns rem)
| seq_anon id : seq (OAnon id) (OAnon id)
| seq_lit v ns rem : seq (OLit v ns rem) (OLit v ns rem)
| seq_lang v l : seq (OLang v l) (OLang v l)
| seq_list l m : Forall2 seq l m -> seq (OVec true l) (OVec true m)
| seq_set l m :
    (forall x, In x l -> exists y, In y m /\ seq x y) ->
    (forall y, In y m -> exists x, In x l /\ seq x y) ->
    seq (OVec false l) (OVec false m)
| seq_comp t fs gs n k :
    Forall2 seq fs gs ->
    (is_card_restr t = true -> n = k) ->
    seq (OComp t fs None n) (OComp t gs None k)
| seq_comp_opt t fs gs p q n k :
    Forall2 seq fs gs -> seq p q ->
    (is_card_restr t = true -> n = k) ->
    seq (OComp t fs (Some p) n) (OComp t gs (Some q) k).

(** No unordered operand list, at any depth, contains two structurally equivalent operands. *)
Fixpoint dup_free (o : obj) : Prop :=
  match o with
  | OVec ord l =>
      (ord = false -> ForallOrdPairs (fun x y => ~ seq x y) l) /\
      fold_right (fun x P => dup_free x /\ P) True l
  | OComp _ fs opt _ =>
      fold_right (fun x P => dup_free x /\ P) True fs /\
      match opt with Some p => dup_free p | None => True end
  | _ => True
  end.

(** Two vectors are only compared when both are ordered or both are not (for anything but bare
    vectors this always holds). *)
Definition same_order (a b : obj) : Prop :=
  match a, b with OVec o _, OVec o' _ => o = o' | _, _ => True end.

(** * Occurrences of primitives *)

(** A primitive: entity, IRI or anonymous individual; its kind. *)
Definition kind (o : obj) : option ptype :=
  match o with
  | OEnt e _ _ => Some (PT_ENT e)
  | OIri _ _ => Some PT_IRI
  | OAnon _ => Some PT_ANON_IND
  | _ => None
  end.

(** What the getters of a construct return, left to right: operands, then filler or annotations.
    A literal exposes its datatype; a quantified restriction always exposes a filler. *)
Definition components (o : obj) : list obj :=
  match o with
  | OVec _ l => l
  | OLit _ ns rem => [OEnt ET_DATATYPE ns rem]
  | OLang _ _ => [OEnt ET_DATATYPE rdf_ns (bs "langString")]
  | OComp t fs opt _ =>
      fs ++
      match opt, t with
      | Some p, _ => [p]
      | None, (OT_CE_OBJ_SOME | OT_CE_OBJ_ALL) => [OEnt ET_CLASS owl_ns (bs "Thing")]
      | None, (OT_CE_DATA_SOME | OT_CE_DATA_ALL) => [OEnt ET_DATATYPE rdfs_ns (bs "Literal")]
      | None, _ => []
      end
  | _ => []
  end.

(** The sequence of primitive occurrences of an object, left to right. *)
Inductive occurrences : obj -> list obj -> Prop :=
| occ_prim o k : kind o = Some k -> occurrences o [o]
| occ_node o ls : kind o = None -> Forall2 occurrences (components o) ls -> occurrences o (List.concat ls).

(** [mentions p o]: the primitive [p] occurs in [o]. *)
Inductive mentions (p : obj) : obj -> Prop :=
| mentions_here k : kind p = Some k -> mentions p p
| mentions_in o c : In c (components o) -> mentions p c -> mentions p o.

(** A primitive whose kind is in the flag set (bit [i] of [flags] = i-th primitive type). *)
Definition enabled (flags : N) (o : obj) : bool :=
  match kind o with
  | Some (PT_ENT ET_CLASS) => N.testbit flags 0
  | Some (PT_ENT ET_DATATYPE) => N.testbit flags 1
  | Some (PT_ENT ET_OBJ_PROP) => N.testbit flags 2
  | Some (PT_ENT ET_DATA_PROP) => N.testbit flags 3
  | Some (PT_ENT ET_ANNOT_PROP) => N.testbit flags 4
  | Some (PT_ENT ET_NAMED_IND) => N.testbit flags 5
  | Some PT_ANON_IND => N.testbit flags 6
  | Some PT_IRI => N.testbit flags 7
  | None => false
  end.

(** [called call s l s' r]: starting from context [s] the callback was called on the elements of [l]
    in order, every call but the last returned CONTINUE (0), the final context is [s'] and the
    overall result is [r], the last call's result. *)
Inductive called {S A} (call : S -> A -> S * ret) : S -> list A -> S -> ret -> Prop :=
| called_none s : called call s [] s 0%Z
| called_stop s x s' r : call s x = (s', r) -> r <> 0%Z -> called call s [x] s' r
| called_more s x s1 l s' r : call s x = (s1, 0%Z) -> called call s1 l s' r -> called call s (x :: l) s' r.

(** [delivers run l]: the iteration procedure [run] (a function of callback and initial context)
    offers the elements of [l] to any callback, in order, until the callback asks to stop: it
    performs no other call, returns the callback's stop code, or 0 after the whole of [l]. *)
Definition delivers {A} (run : forall S, (S -> A -> S * ret) -> S -> ires S) (l : list A) : Prop :=
  forall S (call : S -> A -> S * ret) (s : S),
  exists done rest s' r,
    l = done ++ rest /\
    called call s done s' r /\
    run S call s = IRet s' r /\
    (r = 0%Z -> rest = []).

(** * Operands by position *)

(** The operands of an axiom with their position: single-operand axioms match any position, binary
    ones have a left and a right operand, ternary ones left, middle and right. *)
Inductive position_of : nat -> nat -> N -> Prop :=
| pos_single : position_of 1 0 7
| pos_left2 : position_of 2 0 1
| pos_right2 : position_of 2 1 2
| pos_left3 : position_of 3 0 1
| pos_middle3 : position_of 3 1 4
| pos_right3 : position_of 3 2 2.

(** Operands contributed by one field: an n-ary operand counts as its elements. *)
Definition flatten_operand (o : obj) : list obj :=
  match o with OVec _ l => l | _ => [o] end.

(** [op] is an operand of [axiom] at one of the positions of the bit set [position]. *)
Definition operand_at (axiom op : obj) (position : N) : Prop :=
  match axiom with
  | OComp _ fs _ _ =>
      exists i f m, nth_error fs i = Some f /\ In op (flatten_operand f) /\
                    position_of (List.length fs) i m /\ N.land position m <> 0
  | _ => False
  end.

(** [l] is the sequence of operands at the given positions: field by field, an n-ary field
    contributing its elements, a field at another position contributing nothing. *)
Definition operand_sequence (axiom : obj) (position : N) (l : list obj) : Prop :=
  match axiom with
  | OComp _ fs _ _ =>
      exists ls, l = List.concat ls /\ List.length ls = List.length fs /\
      forall i f, nth_error fs i = Some f ->
      exists m, position_of (List.length fs) i m /\
                nth_error ls i = Some (if N.land position m =? 0 then [] else flatten_operand f)
  | _ => False
  end.

(** * Axioms *)

(** A well-formed axiom. *)
Definition is_axiom_object (o : obj) : Prop := wt (SOne SAxiom) o = true.

(** The axiom without its own annotations. *)
Definition without_annots (o : obj) : obj :=
  match o with OComp t fs _ n => OComp t fs None n | _ => o end.

(** The IRI of an object: entities have one, an IRI is its own. *)
Definition iri_of (o : obj) : option obj :=
  match o with
  | OEnt _ ns rem => Some (OIri ns rem)
  | OIri ns rem => Some (OIri ns rem)
  | _ => None
  end.

(** The decision [b] answers the question [P]. *)
Definition decides (b : option bool) (P : Prop) : Prop :=
  (P /\ b = Some true) \/ (~ P /\ b = Some false).
