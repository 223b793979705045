(** C54. *)

From Coq Require Import String NArith List Bool.
From Coq Require Import List.
From Verif Require Import Bytes ModelTypes ModelHeader SpecHeader ModelText ModelHeap SpecHeap ModelGet SpecGet.
From Verif Require Import ExamplesHeap ProofHeapGet ExamplesGet.
Import ListNotations.
Local Open Scope N_scope.

(** ** C54 *)

(** Every getter of an object just constructed returns the argument of the same name. *)
Theorem C54_fields : forall huge fresh e vs lib s own t arg opt val,
  allocator fresh -> history huge fresh e vs lib s own ->
  let k := KConstruct t (map arg (passed t)) opt val in
  allowed huge e lib own s k -> room huge (lib ++ own) s k ->
  exists a s', exec huge fresh e k s = Ok (Some a) s' /\ has_type huge s' a t /\
  forall g p x, In (g, p) same_thing -> In p (passed t) -> In g (map fst (getters t)) -> arg p = Some x ->
    run_getter t g a s' = Ok x s'.
Proof. intros huge fresh e vs lib s own t arg opt val F H. exact (params_top huge fresh F e vs lib own s H t arg opt val). Qed.
Print Assumptions C54_fields.

(** Every required parameter has a getter, and every getter a parameter. *)
Theorem C54_complete : forall t,
  (forall p, In p (passed t) -> exists g, In (g, p) same_thing /\ In g (map fst (getters t))) /\
  (forall g, In g (map fst (getters t)) -> exists p, In (g, p) same_thing /\ In p (passed t)).
Proof. intros t. split; [exact (param_getter t)|exact (getter_has_param t)]. Qed.
Print Assumptions C54_complete.

(** A required parameter that may be NULL (the property lists of a HasKey axiom) reads as an empty vector. *)
Theorem C54_null : forall huge fresh e vs lib s own t arg opt val,
  allocator fresh -> history huge fresh e vs lib s own ->
  let k := KConstruct t (map arg (passed t)) opt val in
  allowed huge e lib own s k -> room huge (lib ++ own) s k ->
  exists a s', exec huge fresh e k s = Ok (Some a) s' /\
  forall g p, In (g, p) same_thing -> In p (passed t) -> In g (map fst (getters t)) -> arg p = None ->
    exists v, run_getter t g a s' = Ok v s' /\ has_items s' v [].
Proof. intros huge fresh e vs lib s own t arg opt val F H. exact (null_top huge fresh F e vs lib own s H t arg opt val). Qed.
Print Assumptions C54_null.

(** cowl_get_annot returns the annotations given to the constructor; NULL for none and for an empty vector. *)
Theorem C54_annot : forall huge fresh e vs lib s own t fs opt val,
  allocator fresh -> history huge fresh e vs lib s own ->
  let k := KConstruct t fs opt val in takes_annotations t = true ->
  allowed huge e lib own s k -> room huge (lib ++ own) s k ->
  exists a s', exec huge fresh e k s = Ok (Some a) s' /\
    (opt = None -> get_annot huge a s' = Ok None s') /\
    (forall v l, opt = Some v -> has_items s v l ->
       get_annot huge a s' = Ok (match l with [] => None | _ => Some v end) s').
Proof. intros huge fresh e vs lib s own t fs opt val F H. exact (annot_top huge fresh F e vs lib own s H t fs opt val). Qed.
Print Assumptions C54_annot.

(** The number and the filler of a cardinality restriction. *)
Theorem C54_cardinality : forall huge fresh e vs lib s own t fs opt val,
  allocator fresh -> history huge fresh e vs lib s own ->
  let k := KConstruct t fs opt val in is_cardinality t = true ->
  allowed huge e lib own s k -> room huge (lib ++ own) s k ->
  exists a s', exec huge fresh e k s = Ok (Some a) s' /\
    get_uint_field huge a s' = Ok val s' /\ get_opt_field huge a s' = Ok opt s'.
Proof. intros huge fresh e vs lib s own t fs opt val F H. exact (card_top huge fresh F e vs lib own s H t fs opt val). Qed.
Print Assumptions C54_cardinality.

(** The filler of a quantifier: the one given, or owl:Thing and rdfs:Literal. *)
Theorem C54_quantifier : forall huge fresh e vs lib s own t fs opt val,
  allocator fresh -> history huge fresh e vs lib s own ->
  let k := KConstruct t fs opt val in
  In t [OT_CE_OBJ_SOME; OT_CE_OBJ_ALL; OT_CE_DATA_SOME; OT_CE_DATA_ALL] ->
  allowed huge e lib own s k -> room huge (lib ++ own) s k ->
  exists a s', exec huge fresh e k s = Ok (Some a) s' /\
    (t = OT_CE_OBJ_SOME \/ t = OT_CE_OBJ_ALL ->
       obj_quant_filler huge e a s' = Ok (match opt with Some f => f | None => e_thing e end) s') /\
    (t = OT_CE_DATA_SOME \/ t = OT_CE_DATA_ALL ->
       data_quant_range huge e a s' = Ok (match opt with Some f => f | None => e_literal e end) s').
Proof. intros huge fresh e vs lib s own t fs opt val F H. exact (quantifier_top huge fresh F e vs lib own s H t fs opt val). Qed.
Print Assumptions C54_quantifier.

(** What the library takes for owl:Thing, rdfs:Literal, rdf:langString, rdf:PlainLiteral and xsd:string is that. *)
Theorem C54_vocabulary : forall huge fresh e vs lib s own,
  allocator fresh -> history huge fresh e vs lib s own ->
  entity_named huge s (e_thing e) OT_CE_CLASS (bs "http://www.w3.org/2002/07/owl#") (bs "Thing") /\
  entity_named huge s (e_literal e) OT_DR_DATATYPE (bs "http://www.w3.org/2000/01/rdf-schema#") (bs "Literal") /\
  entity_named huge s (e_lang_string e) OT_DR_DATATYPE (bs "http://www.w3.org/1999/02/22-rdf-syntax-ns#") (bs "langString") /\
  entity_named huge s (e_plain_literal e) OT_DR_DATATYPE (bs "http://www.w3.org/1999/02/22-rdf-syntax-ns#") (bs "PlainLiteral") /\
  entity_named huge s (e_string e) OT_DR_DATATYPE (bs "http://www.w3.org/2001/XMLSchema#") (bs "string").
Proof. intros huge fresh e vs lib s own F H. exact (vocab_named huge fresh F e vs lib own s H). Qed.
Print Assumptions C54_vocabulary.

(** A constructor that takes its items one by one: the getter returns a vector of exactly these items. *)
Theorem C54_nary : forall huge fresh e vs lib s own t items,
  allocator fresh -> history huge fresh e vs lib s own ->
  let k := KNary t items in allowed huge e lib own s k -> room huge (lib ++ own) s k ->
  exists a s' v, exec huge fresh e k s = Ok (Some a) s' /\ has_type huge s' a t /\ has_items s' v items /\
    forall g, In g (map fst (getters t)) -> run_getter t g a s' = Ok v s'.
Proof. intros huge fresh e vs lib s own t items F H. exact (nary_top huge fresh F e vs lib own s H t items). Qed.
Print Assumptions C54_nary.

(** A property chain. *)
Theorem C54_chain : forall huge fresh e vs lib s own sub super annot,
  allocator fresh -> history huge fresh e vs lib s own ->
  let k := KChain sub super annot in allowed huge e lib own s k -> room huge (lib ++ own) s k ->
  exists a s', exec huge fresh e k s = Ok (Some a) s' /\ has_type huge s' a OT_A_SUB_OBJ_PROP /\
    run_getter OT_A_SUB_OBJ_PROP "get_sub" a s' = Ok sub s' /\
    run_getter OT_A_SUB_OBJ_PROP "get_super" a s' = Ok super s' /\
    forall l, has_items s sub l -> has_items s' sub l.
Proof. intros huge fresh e vs lib s own sub super annot F H. exact (chain_top huge fresh F e vs lib own s H sub super annot). Qed.
Print Assumptions C54_chain.

(** As long as the client keeps a reference, the getters go on returning the same. *)
Theorem C54_lasting : forall huge fresh e vs lib a s own s' own' t,
  allocator fresh -> history huge fresh e vs lib s own -> later huge fresh e lib a s own s' own' ->
  has_type huge s a t -> ctor_of t <> None ->
  has_type huge s' a t /\
  (forall g x, run_getter t g a s = Ok x s -> run_getter t g a s' = Ok x s') /\
  (forall x, get_annot huge a s = Ok x s -> get_annot huge a s' = Ok x s') /\
  (forall x, get_opt_field huge a s = Ok x s -> get_opt_field huge a s' = Ok x s') /\
  (forall x, get_uint_field huge a s = Ok x s -> get_uint_field huge a s' = Ok x s') /\
  (forall x, obj_quant_filler huge e a s = Ok x s -> obj_quant_filler huge e a s' = Ok x s') /\
  (forall x, data_quant_range huge e a s = Ok x s -> data_quant_range huge e a s' = Ok x s').
Proof. intros huge fresh e vs lib a s own s' own' t F. exact (lasting huge fresh F e vs lib a s own s' own' t). Qed.
Print Assumptions C54_lasting.

Example C54_case_fields : exists e vs lib s own a s' x y v,
  let k := KConstruct OT_A_SUB_CLASS (map (sub_args own) (passed OT_A_SUB_CLASS)) (Some v) 0 in
  history false next e vs lib s own /\ allowed false e lib own s k /\ room false (lib ++ own) s k /\
  exec false next e k s = Ok (Some a) s' /\ x <> y /\ sub_args own "sub" = Some x /\ sub_args own "super" = Some y /\
  has_items s v [o own 3] /\
  is_ok (run_getter OT_A_SUB_CLASS "get_sub" a s') x = true /\ is_ok (run_getter OT_A_SUB_CLASS "get_super" a s') y = true /\
  is_opt (get_annot false a s') (Some v) = true.
Proof. exact sub_class. Qed.
Example C54_case_bare : exists e vs lib s own a s' v,
  let k := KConstruct OT_A_SUB_CLASS (map (sub_args own) (passed OT_A_SUB_CLASS)) (Some v) 0 in
  history false next e vs lib s own /\ allowed false e lib own s k /\ room false (lib ++ own) s k /\
  exec false next e k s = Ok (Some a) s' /\ has_items s v [] /\ is_opt (get_annot false a s') None = true.
Proof. exact sub_class_bare. Qed.
Example C54_case_key : exists e vs lib s own a s',
  let k := KConstruct OT_A_HAS_KEY (map (key_args own) (passed OT_A_HAS_KEY)) None 0 in
  history false next e vs lib s own /\ allowed false e lib own s k /\ room false (lib ++ own) s k /\
  exec false next e k s = Ok (Some a) s' /\ key_args own "obj_props" = None /\
  is_ok (run_getter OT_A_HAS_KEY "get_data_props" a s') (o own 0) = true.
Proof. exact has_key_case. Qed.
Example C54_case_cardinality : exists e vs lib s own a s' f,
  let k := KConstruct OT_CE_OBJ_MIN_CARD [Some (o own 1)] (Some f) 3 in
  history false next e vs lib s own /\ allowed false e lib own s k /\ room false (lib ++ own) s k /\
  exec false next e k s = Ok (Some a) s' /\ is_ok (get_uint_field false a s') 3 = true /\
  is_opt (get_opt_field false a s') (Some f) = true.
Proof. exact card_case. Qed.
Example C54_case_quantifier : exists e vs lib s own a s' f,
  let k := KConstruct OT_CE_OBJ_SOME [Some (o own 1)] (Some f) 0 in
  history false next e vs lib s own /\ allowed false e lib own s k /\ room false (lib ++ own) s k /\
  exec false next e k s = Ok (Some a) s' /\ is_ok (obj_quant_filler false e a s') f = true /\ f <> e_thing e.
Proof. exact quant_case. Qed.
Example C54_case_nary : exists e vs lib s own a s' x y,
  let k := KNary OT_CE_OBJ_INTERSECT [x; y] in
  history false next e vs lib s own /\ allowed false e lib own s k /\ room false (lib ++ own) s k /\
  exec false next e k s = Ok (Some a) s' /\ x <> y.
Proof. exact nary_case. Qed.
Example C54_case_chain : exists e vs lib s own a s' v r,
  let k := KChain v r None in
  history false next e vs lib s own /\ allowed false e lib own s k /\ room false (lib ++ own) s k /\
  exec false next e k s = Ok (Some a) s' /\ has_items s v [r; r].
Proof. exact chain_case. Qed.
Example C54_case_lasting : exists e vs lib s own a s' own', history false next e vs lib s own /\
  later false next e lib a s own s' own' /\ has_type false s a OT_A_SUB_CLASS /\ s_heap s <> s_heap s'.
Proof. exact later_case. Qed.
