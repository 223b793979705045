(** What feeding an ontology to a change handler should do. *)

From Coq Require Import NArith ZArith List Bool Permutation.
From Verif Require Import Bytes ModelTypes ModelObject SpecObject ModelPrefixMap SpecPrefixMap ModelOntology SpecOntology ModelChange.
Import ListNotations.

(** A prefix map after some history of calls by a client that keeps its strings alive (see C20). *)
Definition map_reached (visit : tbl -> tbl) (s : pst) : Prop :=
  exists r ops s0 c rs, (forall i, r i <> 0%N) /\ Forall keeps ops /\
  pm_init r = Some (s0, c) /\ pm_run visit s0 ops = Some (s, rs).

(** An ontology after some history of edits of its contents and of its prefix map. *)
Definition full_reached (heap : N -> obj) (visit : tbl -> tbl) (w : N) (x : full) : Prop :=
  reached heap w (x_onto x) /\ map_reached visit (x_pm x).

(** Text of the namespace bound to a prefix. *)
Definition ns_text (x : full) (p : bytes) (n : option bytes) : Prop :=
  exists v, get_ns (x_pm x) p = Some v /\ option_map stx v = n.

(** [dst'] is [dst] with the contents of [src] added: axioms, annotations and imports are appended, the
    IRI and version of [src], if any, replace those of [dst], and so do its prefix bindings. *)
Record added (src dst dst' : full) : Prop := {
  ad_axioms : forall l m, contains (x_onto src) l -> contains (x_onto dst) m ->
    exists n, contains (x_onto dst') n /\ Permutation n (m ++ l);
  ad_annots : forall l m,
    delivers (fun S call s => iterate_annot call (x_onto src) s) l ->
    delivers (fun S call s => iterate_annot call (x_onto dst) s) m ->
    delivers (fun S call s => iterate_annot call (x_onto dst') s) (m ++ l);
  ad_imports : forall l m,
    delivers (fun S call s => iterate_imports call (x_onto src) s) l ->
    delivers (fun S call s => iterate_imports call (x_onto dst) s) m ->
    delivers (fun S call s => iterate_imports call (x_onto dst') s) (m ++ l);
  ad_iri : o_iri (x_onto dst') = match o_iri (x_onto src) with Some i => Some i | None => o_iri (x_onto dst) end;
  ad_version : o_version (x_onto dst') =
    match o_version (x_onto src) with Some i => Some i | None => o_version (x_onto dst) end;
  ad_prefixes : forall p a b, ns_text src p a -> ns_text dst p b ->
    ns_text dst' p (match a with Some n => Some n | None => b end)
}.

(** [dst'] is [dst] without anything [src] contains. *)
Record removed (src dst dst' : full) : Prop := {
  rm_axioms : forall l m, contains (x_onto src) l -> contains (x_onto dst') m -> forall a, In a l -> ~ In a m;
  rm_annots : forall l m, delivers (fun S call s => iterate_annot call (x_onto src) s) l ->
    delivers (fun S call s => iterate_annot call (x_onto dst') s) m -> forall a, In a l -> ~ In a m;
  rm_imports : forall l m, delivers (fun S call s => iterate_imports call (x_onto src) s) l ->
    delivers (fun S call s => iterate_imports call (x_onto dst') s) m -> forall a, In a l -> ~ In a m;
  rm_iri : o_iri (x_onto src) <> None -> o_iri (x_onto dst') = None;
  rm_version : o_version (x_onto src) <> None -> o_version (x_onto dst') = None;
  rm_prefixes : forall p n, ns_text src p (Some n) -> ns_text dst' p None
}.

(** The sequence of changes a handler should receive, the prefix declarations in any order. *)
Definition parts_of (src : full) (prefixes : tbl) (axioms : list ref) : list part :=
  map (fun e => PPrefix (fst e) (snd e)) prefixes ++
  match o_iri (x_onto src) with Some i => [PIri i] | None => [] end ++
  match o_version (x_onto src) with Some i => [PVersion i] | None => [] end ++
  map PAnnot (vec_data (o_annot (x_onto src))) ++ map PImport (vec_data (o_imports (x_onto src))) ++
  map PAxiom axioms.

(** The handler is called on each element in turn until it answers with something other than OK; the
    answer of the last call is returned. *)
Inductive receives {S} (h : part -> S -> option (S * ret)) : list part -> S -> option (S * ret) -> Prop :=
| rcv_done s : receives h [] s (Some (s, COWL_OK))
| rcv_ub p l s : h p s = None -> receives h (p :: l) s None
| rcv_stop p l s s' r : h p s = Some (s', r) -> r <> COWL_OK -> receives h (p :: l) s (Some (s', r))
| rcv_next p l s s' res : h p s = Some (s', COWL_OK) -> receives h l s' res -> receives h (p :: l) s res.

(** The part has the type its place requires. *)
Definition part_ok (heap : N -> obj) (p : part) : Prop :=
  match p with
  | PPrefix _ _ => True
  | PAxiom a => is_axiom_object (r_obj a) /\ r_obj a = heap (r_id a)
  | PAnnot a => wt (SOne SAnnot) (r_obj a) = true /\ r_obj a = heap (r_id a)
  | PImport a | PIri a | PVersion a => wt (SOne SIri) (r_obj a) = true /\ r_obj a = heap (r_id a)
  end.

(** [dst'] is [dst] without the given part, and otherwise the same: the IRI or version is cleared; the first equal
    annotation or import is deleted; the axiom is taken out if this very object is there; the prefix
    becomes unbound, and so does every prefix bound to the namespace. *)
Record one_removed (p : part) (dst dst' : full) : Prop := {
  or_iri : o_iri (x_onto dst') = match p with PIri _ => None | _ => o_iri (x_onto dst) end;
  or_version : o_version (x_onto dst') = match p with PVersion _ => None | _ => o_version (x_onto dst) end;
  or_annots : forall l, delivers (fun S call s => iterate_annot call (x_onto dst) s) l ->
    exists m, delivers (fun S call s => iterate_annot call (x_onto dst') s) m /\
      list_edit l (match p with PAnnot a => Some (false, a) | _ => None end) m;
  or_imports : forall l, delivers (fun S call s => iterate_imports call (x_onto dst) s) l ->
    exists m, delivers (fun S call s => iterate_imports call (x_onto dst') s) m /\
      list_edit l (match p with PImport a => Some (false, a) | _ => None end) m;
  or_axioms : forall l, contains (x_onto dst) l -> exists m, contains (x_onto dst') m /\
    match p with
    | PAxiom a => (In a l -> Permutation l (a :: m)) /\ (~ In a l -> m = l)
    | _ => m = l
    end;
  or_prefixes : forall q a, ns_text dst q a -> ns_text dst' q
    (match p with
     | PPrefix k v => if bytes_eqb q (stx k) then None
                      else match a with Some n => if bytes_eqb n (stx v) then None else a | None => a end
     | _ => a
     end)
}.

(** Whether there was something to remove: 1 (COWL_NO) if so, for axioms, annotations and imports; these are the
    bool results of the removals. *)
Definition removal_answer (p : part) (dst : full) (r : ret) : Prop :=
  let there (l : list ref) a := exists y, In y l /\ cowl_equals (r_obj a) (r_obj y) = true in
  match p with
  | PIri _ | PVersion _ => r = COWL_OK
  | PAnnot a => (r = COWL_OK \/ r = COWL_NO) /\
      forall l, delivers (fun S call s => iterate_annot call (x_onto dst) s) l -> (r = COWL_NO <-> there l a)
  | PImport a => (r = COWL_OK \/ r = COWL_NO) /\
      forall l, delivers (fun S call s => iterate_imports call (x_onto dst) s) l -> (r = COWL_NO <-> there l a)
  | PAxiom a => (r = COWL_OK \/ r = COWL_NO) /\ forall l, contains (x_onto dst) l -> (r = COWL_NO <-> there l a)
  | PPrefix _ _ => r = COWL_OK \/ r = COWL_NO
  end.
