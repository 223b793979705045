(** What an ontology should contain and answer, independently of its indices. *)

From Coq Require Import NArith ZArith List Bool Permutation.
From Verif Require Import Bytes ModelTypes ModelObject SpecObject ModelOntology.
Import ListNotations.
Local Open Scope nat_scope.

(** * Histories a client can write *)

(** The objects an edit passes to the library. *)
Definition passed (e : edit) : list ref :=
  match e with
  | EAddAxiom a | ERemoveAxiom a | EAddAnnot a | ERemoveAnnot a | EAddImport a | ERemoveImport a => [a]
  | ESetIri (Some i) | ESetVersion (Some i) => [i]
  | ESetIri None | ESetVersion None | ERemoveMatching _ => []
  end.

(** The arguments have the types of the function signatures. *)
Definition typed (e : edit) : Prop :=
  match e with
  | EAddAxiom a | ERemoveAxiom a => is_axiom_object (r_obj a)
  | EAddAnnot a | ERemoveAnnot a => wt (SOne SAnnot) (r_obj a) = true
  | EAddImport a | ERemoveImport a => wt (SOne SIri) (r_obj a) = true
  | ESetIri (Some i) | ESetVersion (Some i) => wt (SOne SIri) (r_obj i) = true
  | ESetIri None | ESetVersion None => True
  | ERemoveMatching f => forall p, In p (f_prims f) -> exists k, kind p = Some k
  end.

(** The primitives listed in a filter are entities, IRIs or anonymous individuals. *)
Definition prims (l : list obj) : Prop := forall p, In p l -> exists k, kind p = Some k.

(** Two pointers with the same identity point to the same object: [heap] gives the object. *)
Definition in_heap (heap : N -> obj) (e : edit) : Prop :=
  forall a, In a (passed e) -> r_obj a = heap (r_id a).

(** A history as a client can write it. *)
Definition history (heap : N -> obj) (es : list edit) : Prop :=
  forall e, In e es -> typed e /\ in_heap heap e.

(** A state in which an ontology created empty can be after such a history. *)
Definition reached (heap : N -> obj) (w : N) (o : onto) : Prop :=
  exists es rs log, history heap es /\ o_run w (o_empty true) es = Some (o, rs, log).

(** * Contents *)

(** [l] is the list of axioms the ontology reports. *)
Definition contains (o : onto) (l : list ref) : Prop :=
  delivers (fun S call s => iterate_axioms call o s) l.

(** The axiom fulfils the filter: its type is in the set, it mentions all listed primitives, and it
    passes the client's own test. *)
Definition satisfies (f : afilter) (a : ref) : Prop :=
  N.testbit (f_types f) (ax_type (r_obj a)) = true /\
  (forall p, In p (f_prims f) -> mentions p (r_obj a)) /\
  (forall c, f_closure f = Some c -> c a = true).

(** The documented effect of an edit on the axioms of an ontology (in any order) and its result: adding
    adds; removing removes the given object if it is there, otherwise one equal axiom, and says whether
    there was one; bulk removal removes what fulfils the filter and says how many. [None]: the result
    does not concern axioms (see C32). *)
Inductive effect (l : list ref) : edit -> list ref -> option nat -> Prop :=
| eff_add a : effect l (EAddAxiom a) (a :: l) (Some 0)
| eff_remove a m : Permutation l (a :: m) -> effect l (ERemoveAxiom a) m (Some 1)
| eff_remove_equal a b m :
    ~ In a l -> Permutation l (b :: m) -> cowl_equals (r_obj a) (r_obj b) = true ->
    effect l (ERemoveAxiom a) m (Some 1)
| eff_remove_absent a :
    (forall b, In b l -> cowl_equals (r_obj a) (r_obj b) = false) -> effect l (ERemoveAxiom a) l (Some 0)
| eff_bulk f gone m :
    Permutation l (gone ++ m) -> (forall a, In a gone -> satisfies f a) ->
    (forall a, In a m -> ~ satisfies f a) -> effect l (ERemoveMatching f) m (Some (length gone))
| eff_add_annot a : effect l (EAddAnnot a) l None
| eff_remove_annot a : effect l (ERemoveAnnot a) l None
| eff_add_import i : effect l (EAddImport i) l None
| eff_remove_import i : effect l (ERemoveImport i) l None
| eff_set_iri i : effect l (ESetIri i) l None
| eff_set_version i : effect l (ESetVersion i) l None.

(** Effects of a whole history. *)
Inductive effects : list ref -> list edit -> list ref -> list (option nat) -> Prop :=
| effs_nil l : effects l [] l []
| effs_cons l e m r es l' rs : effect l e m r -> effects m es l' rs -> effects l (e :: es) l' (r :: rs).

(** The returned numbers are the documented ones. *)
Definition as_documented (rs : list nat) (os : list (option nat)) : Prop :=
  Forall2 (fun r x => match x with Some n => r = n | None => True end) rs os.

(** [p] occurs exactly [n] times in [o]. *)
Inductive times (p : obj) : list obj -> nat -> Prop :=
| times_nil : times p [] 0
| times_hit l n : times p l n -> times p (p :: l) (S n)
| times_miss q l n : q <> p -> times p l n -> times p (q :: l) n.
Definition occurs (p o : obj) (n : nat) : Prop := exists l, occurrences o l /\ times p l n.

(** [p] occurs at most once in [o]. *)
Definition at_most_once (p o : obj) : Prop := forall n, occurs p o n -> n <= 1.

(** The edits for which the library does what is documented, given the current axioms: removal of an
    axiom by the very pointer that was added (or of one that has no equal there), bulk removal
    through at least one primitive, none of the selected axioms mentioning such a primitive twice. *)
Definition supported (l : list ref) (e : edit) : Prop :=
  match e with
  | ERemoveAxiom a => In a l \/ (forall b, In b l -> cowl_equals (r_obj a) (r_obj b) = false)
  | ERemoveMatching f =>
      f_prims f <> [] /\
      (forall a, In a l -> satisfies f a -> forall p, In p (f_prims f) -> occurs p (r_obj a) 1)
  | _ => True
  end.

(** Effects of a history all of whose edits are supported. *)
Inductive supported_effects : list ref -> list edit -> list ref -> list (option nat) -> Prop :=
| seffs_nil l : supported_effects l [] l []
| seffs_cons l e m r es l' rs :
    supported l e -> effect l e m r -> supported_effects m es l' rs ->
    supported_effects l (e :: es) l' (r :: rs).

(** * Queries *)

(** A primitive is about [p] if it is [p] or, when [p] is an entity, its IRI. *)
Definition about (p q : obj) : Prop := q = p \/ (exists e ns rem, p = OEnt e ns rem /\ q = OIri ns rem).

(** No two places of [o] hold something about [p]. *)
Definition about_once (p o : obj) : Prop :=
  forall l, occurrences o l -> forall i j q r, nth_error l i = Some q -> nth_error l j = Some r ->
  about p q -> about p r -> i = j.

(** Axioms and annotations added by a history, whether or not removed later. *)
Definition ever_added (es : list edit) (x : obj) : Prop :=
  exists e, In e es /\ match e with EAddAxiom a | EAddAnnot a => r_obj a = x | _ => False end.

(** Edits that only add. *)
Definition only_adds (es : list edit) : Prop :=
  forall e, In e es -> match e with ERemoveAxiom _ | ERemoveMatching _ | ERemoveAnnot _ => False | _ => True end.

(** Deletion of all occurrences of [p]. *)
Inductive dropping (p : obj) : list obj -> list obj -> Prop :=
| drop_nil : dropping p [] []
| drop_hit l m : dropping p l m -> dropping p (p :: l) m
| drop_miss q l m : q <> p -> dropping p l m -> dropping p (q :: l) (q :: m).

(** Imports and annotations as ordered lists: adding appends, removing deletes the first equal one. *)
Inductive list_edit (l : list ref) : option (bool * ref) -> list ref -> Prop :=
| le_none : list_edit l None l
| le_add x : list_edit l (Some (true, x)) (l ++ [x])
| le_remove x l1 y l2 :
    l = l1 ++ y :: l2 -> cowl_equals (r_obj x) (r_obj y) = true ->
    (forall z, In z l1 -> cowl_equals (r_obj x) (r_obj z) = false) ->
    list_edit l (Some (false, x)) (l1 ++ l2)
| le_absent x :
    (forall z, In z l -> cowl_equals (r_obj x) (r_obj z) = false) -> list_edit l (Some (false, x)) l.
(** What an edit does to the annotations; to the imports. *)
Definition on_annots (e : edit) : option (bool * ref) :=
  match e with EAddAnnot a => Some (true, a) | ERemoveAnnot a => Some (false, a) | _ => None end.
Definition on_imports (e : edit) : option (bool * ref) :=
  match e with EAddImport a => Some (true, a) | ERemoveImport a => Some (false, a) | _ => None end.
(** A whole history on one of the two lists. *)
Inductive list_edits (on : edit -> option (bool * ref)) : list ref -> list edit -> list ref -> Prop :=
| les_nil l : list_edits on l [] l
| les_cons l e m es l' : list_edit l (on e) m -> list_edits on m es l' -> list_edits on l (e :: es) l'.

(** * References *)

(** References taken minus references given back, for one object. *)
Fixpoint net (id : N) (log : list ev) : Z :=
  match log with
  | [] => 0
  | Retain i :: log' => (if N.eqb i id then 1 else 0) + net id log'
  | Release i :: log' => (if N.eqb i id then -1 else 0) + net id log'
  end%Z.
(** An edit that removes the given object. *)
Definition removes (e : edit) (x : ref) : Prop :=
  match e with ERemoveAxiom a | ERemoveAnnot a | ERemoveImport a => a = x | _ => False end.
(** Removals name the very objects that were stored: no other object equals one named in a removal. *)
Definition same_pointers (es : list edit) : Prop :=
  forall e e' x y, In e es -> In e' es -> removes e x -> In y (passed e') ->
  cowl_equals (r_obj x) (r_obj y) = true -> x = y.
(** Number of elements with a given identity. *)
Definition copies (id : N) (l : list ref) : Z :=
  Z.of_nat (length (filter (fun a => N.eqb (r_id a) id) l)).
(** The objects stored in an ontology, with multiplicity. *)
Definition stored (o : onto) (l : list ref) : list ref :=
  l ++ vec_data (o_annot o) ++ vec_data (o_imports o) ++
  match o_iri o with Some i => [i] | None => [] end ++ match o_version o with Some i => [i] | None => [] end.
(** Every use of the object happens while someone still holds a reference to it, [c] references being
    held at the start. *)
Fixpoint usable (c : Z) (id : N) (log : list ev) : Prop :=
  match log with
  | [] => True
  | Retain i :: log' => if N.eqb i id then (0 < c)%Z /\ usable (c + 1) id log' else usable c id log'
  | Release i :: log' => if N.eqb i id then (0 < c)%Z /\ usable (c - 1) id log' else usable c id log'
  end.
