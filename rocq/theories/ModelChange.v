(** Changes and change handlers. Models src/cowl_change_handler.c and include/cowl_change.h.

    An ontology together with its prefix map is a [full]. Simplification: the prefix map, created on
    demand by cowl_ontology_get_prefix_map (src/cowl_ontology.c:144-146), exists from the start. The
    handled ontology and the one written to are different objects: handling an ontology into itself
    would edit vectors and tables while they are iterated. *)

From Coq Require Import NArith ZArith List Bool.
From Verif Require Import Bytes ModelTypes ModelObject ModelPrefixMap ModelOntology.
Import ListNotations.

(** src/cowl_ontology_private.h:23-32 struct CowlOntology, with [x_log], the reference count effects the
    ontology had so far. *)
Record full := mkFull { x_onto : onto; x_pm : pst; x_log : list ev }.

(** include/cowl_change.h cowl_change_type *)
Inductive change_type : Set := CHANGE_ADD | CHANGE_REMOVE.

(** include/cowl_change.h cowl_part and the value that goes with it (struct CowlChange). *)
Inductive part : Type :=
| PPrefix (prefix ns : str)
| PIri (i : ref)
| PVersion (i : ref)
| PImport (i : ref)
| PAnnot (a : ref)
| PAxiom (a : ref).

(** A C bool or count returned where a cowl_ret is expected (src/cowl_change_handler.c:47-49). *)
Definition as_ret (n : nat) : ret := Z.of_nat n.

Section Visit.
  (** Order in which hash tables are visited. *)
  Variable visit : tbl -> tbl.
  (** Width of ulib_uint. *)
  Variable w : N.

  (** Calls a function of src/cowl_ontology.c on the ontology. *)
  Definition on_ontology (x : full) (e : edit) : option (full * ret) :=
    match o_step w (x_onto x) e with
    | None => None
    | Some (o, n, log) => Some (mkFull o (x_pm x) (x_log x ++ log), as_ret n)
    end.

  (** src/cowl_change_handler.c:18-21 add_prefix *)
  Definition add_prefix (x : full) (prefix ns : str) : option (full * ret) :=
    match pm_add (x_pm x) prefix ns true with
    | None => None
    | Some (s, r) => Some (mkFull (x_onto x) s (x_log x), r)
    end.
  (** src/cowl_change_handler.c:23-28 remove_prefix *)
  Definition remove_prefix (x : full) (prefix ns : str) : option (full * ret) :=
    match pm_remove_prefix visit (x_pm x) (stx prefix) with
    | None => None
    | Some (s, ret_prefix) =>
        match pm_remove_ns visit s ns with
        | None => None
        | Some (s', ret_ns) =>
            Some (mkFull (x_onto x) s' (x_log x), if Z.ltb ret_prefix 0 then ret_prefix else ret_ns)
        end
    end.

  (** src/cowl_change_handler.c:30-40 add_to_ontology *)
  Definition add_to_ontology (x : full) (p : part) : option (full * ret) :=
    match p with
    | PPrefix prefix ns => add_prefix x prefix ns
    | PIri i => on_ontology x (ESetIri (Some i))
    | PVersion i => on_ontology x (ESetVersion (Some i))
    | PImport i => on_ontology x (EAddImport i)
    | PAnnot a => on_ontology x (EAddAnnot a)
    | PAxiom a => on_ontology x (EAddAxiom a)
    end.
  (** src/cowl_change_handler.c:42-52 remove_from_ontology: the bool results of the removals of imports,
      annotations and axioms are returned as cowl_ret, true being COWL_NO = COWL_STOP. *)
  Definition remove_from_ontology (x : full) (p : part) : option (full * ret) :=
    match p with
    | PPrefix prefix ns => remove_prefix x prefix ns
    | PIri _ => on_ontology x (ESetIri None)
    | PVersion _ => on_ontology x (ESetVersion None)
    | PImport i => on_ontology x (ERemoveImport i)
    | PAnnot a => on_ontology x (ERemoveAnnot a)
    | PAxiom a => on_ontology x (ERemoveAxiom a)
    end.
  (** src/cowl_change_handler.c:54-59 cowl_change_apply; 61-70 cowl_change_handler_to_ontology *)
  Definition change_apply (t : change_type) (p : part) (x : full) : option (full * ret) :=
    match t with
    | CHANGE_ADD => add_to_ontology x p
    | CHANGE_REMOVE => remove_from_ontology x p
    end.

  Section Handler.
    Context {S : Type}.
    (** include/cowl_change_handler.h struct CowlChangeHandler: a function with a mutable context; [None] is
        undefined behaviour. *)
    Variable handle : change_type -> part -> S -> option (S * ret).

    (** src/cowl_change_handler.c:72-78 handle_change, as the step of an iteration *)
    Definition handle_change (t : change_type) (mk : ref -> part) (s : option S) (a : ref) : option S * ret :=
      match s with
      | None => (None, COWL_STOP)
      | Some s => match handle t (mk a) s with
                  | None => (None, COWL_STOP)
                  | Some (s', r) => (Some s', r)
                  end
      end.
    (** Result of an iteration with [handle_change]. *)
    Definition handled (r : ires (option S)) : option (S * ret) :=
      match r with IRet (Some s) c => Some (s, c) | _ => None end.

    (** src/cowl_change_handler.c:89-93, the loop over the prefix declarations *)
    Fixpoint handle_prefixes (t : change_type) (es : tbl) (s : S) : option (S * ret) :=
      match es with
      | [] => Some (s, COWL_OK)
      | (k, v) :: es' =>
          match handle t (PPrefix k v) s with
          | None => None
          | Some (s', r) => if should_stop r then Some (s', r) else handle_prefixes t es' s'
          end
      end.
    (** src/cowl_change_handler.c:95-98,100-103: a field, if it is not NULL *)
    Definition handle_field (t : change_type) (mk : ref -> part) (i : option ref) (s : S) : option (S * ret) :=
      match i with None => Some (s, COWL_OK) | Some i => handle t (mk i) s end.

    (** "if (cowl_should_stop(ret = ...)) return ret;" *)
    Definition then_ (r : option (S * ret)) (k : S -> option (S * ret)) : option (S * ret) :=
      match r with
      | None => None
      | Some (s, c) => if should_stop c then Some (s, c) else k s
      end.

    (** src/cowl_change_handler.c:80-116 cowl_change_handler_handle_ontology *)
    Definition handle_ontology (src : full) (t : change_type) (s : S) : option (S * ret) :=
      then_ (handle_prefixes t (visit (fwd (x_pm src))) s) (fun s =>
      then_ (handle_field t PIri (o_iri (x_onto src)) s) (fun s =>
      then_ (handle_field t PVersion (o_version (x_onto src)) s) (fun s =>
      then_ (handled (iterate_annot (handle_change t PAnnot) (x_onto src) (Some s))) (fun s =>
      then_ (handled (iterate_imports (handle_change t PImport) (x_onto src) (Some s))) (fun s =>
      handled (iterate_axioms (handle_change t PAxiom) (x_onto src) (Some s))))))).
  End Handler.

  (** Feeding [src] to cowl_change_handler_to_ontology(dst). *)
  Definition feed (src : full) (t : change_type) (dst : full) : option (full * ret) :=
    handle_ontology change_apply src t dst.
End Visit.
