(** When an ontology that was read from a text can be saved and loaded again. *)

From Coq Require Import NArith ZArith List Bool String.
From Verif Require Import Bytes ModelTypes ModelObject ModelText SpecObject SpecText ModelPrefixMap SpecPrefixMap ModelOntology ModelChange SpecChange
  ModelPrtDecoder SpecPrtStore ModelFuncLex ModelFuncParser ModelFuncWriter SpecFunc SpecFuncDoc.
Import ListNotations.
Local Open Scope N_scope.

Definition is_byte (c : N) : Prop := c < 256.

(** A default prefix map with legal names, which does not redefine the standard prefixes. *)
Definition legal_defaults (defaults : pmap) : Prop :=
  forall p n, In (p, n) defaults -> prefix_name p /\ Forall iri_char n /\ Forall is_byte n /\ forall n', In (p, n') standard -> n = n'.
(** Declarations that do not contradict the default map. *)
Definition agrees (defaults ds : pmap) : Prop :=
  forall p n n', In (p, n) defaults -> In (p, n') ds -> (forall x, ~ In (p, x) standard) -> n = n'.

Section Stable.
  (** Namespaces that have a prefix. *)
  Variable nss : list bytes.

  (** An IRI that is split as cowl_iri_from_string splits its text, and that does not end in a full stop if it can be
      abbreviated. *)
  Definition stable_iri (ns rem : bytes) : Prop :=
    canonical_split (ns ++ rem) ns rem /\ (In ns nss -> no_final_dot rem).
  (** All IRIs are stable, values have no zero byte, language tags are language tags, and no sub-property is
      an inverse. *)
  Fixpoint stable (o : obj) : Prop :=
    match o with
    | OStr _ _ | OAnon _ => True
    | OIri ns rem | OEnt _ ns rem => stable_iri ns rem
    | OLit v ns rem => ~ In 0 v /\ stable_iri ns rem
    | OLang v l => ~ In 0 v /\ lang_tag l
    | OVec _ l => fold_right (fun x P => stable x /\ P) True l
    | OComp t fs opt n =>
        fold_right (fun x P => stable x /\ P) True fs /\ match opt with Some p => stable p | None => True end /\
        match t, fs with OT_A_SUB_OBJ_PROP, OComp _ _ _ _ :: _ => False | _, _ => True end
    end.
  Definition stable_part (p : dpart) : Prop :=
    match p with
    | DPrefix _ _ => True
    | DIri o | DVersion o | DImport o => match o with OIri ns rem => canonical_split (ns ++ rem) ns rem | _ => False end
    | DAnnot o | DAxiom o => stable o
    end.
End Stable.

(** The text [b] is read with the changes [log] into a new ontology, which becomes [x] and is written as [o]; [None] if
    writing is undefined behaviour. *)
Definition saved (visit : tbl -> tbl) (w : N) (signed : bool) (defaults : pmap) (b : bytes) (log : list dchange) (x : full) (o : option bytes) : Prop :=
  func_read (fun _ => COWL_OK) signed w (initial_map defaults) b = FRet COWL_OK log /\
  exists heap ps x0, Forall2 stands_for ps (map snd log) /\ Forall (part_in_heap heap) ps /\ x_onto x0 = o_empty true /\
    new_map visit defaults (x_pm x0) /\ receives (change_apply visit w CHANGE_ADD) ps x0 (Some (x, COWL_OK)) /\ w_ontology visit x = o.
