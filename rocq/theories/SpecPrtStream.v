(** Specification vocabulary for ProtocOWL streams: what a client asks a writer to write, and what a reader
    must deliver for it. *)

From Coq Require Import NArith ZArith List Bool String.
From Verif Require Import Bytes ModelTypes ModelObject ModelText ModelPrefixMap SpecObject SpecText ModelOntology ModelChange.
From Verif Require Import ModelPrtEncoder ModelPrtDecoder ModelPrtWriter SpecPrt.
Import ListNotations.
Local Open Scope N_scope.

(** * What is asked for *)

(** The elements of a header. *)
Definition header_prefixes (h : header) : list (bytes * bytes) :=
  map (fun e => (stx (fst e), stx (snd e))) (match h_pm h with Some t => t | None => [] end).
Definition opt_list {A} (x : option A) : list A := match x with Some a => [a] | None => [] end.
Definition asked_header (h : header) : list dchange :=
  map (fun p => (CHANGE_ADD, p))
    (map (fun e => DPrefix (fst e) (snd e)) (header_prefixes h) ++
     map (fun i => DIri (r_obj i)) (opt_list (h_iri h)) ++
     map (fun i => DVersion (r_obj i)) (opt_list (h_version h)) ++
     map (fun i => DImport (r_obj i)) (h_imports h) ++ map (fun a => DAnnot (r_obj a)) (h_annot h)).
(** The axioms written after it, each with the change type in force. *)
Fixpoint asked_body (t : change_type) (l : list wcall) : list dchange :=
  match l with
  | [] => []
  | WAxiom a :: l' => (t, DAxiom (r_obj a)) :: asked_body t l'
  | WChange t' :: l' => asked_body t' l'
  | _ :: l' => asked_body t l'
  end.
(** The change type in force at the end. *)
Fixpoint mode_after (t : change_type) (l : list wcall) : change_type :=
  match l with
  | [] => t
  | WChange t' :: l' => mode_after t' l'
  | _ :: l' => mode_after t l'
  end.
Definition asked (h : header) (body : list wcall) : list dchange := asked_header h ++ asked_body CHANGE_ADD body.

(** * What is delivered *)

(** Changes that concern the same component of an ontology: its IRI, its version, its imports, its
    annotations, its axioms of one type. Changes to different components are independent. *)
Inductive component : Set := CIri | CVersion | CImports | CAnnots | CAxioms (t : N).
Definition concerns (k : component) (c : dchange) : bool :=
  match k, snd c with
  | CIri, DIri _ | CVersion, DVersion _ | CImports, DImport _ | CAnnots, DAnnot _ => true
  | CAxioms t, DAxiom a => ax_type a =? t
  | _, _ => false
  end.
(** The same changes, in the same order for every component. *)
Definition same_changes (l l' : list dchange) : Prop :=
  forall k, filter (concerns k) l = filter (concerns k) l'.

(** The namespaces that every ProtocOWL reader and writer knows from the start. *)
Definition standard_namespaces : list bytes := reserved_namespaces ++ [bs "http://www.w3.org/XML/1998/namespace"].
(** Prefixes: only those asked for; each namespace that is not standard gets one of its prefixes. *)
Definition same_prefixes (l l' : list dchange) : Prop :=
  (forall t p ns, In (t, DPrefix p ns) l -> In (t, DPrefix p ns) l') /\
  (forall t p ns, In (t, DPrefix p ns) l' -> In ns standard_namespaces \/ exists p', In (t, DPrefix p' ns) l).

(** * Sessions *)

(** Primitives that can be stored: the IRI is one that cowl_iri makes of its own two parts (every result of
    cowl_iri_from_string is, C15), and the texts are not too long. *)
Definition portable (w : N) (p : obj) : Prop :=
  match ident p with
  | OIri ns rem => iri_of_parts ns rem = (ns, rem) /\ fits w ns /\ fits w rem
  | OAnon id => fits w id
  | _ => True
  end.
(** The objects passed by a call. *)
Definition passed_header (h : header) : list obj :=
  map r_obj (opt_list (h_iri h) ++ opt_list (h_version h) ++ h_imports h ++ h_annot h).
Definition passed_body (l : list wcall) : list obj :=
  flat_map (fun c => match c with WAxiom a => [r_obj a] | _ => [] end) l.

(** A header whose parts have the types of the function signatures and can be stored. *)
Record header_ok (w : N) (h : header) : Prop := {
  ho_prefix : forall p ns, In (p, ns) (header_prefixes h) -> fits w p /\ fits w ns;
  ho_iri : forall i, In i (opt_list (h_iri h) ++ opt_list (h_version h) ++ h_imports h) -> an_iri (r_obj i);
  ho_version : h_version h <> None -> h_iri h <> None;
  ho_annot : forall a, In a (h_annot h) -> wt (SOne SAnnot) (r_obj a) = true /\ storable w (r_obj a)
}.
(** The calls that may follow a header, before the footer. *)
Definition call_ok (w : N) (c : wcall) : Prop :=
  match c with
  | WAxiom a => is_axiom_object (r_obj a) /\ storable w (r_obj a)
  | WChange _ | WReset _ | WIndexSize _ => True
  | WHeader _ | WFooter | WOntology _ | WEncodeAnon _ => False
  end.
(** There are not more identifiers, namespaces and changes than ulib_uint can count. *)
Record room (w : N) (prefixes : list (bytes * bytes)) (objs : list obj) (changes : list dchange) : Prop := {
  ro_ids : exists ids, (forall o p, In o objs -> mentions p o -> In (ident p) ids) /\ N.of_nat (List.length ids) + 17 < 2 ^ w;
  ro_ns : exists nss, incl standard_namespaces nss /\ (forall p ns, In (p, ns) prefixes -> In ns nss) /\
    (forall o p ns rem, In o objs -> mentions p o -> ident p = OIri ns rem -> In ns nss) /\ N.of_nat (List.length nss) < 2 ^ w;
  ro_changes : N.of_nat (List.length changes) < 2 ^ w
}.
(** A stream as a client can write it. *)
Record session (w : N) (h : header) (body : list wcall) : Prop := {
  se_header : header_ok w h;
  se_body : Forall (call_ok w) body;
  se_portable : forall o p, In o (passed_header h ++ passed_body body) -> mentions p o -> portable w p;
  se_room : room w (header_prefixes h) (passed_header h ++ passed_body body) (asked h body)
}.

(** * Tables *)

(** The namespaces and the identifiers a writer has seen since they were last cleared. *)
Definition ns_list (e : enc) : list bytes := m_list (x_ns (e_index e)).
Definition id_list (e : enc) : list obj := m_list (x_id (e_index e)).
(** The namespaces both sides start with, in order. *)
Definition standard_list : list bytes :=
  [ bs "http://www.w3.org/1999/02/22-rdf-syntax-ns#"; bs "http://www.w3.org/2000/01/rdf-schema#";
    bs "http://www.w3.org/2001/XMLSchema#"; bs "http://www.w3.org/2002/07/owl#"; bs "http://www.w3.org/XML/1998/namespace" ].
