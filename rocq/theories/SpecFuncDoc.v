(** Specification vocabulary for whole documents in functional syntax. *)

From Coq Require Import NArith ZArith List Bool Permutation String.
From Verif Require Import Bytes ModelTypes ModelObject ModelText ModelPrefixMap SpecPrefixMap SpecObject SpecText ModelOntology ModelChange.
From Verif Require Import ModelPrtDecoder SpecPrtStream ModelFuncLex ModelFuncParser ModelFuncWriter SpecFunc.
Import ListNotations.
Local Open Scope N_scope.

(** The bindings of a table, as texts. *)
Definition texts (t : tbl) : list (bytes * bytes) := map (fun e => (stx (fst e), stx (snd e))) t.
(** Whether a prefix is one of owl, rdf, rdfs, xsd. *)
Definition is_standard (p : bytes) : bool := existsb (fun e => bytes_eqb (fst e) p) standard.
(** The prefixes of a header that need a declaration. *)
Definition declared (h : fheader) : list (bytes * bytes) :=
  filter (fun e => negb (is_standard (fst e))) (match fh_pm h with Some pm => texts (fwd pm) | None => [] end).
(** What reading a document back must deliver, with the prefixes in the order [ds]. *)
Definition contents (ds : list (bytes * bytes)) (h : fheader) (axioms : list obj) : list dchange :=
  map (fun p => (CHANGE_ADD, p))
    (map (fun e => DPrefix (fst e) (snd e)) ds ++ map DIri (opt_list (fh_iri h)) ++ map DVersion (opt_list (fh_version h)) ++
     map DImport (fh_imports h) ++ map DAnnot (fh_annot h) ++ map DAxiom axioms).

(** No IRI is abbreviated. *)
Definition in_full : bytes -> option bytes := fun _ => None.
Definition full_iri_ok (i : obj) : Prop := exists ns rem, i = OIri ns rem /\ iri_ok in_full ns rem.

(** * Tokens of a document *)

Definition decl_tokens (e : bytes * bytes) : list token :=
  [TKw PREFIX; TLParen; TPnameNs (fst e); TEquals; TIriRef (snd e); TRParen].
Definition full_tokens (i : obj) : list token := match i with OIri ns rem => [TIriRef (ns ++ rem)] | _ => [] end.
Definition import_tokens (i : obj) : list token := TKw IMPORT :: in_parens (full_tokens i).

Definition id_tokens (h : fheader) : list token :=
  flat_map full_tokens (opt_list (fh_iri h) ++ opt_list (fh_version h)).
(** Prefix declarations, the ontology with its IRI and version, imports, annotations, axioms. *)
Definition doc_tokens (short : bytes -> option bytes) (ds : list (bytes * bytes)) (h : fheader) (axioms : list obj) : list token :=
  flat_map decl_tokens ds ++ (TKw ONTOLOGY :: TLParen :: id_tokens h) ++
  flat_map import_tokens (fh_imports h) ++ flat_map (tokens short) (fh_annot h) ++ flat_map (tokens short) axioms ++ [TRParen].

(** * Documents that can be written *)

(** The prefix that stands for a namespace in a document: the one cowl_prefix_map_get_prefix returns. *)
Definition prefix_in (visit : tbl -> tbl) (h : fheader) (ns : bytes) : option bytes :=
  match fh_pm h with
  | Some pm => match get_prefix visit pm ns with Some (_, Some p) => Some (stx p) | _ => None end
  | None => None
  end.
(** A prefix map after a history of calls that, once something else was done than adding bindings, never bind a bound
    prefix to another namespace, by a client that keeps its strings alive. *)
Definition quiet_map (visit : tbl -> tbl) (pm : pst) : Prop :=
  exists r ops1 ops2 s0 c s1 rs1 rs2, (forall i, r i <> 0) /\ Forall keeps (ops1 ++ ops2) /\ Forall adds ops1 /\ pm_init r = Some (s0, c) /\
  pm_run visit s0 ops1 = Some (s1, rs1) /\ all_calls quiet visit s1 ops2 /\ pm_run visit s1 ops2 = Some (pm, rs2).
(** A prefix map that can be written: names and namespaces that the syntax allows, and a reader that does not start
    with other bindings for the same prefixes. *)
Record map_fit (visit : tbl -> tbl) (pm : pst) (defaults : pmap) : Prop := {
  mf_quiet : quiet_map visit pm;
  mf_names : forall p n, In (p, n) (texts (fwd pm)) -> prefix_name p /\ Forall iri_char n;
  mf_defaults : forall p n n', In (p, n) defaults -> In (p, n') (texts (fwd pm)) -> n = n'
}.
(** A header and axioms that can be written and read back by a reader with the given default prefixes. *)
Record doc_ok (w : N) (visit : tbl -> tbl) (defaults : pmap) (h : fheader) (axioms : list obj) : Prop := {
  do_map : forall pm, fh_pm h = Some pm -> map_fit visit pm defaults;
  do_iris : forall i, In i (opt_list (fh_iri h) ++ opt_list (fh_version h) ++ fh_imports h) -> full_iri_ok i;
  do_version : fh_version h <> None -> fh_iri h <> None;
  do_annot : forall a, In a (fh_annot h) -> wt (SOne SAnnot) a = true /\ expressible w (prefix_in visit h) a;
  do_axioms : forall a, In a axioms -> wt (SOne SAxiom) a = true /\ expressible w (prefix_in visit h) a
}.

(** An ontology as the header and axioms that are written. *)
Definition onto_fheader (x : full) : fheader :=
  mkFHeader (Some (x_pm x)) (option_map r_obj (o_iri (x_onto x))) (option_map r_obj (o_version (x_onto x)))
    (map r_obj (vec_data (o_imports (x_onto x)))) (map r_obj (vec_data (o_annot (x_onto x)))).
(** An ontology with the axioms [l] that can be written: contents that the syntax can express. *)
Record writable (w : N) (visit : tbl -> tbl) (defaults : pmap) (x : full) (l : list ref) : Prop := {
  wr_map : map_fit visit (x_pm x) defaults;
  wr_iris : forall i, In i (opt_list (o_iri (x_onto x)) ++ opt_list (o_version (x_onto x)) ++ vec_data (o_imports (x_onto x))) ->
    full_iri_ok (r_obj i);
  wr_version : o_version (x_onto x) <> None -> o_iri (x_onto x) <> None;
  wr_annot : forall a, In a (vec_data (o_annot (x_onto x))) -> wt (SOne SAnnot) (r_obj a) = true /\
    expressible w (prefix_in visit (onto_fheader x)) (r_obj a);
  wr_axioms : forall a, In a l -> expressible w (prefix_in visit (onto_fheader x)) (r_obj a)
}.

(** The prefix map of a new ontology: the standard prefixes and those of the default map. *)
Definition new_map (visit : tbl -> tbl) (defaults : pmap) (pm : pst) : Prop :=
  exists r src s0 c c', (forall i, r i <> 0) /\ distinct_keys src /\ texts src = defaults /\
  pm_init r = Some (s0, c) /\ pm_merge visit s0 src false = Some (pm, c').
(** Declarations that do not contradict each other or the default map. *)
Definition coherent (defaults ds : pmap) : Prop :=
  forall p n n', is_standard p = false -> In (p, n) (defaults ++ ds) -> In (p, n') (defaults ++ ds) -> n = n'.
