(** Functional syntax, writer. Models src/formats/functional/writer/cowl_func_writer.c, src/cowl_writer.c:90-115
    and 177-203, and src/cowl_object_type.c:12-97.

    Output is a byte string; [None] is undefined behaviour. Simplifications: the stream accepts every byte, so
    encoder_state is COWL_OK; tables, ontologies and other objects that are not constructs are not written; the
    prefix map does not change while a document is written, so every look-up starts from the same state. *)

From Coq Require Import NArith ZArith List Bool String.
From Verif Require Import Bytes ModelTypes ModelObject ModelText ModelPrefixMap ModelOntology ModelChange ModelPrtWriter.
Import ListNotations.
Local Open Scope N_scope.

(** src/cowl_object_type.c:12-97 cowl_object_type_to_string *)
Definition type_name (t : otype) : bytes :=
  match t with
  | OT_STRING => bs "String"
  | OT_VECTOR => bs "Vector"
  | OT_TABLE => bs "Table"
  | OT_IRI => bs "IRI"
  | OT_LITERAL => bs "Literal"
  | OT_FACET_RESTR => bs "FacetRestriction"
  | OT_ONTOLOGY => bs "Ontology"
  | OT_PREFIX_MAP => bs "PrefixMap"
  | OT_READER => bs "Reader"
  | OT_WRITER => bs "Writer"
  | OT_ANNOTATION => bs "Annotation"
  | OT_ANNOT_PROP => bs "AnnotationProperty"
  | OT_A_DECL => bs "Declaration"
  | OT_A_DATATYPE_DEF => bs "DatatypeDefinition"
  | OT_A_SUB_CLASS => bs "SubClassOf"
  | OT_A_EQUIV_CLASSES => bs "EquivalentClasses"
  | OT_A_DISJ_CLASSES => bs "DisjointClasses"
  | OT_A_DISJ_UNION => bs "DisjointUnion"
  | OT_A_CLASS_ASSERT => bs "ClassAssertion"
  | OT_A_SAME_IND => bs "SameIndividual"
  | OT_A_DIFF_IND => bs "DifferentIndividuals"
  | OT_A_OBJ_PROP_ASSERT => bs "ObjectPropertyAssertion"
  | OT_A_NEG_OBJ_PROP_ASSERT => bs "NegativeObjectPropertyAssertion"
  | OT_A_DATA_PROP_ASSERT => bs "DataPropertyAssertion"
  | OT_A_NEG_DATA_PROP_ASSERT => bs "NegativeDataPropertyAssertion"
  | OT_A_SUB_OBJ_PROP => bs "SubObjectPropertyOf"
  | OT_A_INV_OBJ_PROP => bs "InverseObjectProperties"
  | OT_A_EQUIV_OBJ_PROP => bs "EquivalentObjectProperties"
  | OT_A_DISJ_OBJ_PROP => bs "DisjointObjectProperties"
  | OT_A_FUNC_OBJ_PROP => bs "FunctionalObjectProperty"
  | OT_A_INV_FUNC_OBJ_PROP => bs "InverseFunctionalObjectProperty"
  | OT_A_SYMM_OBJ_PROP => bs "SymmetricObjectProperty"
  | OT_A_ASYMM_OBJ_PROP => bs "AsymmetricObjectProperty"
  | OT_A_TRANS_OBJ_PROP => bs "TransitiveObjectProperty"
  | OT_A_REFL_OBJ_PROP => bs "ReflexiveObjectProperty"
  | OT_A_IRREFL_OBJ_PROP => bs "IrreflexiveObjectProperty"
  | OT_A_OBJ_PROP_DOMAIN => bs "ObjectPropertyDomain"
  | OT_A_OBJ_PROP_RANGE => bs "ObjectPropertyRange"
  | OT_A_SUB_DATA_PROP => bs "SubDataPropertyOf"
  | OT_A_EQUIV_DATA_PROP => bs "EquivalentDataProperties"
  | OT_A_DISJ_DATA_PROP => bs "DisjointDataProperties"
  | OT_A_FUNC_DATA_PROP => bs "FunctionalDataProperty"
  | OT_A_DATA_PROP_DOMAIN => bs "DataPropertyDomain"
  | OT_A_DATA_PROP_RANGE => bs "DataPropertyRange"
  | OT_A_HAS_KEY => bs "HasKey"
  | OT_A_ANNOT_ASSERT => bs "AnnotationAssertion"
  | OT_A_SUB_ANNOT_PROP => bs "SubAnnotationPropertyOf"
  | OT_A_ANNOT_PROP_DOMAIN => bs "AnnotationPropertyDomain"
  | OT_A_ANNOT_PROP_RANGE => bs "AnnotationPropertyRange"
  | OT_CE_CLASS => bs "Class"
  | OT_CE_OBJ_SOME => bs "ObjectSomeValuesFrom"
  | OT_CE_OBJ_ALL => bs "ObjectAllValuesFrom"
  | OT_CE_OBJ_MIN_CARD => bs "ObjectMinCardinality"
  | OT_CE_OBJ_MAX_CARD => bs "ObjectMaxCardinality"
  | OT_CE_OBJ_EXACT_CARD => bs "ObjectExactCardinality"
  | OT_CE_OBJ_HAS_VALUE => bs "ObjectHasValue"
  | OT_CE_OBJ_HAS_SELF => bs "ObjectHasSelf"
  | OT_CE_DATA_SOME => bs "DataSomeValuesFrom"
  | OT_CE_DATA_ALL => bs "DataAllValuesFrom"
  | OT_CE_DATA_MIN_CARD => bs "DataMinCardinality"
  | OT_CE_DATA_MAX_CARD => bs "DataMaxCardinality"
  | OT_CE_DATA_EXACT_CARD => bs "DataExactCardinality"
  | OT_CE_DATA_HAS_VALUE => bs "DataHasValue"
  | OT_CE_OBJ_INTERSECT => bs "ObjectIntersectionOf"
  | OT_CE_OBJ_UNION => bs "ObjectUnionOf"
  | OT_CE_OBJ_COMPL => bs "ObjectComplementOf"
  | OT_CE_OBJ_ONE_OF => bs "ObjectOneOf"
  | OT_DPE_DATA_PROP => bs "DataProperty"
  | OT_DR_DATATYPE => bs "Datatype"
  | OT_DR_DATATYPE_RESTR => bs "DatatypeRestriction"
  | OT_DR_DATA_INTERSECT => bs "DataIntersectionOf"
  | OT_DR_DATA_UNION => bs "DataUnionOf"
  | OT_DR_DATA_COMPL => bs "DataComplementOf"
  | OT_DR_DATA_ONE_OF => bs "DataOneOf"
  | OT_I_ANONYMOUS => bs "AnonymousIndividual"
  | OT_I_NAMED => bs "NamedIndividual"
  | OT_OPE_OBJ_PROP => bs "ObjectProperty"
  | OT_OPE_INV_OBJ_PROP => bs "ObjectInverseOf"
  end.

(** What a function writes. *)
Definition wt_out : Type := option bytes.
(** Writing one thing after the other. *)
Definition wapp (a b : wt_out) : wt_out :=
  match a, b with Some x, Some y => Some (x ++ y) | _, _ => None end.
(** write_static and write_string *)
Definition put (b : bytes) : wt_out := Some b.
Infix "+++" := wapp (at level 60, right associativity).

(** cowl_func_writer.c:129-140 write_uvec: items separated by blanks *)
Fixpoint w_tail (l : list wt_out) : wt_out :=
  match l with [] => put [] | x :: l' => put [32] +++ x +++ w_tail l' end.
(** cowl_func_writer.c:129-140 write_uvec *)
Definition w_list (l : list wt_out) : wt_out :=
  match l with [] => put [] | x :: l' => x +++ w_tail l' end.
(** cowl_func_writer.c:77-86 write_fields: field 0 is read in any case *)
Definition w_fields (l : list wt_out) : wt_out := match l with [] => None | _ => w_list l end.

(** cowl_func_writer.c:190-201 write_literal_value, up to the terminating NUL: the text is copied, with a
    backslash before quotation marks and backslashes. *)
Fixpoint escape (v : bytes) : bytes :=
  match v with
  | [] => []
  | c :: v' =>
      if c =? 0 then []
      else if (c =? 34) || (c =? 92) then 92 :: c :: escape v'
      else c :: escape v'
  end.

(** Enclosed in parentheses, after a keyword. *)
Definition w_call (name : bytes) (inner : wt_out) : wt_out := put name +++ put [40] +++ inner +++ put [41].
(** Something optional followed by a blank (97-104 write_opt_fields). *)
Definition w_before (opt : option wt_out) : wt_out := match opt with Some x => x +++ put [32] | None => put [] end.
(** Something optional preceded by a blank (88-95 write_fields_opt). *)
Definition w_after (opt : option wt_out) : wt_out := match opt with Some x => put [32] +++ x | None => put [] end.
(** src/cowl_writer.c:183-186 cowl_write_uint *)
Definition w_uint (n : N) : wt_out := str_from_uint n.
(** cowl_func_writer.c:162-166 write_full_iri *)
Definition w_full_iri (ns rem : bytes) : wt_out := put [60] +++ put ns +++ put rem +++ put [62].

Section Object.
  (** e->pm with cowl_prefix_map_get_prefix: the prefix of a namespace, if any; [None] if reading the map is
      undefined behaviour. Without a map there is no prefix. *)
  Variable abbr : bytes -> option (option bytes).

  (** cowl_func_writer.c:168-188 write_short_iri, write_iri; src/cowl_iri.c cowl_iri_has_rem *)
  Definition w_iri (ns rem : bytes) : wt_out :=
    match rem with
    | [] => w_full_iri ns rem
    | _ => match abbr ns with
           | None => None
           | Some (Some p) => put p +++ put [58] +++ put rem
           | Some None => w_full_iri ns rem
           end
    end.
  (** cowl_func_writer.c:203-216 write_literal. A literal made by cowl_literal_typed with the datatype
      rdf:langString has no tag: write_string reads through NULL. *)
  Definition w_literal (l : obj) : wt_out :=
    put [34] +++ put (escape (literal_get_value l)) +++ put [34] +++
    match literal_get_datatype l with
    | OEnt _ ns rem =>
        if prim_eqb (literal_get_datatype l) rdf_lang_string then
          put [64] +++ literal_get_lang l
        else if prim_eqb (literal_get_datatype l) (OEnt ET_DATATYPE xsd_ns xsd_string_rem) then put []
        else put (bs "^^") +++ w_iri ns rem
    | _ => None
    end.
  (** cowl_func_writer.c:223-225 write_entity: on anything else cowl_entity_get_iri reads a field that is not
      there *)
  Definition w_entity (o : obj) : wt_out := match o with OEnt _ ns rem => w_iri ns rem | _ => None end.

  (** cowl_func_writer.c:386-429 write_obj, with 106-127 write_construct, write_construct_uint,
      write_annot_construct; 227-243 write_declaration; 245-261 write_obj_quant, write_data_quant; 263-293
      write_obj_prop_chain, write_sub_obj_prop; 295-317 write_has_key; 319-321 write_facet_restr. *)
  Fixpoint w_obj (o : obj) : wt_out :=
    match o with
    | OStr _ s => put s
    | OVec _ l => w_list (map w_obj l)
    | OIri ns rem => w_iri ns rem
    | OEnt _ ns rem => w_iri ns rem
    | OAnon id => put (bs "_:") +++ put id
    | OLit _ _ _ | OLang _ _ => w_literal o
    | OComp t fs opt n =>
        let ws := map w_obj fs in
        let wo := option_map w_obj opt in
        match t with
        | OT_FACET_RESTR => w_fields ws +++ w_after wo
        | OT_ANNOTATION => w_call (type_name t) (w_before wo +++ w_fields ws)
        | OT_A_DECL =>
            match fs with
            | OEnt e ns rem :: _ =>
                w_call (type_name t) (w_before wo +++ w_call (type_name (etype_otype e)) (w_iri ns rem))
            | _ => None
            end
        | OT_A_SUB_OBJ_PROP =>
            match fs, ws with
            | sub :: _, wsub :: wsuper :: _ =>
                w_call (type_name t)
                  (w_before wo +++
                   (match sub with OVec _ _ => w_call (bs "ObjectPropertyChain") wsub | _ => w_entity sub end) +++
                   put [32] +++ wsuper)
            | _, _ => None
            end
        | OT_A_HAS_KEY =>
            match ws with
            | c :: op :: dp :: _ =>
                w_call (type_name t)
                  (w_before wo +++ c +++ put [32] +++ w_call [] op +++ put [32] +++ w_call [] dp)
            | _ => None
            end
        | OT_CE_OBJ_SOME | OT_CE_OBJ_ALL | OT_CE_DATA_SOME | OT_CE_DATA_ALL =>
            match ws with
            | p :: _ =>
                w_call (type_name t)
                  (p +++ put [32] +++
                   match wo with
                   | Some f => f
                   | None => match quant_filler t None with OEnt _ ns rem => w_iri ns rem | _ => None end
                   end)
            | _ => None
            end
        | OT_CE_OBJ_MIN_CARD | OT_CE_OBJ_MAX_CARD | OT_CE_OBJ_EXACT_CARD
        | OT_CE_DATA_MIN_CARD | OT_CE_DATA_MAX_CARD | OT_CE_DATA_EXACT_CARD =>
            w_call (type_name t) (w_uint n +++ put [32] +++ w_fields ws +++ w_after wo)
        | _ =>
            if type_is_axiom t then w_call (type_name t) (w_before wo +++ w_fields ws)
            else w_call (type_name t) (w_fields ws +++ w_after wo)
        end
    end.
End Object.

(** * Documents *)

(** cowl_func_writer.c:174-188: without a prefix map every IRI is written in full *)
Definition no_map : bytes -> option (option bytes) := fun _ => Some None.
(** include/cowl_ontology_header.h:27-44 struct CowlOntologyHeader; a NULL vector reads as an empty one *)
Record fheader := mkFHeader {
  fh_pm : option pst;
  fh_iri : option obj;
  fh_version : option obj;
  fh_imports : list obj;
  fh_annot : list obj
}.

Section Document.
  (** Order in which hash tables are visited. *)
  Variable visit : tbl -> tbl.

  (** The look-up in e->pm (src/cowl_prefix_map.c:129-131). *)
  Definition map_abbr (pm : pst) (ns : bytes) : option (option bytes) :=
    match get_prefix visit pm ns with
    | None => None
    | Some (_, Some p) => if alive (rc pm) p then Some (Some (stx p)) else None
    | Some (_, None) => Some None
    end.
  (** cowl_func_writer.c:55-59 encoder_set_prefix_map, on the first header of a writer *)
  Definition header_abbr (h : fheader) : bytes -> option (option bytes) :=
    match fh_pm h with Some pm => map_abbr pm | None => no_map end.

  (** cowl_func_writer.c:162-166 write_full_iri on an object *)
  Definition w_full (i : obj) : wt_out := match i with OIri ns rem => w_full_iri ns rem | _ => None end.
  (** cowl_func_writer.c:338-346 write_prefix and the line end of 353 *)
  Definition w_prefix (e : str * str) : wt_out :=
    w_call (bs "Prefix") (put (stx (fst e)) +++ put (bs ":=<") +++ put (stx (snd e)) +++ put (bs ">")) +++ put [10].
  (** A loop. *)
  Fixpoint w_each (l : list wt_out) : wt_out := match l with [] => put [] | x :: l' => x +++ w_each l' end.
  (** src/cowl_vocab.c:57-62 cowl_vocab_is_reserved_prefix *)
  Definition is_reserved_prefix (p : bytes) : bool := existsb (fun e => bytes_eqb (stx (fst e)) p) reserved.
  (** cowl_func_writer.c:348-355 write_prefixes; strings of the table are alive *)
  Definition w_prefixes (pm : pst) : wt_out :=
    w_each (map (fun e => if is_reserved_prefix (stx (fst e)) then put [] else w_prefix e) (visit (fwd pm))).
  (** cowl_func_writer.c:330-336 write_onto_iri_version *)
  Definition w_iri_version (i v : option obj) : wt_out :=
    match i with Some i => w_full i | None => put [] end +++
    match v with Some v => (match i with Some _ => put [32] | None => put [] end) +++ w_full v | None => put [] end.
  (** cowl_func_writer.c:323-328 write_import and the line end of 370 *)
  Definition w_import (i : obj) : wt_out := w_call (bs "Import") (w_full i) +++ put [10].
  (** cowl_func_writer.c:357-379 write_header; [abbr] looks up e->pm *)
  Definition w_header_by (abbr : bytes -> option (option bytes)) (h : fheader) : wt_out :=
    (match fh_pm h with Some pm => w_prefixes pm | None => put [] end) +++
    put (bs "Ontology") +++ put [40] +++ w_iri_version (fh_iri h) (fh_version h) +++ put [10] +++
    w_each (map w_import (fh_imports h)) +++
    w_each (map (fun a => w_obj abbr a +++ put [10]) (fh_annot h)).
  (** cowl_func_writer.c:439-446 func_write_header, on the first header of a writer *)
  Definition w_header (h : fheader) : wt_out := w_header_by (header_abbr h) h.
  (** cowl_func_writer.c:448-455 func_write_axiom; [abbr] looks up e->pm *)
  Definition w_axiom_by (abbr : bytes -> option (option bytes)) (a : obj) : wt_out := w_obj abbr a +++ put [10].
  (** The same after the first header of a writer. *)
  Definition w_axiom (h : fheader) (a : obj) : wt_out := w_axiom_by (header_abbr h) a.
  (** cowl_func_writer.c:381-384 write_footer *)
  Definition w_footer : wt_out := put [41] +++ put [10].
  (** A header, axioms and the footer. *)
  Definition w_document (h : fheader) (axioms : list obj) : wt_out :=
    w_header h +++ w_each (map (w_axiom h) axioms) +++ w_footer.
  (** src/cowl_writer.c:90-115 write_ontology_stream, as called by cowl_writer_write_ontology (117-125): the
      functional writer has no write_ontology *)
  Definition w_ontology (o : full) : wt_out :=
    w_document
      (mkFHeader (Some (x_pm o)) (option_map r_obj (o_iri (x_onto o))) (option_map r_obj (o_version (x_onto o)))
         (map r_obj (vec_data (o_imports (x_onto o)))) (map r_obj (vec_data (o_annot (x_onto o)))))
      (map r_obj (axioms_in_order (x_onto o))).
End Document.
