(** ProtocOWL writer: index tables and object encoding.

    Models src/formats/protocowl/cowl_prt_index.c (the encoding half) and
    src/formats/protocowl/writer/cowl_prt_encoder.c:119-584. Memory allocation succeeds and the output
    stream accepts every byte. *)

From Coq Require Import NArith ZArith List Bool String.
From Verif Require Import Bytes ModelTypes ModelObject ModelText ModelPrtValue.
Import ListNotations.
Local Open Scope N_scope.

(** * Index tables *)

(** Assignment of an element of an array (ulib uvec_set). *)
Fixpoint list_set {A} (l : list A) (i : nat) (x : A) : list A :=
  match l, i with
  | [], _ => []
  | _ :: l', O => x :: l'
  | y :: l', S i' => y :: list_set l' i' x
  end.

(** src/formats/protocowl/cowl_prt_index.h:17-32 CowlPRTPrefixMap, CowlPRTIdMap: the vector, the hash table
    from elements to indices (the value of a new key is uninitialised, [None], until
    *_sync_unencoded), _encode_idx and _sep. The two C structures have the same code except that
    the first also records prefixes. *)
Record imap (A : Type) := mkImap {
  m_list : list A;
  m_idx : list (A * option N);
  m_enc : nat;
  m_sep : nat
}.
Arguments mkImap {A}. Arguments m_list {A}. Arguments m_idx {A}. Arguments m_enc {A}. Arguments m_sep {A}.

(** Result of an index lookup. *)
Inductive idxr : Type :=
| IMissing            (** COWL_PRT_NOT_FOUND *)
| IGarbage            (** the uninitialised value of a key that was not yet synchronised *)
| IAt (i : N).

Section IndexMap.
  Context {A : Type}.
  (** Equality of keys: src/cowl_table.c, cowl_equals on strings and pointer comparison on primitives. *)
  Variable eqb : A -> A -> bool.

  (** cowl_prt_index.c:119-134 prefix_map_init, 177-183 id_map_init, with no elements *)
  Definition m_empty : imap A := mkImap [] [] 0 0.

  (** ulib uhmap_get on [m_idx]; cowl_prt_index.c:162-166 prefix_map_get_idx, 233-237 id_map_get_idx *)
  Fixpoint idx_get (t : list (A * option N)) (x : A) : idxr :=
    match t with
    | [] => IMissing
    | (k, v) :: t' => if eqb k x then match v with Some i => IAt i | None => IGarbage end else idx_get t' x
    end.
  (** ulib uhmap_set_val *)
  Fixpoint idx_set (t : list (A * option N)) (x : A) (i : N) : list (A * option N) :=
    match t with
    | [] => []
    | (k, v) :: t' => if eqb k x then (k, Some i) :: t' else (k, v) :: idx_set t' x i
    end.

  (** cowl_prt_index.c:55-87 prefix_map_add_encoding (without _ns_to_prefix), 239-267 id_map_add_encoding.
      [first] says that the element goes before the separator: a namespace with a prefix, an IRI. *)
  Definition m_add (m : imap A) (x : A) (first : bool) : imap A :=
    match idx_get (m_idx m) x with
    | IMissing =>
        let idx := m_idx m ++ [(x, None)] in
        let count := List.length (m_list m) in
        if first then
          let l := if Nat.ltb (m_sep m) count
                   then list_set (m_list m ++ [nth (m_sep m) (m_list m) x]) (m_sep m) x
                   else m_list m ++ [x] in
          mkImap l idx (m_enc m) (S (m_sep m))
        else mkImap (m_list m ++ [x]) idx (m_enc m) (m_sep m)
    | _ => m
    end.

  (** The loops of cowl_prt_index.c:44-50,214-220. *)
  Fixpoint sync_loop (t : list (A * option N)) (l : list A) (i : N) : list (A * option N) :=
    match l with [] => t | x :: l' => sync_loop (idx_set t x i) l' (i + 1) end.
  (** cowl_prt_index.c:41-53 prefix_map_sync_unencoded, 211-223 id_map_sync_unencoded *)
  Definition m_sync (m : imap A) : imap A :=
    let count := List.length (m_list m) in
    mkImap (m_list m) (sync_loop (m_idx m) (skipn (m_enc m) (m_list m)) (N.of_nat (m_enc m))) count count.
  (** cowl_prt_index.c:146-152 prefix_map_unencoded, 225-231 id_map_unencoded: the two views *)
  Definition m_view1 (m : imap A) : list A := firstn (m_sep m - m_enc m) (skipn (m_enc m) (m_list m)).
  (** cowl_prt_index.c:146-152,225-231 *)
  Definition m_view2 (m : imap A) : list A := skipn (m_sep m) (m_list m).
End IndexMap.

(** src/formats/protocowl/cowl_prt_index.h:34-37 CowlPRTIndex, with _ns_to_prefix. *)
Record prt_index := mkPrtIndex {
  x_ns : imap bytes;
  x_prefix : list (bytes * bytes);
  x_id : imap obj
}.

(** cowl_prt_index.c:55-87: a namespace that is already present is ignored, with its prefix. *)
Definition x_add_prefix (x : prt_index) (ns : bytes) (prefix : option bytes) : prt_index :=
  match idx_get bytes_eqb (m_idx (x_ns x)) ns with
  | IMissing =>
      mkPrtIndex (m_add bytes_eqb (x_ns x) ns (match prefix with Some _ => true | None => false end))
        (match prefix with Some p => (ns, p) :: x_prefix x | None => x_prefix x end) (x_id x)
  | _ => x
  end.
(** cowl_prt_index.c:158-160 prefix_map_get_prefix *)
Fixpoint x_get_prefix (t : list (bytes * bytes)) (ns : bytes) : option bytes :=
  match t with [] => None | (k, p) :: t' => if bytes_eqb k ns then Some p else x_get_prefix t' ns end.

(** cowl_prt_index.c:100-117 prefix_map_add_standard_prefixes *)
Definition standard_prefixes : list (bytes * bytes) :=
  [ (rdf_ns, bs "rdf"); (rdfs_ns, bs "rdfs"); (xsd_ns, bs "xsd"); (owl_ns, bs "owl"); (xml_ns, bs "xml") ].
(** cowl_prt_index.h COWL_PRT_STANDARD_PREFIX_COUNT *)
Definition standard_prefix_count : nat := 5.
(** cowl_prt_index.c:119-134 prefix_map_init for encoding, applied to an index whose prefix part is empty *)
Definition x_init_prefixes (ids : imap obj) : prt_index :=
  let x := fold_left (fun x e => x_add_prefix x (fst e) (Some (snd e))) standard_prefixes
             (mkPrtIndex m_empty [] ids) in
  mkPrtIndex (m_sync bytes_eqb (x_ns x)) (x_prefix x) (x_id x).
(** cowl_prt_index.c:295-298 cowl_prt_index_init(index, true) *)
Definition x_init : prt_index := x_init_prefixes m_empty.
(** cowl_prt_index.c:362-364 cowl_prt_index_reset_prefixes *)
Definition x_reset_prefixes (x : prt_index) : prt_index := x_init_prefixes (x_id x).
(** cowl_prt_index.c:366-369 cowl_prt_index_reset_ids *)
Definition x_reset_ids (x : prt_index) : prt_index := mkPrtIndex (x_ns x) (x_prefix x) m_empty.

(** cowl_prt_index.c:349-360 cowl_prt_index_add_primitive, encoding: the identifier is the IRI, if there is one,
    and the namespace of an IRI is added too. *)
Definition x_add_primitive (x : prt_index) (p : obj) : prt_index :=
  match get_iri p with
  | Some (OIri ns rem) =>
      let x' := x_add_prefix x ns None in
      mkPrtIndex (x_ns x') (x_prefix x') (m_add prim_eqb (x_id x') (OIri ns rem) true)
  | _ => mkPrtIndex (x_ns x) (x_prefix x) (m_add prim_eqb (x_id x) p false)
  end.

(** * Objects *)

(** What encoding an object writes and whether it set the encoder's state to COWL_ERR (writing then goes on).
    [None]: an accessor is applied to an object of another type, or an uninitialised index is
    written. *)
Definition wr := option (bytes * bool).
(** Nothing written. *)
Definition w_nil : wr := Some ([], false).
(** One write after the other. *)
Definition w_app (a b : wr) : wr :=
  match a, b with Some (x, e), Some (y, f) => Some (x ++ y, e || f) | _, _ => None end.
(** Several writes. *)
Definition w_all (l : list wr) : wr := fold_right w_app w_nil l.
(** Bytes that do not depend on the index. *)
Definition w_bytes (b : bytes) : wr := Some (b, false).

(** include/cowl_cls_exp_type.h COWL_CET_COUNT *)
Definition CET_COUNT : N := 18.
(** include/cowl_data_range_type.h COWL_DRT_COUNT *)
Definition DRT_COUNT : N := 6.
(** include/cowl_entity_type.h COWL_ET_COUNT *)
Definition ET_COUNT : N := 6.
(** cowl_prt_constants.h:53 COWL_PRT_FIRST_AXIOM_FRAME *)
Definition FIRST_AXIOM_FRAME : N := 9.

(** cowl_prt_encoder.c:444-449 axiom_header (both shifted bits are above the type) *)
Definition axiom_header (t : otype) (annot utility : bool) : N :=
  axiom_type_num t + (ET_COUNT - 1) + FIRST_AXIOM_FRAME +
  (if utility then 128 else 0) + (if annot then 64 else 0).
(** cowl_prt_encoder.c:451-453 cls_exp_header; 418 the same value for cardinality restrictions *)
Definition cls_exp_header (t : otype) : N := otype_num t - otype_num OT_CE_CLASS - 1.
(** cowl_prt_encoder.c:455-457 data_range_header *)
Definition data_range_header (t : otype) : N := otype_num t - otype_num OT_DR_DATATYPE - 1.

(** Presence of the optional field. *)
Definition is_some {A} (o : option A) : bool := match o with Some _ => true | None => false end.

Section Encode.
  (** Width of ulib_uint. *)
  Variable w : N.
  (** cowl_prt_index.c:233-237: the index of an IRI or anonymous individual. *)
  Variable id_idx : obj -> idxr.

  (** cowl_prt_encoder.c:123-125 write_varint: the argument is a ulib_uint *)
  Definition write_varint (n : N) : wr := w_bytes (varint (n mod 2 ^ w)).

  (** cowl_prt_encoder.c:146-153 encode_id_offset *)
  Definition encode_id_offset (id : obj) (offset : N) : wr :=
    match id_idx id with
    | IMissing => Some ([], true)
    | IGarbage => None
    | IAt i => write_varint (i + offset)
    end.
  (** cowl_prt_encoder.c:155-157 encode_id *)
  Definition encode_id (id : obj) : wr := encode_id_offset id 0.

  (** cowl_prt_encoder.c:171-174 encode_datatype, 370-373 encode_class, 375-378 encode_obj_prop, 366-368
      encode_named_ind, 385-391 encode_data_prop, encode_annot_prop: the identifier of an entity plus an
      offset. *)
  Definition encode_entity (o : obj) (offset : N) : wr :=
    match o with OEnt _ ns rem => encode_id_offset (OIri ns rem) offset | _ => None end.

  (** cowl_prt_encoder.c:337-343 literal_type, 345-359 encode_literal *)
  Definition encode_literal (o : obj) : wr :=
    match o with
    | OLang v l => w_bytes (literal_header_value w 1 DG_STRING v ++ prt_string l)
    | OLit v ns rem =>
        if bytes_eqb ns xsd_ns && bytes_eqb rem xsd_string_rem
        then w_bytes (literal_header_value w 0 DG_STRING v)
        else w_app (w_bytes (literal_header_value w 2 (datatype_group ns rem) v))
                   (encode_id_offset (OIri ns rem) 0)
    | _ => None
    end.

  (** cowl_prt_encoder.c:393-400 encode_annot_value *)
  Definition encode_annot_value (o : obj) : wr :=
    match o with
    | OLit _ _ _ | OLang _ _ => w_app (write_varint 0) (encode_literal o)
    | _ => encode_id_offset o 1
    end.

  (** cowl_prt_encoder.c:541-584 encode_object and the functions it calls (159-169 vectors, 361-364 facets,
      380-383 inverses, 402-415 annotations, 417-430 cardinalities, 432-442 declarations, 459-481 the default
      cases, 483-539 the special axioms and restrictions). *)
  Fixpoint encode_object (o : obj) : wr :=
    match o with
    | OStr _ s => w_bytes (prt_string s)
    | OVec _ l => w_app (write_varint (N.of_nat (List.length l))) (w_all (map encode_object l))
    | OIri _ _ | OAnon _ => encode_id o
    | OLit _ _ _ | OLang _ _ => encode_literal o
    | OEnt ET_CLASS _ _ => encode_entity o (CET_COUNT - 1)
    | OEnt ET_DATATYPE _ _ => encode_entity o (DRT_COUNT - 1)
    | OEnt ET_OBJ_PROP _ _ => encode_entity o 1
    | OEnt (ET_DATA_PROP | ET_ANNOT_PROP | ET_NAMED_IND) _ _ => encode_entity o 0
    | OComp t fs opt n =>
        let annot := match opt with Some v => encode_object v | None => w_nil end in
        let body := w_app (w_all (map encode_object fs)) annot in
        match t with
        | OT_FACET_RESTR =>
            match fs with
            | [f; v] => w_app (encode_id f) (encode_literal v)
            | _ => None
            end
        | OT_ANNOTATION =>
            match fs with
            | [p; v] =>
                w_app (match opt with
                       | Some _ => w_app (write_varint 0) (encode_entity p 0)
                       | None => encode_entity p 1
                       end)
                  (w_app (encode_annot_value v) annot)
            | _ => None
            end
        | OT_DR_DATATYPE_RESTR =>
            match fs with
            | [dt; r] => w_app (write_varint (data_range_header t)) (w_app (encode_entity dt 0) (encode_object r))
            | _ => None
            end
        | OT_OPE_INV_OBJ_PROP =>
            match fs with [p] => w_app (write_varint 0) (encode_entity p 0) | _ => None end
        | OT_A_DECL =>
            match fs with
            | [OEnt e ns rem] =>
                w_app (w_bytes [FIRST_AXIOM_FRAME + etype_num e + (if is_some opt then 64 else 0)])
                  (w_app (encode_id (OIri ns rem)) annot)
            | _ => None
            end
        | OT_A_DATATYPE_DEF =>
            match fs with
            | [dt; dr] =>
                w_app (w_bytes [axiom_header t (is_some opt) false])
                  (w_app (encode_entity dt 0) (w_app (encode_object dr) annot))
            | _ => None
            end
        | OT_A_DISJ_UNION =>
            match fs with
            | [c; v] =>
                w_app (w_bytes [axiom_header t (is_some opt) false])
                  (w_app (encode_entity c 0) (w_app (encode_object v) annot))
            | _ => None
            end
        | OT_A_SUB_OBJ_PROP =>
            match fs with
            | [s; _] =>
                w_app (w_bytes [axiom_header t (is_some opt) (match s with OVec _ _ => true | _ => false end)]) body
            | _ => None
            end
        | OT_A_ANNOT_ASSERT =>
            match fs with
            | [p; s; v] =>
                w_app (w_bytes [axiom_header t (is_some opt) false])
                  (w_app (encode_entity p 0) (w_app (encode_id s) (w_app (encode_annot_value v) annot)))
            | _ => None
            end
        | OT_CE_OBJ_SOME | OT_CE_OBJ_ALL | OT_CE_DATA_SOME | OT_CE_DATA_ALL =>
            match fs with
            | [p] =>
                w_app (write_varint (cls_exp_header t))
                  (w_app (encode_object p)
                         (match opt with
                          | Some f => encode_object f
                          | None => match t with
                                    | OT_CE_OBJ_SOME | OT_CE_OBJ_ALL => encode_entity owl_thing (CET_COUNT - 1)
                                    | _ => encode_entity rdfs_literal (DRT_COUNT - 1)
                                    end
                          end))
            | _ => None
            end
        | OT_CE_OBJ_MIN_CARD | OT_CE_OBJ_MAX_CARD | OT_CE_OBJ_EXACT_CARD
        | OT_CE_DATA_MIN_CARD | OT_CE_DATA_MAX_CARD | OT_CE_DATA_EXACT_CARD =>
            w_app (write_varint (cls_exp_header t))
              (w_app (write_varint (2 * n + (if is_some opt then 1 else 0))) body)
        | _ =>
            if type_is_axiom t then w_app (w_bytes [axiom_header t (is_some opt) false]) body
            else if type_is_cls_exp t then w_app (write_varint (cls_exp_header t)) body
            else if type_is_data_range t then w_app (write_varint (data_range_header t)) body
            else w_nil
        end
    end.
End Encode.
