(** ProtocOWL writer: frames, whole ontologies and streams. Models
    src/formats/protocowl/writer/cowl_prt_encoder.c:35-117 and 586-957, and src/cowl_writer.c:85-132.

    Simplifications. Memory allocation succeeds and the output stream accepts every byte, so encoder_state is
    e->state. The reference counts of the ontology kept by the writer are not modelled. *)

From Coq Require Import NArith ZArith List Bool String.
From Verif Require Import Bytes ModelTypes ModelObject ModelText ModelPrefixMap ModelOntology ModelChange.
From Verif Require Import ModelPrtValue ModelPrtEncoder.
Import ListNotations.
Local Open Scope N_scope.

(** include/cowl_ret.h COWL_ERR; the value is ulib's, a negative number (assumption) *)
Definition ERR : ret := (-1)%Z.

(** cowl_prt_encoder.c:34-42 struct CowlPRTEncoder. [e_out] is what was written to the stream;
    [e_flush] is NULL until the first reset; [e_store] tells whether impl->write_ontology is set
    (907-922). *)
Record enc := mkEnc {
  e_index : prt_index;
  e_flush : option onto;
  e_cur : N;
  e_size : N;
  e_anon : bool;
  e_store : bool;
  e_state : ret;
  e_out : bytes
}.

(** Field updates. *)
Definition with_index (x : prt_index) (e : enc) : enc :=
  mkEnc x (e_flush e) (e_cur e) (e_size e) (e_anon e) (e_store e) (e_state e) (e_out e).
(** Field update of to_flush. *)
Definition with_flush (o : option onto) (e : enc) : enc :=
  mkEnc (e_index e) o (e_cur e) (e_size e) (e_anon e) (e_store e) (e_state e) (e_out e).
(** Field update of cur_size. *)
Definition with_cur (n : N) (e : enc) : enc :=
  mkEnc (e_index e) (e_flush e) n (e_size e) (e_anon e) (e_store e) (e_state e) (e_out e).
(** Field update of state. *)
Definition with_state (r : ret) (e : enc) : enc :=
  mkEnc (e_index e) (e_flush e) (e_cur e) (e_size e) (e_anon e) (e_store e) r (e_out e).

(** A function of the writer: [None] is undefined behaviour. *)
Definition E (A : Type) : Type := enc -> option (A * enc).
(** return *)
Definition eret {A} (a : A) : E A := fun e => Some (a, e).
(** C sequencing *)
Definition ebind {A B} (m : E A) (k : A -> E B) : E B :=
  fun e => match m e with Some (a, e') => k a e' | None => None end.
(** "if ((ret = call)) return ret;" *)
Definition ecall (m k : E ret) : E ret := ebind m (fun r => if (r =? COWL_OK)%Z then k else eret r).
(** cowl_prt_encoder.c:75-77 encoder_state *)
Definition estate : E ret := fun e => Some (e_state e, e).
(** An update of the state. *)
Definition upd (f : enc -> enc) : E unit := fun e => Some (tt, f e).
(** Calling two functions whose results are ignored. *)
Definition eseq {A B} (m : E A) (k : E B) : E B := ebind m (fun _ => k).

(** Bytes written, with the error recorded in the state (cowl_prt_encoder.c:146-153 and the like). *)
Definition emit (f : enc -> wr) : E unit := fun e =>
  match f e with
  | None => None
  | Some (b, err) =>
      Some (tt, mkEnc (e_index e) (e_flush e) (e_cur e) (e_size e) (e_anon e) (e_store e)
                  (if err then ERR else e_state e) (e_out e ++ b))
  end.

(** Writes, up to the first that reports an error: an iteration whose callback returns encoder_state. *)
Fixpoint w_until (l : list wr) : wr :=
  match l with
  | [] => w_nil
  | None :: _ => None
  | Some (b, true) :: _ => Some (b, true)
  | Some (b, false) :: l' => w_app (Some (b, false)) (w_until l')
  end.

(** The index of an identifier, as cowl_prt_index.c:233-237. *)
Definition id_of (e : enc) : obj -> idxr := idx_get prim_eqb (m_idx (x_id (e_index e))).
(** The index of a namespace, as cowl_prt_index.c:162-166. *)
Definition ns_of (e : enc) : bytes -> idxr := idx_get bytes_eqb (m_idx (x_ns (e_index e))).

Section Writer.
  (** Order in which prefix tables are visited. *)
  Variable visit : tbl -> tbl.
  (** Order in which the maps of an ontology are visited. *)
  Variable visit_refs : list (obj * option (list ref)) -> list (obj * option (list ref)).
  (** Whether an object the maps of an ontology point to is still allocated. *)
  Variable alive : obj -> bool.
  (** Width of ulib_uint. *)
  Variable w : N.

  (** include/cowl_writer.h:141 COWL_PROTOCOWL_INDEX_SIZE_UNBOUNDED = ULIB_UINT_MAX *)
  Definition unbounded : N := 2 ^ w - 1.

  (** cowl_prt_encoder.c:44-50 encoder_init *)
  Definition e_init : enc := mkEnc x_init None 0 unbounded true true COWL_OK [].

  (** cowl_prt_encoder.c:57-67 flush_state_empty *)
  Definition flush_state_empty : E ret :=
    eseq (upd (fun e => with_cur 0 (with_flush (Some (o_empty false)) e))) estate.
  (** cowl_prt_encoder.c:69-73 encoder_reset *)
  Definition encoder_reset (prefixes : bool) : E ret :=
    eseq (upd (fun e => with_state COWL_OK (with_index (x_reset_ids (e_index e)) e)))
      (eseq (if prefixes
             then upd (fun e => with_state COWL_OK (with_index (x_reset_prefixes (e_index e)) e))
             else eret tt)
         flush_state_empty).
  (** cowl_prt_encoder.c:79-81 encoder_add_prefix *)
  Definition encoder_add_prefix (ns : bytes) (prefix : bytes) : E ret :=
    eseq (upd (fun e => with_state COWL_OK (with_index (x_add_prefix (e_index e) ns (Some prefix)) e))) estate.
  (** cowl_prt_encoder.c:83-85 encoder_add_primitive *)
  Definition encoder_add_primitive (p : obj) : E ret :=
    eseq (upd (fun e => with_state COWL_OK (with_index (x_add_primitive (e_index e) p) e))) estate.
  (** cowl_prt_encoder.c:87-89 for_each_primitive, as an iterator *)
  Definition for_each_primitive (e : enc) (p : obj) : enc * ret :=
    (with_state COWL_OK (with_index (x_add_primitive (e_index e) p) e), COWL_OK).
  (** The outcome of an iteration. *)
  Definition of_ires (r : ires enc) : option (ret * enc) :=
    match r with IUB => None | IRet e c => Some (c, e) end.

  (** cowl_prt_encoder.c:98-100, the loop over the prefixes *)
  Fixpoint add_prefixes (l : tbl) : E ret :=
    match l with
    | [] => eret COWL_OK
    | (p, ns) :: l' => ecall (encoder_add_prefix (stx ns) (stx p)) (add_prefixes l')
    end.
  (** cowl_prt_encoder.c:102-106 *)
  Definition add_opt (i : option ref) : E ret :=
    match i with Some r => encoder_add_primitive (r_obj r) | None => eret COWL_OK end.
  (** cowl_prt_encoder.c:91-117 populate_index; the reservation of space has no visible effect *)
  Definition populate_index (o : full) : E ret :=
    ecall (add_prefixes (visit (fwd (x_pm o))))
      (ecall (add_opt (o_iri (x_onto o)))
         (ecall (add_opt (o_version (x_onto o)))
            (ecall (fun e => of_ires (o_iterate_primitives for_each_primitive visit_refs alive (x_onto o) PF_ALL e))
               (fun e => of_ires (iterate_imports (fun e r => for_each_primitive e (r_obj r)) (x_onto o) e))))).

  (** * Frames *)

  (** cowl_prt_encoder.c:586-590 encode_protocol_version *)
  Definition encode_protocol_version : E ret := eseq (emit (fun _ => w_bytes [1])) estate.

  (** cowl_prt_encoder.c:592-610 encode_prefix_decl, encode_prefixes *)
  Definition encode_prefixes (e : enc) (l : list bytes) : wr :=
    w_app (w_bytes [68]) (w_app (write_varint w (N.of_nat (List.length l)))
      (w_until (map (fun ns => match x_get_prefix (x_prefix (e_index e)) ns with
                               | None => Some ([], true)
                               | Some p => w_bytes (prt_string p ++ prt_string ns)
                               end) l))).
  (** cowl_prt_encoder.c:612-619 encode_namespaces *)
  Definition encode_namespaces (l : list bytes) : wr :=
    w_app (w_bytes [4]) (w_app (write_varint w (N.of_nat (List.length l)))
      (w_all (map (fun ns => w_bytes (prt_string ns)) l))).
  (** "if (count) encode(e, count, view);" *)
  Definition unless_empty {A} (l : list A) (m : E unit) : E unit := match l with [] => eret tt | _ => m end.
  (** cowl_prt_encoder.c:621-632 encode_ns_decls; cowl_prt_index.c:146-152: the views are taken, then the
      indices are assigned *)
  Definition encode_ns_decls : E ret := fun e =>
    let m := x_ns (e_index e) in
    let v1 := m_view1 m in
    let v2 := m_view2 m in
    eseq (upd (with_index (mkPrtIndex (m_sync bytes_eqb m) (x_prefix (e_index e)) (x_id (e_index e)))))
      (eseq (unless_empty v1 (emit (fun e => encode_prefixes e v1)))
         (eseq (unless_empty v2 (emit (fun _ => encode_namespaces v2))) estate)) e.

  (** cowl_prt_encoder.c:634-647 encode_iri_decls; accessing the namespace of something else is undefined *)
  Definition encode_iri_decls (e : enc) (l : list obj) : wr :=
    w_app (w_bytes [69]) (w_app (write_varint w (N.of_nat (List.length l)))
      (w_until (map (fun o => match o with
                              | OIri ns rem =>
                                  match ns_of e ns with
                                  | IMissing => Some ([], true)
                                  | IGarbage => None
                                  | IAt i => w_app (write_varint w i) (w_bytes (prt_string rem))
                                  end
                              | _ => None
                              end) l))).
  (** cowl_prt_encoder.c:649-658 encode_anon_id_decls *)
  Definition encode_anon_id_decls (l : list obj) : wr :=
    w_app (w_bytes [5]) (w_app (write_varint w (N.of_nat (List.length l)))
      (w_all (map (fun o => match o with OAnon id => w_bytes (prt_string id) | _ => None end) l))).
  (** cowl_prt_encoder.c:660-671 encode_id_decls; cowl_prt_index.c:225-231 *)
  Definition encode_id_decls : E ret := fun e =>
    let m := x_id (e_index e) in
    let v1 := m_view1 m in
    let v2 := m_view2 m in
    eseq (upd (with_index (mkPrtIndex (x_ns (e_index e)) (x_prefix (e_index e)) (m_sync prim_eqb m))))
      (eseq (unless_empty v1 (emit (fun e => encode_iri_decls e v1)))
         (eseq (if e_anon e then unless_empty v2 (emit (fun _ => encode_anon_id_decls v2)) else eret tt) estate)) e.

  (** cowl_prt_encoder.c:673-680 encode_iri_version *)
  Definition encode_iri_version (iri version : option ref) : E ret :=
    match iri with
    | None => eret COWL_OK
    | Some i =>
        eseq (emit (fun e =>
          w_app (w_bytes [match version with Some _ => 134 | None => 6 end])
            (w_app (encode_id w (id_of e) (r_obj i))
               (match version with Some v => encode_id w (id_of e) (r_obj v) | None => w_nil end)))) estate
    end.
  (** cowl_prt_encoder.c:700-709 encode_onto_imports, 682-685 encode_import *)
  Definition encode_onto_imports (l : list ref) : E ret :=
    match l with
    | [] => eret COWL_OK
    | _ =>
        eseq (emit (fun e =>
          w_app (w_bytes [7]) (w_app (write_varint w (N.of_nat (List.length l)))
            (w_until (map (fun i => encode_id w (id_of e) (r_obj i)) l))))) estate
    end.
  (** cowl_prt_encoder.c:711-718 encode_onto_annotations *)
  Definition encode_onto_annotations (l : list ref) : E ret :=
    match l with
    | [] => eret COWL_OK
    | _ =>
        eseq (emit (fun e =>
          w_app (w_bytes [8]) (w_app (write_varint w (N.of_nat (List.length l)))
            (w_all (map (fun a => encode_object w (id_of e) (r_obj a)) l))))) estate
    end.
  (** The axioms in the order of cowl_ontology_iterate_axioms (src/cowl_ontology.c:255-263). *)
  Definition axioms_in_order (o : onto) : list ref :=
    flat_map (fun t => vec_data (tindex o t)) all_axiom_types.
  (** cowl_prt_encoder.c:720-724 encode_onto_axioms, 691-694 encode_axiom *)
  Definition encode_onto_axioms (o : onto) : E ret :=
    eseq (emit (fun e => w_until (map (fun a => encode_object w (id_of e) (r_obj a)) (axioms_in_order o)))) estate.
  (** cowl_prt_encoder.c:726-734 encode_data *)
  Definition encode_data (o : onto) : E ret :=
    ecall encode_ns_decls
      (ecall encode_id_decls
         (ecall (encode_iri_version (o_iri o) (o_version o))
            (ecall (encode_onto_imports (vec_data (o_imports o)))
               (ecall (encode_onto_annotations (vec_data (o_annot o))) (encode_onto_axioms o))))).

  (** cowl_prt_encoder.c:736-748 write_ontology *)
  Definition write_ontology_store (o : full) : E ret :=
    eseq (ecall (encoder_reset true)
            (ecall (populate_index o) (ecall encode_protocol_version (encode_data (x_onto o)))))
      (eseq (encoder_reset true) estate).

  (** * Streams *)

  (** cowl_prt_encoder.c:750-753 stream_encoder_flush; encode_data dereferences to_flush (and the checks before
      it succeed, because nothing fails in them while to_flush is NULL) *)
  Definition stream_flush : E ret := fun e =>
    match e_flush e with None => None | Some o => eseq (encode_data o) flush_state_empty e end.
  (** cowl_prt_encoder.c:755-757 stream_encoder_write_ctrl_frame *)
  Definition write_ctrl_frame (c : N) : E unit := emit (fun _ => w_bytes [c]).
  (** cowl_prt_encoder.c:759-764 stream_encoder_write_reset_frame *)
  Definition write_reset_frame (prefixes ids : bool) : E unit :=
    write_ctrl_frame (2 + (if prefixes then 64 else 0) + (if ids then 128 else 0)).
  (** cowl_prt_encoder.c:766-780 encoder_should_flush: flush, reset, prefixes *)
  Definition should_flush (e : enc) : bool * bool * bool :=
    let prefix_count := N.of_nat (List.length (m_list (x_ns (e_index e))) - standard_prefix_count) in
    let id_count := N.of_nat (List.length (m_list (x_id (e_index e)))) in
    if e_size e <? (prefix_count + id_count) mod 2 ^ w then (true, true, e_size e / 4 <? prefix_count)
    else (e_size e <? e_cur e, false, false).
  (** cowl_prt_encoder.c:782-793 stream_encoder_flush_if_needed *)
  Definition flush_if_needed : E ret := fun e =>
    let '(flush, reset, prefixes) := should_flush e in
    eseq (if flush then
            eseq stream_flush
              (if reset then eseq (write_reset_frame prefixes true) (encoder_reset prefixes) else eret COWL_OK)
          else eret COWL_OK) estate e.

  (** cowl_prt_encoder.c:795-805 axiom_adder, import_adder, annot_adder *)
  Definition adder (mk : ref -> edit) (x : ref) : E ret := fun e =>
    match e_flush e with
    | None => None
    | Some o => match o_step w o (mk x) with
                | None => None
                | Some (o', n, _) => Some (as_ret n, with_flush (Some o') e)
                end
    end.
  (** cowl_prt_encoder.c:807-814 stream_encoder_add *)
  Definition stream_add (mk : ref -> edit) (x : ref) : E ret :=
    ecall (fun e => of_ires (iterate_primitives for_each_primitive PF_ALL (r_obj x) e))
      (ecall (ebind (adder mk x) (fun r => eseq (upd (with_state r)) estate))
         (eseq (upd (fun e => with_cur ((e_cur e + 1) mod 2 ^ w) e)) flush_if_needed)).
  (** cowl_prt_encoder.c:819-821 *)
  Fixpoint stream_prefix_loop (l : tbl) : E ret :=
    match l with
    | [] => eret COWL_OK
    | (p, ns) :: l' =>
        ecall (encoder_add_prefix (stx ns) (stx p)) (ecall flush_if_needed (stream_prefix_loop l'))
    end.
  (** cowl_prt_encoder.c:816-823 stream_encode_prefixes *)
  Definition stream_prefixes (pm : option tbl) : E ret :=
    match pm with
    | None => eret COWL_OK
    | Some t => eseq (stream_prefix_loop (visit t)) estate
    end.
  (** cowl_prt_encoder.c:825-834 stream_encode_iri_version; to_flush is not NULL after the reset in
      write_header *)
  Definition stream_iri_version (iri version : option ref) : E ret :=
    eseq (match iri with
          | None => eret COWL_OK
          | Some i =>
              eseq (adder (fun r => ESetIri (Some r)) i)
                (ecall (encoder_add_primitive (r_obj i))
                   (match version with
                    | None => eret COWL_OK
                    | Some v => eseq (adder (fun r => ESetVersion (Some r)) v) (encoder_add_primitive (r_obj v))
                    end))
          end) flush_if_needed.
  (** cowl_prt_encoder.c:836-853 stream_encode_imports, stream_encode_annotations *)
  Fixpoint stream_adds (mk : ref -> edit) (l : list ref) : E ret :=
    match l with [] => eret COWL_OK | x :: l' => ecall (stream_add mk x) (stream_adds mk l') end.

  (** include/cowl_ontology_header.h:27-44 struct CowlOntologyHeader; a NULL vector reads as an empty one *)
  Record header := mkHeader {
    h_pm : option tbl;
    h_iri : option ref;
    h_version : option ref;
    h_imports : list ref;
    h_annot : list ref
  }.
  (** cowl_prt_encoder.c:855-869 write_header *)
  Definition write_header (h : header) : E ret :=
    eseq (ecall (encoder_reset true)
            (ecall encode_protocol_version
               (ecall (stream_prefixes (h_pm h))
                  (ecall (stream_iri_version (h_iri h) (h_version h))
                     (ecall (stream_adds EAddImport (h_imports h)) (stream_adds EAddAnnot (h_annot h)))))))
      estate.
  (** cowl_prt_encoder.c:871-880 stream_encode_axiom, write_axiom *)
  Definition write_axiom (a : ref) : E ret := stream_add EAddAxiom a.
  (** cowl_prt_encoder.c:882-890 write_footer *)
  Definition write_footer : E ret :=
    eseq stream_flush (eseq (write_ctrl_frame 3) (eseq (encoder_reset true) estate)).

  (** cowl_prt_encoder.c:911-922 cowl_writer_protocowl_set_index_size *)
  Definition set_index_size (n : N) : E ret := fun e =>
    let size := if n =? 0 then unbounded else n in
    Some (COWL_OK, mkEnc (e_index e) (e_flush e) (e_cur e) size (e_anon e) (size =? unbounded) (e_state e) (e_out e)).
  (** cowl_prt_encoder.c:924-928 cowl_writer_protocowl_set_encode_anon *)
  Definition set_encode_anon (b : bool) : E ret := fun e =>
    Some (COWL_OK, mkEnc (e_index e) (e_flush e) (e_cur e) (e_size e) b (e_store e) (e_state e) (e_out e)).
  (** cowl_prt_encoder.c:930-946 cowl_writer_protocowl_write_add_frame, _write_remove_frame *)
  Definition write_change_frame (t : change_type) : E ret :=
    eseq stream_flush (eseq (write_ctrl_frame (match t with CHANGE_ADD => 0 | CHANGE_REMOVE => 1 end)) estate).
  (** cowl_prt_encoder.c:948-957 cowl_writer_protocowl_write_reset_frame *)
  Definition write_reset (prefixes : bool) : E ret :=
    eseq stream_flush (eseq (write_reset_frame prefixes true) (eseq (encoder_reset prefixes) estate)).

  (** src/cowl_writer.c:107-108, the iteration over the axioms *)
  Fixpoint write_axioms (l : list ref) : E ret :=
    match l with [] => eret COWL_OK | a :: l' => ecall (write_axiom a) (write_axioms l') end.
  (** src/cowl_writer.c:90-115 write_ontology_stream; cowl_is_err after the axioms *)
  Definition write_ontology_stream (o : full) : E ret :=
    ecall (write_header (mkHeader (Some (fwd (x_pm o))) (o_iri (x_onto o)) (o_version (x_onto o))
                           (vec_data (o_imports (x_onto o))) (vec_data (o_annot (x_onto o)))))
      (ebind (write_axioms (axioms_in_order (x_onto o)))
         (fun r => if (r <? 0)%Z then eret r else write_footer)).
  (** src/cowl_writer.c:117-125 cowl_writer_write_ontology *)
  Definition write_ontology (o : full) : E ret := fun e =>
    if e_store e then write_ontology_store o e else write_ontology_stream o e.

  (** The calls a client can make on a ProtocOWL writer. *)
  Inductive wcall : Type :=
  | WHeader (h : header)
  | WAxiom (a : ref)
  | WFooter
  | WChange (t : change_type)
  | WReset (prefixes : bool)
  | WOntology (o : full)
  | WIndexSize (n : N)
  | WEncodeAnon (b : bool).
  (** One call. *)
  Definition w_step (c : wcall) : E ret :=
    match c with
    | WHeader h => write_header h
    | WAxiom a => write_axiom a
    | WFooter => write_footer
    | WChange t => write_change_frame t
    | WReset p => write_reset p
    | WOntology o => write_ontology o
    | WIndexSize n => set_index_size n
    | WEncodeAnon b => set_encode_anon b
    end.
  (** A session: the codes returned, in order. *)
  Fixpoint w_run (l : list wcall) : E (list ret) :=
    match l with
    | [] => eret []
    | c :: l' => ebind (w_step c) (fun r => ebind (w_run l') (fun rs => eret (r :: rs)))
    end.
End Writer.
