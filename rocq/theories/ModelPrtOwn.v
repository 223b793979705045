(** Model: the ProtocOWL reader as a user of the library's objects. Models
    src/formats/protocowl/reader/cowl_prt_decoder.c and the decoding half of
    src/formats/protocowl/cowl_prt_index.c, function by function as ModelPrtDecoder.v does, but with pointers
    to objects of ModelHeap.v, every reference that is made or given up, and a stream that may fail.

    Simplifications. Memory allocation succeeds. The stream is a byte string, but any read may fail as well. Of
    the error only whether there is one is kept. The buffers of texts are part of the strings made of them. *)

From Coq Require Import NArith ZArith List Bool String.
From Verif Require Import Bytes ModelTypes ModelHeader ModelText ModelPrtValue ModelPrtEncoder ModelHeap ModelReadOwn.
From Verif Require ModelPrtDecoder.
Import ListNotations.
Local Open Scope N_scope.

(** cowl_prt_decoder.c:26-32 struct CowlPRTDecoder: the bytes still to be read, whether decoder_ok holds, the
    vectors _idx_to_ns and _idx_to_id of the index, and how many anonymous individuals were made up so far. *)
Record dec := mkDec { i_in : bytes; i_ok : bool; i_ns : list N; i_ids : list N; i_fresh : nat }.

(** A decoding function. *)
Definition D (A : Type) : Type := dec -> prog (A * dec).
(** return *)
Definition dret {A} (a : A) : D A := fun d => Ret (a, d).
(** C sequencing *)
Definition dbind {A B} (m : D A) (k : A -> D B) : D B := fun d => after_that (m d) (fun x => k (fst x) (snd x)).
(** C sequencing of a call with its continuation. *)
Notation "'let*' x ':=' m 'in' k" := (dbind m (fun x => k)) (at level 200, x name, m at level 100, k at level 200).

(** cowl_prt_decoder.c:58-71 decoder_set_error, decoder_handle_error with an error *)
Definition bad (d : dec) : dec := mkDec (i_in d) false (i_ns d) (i_ids d) (i_fresh d).
(** An error followed by "return NULL". *)
Definition dfail {A} : D (option A) := fun d => Ret (None, bad d).
(** The rest of the input. *)
Definition with_in (i : bytes) (d : dec) : dec := mkDec i (i_ok d) (i_ns d) (i_ids d) (i_fresh d).
(** The namespaces. *)
Definition with_ns (l : list N) (d : dec) : dec := mkDec (i_in d) (i_ok d) l (i_ids d) (i_fresh d).
(** The identifiers. *)
Definition with_ids (l : list N) (d : dec) : dec := mkDec (i_in d) (i_ok d) (i_ns d) l (i_fresh d).

(** A call of the library. *)
Definition call_lib (k : call) : D (option N) := fun d => Do k (fun r => Ret (r, d)).
(** cowl_release *)
Definition drop (p : option N) : D unit :=
  match p with None => dret tt | Some a => fun d => Do (KRelease a) (fun _ => Ret (tt, d)) end.
(** include/cowl_object.h cowl_release_all; the release of each object of a vector of the index *)
Fixpoint drops (l : list (option N)) : D unit :=
  match l with [] => dret tt | p :: l' => let* _ := drop p in drops l' end.
(** cowl_prt_decoder.c:138-141 handle_null *)
Definition handle_null (p : option N) : D (option N) := match p with Some a => dret (Some a) | None => dfail end.
(** handle_null(d, call) *)
Definition checked (k : call) : D (option N) := let* r := call_lib k in handle_null r.

(** The types of entities, by CowlEntityType (include/cowl_entity_type.h). *)
Definition et_types : list otype :=
  [ OT_CE_CLASS; OT_DR_DATATYPE; OT_OPE_OBJ_PROP; OT_DPE_DATA_PROP; OT_ANNOT_PROP; OT_I_NAMED ].
(** cowl_prt_index.c:101-107, the namespaces of prefix_map_add_standard_prefixes: rdf, rdfs, xsd, owl, xml *)
Definition standard (vs : list vocab) : list N :=
  match vs with
  | [owl; rdf; rdfs; xml; _; xsd] => map v_ns [rdf; rdfs; xsd; owl; xml]
  | _ => []
  end.
(** Whether no pointer of a list is NULL. *)
Definition is_some (p : option N) : bool := match p with Some _ => true | None => false end.

Section Decode.
  (** Whether ulib_uint has 64 bits. *)
  Variable huge : bool.
  (** src/cowl_anon_ind.c:91-125 anon_ind_generate: the random identifiers tried for the n-th individual. *)
  Variable random : nat -> list bytes.
  (** The vocabularies. *)
  Variable vs : list vocab.

  (** The number of bits of ulib_uint. *)
  Definition width : N := if huge then 64 else 32.

  (** * Bytes and strings *)

  (** The reading functions of the stream: either the stream reports an error, or it gives what it has. Nothing is
      read after an error. *)
  Definition read {A} (f : bytes -> option (A * bytes)) : D (option A) := fun d =>
    if negb (i_ok d) then Ret (None, d) else
    Choose (dfail d)
      (match f (i_in d) with None => dfail d | Some (x, r) => Ret (Some x, with_in r d) end).
  (** cowl_prt_decoder.c:82-92 read_bytes for one byte *)
  Definition read_byte : D (option N) := read (fun i => match i with [] => None | b :: r => Some (b, r) end).
  (** cowl_prt_decoder.c:82-92 read_bytes *)
  Definition read_bytes (n : N) : D (option bytes) :=
    read (fun i => if N.of_nat (List.length i) <? n then None else Some (firstn (N.to_nat n) i, skipn (N.to_nat n) i)).
  (** cowl_prt_decoder.c:94-110 read_varint *)
  Definition read_varint : D (option N) :=
    read (fun i => match varint_read i with None => None | Some (n, r) => Some (n mod 2 ^ width, r) end).
  (** cowl_prt_decoder.c:112-127 read_svarint *)
  Definition read_svarint : D (option Z) :=
    read (fun i => match varint_read i with None => None | Some (n, r) => Some (to_int width (unzigzag n), r) end).
  (** cowl_prt_decoder.c:197-223 decode_ustring with decode_string, decode_string_intern *)
  Definition decode_string (intern : bool) : D (option N) :=
    let* len := read_varint in
    match len with
    | None => dret None
    | Some n =>
        let* t := read_bytes n in
        match t with None => dret None | Some t => checked (KString t intern) end
    end.

  (** * Identifiers *)

  (** cowl_prt_index.c:89-93 prefix_map_add_decoding *)
  Definition add_ns (a : N) : D unit := fun d => Do (KRetain a) (fun _ => Ret (tt, with_ns (i_ns d ++ [a]) d)).
  (** cowl_prt_index.c:263-267 id_map_add_decoding *)
  Definition add_id (a : N) : D unit := fun d => Do (KRetain a) (fun _ => Ret (tt, with_ids (i_ids d ++ [a]) d)).
  (** The number of individuals made up. *)
  Definition count_fresh : D unit := fun d => Ret (tt, mkDec (i_in d) (i_ok d) (i_ns d) (i_ids d) (S (i_fresh d))).
  (** cowl_prt_decoder.c:225-236 get_id with cowl_prt_index.c:274-297 id_map_get: the caller gets no reference *)
  Definition get_id (idx : N) : D (option N) := fun d =>
    let count := N.of_nat (List.length (i_ids d)) in
    if idx <? count then Ret (nth_error (i_ids d) (N.to_nat idx), d)
    else if count <? idx then dfail d
    else
      (let* _ := count_fresh in
       let* ind := call_lib (KAnon None (random (i_fresh d))) in
       match ind with
       | None => dfail
       | Some a => let* _ := add_id a in let* _ := drop (Some a) in dret (Some a)
       end) d.
  (** src/cowl_object.c cowl_get_type: reads the header *)
  Definition type_at (a : N) : D otype := fun d =>
    Look (fun s =>
      match lookup (s_heap s) a with
      | Some c => match type_of huge c with Some t => Ret (t, d) | None => Stuck end
      | None => Stuck
      end).
  (** cowl_prt_decoder.c:238-245 get_id_iri *)
  Definition get_id_iri (idx : N) : D (option N) :=
    let* id := get_id idx in
    match id with
    | None => dret None
    | Some a => let* t := type_at a in match t with OT_IRI => dret (Some a) | _ => dfail end
    end.
  (** cowl_prt_decoder.c:247-250 get_iri_or_anon *)
  Definition get_iri_or_anon (idx : N) : D (option N) :=
    let* id := get_id idx in
    match id with None => dret None | Some a => call_lib (KRetain a) end.
  (** cowl_prt_decoder.c:252-255 get_iri *)
  Definition get_iri (idx : N) : D (option N) :=
    let* id := get_id_iri idx in
    match id with None => dret None | Some a => call_lib (KRetain a) end.
  (** cowl_prt_decoder.c:257-291 get_class, get_datatype, get_named_ind, get_obj_prop, get_data_prop, get_annot_prop *)
  Definition get_entity (t : otype) (idx : N) : D (option N) :=
    let* id := get_id_iri idx in
    match id with None => dret None | Some a => checked (KEntity t a) end.
  (** cowl_prt_decoder.c:293-297 get_individual *)
  Definition get_individual (idx : N) : D (option N) :=
    let* id := get_id idx in
    match id with
    | None => dret None
    | Some a =>
        let* t := type_at a in
        match t with
        | OT_I_ANONYMOUS | OT_I_NAMED => call_lib (KRetain a)
        | _ => checked (KEntity OT_I_NAMED a)
        end
    end.

  (** A varint followed by a lookup. *)
  Definition decode_with (get : N -> D (option N)) : D (option N) :=
    let* v := read_varint in
    match v with None => dret None | Some n => get n end.
  (** cowl_prt_decoder.c:299-303 decode_iri *)
  Definition decode_iri : D (option N) := decode_with get_iri.
  (** cowl_prt_decoder.c:305-309 decode_iri_or_anon *)
  Definition decode_iri_or_anon : D (option N) := decode_with get_iri_or_anon.
  (** cowl_prt_decoder.c:311-324 decode_entity, 444-448 decode_annot_prop, 483-487 decode_obj_prop, 504-508
      decode_data_prop_exp, 519-523 decode_class, 658-662 decode_datatype *)
  Definition decode_entity (t : otype) : D (option N) := decode_with (get_entity t).
  (** cowl_prt_decoder.c:477-481 decode_individual *)
  Definition decode_individual : D (option N) := decode_with get_individual.

  (** * Literals *)

  (** cowl_literal, src/cowl_literal.c:111-145: NULL if the value is NULL *)
  Definition literal (value dt_or_lang : option N) : D (option N) :=
    match value with None => dret None | Some v => call_lib (KLiteral v dt_or_lang) end.
  (** cowl_prt_decoder.c:326-336 decode_literal_typed *)
  Definition decode_literal_typed (value : option N) : D (option N) :=
    let* iri := decode_iri in
    match iri with
    | None => dret None
    | Some i =>
        let* dt := call_lib (KEntity OT_DR_DATATYPE i) in
        let* l := (match dt with None => dret None | Some _ => let* l := literal value dt in handle_null l end) in
        let* _ := drops [Some i; dt] in
        dret l
    end.
  (** cowl_prt_decoder.c:338-340 decode_literal_string *)
  Definition decode_literal_string (value : option N) : D (option N) := let* l := literal value None in handle_null l.
  (** cowl_prt_decoder.c:342-348 decode_literal_lang *)
  Definition decode_literal_lang (value : option N) : D (option N) :=
    let* lang := decode_string false in
    match lang with
    | None => dret None
    | Some _ =>
        let* l := literal value lang in
        let* l := handle_null l in
        let* _ := drop lang in
        dret l
    end.
  (** cowl_prt_decoder.c:350-358 decode_literal_bool *)
  Definition decode_literal_bool : D (option N) :=
    let* b := read_byte in
    match b with
    | Some 0 => call_lib (KString (bs "false") false)
    | Some 1 => call_lib (KString (bs "true") false)
    | _ => dret None
    end.
  (** cowl_prt_decoder.c:360-364 decode_literal_int; cowl_string_with_format makes a string of the text *)
  Definition decode_literal_int : D (option N) :=
    let* v := read_svarint in
    match v with Some z => call_lib (KString (show_int z) false) | None => dret None end.
  (** cowl_prt_decoder.c:366-370 decode_literal_uint *)
  Definition decode_literal_uint : D (option N) :=
    let* v := read_varint in
    match v with Some n => call_lib (KString (show_uint n) false) | None => dret None end.
  (** cowl_prt_decoder.c:380-392 decode_literal_fixed_point *)
  Definition decode_literal_fixed_point : D (option N) :=
    let* whole := read_svarint in
    match whole with
    | None => dret None
    | Some z =>
        let* frac := read_varint in
        match frac with Some f => call_lib (KString (show_fixed_point z f) false) | None => dret None end
    end.
  (** cowl_prt_decoder.c:394-408 decode_literal_e_notation *)
  Definition decode_literal_e_notation : D (option N) :=
    let* whole := read_svarint in
    match whole with
    | None => dret None
    | Some z =>
        let* frac := read_varint in
        match frac with
        | None => dret None
        | Some f =>
            let* e := read_svarint in
            match e with Some x => call_lib (KString (show_e_notation z f x) false) | None => dret None end
        end
    end.
  (** cowl_prt_decoder.c:410-421 decode_literal_value *)
  Definition decode_literal_value (fmt : N) : D (option N) :=
    match fmt with
    | 0 => decode_string false
    | 2 => decode_literal_bool
    | 3 => decode_literal_int
    | 4 => decode_literal_uint
    | 5 => decode_literal_fixed_point
    | 6 => decode_literal_e_notation
    | _ => dret None
    end.
  (** cowl_prt_decoder.c:423-442 decode_literal: the type is the low two bits, the format four of the others;
      a type of 3 gives NULL without an error. *)
  Definition decode_literal : D (option N) :=
    let* header := read_byte in
    match header with
    | None => dret None
    | Some h =>
        let* v := decode_literal_value ((h mod 64) / 4) in
        let* value := handle_null v in
        let* l := (match h mod 4 with
                 | 0 => decode_literal_string value
                 | 1 => decode_literal_lang value
                 | 2 => decode_literal_typed value
                 | _ => dret None
                 end) in
        let* _ := drop value in
        dret l
    end.

  (** * Vectors and constructors *)

  (** cowl_prt_decoder.c:183-195: the loop of decode_vector; cowl_vector_push takes the reference over *)
  Fixpoint vec_loop (fuel : nat) (item : D (option N)) (v : N) (n : N) : D (option N) :=
    if n =? 0 then dret (Some v) else
    match fuel with
    | O => fun _ => Never
    | S f =>
        let* x := item in
        match x with
        | None => fun d => Do (KRelease v) (fun _ => dfail d)
        | Some o => let* _ := call_lib (KVectorPush v o) in vec_loop f item v (n - 1)
        end
    end.
  (** cowl_prt_decoder.c:175-195 decode_vector *)
  Definition decode_vector (fuel : nat) (item : D (option N)) : D (option N) :=
    let* len := read_varint in
    match len with
    | None => dret None
    | Some n =>
        let* vec := call_lib (KVector []) in
        match vec with None => dfail | Some v => vec_loop fuel item v n end
    end.

  (** Decoding the operands one after the other, whatever happens. *)
  Fixpoint dec_args (l : list (D (option N))) : D (list (option N)) :=
    match l with
    | [] => dret []
    | m :: l' => let* x := m in let* r := dec_args l' in dret (x :: r)
    end.
  (** "if (decoder_ok(d)) o = handle_null(d, constructor(operands)); cowl_release_all(operands); return o" *)
  Definition build (t : otype) (args : list (option N)) (opt : option N) (val : N) : D (option N) :=
    let* o := (fun d => if i_ok d then checked (KConstruct t args opt val) d else Ret (None, d)) in
    let* _ := drops (args ++ [opt]) in
    dret o.
  (** A construct without optional part. *)
  Definition construct (t : otype) (l : list (D (option N))) : D (option N) :=
    let* args := dec_args l in build t args None 0.

  (** cowl_prt_decoder.c:489-495 decode_inv_obj_prop *)
  Definition decode_inv_obj_prop : D (option N) :=
    let* p := decode_entity OT_OPE_OBJ_PROP in
    match p with
    | None => dret None
    | Some _ =>
        let* inv := checked (KConstruct OT_OPE_INV_OBJ_PROP [p] None 0) in
        let* _ := drop p in
        dret inv
    end.
  (** cowl_prt_decoder.c:497-502 decode_obj_prop_exp *)
  Definition decode_obj_prop_exp : D (option N) :=
    decode_with (fun n => if n =? 0 then decode_inv_obj_prop else get_entity OT_OPE_OBJ_PROP (n - 1)).
  (** cowl_prt_decoder.c:510-517 decode_facet_restr *)
  Definition decode_facet_restr : D (option N) :=
    let* iri := decode_iri in
    let* l := decode_literal in
    let* restr := (if is_some iri && is_some l then checked (KConstruct OT_FACET_RESTR [iri; l] None 0) else dret None) in
    let* _ := drops [iri; l] in
    dret restr.
  (** cowl_prt_decoder.c:450-454 decode_annot_value *)
  Definition decode_annot_value : D (option N) :=
    decode_with (fun n => if n =? 0 then decode_literal else get_iri_or_anon (n - 1)).

  (** * Annotations *)

  (** cowl_prt_decoder.c:472-474, the end of decode_annotation *)
  Definition annotation_end (iri prop value annots annot : option N) : D (option N) :=
    let* _ := drops [iri; prop; value; annots] in handle_null annot.
  (** cowl_prt_decoder.c:456-475 decode_annotation *)
  Fixpoint decode_annotation (fuel : nat) : D (option N) :=
    match fuel with
    | O => fun _ => Never
    | S f =>
        let* h := read_varint in
        match h with
        | None => dret None
        | Some has_no_annot =>
            let* iri := (if has_no_annot =? 0 then decode_iri else get_iri (has_no_annot - 1)) in
            match iri with
            | None => annotation_end None None None None None
            | Some i =>
                let* prop := call_lib (KEntity OT_ANNOT_PROP i) in
                match prop with
                | None => annotation_end iri None None None None
                | Some _ =>
                    let* value := decode_annot_value in
                    match value with
                    | None => annotation_end iri prop None None None
                    | Some _ =>
                        if has_no_annot =? 0 then
                          let* annots := decode_vector f (decode_annotation f) in
                          match annots with
                          | None => annotation_end iri prop value None None
                          | Some _ =>
                              let* annot := call_lib (KConstruct OT_ANNOTATION [prop; value] annots 0) in
                              annotation_end iri prop value annots annot
                          end
                        else
                          let* annot := call_lib (KConstruct OT_ANNOTATION [prop; value] None 0) in
                          annotation_end iri prop value None annot
                    end
                end
            end
        end
    end.

  (** * Data ranges *)

  (** cowl_prt_decoder.c:697-716 decode_data_range, with 664-695 decode_nary_data, decode_data_compl,
      decode_data_one_of, decode_datatype_restr *)
  Fixpoint decode_data_range (fuel : nat) : D (option N) :=
    match fuel with
    | O => fun _ => Never
    | S f =>
        decode_with (fun type =>
          if DRT_COUNT - 1 <=? type then get_entity OT_DR_DATATYPE (type + 1 - DRT_COUNT)
          else match nth_error ModelPrtDecoder.drt_types (N.to_nat (type + 1)) with
               | Some ((OT_DR_DATA_INTERSECT | OT_DR_DATA_UNION) as t) =>
                   construct t [decode_vector f (decode_data_range f)]
               | Some (OT_DR_DATA_COMPL as t) => construct t [decode_data_range f]
               | Some (OT_DR_DATA_ONE_OF as t) => construct t [decode_vector f decode_literal]
               | Some (OT_DR_DATATYPE_RESTR as t) =>
                   construct t [decode_entity OT_DR_DATATYPE; decode_vector f decode_facet_restr]
               | _ => dfail
               end)
    end.

  (** * Class expressions *)

  (** cowl_prt_decoder.c:525-532 decode_obj_quant, 567-574 decode_data_quant *)
  Definition decode_quant (t : otype) (prop filler : D (option N)) : D (option N) :=
    let* p := prop in let* f := filler in build t [p] f 0.
  (** cowl_prt_decoder.c:534-548 decode_obj_card, 576-590 decode_data_card *)
  Definition decode_card (t : otype) (prop filler : D (option N)) : D (option N) :=
    let* c := read_varint in
    match c with
    | None => dret None
    | Some n =>
        let* p := prop in
        let* f := (if N.odd n then filler else dret None) in
        build t [p] f (n / 2)
    end.

  (** cowl_prt_decoder.c:625-656 decode_cls_exp, with 550-565 decode_obj_has_value, decode_obj_has_self, 592-623
      decode_data_has_value, decode_nary_cls_exp, decode_obj_compl, decode_obj_one_of *)
  Fixpoint decode_cls_exp (fuel : nat) : D (option N) :=
    match fuel with
    | O => fun _ => Never
    | S f =>
        decode_with (fun type =>
          if CET_COUNT - 1 <=? type then get_entity OT_CE_CLASS (type + 1 - CET_COUNT)
          else match nth_error ModelPrtDecoder.cet_types (N.to_nat (type + 1)) with
               | Some ((OT_CE_OBJ_SOME | OT_CE_OBJ_ALL) as t) =>
                   decode_quant t decode_obj_prop_exp (decode_cls_exp f)
               | Some ((OT_CE_OBJ_MIN_CARD | OT_CE_OBJ_MAX_CARD | OT_CE_OBJ_EXACT_CARD) as t) =>
                   decode_card t decode_obj_prop_exp (decode_cls_exp f)
               | Some (OT_CE_OBJ_HAS_VALUE as t) => construct t [decode_obj_prop_exp; decode_individual]
               | Some (OT_CE_OBJ_HAS_SELF as t) => construct t [decode_obj_prop_exp]
               | Some ((OT_CE_DATA_SOME | OT_CE_DATA_ALL) as t) =>
                   decode_quant t (decode_entity OT_DPE_DATA_PROP) (decode_data_range f)
               | Some ((OT_CE_DATA_MIN_CARD | OT_CE_DATA_MAX_CARD | OT_CE_DATA_EXACT_CARD) as t) =>
                   decode_card t (decode_entity OT_DPE_DATA_PROP) (decode_data_range f)
               | Some (OT_CE_DATA_HAS_VALUE as t) => construct t [decode_entity OT_DPE_DATA_PROP; decode_literal]
               | Some ((OT_CE_OBJ_INTERSECT | OT_CE_OBJ_UNION) as t) =>
                   construct t [decode_vector f (decode_cls_exp f)]
               | Some (OT_CE_OBJ_COMPL as t) => construct t [decode_cls_exp f]
               | Some (OT_CE_OBJ_ONE_OF as t) => construct t [decode_vector f decode_individual]
               | _ => dfail
               end)
    end.

  (** * Axioms *)

  (** "has_annot ? decode_vector(d, annotation_item) : NULL" *)
  Definition decode_annots (fuel : nat) (has_annot : bool) : D (option N) :=
    if has_annot then decode_vector fuel (decode_annotation fuel) else dret None.
  (** cowl_prt_decoder.c:718-1006: the shape of every function that decodes an axiom but
      decode_sub_obj_prop_axiom. *)
  Definition decode_annotated (fuel : nat) (has_annot : bool) (t : otype) (l : list (D (option N))) : D (option N) :=
    let* args := dec_args l in
    let* annot := decode_annots fuel has_annot in
    build t args annot 0.
  (** The call of cowl_sub_obj_prop_chain_axiom or cowl_sub_obj_prop_axiom. Given NULL, the former dereferences
      it just as the latter does. *)
  Definition sub_obj_prop (chain : bool) (sub sup annot : option N) : call :=
    match chain, sub, sup with
    | true, Some a, Some b => KChain a b annot
    | _, _, _ => KConstruct OT_A_SUB_OBJ_PROP [sub; sup] annot 0
    end.
  (** cowl_prt_decoder.c:893-913 decode_sub_obj_prop_axiom: decoder_ok is not checked before the constructors are
      called *)
  Definition decode_sub_obj_prop (fuel : nat) (has_u_bit has_annot : bool) : D (option N) :=
    let* sub := (if has_u_bit then decode_vector fuel decode_obj_prop_exp else decode_obj_prop_exp) in
    let* sup := decode_obj_prop_exp in
    let* annot := decode_annots fuel has_annot in
    let* axiom := call_lib (sub_obj_prop has_u_bit sub sup annot) in
    let* axiom := (fun d => if i_ok d then handle_null axiom d else Ret (axiom, d)) in
    let* _ := drops [sub; sup; annot] in
    dret axiom.

  (** The operands read by each function of cowl_prt_decoder.c:728-1006. *)
  Definition axiom_operands (fuel : nat) (t : otype) : option (list (D (option N))) :=
    let data_prop := decode_entity OT_DPE_DATA_PROP in
    let annot_prop := decode_entity OT_ANNOT_PROP in
    match t with
    | OT_A_DATATYPE_DEF => Some [decode_entity OT_DR_DATATYPE; decode_data_range fuel]
    | OT_A_SUB_CLASS => Some [decode_cls_exp fuel; decode_cls_exp fuel]
    | OT_A_EQUIV_CLASSES | OT_A_DISJ_CLASSES => Some [decode_vector fuel (decode_cls_exp fuel)]
    | OT_A_DISJ_UNION => Some [decode_entity OT_CE_CLASS; decode_vector fuel (decode_cls_exp fuel)]
    | OT_A_CLASS_ASSERT => Some [decode_cls_exp fuel; decode_individual]
    | OT_A_SAME_IND | OT_A_DIFF_IND => Some [decode_vector fuel decode_individual]
    | OT_A_OBJ_PROP_ASSERT | OT_A_NEG_OBJ_PROP_ASSERT =>
        Some [decode_obj_prop_exp; decode_individual; decode_individual]
    | OT_A_DATA_PROP_ASSERT | OT_A_NEG_DATA_PROP_ASSERT => Some [data_prop; decode_individual; decode_literal]
    | OT_A_INV_OBJ_PROP => Some [decode_obj_prop_exp; decode_obj_prop_exp]
    | OT_A_EQUIV_OBJ_PROP | OT_A_DISJ_OBJ_PROP => Some [decode_vector fuel decode_obj_prop_exp]
    | OT_A_FUNC_OBJ_PROP | OT_A_INV_FUNC_OBJ_PROP | OT_A_SYMM_OBJ_PROP | OT_A_ASYMM_OBJ_PROP
    | OT_A_TRANS_OBJ_PROP | OT_A_REFL_OBJ_PROP | OT_A_IRREFL_OBJ_PROP => Some [decode_obj_prop_exp]
    | OT_A_OBJ_PROP_DOMAIN | OT_A_OBJ_PROP_RANGE => Some [decode_obj_prop_exp; decode_cls_exp fuel]
    | OT_A_SUB_DATA_PROP => Some [data_prop; data_prop]
    | OT_A_EQUIV_DATA_PROP | OT_A_DISJ_DATA_PROP => Some [decode_vector fuel data_prop]
    | OT_A_FUNC_DATA_PROP => Some [data_prop]
    | OT_A_DATA_PROP_DOMAIN => Some [data_prop; decode_cls_exp fuel]
    | OT_A_DATA_PROP_RANGE => Some [data_prop; decode_data_range fuel]
    | OT_A_HAS_KEY =>
        Some [decode_cls_exp fuel; decode_vector fuel decode_obj_prop_exp; decode_vector fuel data_prop]
    | OT_A_ANNOT_ASSERT => Some [annot_prop; decode_iri_or_anon; decode_annot_value]
    | OT_A_SUB_ANNOT_PROP => Some [annot_prop; annot_prop]
    | OT_A_ANNOT_PROP_DOMAIN | OT_A_ANNOT_PROP_RANGE => Some [annot_prop; decode_iri]
    | _ => None
    end.

  (** cowl_prt_decoder.c:1008-1067 decode_axiom *)
  Definition decode_axiom (fuel : nat) (header : N) : D (option N) :=
    let type := header mod 64 - FIRST_AXIOM_FRAME in
    let has_annot := N.testbit header 6 in
    let has_u_bit := N.testbit header 7 in
    match nth_error et_types (N.to_nat type) with
    | Some t => decode_annotated fuel has_annot OT_A_DECL [decode_entity t]
    | None =>
        match nth_error ModelPrtDecoder.at_types (N.to_nat (type - ET_COUNT + 1)) with
        | Some OT_A_SUB_OBJ_PROP => decode_sub_obj_prop fuel has_u_bit has_annot
        | Some t =>
            match axiom_operands fuel t with
            | Some l => decode_annotated fuel has_annot t l
            | None => dfail
            end
        | None => dfail
        end
    end.

  (** * Frames *)

  (** cowl_prt_decoder.c:73-80 decoder_handle_change: the handler succeeds or returns an error *)
  Definition handle_change (passed : list N) : D unit := fun d =>
    Hand passed (i_ns d ++ i_ids d) (Choose (Ret (tt, bad d)) (Ret (tt, d))).

  (** cowl_prt_decoder.c:1069-1075 decode_axiom_frame *)
  Definition decode_axiom_frame (fuel : nat) (header : N) : D unit := fun d =>
    if i_ok d then
      (let* a := decode_axiom fuel header in
       match a with
       | None => dret tt
       | Some x => let* _ := handle_change [x] in drop a
       end) d
    else Ret (tt, d).

  (** "for (i = 0; decoder_ok(d) && i < length; ++i)", with an item that may end the loop *)
  Fixpoint decl_loop (fuel : nat) (item : D bool) (n : N) : D unit := fun d =>
    if i_ok d && negb (n =? 0) then
      match fuel with
      | O => Never
      | S f => (let* go := item in if (go : bool) then decl_loop f item (n - 1) else dret tt) d
      end
    else Ret (tt, d).
  (** "if (read_varint(d, &length)) return;" and the loop *)
  Definition decode_decls (fuel : nat) (item : D bool) : D unit :=
    let* len := read_varint in
    match len with None => dret tt | Some n => decl_loop fuel item n end.

  (** cowl_prt_decoder.c:1077-1092 register_prefix_decl, decode_prefix_decl *)
  Definition decode_prefix_decl : D bool :=
    let* prefix := decode_string false in
    let* ns := decode_string true in
    let* _ := (match prefix, ns with
             | Some p, Some n => let* _ := add_ns n in handle_change [p; n]
             | _, _ => dret tt
             end) in
    let* _ := drops [prefix; ns] in
    dret true.
  (** cowl_prt_decoder.c:1105-1109 *)
  Definition decode_ns_decl : D bool :=
    let* ns := decode_string false in
    let* _ := (match ns with Some n => add_ns n | None => dret tt end) in
    let* _ := drop ns in
    dret true.
  (** cowl_prt_decoder.c:1120-1142 decode_iri_decl *)
  Definition decode_iri_decl : D bool :=
    let* prefix := read_varint in
    match prefix with
    | None => dret true
    | Some p =>
        let* string := decode_string false in
        match string with
        | None => dret true
        | Some rem => fun d =>
            match nth_error (i_ns d) (N.to_nat p) with
            | None => (let* _ := drop string in dret true) (bad d)
            | Some ns =>
                (let* id := call_lib (KIri ns rem) in
                 let* _ := (match id with Some i => add_id i | None => fun d => Ret (tt, bad d) end) in
                 let* _ := drops [string; id] in
                 dret true) d
            end
        end
    end.
  (** cowl_prt_decoder.c:1152-1161 decode_anon_decl *)
  Definition decode_anon_decl : D bool :=
    let* string := decode_string false in
    match string with
    | None => dret true
    | Some _ =>
        let* id := call_lib (KAnon string []) in
        let* _ := (match id with Some i => add_id i | None => fun d => Ret (tt, bad d) end) in
        let* _ := drops [string; id] in
        dret true
    end.
  (** cowl_prt_decoder.c:1179-1191 decode_ontology_iri, decode_version_iri; 1212-1217, the body of the loop over
      the imports; the result says whether there was an IRI *)
  Definition decode_handled_iri : D bool :=
    let* iri := decode_iri in
    match iri with
    | None => dret false
    | Some i => let* _ := handle_change [i] in let* _ := drop iri in dret true
    end.
  (** cowl_prt_decoder.c:1193-1196 decode_iri_version_frame *)
  Definition decode_iri_version (has_version : bool) : D unit :=
    let* _ := decode_handled_iri in
    if has_version then let* _ := decode_handled_iri in dret tt else dret tt.
  (** cowl_prt_decoder.c:1201-1206 *)
  Definition decode_onto_annot (fuel : nat) : D bool :=
    let* annot := decode_annotation fuel in
    match annot with
    | None => dret false
    | Some a => let* _ := handle_change [a] in let* _ := drop annot in dret true
    end.
  (** cowl_prt_index.c:95-116 prefix_map_add_standard_prefixes *)
  Fixpoint add_all (l : list N) : D unit :=
    match l with [] => dret tt | a :: l' => let* _ := add_ns a in add_all l' end.
  (** cowl_prt_index.c:29-39 prefix_map_deinit *)
  Definition free_ns : D unit := fun d => drops (map Some (i_ns d)) (with_ns [] d).
  (** cowl_prt_index.c:184-190 id_map_deinit *)
  Definition free_ids : D unit := fun d => drops (map Some (i_ids d)) (with_ids [] d).
  (** cowl_prt_decoder.c:1228-1237 handle_reset_frame; cowl_prt_index.c:136-140 prefix_map_reset, 192-196
      id_map_reset *)
  Definition handle_reset (prefixes ids : bool) : D unit :=
    let* _ := (if prefixes then let* _ := free_ns in add_all (standard vs) else dret tt) in
    fun d => if prefixes && negb (i_ok d) then Ret (tt, d) else if ids then free_ids d else Ret (tt, d).

  (** cowl_prt_decoder.c:1239-1267 decode_frame. Reading the header fails quietly. The loops over declarations and
      the axioms get the bound [fuel]. *)
  Definition decode_frame (fuel : nat) : D bool := fun d =>
    match i_in d with
    | [] => Ret (false, d)
    | h :: r =>
        let d := with_in r d in
        let go (m : D unit) := (let* _ := m in dret true) d in
        Choose (Ret (false, bad d))
          (match h mod 64 with
           | 0 => Ret (true, d)
           | 1 => Ret (true, d)
           | 2 => go (handle_reset (N.testbit h 6) (N.testbit h 7))
           | 3 => Ret (false, d)
           | 4 => go (decode_decls fuel (if N.testbit h 6 then decode_prefix_decl else decode_ns_decl))
           | 5 => go (decode_decls fuel (if N.testbit h 6 then decode_iri_decl else decode_anon_decl))
           | 6 => go (decode_iri_version (N.testbit h 7))
           | 7 => go (decode_decls fuel decode_handled_iri)
           | 8 => go (decode_decls fuel (decode_onto_annot fuel))
           | _ => go (decode_axiom_frame fuel h)
           end)
    end.
  (** cowl_prt_decoder.c:1269-1271 decode_frames; [fuel] bounds the loop, [inner] each frame *)
  Fixpoint decode_frames (fuel inner : nat) : D unit := fun d =>
    if i_ok d then
      match fuel with
      | O => Never
      | S f => (let* go := decode_frame inner in if (go : bool) then decode_frames f inner else dret tt) d
      end
    else Ret (tt, d).
  (** cowl_prt_decoder.c:1273-1278 decode_header; COWL_PRT_FORMAT_VERSION = 1 *)
  Definition decode_header : D unit :=
    let* h := read_byte in
    match h with
    | None => dret tt
    | Some v => fun d => Ret (tt, if v =? 1 then d else bad d)
    end.
  (** cowl_prt_decoder.c:1280-1294 read_ontology with 34-46 decoder_init, decoder_deinit; cowl_prt_index.c:301-309
      cowl_prt_index_init, cowl_prt_index_deinit. The result says whether reading succeeded. *)
  Definition read_stream (fuel inner : nat) (input : bytes) : prog bool :=
    after_that
      ((let* _ := add_all (standard vs) in
        let* _ := decode_header in
        let* _ := decode_frames fuel inner in
        let* _ := free_ns in
        free_ids) (mkDec input true [] [] 0))
      (fun x => Ret (i_ok (snd x))).
End Decode.
