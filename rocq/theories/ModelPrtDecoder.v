(** ProtocOWL reader. Models src/formats/protocowl/reader/cowl_prt_decoder.c and the decoding half of
    src/formats/protocowl/cowl_prt_index.c.

    Simplifications. Memory allocation succeeds. The stream is a byte string and reading it causes no
    input/output error. A pointer is an [option]; counts of references are not modelled. After an error
    nothing more is read, so the position in the stream is not tracked beyond that point. *)

From Coq Require Import NArith ZArith List Bool String.
From Verif Require Import Bytes ModelTypes ModelObject ModelText ModelChange ModelPrtValue ModelPrtEncoder.
Import ListNotations.
Local Open Scope N_scope.

(** include/cowl_ret.h COWL_ERR_SYNTAX *)
Definition ERR_SYNTAX : ret := (-32)%Z.
(** include/cowl_ret.h COWL_ERR_MEM; the value is ulib's, a negative number (assumption) *)
Definition ERR_MEM : ret := (-2)%Z.

(** include/cowl_change.h: the part of the ontology a change is about, with its value. *)
Inductive dpart : Type :=
| DPrefix (prefix ns : bytes)
| DIri (i : obj)
| DVersion (i : obj)
| DImport (i : obj)
| DAnnot (a : obj)
| DAxiom (a : obj).

(** include/cowl_change.h struct CowlChange *)
Definition dchange : Type := (change_type * dpart)%type.

(** cowl_prt_decoder.c:26-32 struct CowlPRTDecoder: the bytes still to be read, error->code, the vectors
    _idx_to_ns and _idx_to_id, how many anonymous individuals were made up so far, [remove], and the changes
    given to the handler so far. *)
Record dst := mkD {
  d_in : bytes;
  d_code : ret;
  d_ns : list bytes;
  d_ids : list obj;
  d_fresh : nat;
  d_remove : bool;
  d_log : list dchange
}.

(** Outcome of a decoding function. [DUB t]: the constructor of objects of type [t] is called with a NULL
    operand, or (for OT_LITERAL) src/cowl_literal.c:98-105 dereferences a NULL tag. [DFuel]: the recursion bound
    of the model was exhausted. *)
Inductive dres (A : Type) : Type :=
| DRet (a : A) (s : dst)
| DUB (t : otype)
| DFuel.
Arguments DRet {A}. Arguments DUB {A}. Arguments DFuel {A}.

(** A decoding function. *)
Definition D (A : Type) : Type := dst -> dres A.
(** return *)
Definition dret {A} (a : A) : D A := fun s => DRet a s.
(** C sequencing *)
Definition dbind {A B} (m : D A) (k : A -> D B) : D B :=
  fun s => match m s with DRet a s' => k a s' | DUB t => DUB t | DFuel => DFuel end.
(** C sequencing of a call with its continuation. *)
Notation "'do' x '<-' m ';;' k" := (dbind m (fun x => k)) (at level 200, x name, m at level 100, k at level 200).

(** cowl_prt_decoder.c:48-52 decoder_ok (the stream is never in error) *)
Definition d_ok (s : dst) : bool := (0 <=? d_code s)%Z.

(** cowl_prt_decoder.c:58-71 decoder_set_error, decoder_handle_error: the first error is kept, anything else is
    overwritten. *)
Definition set_code (c : ret) (s : dst) : dst :=
  if (d_code s <? 0)%Z then s
  else mkD (d_in s) c (d_ns s) (d_ids s) (d_fresh s) (d_remove s) (d_log s).
(** cowl_prt_decoder.c:63-71 decoder_handle_error_code *)
Definition handle_error (c : ret) : D unit := fun s => DRet tt (set_code c s).
(** An error followed by "return NULL". *)
Definition fail {A} (c : ret) : D (option A) := do _ <- handle_error c;; dret None.

(** The rest of the input. *)
Definition set_in (i : bytes) (s : dst) : dst :=
  mkD i (d_code s) (d_ns s) (d_ids s) (d_fresh s) (d_remove s) (d_log s).
(** cowl_prt_index.c:89-93 prefix_map_add_decoding, on the state *)
Definition set_ns (l : list bytes) (s : dst) : dst :=
  mkD (d_in s) (d_code s) l (d_ids s) (d_fresh s) (d_remove s) (d_log s).
(** cowl_prt_index.c:263-267 id_map_add_decoding, on the state *)
Definition set_ids (l : list obj) (s : dst) : dst :=
  mkD (d_in s) (d_code s) (d_ns s) l (d_fresh s) (d_remove s) (d_log s).
(** cowl_prt_decoder.c:1220-1226 *)
Definition set_remove (b : bool) (s : dst) : dst :=
  mkD (d_in s) (d_code s) (d_ns s) (d_ids s) (d_fresh s) b (d_log s).

(** The pointers of a list, if none of them is NULL. *)
Fixpoint all_some {A} (l : list (option A)) : option (list A) :=
  match l with
  | [] => Some []
  | Some a :: l' => match all_some l' with Some r => Some (a :: r) | None => None end
  | None :: _ => None
  end.

(** include/cowl_cls_exp_type.h:19-90 CowlClsExpType, from COWL_CET_OBJ_INTERSECT on *)
Definition cet_types : list otype :=
  [ OT_CE_CLASS; OT_CE_OBJ_INTERSECT; OT_CE_OBJ_UNION; OT_CE_OBJ_COMPL; OT_CE_OBJ_ONE_OF; OT_CE_OBJ_SOME;
    OT_CE_OBJ_ALL; OT_CE_OBJ_HAS_VALUE; OT_CE_OBJ_HAS_SELF; OT_CE_OBJ_MIN_CARD; OT_CE_OBJ_MAX_CARD;
    OT_CE_OBJ_EXACT_CARD; OT_CE_DATA_SOME; OT_CE_DATA_ALL; OT_CE_DATA_HAS_VALUE; OT_CE_DATA_MIN_CARD;
    OT_CE_DATA_MAX_CARD; OT_CE_DATA_EXACT_CARD ].
(** include/cowl_data_range_type.h:21-48 CowlDataRangeType *)
Definition drt_types : list otype :=
  [ OT_DR_DATATYPE; OT_DR_DATA_INTERSECT; OT_DR_DATA_UNION; OT_DR_DATA_COMPL; OT_DR_DATA_ONE_OF;
    OT_DR_DATATYPE_RESTR ].
(** include/cowl_axiom_type.h:21-155 CowlAxiomType *)
Definition at_types : list otype :=
  [ OT_A_DECL; OT_A_SUB_CLASS; OT_A_EQUIV_CLASSES; OT_A_DISJ_CLASSES; OT_A_DISJ_UNION; OT_A_SUB_OBJ_PROP;
    OT_A_EQUIV_OBJ_PROP; OT_A_DISJ_OBJ_PROP; OT_A_INV_OBJ_PROP; OT_A_OBJ_PROP_DOMAIN; OT_A_OBJ_PROP_RANGE;
    OT_A_FUNC_OBJ_PROP; OT_A_INV_FUNC_OBJ_PROP; OT_A_REFL_OBJ_PROP; OT_A_IRREFL_OBJ_PROP; OT_A_SYMM_OBJ_PROP;
    OT_A_ASYMM_OBJ_PROP; OT_A_TRANS_OBJ_PROP; OT_A_SUB_DATA_PROP; OT_A_EQUIV_DATA_PROP; OT_A_DISJ_DATA_PROP;
    OT_A_DATA_PROP_DOMAIN; OT_A_DATA_PROP_RANGE; OT_A_FUNC_DATA_PROP; OT_A_DATATYPE_DEF; OT_A_HAS_KEY;
    OT_A_SAME_IND; OT_A_DIFF_IND; OT_A_CLASS_ASSERT; OT_A_OBJ_PROP_ASSERT; OT_A_NEG_OBJ_PROP_ASSERT;
    OT_A_DATA_PROP_ASSERT; OT_A_NEG_DATA_PROP_ASSERT; OT_A_ANNOT_ASSERT; OT_A_SUB_ANNOT_PROP;
    OT_A_ANNOT_PROP_DOMAIN; OT_A_ANNOT_PROP_RANGE ].
(** include/cowl_entity_type.h CowlEntityType *)
Definition et_types : list etype :=
  [ ET_CLASS; ET_DATATYPE; ET_OBJ_PROP; ET_DATA_PROP; ET_ANNOT_PROP; ET_NAMED_IND ].

Section Decode.
  (** Width of ulib_uint. *)
  Variable w : N.
  (** src/cowl_anon_ind.c:42-44 generate_id: the random identifier of the n-th individual made up. *)
  Variable anon_id : nat -> bytes.

  (** * Bytes and strings *)

  (** cowl_prt_decoder.c:82-92 read_bytes for one byte *)
  Definition read_byte : D (option N) := fun s =>
    if negb (d_ok s) then DRet None s else
    match d_in s with
    | [] => fail ERR_SYNTAX s
    | b :: r => DRet (Some b) (set_in r s)
    end.
  (** cowl_prt_decoder.c:82-92 read_bytes *)
  Definition read_bytes (n : N) : D (option bytes) := fun s =>
    if negb (d_ok s) then DRet None s else
    if N.of_nat (List.length (d_in s)) <? n then fail ERR_SYNTAX s
    else DRet (Some (firstn (N.to_nat n) (d_in s))) (set_in (skipn (N.to_nat n) (d_in s)) s).
  (** cowl_prt_decoder.c:94-110 read_varint: the 64-bit value is converted to ulib_uint *)
  Definition read_varint : D (option N) := fun s =>
    if negb (d_ok s) then DRet None s else
    match varint_read (d_in s) with
    | None => fail ERR_SYNTAX s
    | Some (n, r) => DRet (Some (n mod 2 ^ w)) (set_in r s)
    end.
  (** cowl_prt_decoder.c:112-127 read_svarint *)
  Definition read_svarint : D (option Z) := fun s =>
    if negb (d_ok s) then DRet None s else
    match varint_read (d_in s) with
    | None => fail ERR_SYNTAX s
    | Some (n, r) => DRet (Some (to_int w (unzigzag n))) (set_in r s)
    end.
  (** cowl_prt_decoder.c:138-141 handle_null *)
  Definition handle_null {A} (o : option A) : D (option A) :=
    match o with Some _ => dret o | None => fail ERR_MEM end.
  (** cowl_prt_decoder.c:197-223 decode_ustring, decode_string, decode_string_intern *)
  Definition decode_string : D (option bytes) :=
    do len <- read_varint;;
    match len with None => dret None | Some n => read_bytes n end.

  (** * Identifiers *)

  (** cowl_prt_decoder.c:225-236 get_id with cowl_prt_index.c:269-291 id_map_get *)
  Definition get_id (idx : N) : D (option obj) := fun s =>
    let count := N.of_nat (List.length (d_ids s)) in
    if idx <? count then DRet (nth_error (d_ids s) (N.to_nat idx)) s
    else if count <? idx then fail ERR_SYNTAX s
    else
      let a := OAnon (anon_id (d_fresh s)) in
      DRet (Some a)
        (mkD (d_in s) (d_code s) (d_ns s) (d_ids s ++ [a]) (S (d_fresh s)) (d_remove s) (d_log s)).
  (** cowl_prt_decoder.c:238-255 get_id_iri, get_iri *)
  Definition get_id_iri (idx : N) : D (option obj) :=
    do id <- get_id idx;;
    match id with
    | Some (OIri ns rem) => dret id
    | Some _ => fail ERR_SYNTAX
    | None => dret None
    end.
  (** cowl_prt_decoder.c:257-291 get_class, get_datatype, get_named_ind, get_obj_prop, get_data_prop, get_annot_prop *)
  Definition get_entity (e : etype) (idx : N) : D (option obj) :=
    do id <- get_id_iri idx;;
    match id with Some (OIri ns rem) => dret (Some (OEnt e ns rem)) | _ => dret None end.
  (** cowl_prt_decoder.c:293-297 get_individual *)
  Definition get_individual (idx : N) : D (option obj) :=
    do id <- get_id idx;;
    match id with Some (OIri ns rem) => dret (Some (OEnt ET_NAMED_IND ns rem)) | _ => dret id end.

  (** A varint followed by a lookup. *)
  Definition decode_with (get : N -> D (option obj)) : D (option obj) :=
    do v <- read_varint;;
    match v with None => dret None | Some n => get n end.
  (** cowl_prt_decoder.c:299-303 decode_iri *)
  Definition decode_iri : D (option obj) := decode_with get_id_iri.
  (** cowl_prt_decoder.c:305-309 decode_iri_or_anon *)
  Definition decode_iri_or_anon : D (option obj) := decode_with get_id.
  (** cowl_prt_decoder.c:311-324 decode_entity, 444-448 decode_annot_prop, 483-487 decode_obj_prop, 504-508
      decode_data_prop_exp, 519-523 decode_class, 658-662 decode_datatype *)
  Definition decode_entity (e : etype) : D (option obj) := decode_with (get_entity e).
  (** cowl_prt_decoder.c:477-481 decode_individual *)
  Definition decode_individual : D (option obj) := decode_with get_individual.

  (** * Literals *)

  (** Pointer result of cowl_literal. *)
  Definition literal_result (r : lres) : D (option obj) :=
    match r with
    | LObj o => dret (Some o)
    | LNull => fail ERR_MEM
    | LCrash => fun _ => DUB OT_LITERAL
    end.
  (** cowl_prt_decoder.c:326-336 decode_literal_typed *)
  Definition decode_literal_typed (value : option bytes) : D (option obj) :=
    do iri <- decode_iri;;
    match iri with
    | Some (OIri ns rem) => literal_result (cowl_literal value (DLDatatype ns rem))
    | _ => dret None
    end.
  (** cowl_prt_decoder.c:338-340 decode_literal_string *)
  Definition decode_literal_string (value : option bytes) : D (option obj) :=
    literal_result (cowl_literal value DLNull).
  (** cowl_prt_decoder.c:342-348 decode_literal_lang *)
  Definition decode_literal_lang (value : option bytes) : D (option obj) :=
    do lang <- decode_string;;
    match lang with
    | Some l => literal_result (cowl_literal value (DLLang l))
    | None => dret None
    end.
  (** cowl_prt_decoder.c:350-358 decode_literal_bool *)
  Definition decode_literal_bool : D (option bytes) :=
    do b <- read_byte;;
    match b with
    | Some 0 => dret (Some (bs "false"))
    | Some 1 => dret (Some (bs "true"))
    | _ => dret None
    end.
  (** cowl_prt_decoder.c:360-364 decode_literal_int *)
  Definition decode_literal_int : D (option bytes) :=
    do v <- read_svarint;;
    match v with Some z => dret (Some (show_int z)) | None => dret None end.
  (** cowl_prt_decoder.c:366-370 decode_literal_uint *)
  Definition decode_literal_uint : D (option bytes) :=
    do v <- read_varint;;
    match v with Some n => dret (Some (show_uint n)) | None => dret None end.
  (** cowl_prt_decoder.c:380-392 decode_literal_fixed_point *)
  Definition decode_literal_fixed_point : D (option bytes) :=
    do whole <- read_svarint;;
    match whole with
    | None => dret None
    | Some z =>
        do frac <- read_varint;;
        match frac with Some f => dret (Some (show_fixed_point z f)) | None => dret None end
    end.
  (** cowl_prt_decoder.c:394-408 decode_literal_e_notation *)
  Definition decode_literal_e_notation : D (option bytes) :=
    do whole <- read_svarint;;
    match whole with
    | None => dret None
    | Some z =>
        do frac <- read_varint;;
        match frac with
        | None => dret None
        | Some f =>
            do e <- read_svarint;;
            match e with Some x => dret (Some (show_e_notation z f x)) | None => dret None end
        end
    end.
  (** cowl_prt_decoder.c:410-421 decode_literal_value *)
  Definition decode_literal_value (fmt : N) : D (option bytes) :=
    match fmt with
    | 0 => decode_string
    | 2 => decode_literal_bool
    | 3 => decode_literal_int
    | 4 => decode_literal_uint
    | 5 => decode_literal_fixed_point
    | 6 => decode_literal_e_notation
    | _ => dret None
    end.
  (** cowl_prt_decoder.c:423-442 decode_literal: the type is the low two bits, the format four of the others;
      a type of 3 gives NULL without an error. *)
  Definition decode_literal : D (option obj) :=
    do header <- read_byte;;
    match header with
    | None => dret None
    | Some h =>
        do v <- decode_literal_value ((h mod 64) / 4);;
        do value <- handle_null v;;
        match h mod 4 with
        | 0 => decode_literal_string value
        | 1 => decode_literal_lang value
        | 2 => decode_literal_typed value
        | _ => dret None
        end
    end.

  (** * Vectors and constructors *)

  (** cowl_prt_decoder.c:183-186, the loop of decode_vector, and 191-195 on a NULL item *)
  Fixpoint vec_loop (fuel : nat) (item : D (option obj)) (n : N) : D (option (list obj)) :=
    if n =? 0 then dret (Some []) else
    match fuel with
    | O => fun _ => DFuel
    | S f =>
        do x <- item;;
        match x with
        | None => fail ERR_MEM
        | Some o => do r <- vec_loop f item (n - 1);; dret (option_map (cons o) r)
        end
    end.
  (** cowl_prt_decoder.c:175-195 decode_vector *)
  Definition decode_vector (fuel : nat) (item : D (option obj)) : D (option obj) :=
    do len <- read_varint;;
    match len with
    | None => dret None
    | Some n => do l <- vec_loop fuel item n;; dret (option_map (OVec false) l)
    end.

  (** Decoding the operands one after the other, whatever happens. *)
  Fixpoint dec_args (l : list (D (option obj))) : D (list (option obj)) :=
    match l with
    | [] => dret []
    | m :: l' => do x <- m;; do r <- dec_args l';; dret (x :: r)
    end.
  (** "if (decoder_ok(d)) o = constructor(operands)": cowl_get_impl (src/cowl_object.c:422-433) retains every
      operand, which dereferences it. *)
  Definition build (t : otype) (args : list (option obj)) (mk : list obj -> obj) : D (option obj) := fun s =>
    if d_ok s then match all_some args with Some fs => DRet (Some (mk fs)) s | None => DUB t end
    else DRet None s.
  (** A construct without optional part. *)
  Definition construct (t : otype) (l : list (D (option obj))) : D (option obj) :=
    do args <- dec_args l;; build t args (mk_plain t).

  (** cowl_prt_decoder.c:489-495 decode_inv_obj_prop *)
  Definition decode_inv_obj_prop : D (option obj) :=
    do p <- decode_entity ET_OBJ_PROP;;
    match p with None => dret None | Some x => dret (Some (mk_plain OT_OPE_INV_OBJ_PROP [x])) end.
  (** cowl_prt_decoder.c:497-502 decode_obj_prop_exp *)
  Definition decode_obj_prop_exp : D (option obj) :=
    decode_with (fun n => if n =? 0 then decode_inv_obj_prop else get_entity ET_OBJ_PROP (n - 1)).
  (** cowl_prt_decoder.c:510-517 decode_facet_restr *)
  Definition decode_facet_restr : D (option obj) :=
    do iri <- decode_iri;;
    do literal <- decode_literal;;
    match iri, literal with
    | Some i, Some l => dret (Some (mk_plain OT_FACET_RESTR [i; l]))
    | _, _ => dret None
    end.
  (** cowl_prt_decoder.c:450-454 decode_annot_value *)
  Definition decode_annot_value : D (option obj) :=
    decode_with (fun n => if n =? 0 then decode_literal else get_id (n - 1)).

  (** * Annotations *)

  (** cowl_prt_decoder.c:456-475 decode_annotation *)
  Fixpoint decode_annotation (fuel : nat) : D (option obj) :=
    match fuel with
    | O => fun _ => DFuel
    | S f =>
        do h <- read_varint;;
        match h with
        | None => dret None
        | Some has_no_annot =>
            do iri <- (if has_no_annot =? 0 then decode_iri else get_id_iri (has_no_annot - 1));;
            match iri with
            | Some (OIri ns rem) =>
                do value <- decode_annot_value;;
                match value with
                | None => fail ERR_MEM
                | Some v =>
                    if has_no_annot =? 0 then
                      do annots <- decode_vector f (decode_annotation f);;
                      match annots with
                      | None => fail ERR_MEM
                      | Some a => dret (Some (mk_annot OT_ANNOTATION [OEnt ET_ANNOT_PROP ns rem; v] (Some a)))
                      end
                    else dret (Some (mk_annot OT_ANNOTATION [OEnt ET_ANNOT_PROP ns rem; v] None))
                end
            | _ => fail ERR_MEM
            end
        end
    end.

  (** * Data ranges *)

  (** cowl_prt_decoder.c:697-716 decode_data_range, with 664-695 decode_nary_data, decode_data_compl,
      decode_data_one_of, decode_datatype_restr; unsigned arithmetic makes type - COUNT + 1 the same as type + 1 - COUNT *)
  Fixpoint decode_data_range (fuel : nat) : D (option obj) :=
    match fuel with
    | O => fun _ => DFuel
    | S f =>
        decode_with (fun type =>
          if DRT_COUNT - 1 <=? type then get_entity ET_DATATYPE (type + 1 - DRT_COUNT)
          else match nth_error drt_types (N.to_nat (type + 1)) with
               | Some ((OT_DR_DATA_INTERSECT | OT_DR_DATA_UNION) as t) =>
                   construct t [decode_vector f (decode_data_range f)]
               | Some (OT_DR_DATA_COMPL as t) => construct t [decode_data_range f]
               | Some (OT_DR_DATA_ONE_OF as t) => construct t [decode_vector f decode_literal]
               | Some (OT_DR_DATATYPE_RESTR as t) =>
                   construct t [decode_entity ET_DATATYPE; decode_vector f decode_facet_restr]
               | _ => fail ERR_SYNTAX
               end)
    end.

  (** * Class expressions *)

  (** cowl_prt_decoder.c:525-532 decode_obj_quant, 567-574 decode_data_quant *)
  Definition decode_quant (t : otype) (prop filler : D (option obj)) : D (option obj) :=
    do args <- dec_args [prop; filler];;
    (fun s =>
       if d_ok s then
         match args with
         | [Some p; f] => DRet (Some (mk_quant t p f)) s
         | _ => DUB t
         end
       else DRet None s).
  (** cowl_prt_decoder.c:534-548 decode_obj_card, 576-590 decode_data_card *)
  Definition decode_card (t : otype) (prop filler : D (option obj)) : D (option obj) :=
    do c <- read_varint;;
    match c with
    | None => dret None
    | Some n =>
        do p <- prop;;
        do f <- (if N.odd n then filler else dret None);;
        (fun s =>
           if d_ok s then
             match p with Some x => DRet (Some (mk_card t x (n / 2) f)) s | None => DUB t end
           else DRet None s)
    end.

  (** cowl_prt_decoder.c:625-656 decode_cls_exp, with 550-565 decode_obj_has_value, decode_obj_has_self, 592-623
      decode_data_has_value, decode_nary_cls_exp, decode_obj_compl, decode_obj_one_of (unsigned arithmetic as
      above) *)
  Fixpoint decode_cls_exp (fuel : nat) : D (option obj) :=
    match fuel with
    | O => fun _ => DFuel
    | S f =>
        decode_with (fun type =>
          if CET_COUNT - 1 <=? type then get_entity ET_CLASS (type + 1 - CET_COUNT)
          else match nth_error cet_types (N.to_nat (type + 1)) with
               | Some ((OT_CE_OBJ_SOME | OT_CE_OBJ_ALL) as t) =>
                   decode_quant t decode_obj_prop_exp (decode_cls_exp f)
               | Some ((OT_CE_OBJ_MIN_CARD | OT_CE_OBJ_MAX_CARD | OT_CE_OBJ_EXACT_CARD) as t) =>
                   decode_card t decode_obj_prop_exp (decode_cls_exp f)
               | Some (OT_CE_OBJ_HAS_VALUE as t) => construct t [decode_obj_prop_exp; decode_individual]
               | Some (OT_CE_OBJ_HAS_SELF as t) => construct t [decode_obj_prop_exp]
               | Some ((OT_CE_DATA_SOME | OT_CE_DATA_ALL) as t) =>
                   decode_quant t (decode_entity ET_DATA_PROP) (decode_data_range f)
               | Some ((OT_CE_DATA_MIN_CARD | OT_CE_DATA_MAX_CARD | OT_CE_DATA_EXACT_CARD) as t) =>
                   decode_card t (decode_entity ET_DATA_PROP) (decode_data_range f)
               | Some (OT_CE_DATA_HAS_VALUE as t) => construct t [decode_entity ET_DATA_PROP; decode_literal]
               | Some ((OT_CE_OBJ_INTERSECT | OT_CE_OBJ_UNION) as t) =>
                   construct t [decode_vector f (decode_cls_exp f)]
               | Some (OT_CE_OBJ_COMPL as t) => construct t [decode_cls_exp f]
               | Some (OT_CE_OBJ_ONE_OF as t) => construct t [decode_vector f decode_individual]
               | _ => fail ERR_SYNTAX
               end)
    end.

  (** * Axioms *)

  (** "has_annot ? decode_vector(d, annotation_item) : NULL" *)
  Definition decode_annots (fuel : nat) (has_annot : bool) : D (option obj) :=
    if has_annot then decode_vector fuel (decode_annotation fuel) else dret None.
  (** cowl_prt_decoder.c:718-1006: the shape of every function that decodes an axiom but
      decode_sub_obj_prop_axiom. *)
  Definition decode_annotated (fuel : nat) (has_annot : bool) (t : otype) (l : list (D (option obj))) :
    D (option obj) :=
    do args <- dec_args l;;
    do annot <- decode_annots fuel has_annot;;
    build t args (fun fs => mk_annot t fs annot).
  (** cowl_prt_decoder.c:893-913 decode_sub_obj_prop_axiom: no check of decoder_ok before the constructors;
      src/cowl_sub_obj_prop_axiom.c:15-19 sets the order bit of the chain. *)
  Definition decode_sub_obj_prop (fuel : nat) (has_u_bit has_annot : bool) : D (option obj) :=
    do sub <- (if has_u_bit then decode_vector fuel decode_obj_prop_exp else decode_obj_prop_exp);;
    do sup <- decode_obj_prop_exp;;
    do annot <- decode_annots fuel has_annot;;
    (fun s =>
       match sub, sup with
       | Some a, Some b =>
           let a' := if has_u_bit then match a with OVec _ l => OVec true l | _ => a end else a in
           DRet (Some (mk_annot OT_A_SUB_OBJ_PROP [a'; b] annot)) s
       | _, _ => DUB OT_A_SUB_OBJ_PROP
       end).

  (** The operands read by each function of cowl_prt_decoder.c:728-1006. *)
  Definition axiom_operands (fuel : nat) (t : otype) : option (list (D (option obj))) :=
    match t with
    | OT_A_DATATYPE_DEF => Some [decode_entity ET_DATATYPE; decode_data_range fuel]
    | OT_A_SUB_CLASS => Some [decode_cls_exp fuel; decode_cls_exp fuel]
    | OT_A_EQUIV_CLASSES | OT_A_DISJ_CLASSES => Some [decode_vector fuel (decode_cls_exp fuel)]
    | OT_A_DISJ_UNION => Some [decode_entity ET_CLASS; decode_vector fuel (decode_cls_exp fuel)]
    | OT_A_CLASS_ASSERT => Some [decode_cls_exp fuel; decode_individual]
    | OT_A_SAME_IND | OT_A_DIFF_IND => Some [decode_vector fuel decode_individual]
    | OT_A_OBJ_PROP_ASSERT | OT_A_NEG_OBJ_PROP_ASSERT =>
        Some [decode_obj_prop_exp; decode_individual; decode_individual]
    | OT_A_DATA_PROP_ASSERT | OT_A_NEG_DATA_PROP_ASSERT =>
        Some [decode_entity ET_DATA_PROP; decode_individual; decode_literal]
    | OT_A_INV_OBJ_PROP => Some [decode_obj_prop_exp; decode_obj_prop_exp]
    | OT_A_EQUIV_OBJ_PROP | OT_A_DISJ_OBJ_PROP => Some [decode_vector fuel decode_obj_prop_exp]
    | OT_A_FUNC_OBJ_PROP | OT_A_INV_FUNC_OBJ_PROP | OT_A_SYMM_OBJ_PROP | OT_A_ASYMM_OBJ_PROP
    | OT_A_TRANS_OBJ_PROP | OT_A_REFL_OBJ_PROP | OT_A_IRREFL_OBJ_PROP => Some [decode_obj_prop_exp]
    | OT_A_OBJ_PROP_DOMAIN | OT_A_OBJ_PROP_RANGE => Some [decode_obj_prop_exp; decode_cls_exp fuel]
    | OT_A_SUB_DATA_PROP => Some [decode_entity ET_DATA_PROP; decode_entity ET_DATA_PROP]
    | OT_A_EQUIV_DATA_PROP | OT_A_DISJ_DATA_PROP => Some [decode_vector fuel (decode_entity ET_DATA_PROP)]
    | OT_A_FUNC_DATA_PROP => Some [decode_entity ET_DATA_PROP]
    | OT_A_DATA_PROP_DOMAIN => Some [decode_entity ET_DATA_PROP; decode_cls_exp fuel]
    | OT_A_DATA_PROP_RANGE => Some [decode_entity ET_DATA_PROP; decode_data_range fuel]
    | OT_A_HAS_KEY =>
        Some [decode_cls_exp fuel; decode_vector fuel decode_obj_prop_exp;
              decode_vector fuel (decode_entity ET_DATA_PROP)]
    | OT_A_ANNOT_ASSERT => Some [decode_entity ET_ANNOT_PROP; decode_iri_or_anon; decode_annot_value]
    | OT_A_SUB_ANNOT_PROP => Some [decode_entity ET_ANNOT_PROP; decode_entity ET_ANNOT_PROP]
    | OT_A_ANNOT_PROP_DOMAIN | OT_A_ANNOT_PROP_RANGE => Some [decode_entity ET_ANNOT_PROP; decode_iri]
    | _ => None
    end.

  (** cowl_prt_decoder.c:1008-1067 decode_axiom; [header mod 64] is at least FIRST_AXIOM_FRAME where it is
      called *)
  Definition decode_axiom (fuel : nat) (header : N) : D (option obj) :=
    let type := header mod 64 - FIRST_AXIOM_FRAME in
    let has_annot := N.testbit header 6 in
    let has_u_bit := N.testbit header 7 in
    match nth_error et_types (N.to_nat type) with
    | Some e => decode_annotated fuel has_annot OT_A_DECL [decode_entity e]
    | None =>
        match nth_error at_types (N.to_nat (type - ET_COUNT + 1)) with
        | Some OT_A_SUB_OBJ_PROP => decode_sub_obj_prop fuel has_u_bit has_annot
        | Some t =>
            match axiom_operands fuel t with
            | Some l => decode_annotated fuel has_annot t l
            | None => fail ERR_SYNTAX
            end
        | None => fail ERR_SYNTAX
        end
    end.

  (** * Frames *)

  (** include/cowl_change_handler.h: the code the handler returns for the last of the given changes. A handler
      may keep any state; its answer is a function of the changes it has seen. *)
  Variable handler : list dchange -> ret.

  (** cowl_prt_decoder.c:73-80 decoder_handle_change *)
  Definition handle_change (p : dpart) : D unit := fun s =>
    let log := d_log s ++ [(if d_remove s then CHANGE_REMOVE else CHANGE_ADD, p)] in
    DRet tt (set_code (handler log)
               (mkD (d_in s) (d_code s) (d_ns s) (d_ids s) (d_fresh s) (d_remove s) log)).

  (** cowl_prt_decoder.c:1069-1075 decode_axiom_frame *)
  Definition decode_axiom_frame (fuel : nat) (header : N) : D unit := fun s =>
    if d_ok s then
      (do a <- decode_axiom fuel header;;
       match a with Some x => handle_change (DAxiom x) | None => dret tt end) s
    else DRet tt s.

  (** "for (i = 0; decoder_ok(d) && i < length; ++i)", with an item that may end the loop *)
  Fixpoint decl_loop (fuel : nat) (item : D bool) (n : N) : D unit := fun s =>
    if d_ok s && negb (n =? 0) then
      match fuel with
      | O => DFuel
      | S f => (do go <- item;; if (go : bool) then decl_loop f item (n - 1) else dret tt) s
      end
    else DRet tt s.
  (** "if (read_varint(d, &length)) return;" and the loop *)
  Definition decode_decls (fuel : nat) (item : D bool) : D unit :=
    do len <- read_varint;;
    match len with None => dret tt | Some n => decl_loop fuel item n end.

  (** cowl_prt_decoder.c:1077-1092 register_prefix_decl, decode_prefix_decl *)
  Definition decode_prefix_decl : D bool :=
    do prefix <- decode_string;;
    do ns <- decode_string;;
    match prefix, ns with
    | Some p, Some n =>
        do _ <- (fun s => DRet tt (set_ns (d_ns s ++ [n]) s));;
        do _ <- handle_change (DPrefix p n);;
        dret true
    | _, _ => dret true
    end.
  (** cowl_prt_decoder.c:1105-1109 *)
  Definition decode_ns_decl : D bool :=
    do ns <- decode_string;;
    match ns with
    | Some n =>
        do _ <- (fun s => DRet tt (set_ns (d_ns s ++ [n]) s));;
        do _ <- handle_error COWL_OK;;
        dret true
    | None => dret true
    end.
  (** cowl_prt_decoder.c:1120-1142 decode_iri_decl *)
  Definition decode_iri_decl : D bool :=
    do prefix <- read_varint;;
    match prefix with
    | None => dret true
    | Some p =>
        do string <- decode_string;;
        match string with
        | None => dret true
        | Some rem => fun s =>
            if p <? N.of_nat (List.length (d_ns s)) then
              match nth_error (d_ns s) (N.to_nat p) with
              | None => DRet true s
              | Some ns =>
                  let (n, r) := iri_of_parts ns rem in
                  DRet true (set_ids (d_ids s ++ [OIri n r]) s)
              end
            else DRet true (set_code ERR_SYNTAX s)
        end
    end.
  (** cowl_prt_decoder.c:1152-1161 decode_anon_decl *)
  Definition decode_anon_decl : D bool :=
    do string <- decode_string;;
    match string with
    | None => dret true
    | Some id => fun s => DRet true (set_ids (d_ids s ++ [OAnon id]) s)
    end.
  (** cowl_prt_decoder.c:1179-1196 decode_ontology_iri, decode_version_iri, decode_iri_version_frame *)
  Definition decode_iri_version (has_version : bool) : D unit :=
    do iri <- decode_iri;;
    do _ <- (match iri with Some i => handle_change (DIri i) | None => dret tt end);;
    if has_version then
      do version <- decode_iri;;
      match version with Some v => handle_change (DVersion v) | None => dret tt end
    else dret tt.
  (** cowl_prt_decoder.c:1201-1206 *)
  Definition decode_onto_annot (fuel : nat) : D bool :=
    do annot <- decode_annotation fuel;;
    match annot with Some a => do _ <- handle_change (DAnnot a);; dret true | None => dret false end.
  (** cowl_prt_decoder.c:1212-1217 *)
  Definition decode_import : D bool :=
    do import <- decode_iri;;
    match import with Some i => do _ <- handle_change (DImport i);; dret true | None => dret false end.
  (** cowl_prt_decoder.c:1228-1237 handle_reset_frame; cowl_prt_index.c:136-139 prefix_map_reset, 192-196
      id_map_reset *)
  Definition handle_reset (prefixes ids : bool) : D unit := fun s =>
    let s1 := if prefixes then set_code COWL_OK (set_ns (map fst standard_prefixes) s) else s in
    if prefixes && negb (d_ok s1) then DRet tt s1
    else DRet tt (if ids then set_code COWL_OK (set_ids [] s1) else s1).

  (** cowl_prt_decoder.c:1239-1267 decode_frame. The loops over declarations and the axioms get the bound
      [fuel]. *)
  Definition decode_frame (fuel : nat) : D bool := fun s =>
    match d_in s with
    | [] => DRet false s
    | h :: r =>
        let s := set_in r s in
        let go (m : D unit) := (do _ <- m;; dret true) s in
        match h mod 64 with
        | 0 => DRet true (set_remove false s)
        | 1 => DRet true (set_remove true s)
        | 2 => go (handle_reset (N.testbit h 6) (N.testbit h 7))
        | 3 => DRet false s
        | 4 => go (decode_decls fuel (if N.testbit h 6 then decode_prefix_decl else decode_ns_decl))
        | 5 => go (decode_decls fuel (if N.testbit h 6 then decode_iri_decl else decode_anon_decl))
        | 6 => go (decode_iri_version (N.testbit h 7))
        | 7 => go (decode_decls fuel decode_import)
        | 8 => go (decode_decls fuel (decode_onto_annot fuel))
        | _ => go (decode_axiom_frame fuel h)
        end
    end.
  (** cowl_prt_decoder.c:1269-1271 decode_frames; [fuel] bounds the loop, [inner] each frame *)
  Fixpoint decode_frames (fuel inner : nat) : D unit := fun s =>
    if d_ok s then
      match fuel with
      | O => DFuel
      | S f => (do go <- decode_frame inner;; if (go : bool) then decode_frames f inner else dret tt) s
      end
    else DRet tt s.
  (** cowl_prt_decoder.c:1273-1278 decode_header; COWL_PRT_FORMAT_VERSION = 1 *)
  Definition decode_header : D unit :=
    do h <- read_byte;;
    match h with
    | None => dret tt
    | Some v => if v =? 1 then dret tt else handle_error ERR_SYNTAX
    end.
  (** cowl_prt_decoder.c:34-42 decoder_init *)
  Definition d_init (input : bytes) : dst :=
    mkD input COWL_OK (map fst standard_prefixes) [] 0 false [].
  (** cowl_prt_decoder.c:1280-1294 read_ontology: the final state holds the return code and the changes. Every
      frame, item and nested construct takes at least one byte, so the bounds below are never reached (proved). *)
  Definition read_ontology (input : bytes) : dres unit :=
    (do _ <- decode_header;; decode_frames (S (List.length input)) (S (List.length input))) (d_init input).
End Decode.
