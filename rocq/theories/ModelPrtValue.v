(** ProtocOWL: integers, strings and literal values as bytes.

    Models src/formats/protocowl/cowl_prt_constants.h, the value part of
    src/formats/protocowl/writer/cowl_prt_encoder.c:129-359 and the textual part of
    src/formats/protocowl/reader/cowl_prt_decoder.c:350-408. ulib is not part of the sources; what
    is assumed about its varints, number parsing and printing is stated here and in DESIGN.md. *)

From Coq Require Import NArith ZArith List Bool String.
From Verif Require Import Bytes ModelTypes ModelObject ModelText.
Import ListNotations.
Local Open Scope N_scope.

(** * Integers *)

(** ulib uostream_write_varint (assumption): LEB128, least significant group first; a 64-bit value has
    at most ten groups. *)
Fixpoint varint_groups (g : nat) (n : N) : bytes :=
  match g with
  | O => []
  | S g' => if n <? 128 then [n] else (n mod 128 + 128) :: varint_groups g' (n / 128)
  end.
(** ulib uostream_write_varint *)
Definition varint (n : N) : bytes := varint_groups 10 n.

(** ulib uistream_read_varint (assumption): fails at the end of the input and when ten groups do not
    end the number. *)
Fixpoint varint_read_groups (g : nat) (s : bytes) : option (N * bytes) :=
  match g with
  | O => None
  | S g' =>
      match s with
      | [] => None
      | b :: s' =>
          if b <? 128 then Some (b, s')
          else match varint_read_groups g' s' with
               | None => None
               | Some (n, r) => Some (b mod 128 + 128 * n, r)
               end
      end
  end.
(** ulib uistream_read_varint: the value is a 64-bit unsigned integer. *)
Definition varint_read (s : bytes) : option (N * bytes) :=
  match varint_read_groups 10 s with Some (n, r) => Some (n mod 2 ^ 64, r) | None => None end.

(** ulib uostream_write_svarint, uistream_read_svarint (assumption): zigzag. *)
Definition zigzag (z : Z) : N := if (z <? 0)%Z then Z.to_N (-2 * z - 1) else Z.to_N (2 * z).
(** ulib uistream_read_svarint *)
Definition unzigzag (n : N) : Z := if N.even n then Z.of_N (n / 2) else (- Z.of_N (n / 2) - 1)%Z.
(** ulib uostream_write_svarint *)
Definition svarint (z : Z) : bytes := varint (zigzag z).

(** C conversion of an integer to ulib_int, a two's complement type of [w] bits. *)
Definition to_int (w : N) (z : Z) : Z :=
  let m := (z mod 2 ^ Z.of_N w)%Z in
  if (m <? 2 ^ (Z.of_N w - 1))%Z then m else (m - 2 ^ Z.of_N w)%Z.

(** ulib ULIB_UINT_FMT, printf: decimal digits without leading zeros. *)
Definition show_uint (n : N) : bytes :=
  match digits_loop (S (N.to_nat (N.log2 n))) n with Some l => rev l | None => [] end.
(** ulib ULIB_INT_FMT, printf *)
Definition show_int (z : Z) : bytes :=
  if (z <? 0)%Z then 45 :: show_uint (Z.to_N (- z)) else show_uint (Z.to_N z).

(** C isdigit *)
Definition is_dec (c : N) : bool := (48 <=? c) && (c <=? 57).
(** C isspace *)
Definition is_space (c : N) : bool := (c =? 32) || ((9 <=? c) && (c <=? 13)).

(** The leading digits of a text, and the rest: the loop of
    src/formats/protocowl/writer/cowl_prt_encoder.c:229. *)
Fixpoint span_digits (s : bytes) : bytes * bytes :=
  match s with
  | c :: s' => if is_dec c then let (d, r) := span_digits s' in (c :: d, r) else ([], s)
  | [] => ([], [])
  end.
(** Leading white space dropped. *)
Fixpoint skip_space (s : bytes) : bytes :=
  match s with c :: s' => if is_space c then skip_space s' else s | [] => [] end.
(** Number denoted by digits. *)
Definition digits_value (d : bytes) : N := fold_left (fun n c => n * 10 + (c - 48)) d 0.

(** ulib ulib_str_to_int(s, &end, 10) (assumption: strtol for the type ulib_int): white space, a sign,
    digits; out of range values saturate. Result: the value, whether it is out of range, and the text at
    [end]; [None] if there are no digits (end == s). *)
Definition str_to_int (w : N) (s : bytes) : option (Z * bool * bytes) :=
  let s1 := skip_space s in
  let '(neg, s2) := match s1 with
                    | c :: s2 => if c =? 45 then (true, s2) else if c =? 43 then (false, s2) else (false, s1)
                    | [] => (false, s1)
                    end in
  let (d, r) := span_digits s2 in
  match d with
  | [] => None
  | _ :: _ =>
      let v := if (neg : bool) then (- Z.of_N (digits_value d))%Z else Z.of_N (digits_value d) in
      let lo := (- 2 ^ (Z.of_N w - 1))%Z in
      let hi := (2 ^ (Z.of_N w - 1) - 1)%Z in
      if (v <? lo)%Z then Some (lo, true, r)
      else if (hi <? v)%Z then Some (hi, true, r)
      else Some (v, false, r)
  end.

(** include/cowl_string.h:202-204 cowl_string_to_int, ulib ustring_to_int (assumption): the whole text must be
    a number in range. *)
Definition string_to_int (w : N) (s : bytes) : option Z :=
  match str_to_int w s with
  | Some (v, false, []) => Some v
  | _ => None
  end.

(** * Strings *)

(** src/formats/protocowl/writer/cowl_prt_encoder.c:129-144 uostream_write_prt_string *)
Definition prt_string (s : bytes) : bytes := varint (N.of_nat (List.length s)) ++ s.

(** * Literal values *)

(** src/formats/protocowl/cowl_prt_constants.h:23-31 CowlPRTLiteralValueFormat *)
Definition LVF_STRING : N := 0.
(** src/formats/protocowl/cowl_prt_constants.h:23-31 *)
Definition LVF_BOOL : N := 2.
(** src/formats/protocowl/cowl_prt_constants.h:23-31 *)
Definition LVF_INT : N := 3.
(** src/formats/protocowl/cowl_prt_constants.h:23-31 *)
Definition LVF_UINT : N := 4.
(** src/formats/protocowl/cowl_prt_constants.h:23-31 *)
Definition LVF_FIXED_POINT : N := 5.
(** src/formats/protocowl/cowl_prt_constants.h:23-31 *)
Definition LVF_E_NOTATION : N := 6.

(** src/formats/protocowl/writer/cowl_prt_encoder.c:282-287 CowlPRTDatatypeGroup *)
Inductive dgroup : Set := DG_STRING | DG_BOOL | DG_INT | DG_DEC.

(** src/formats/protocowl/writer/cowl_prt_encoder.c:325-330 int_dts; local names from src/cowl_xsd_vocab.c:36-100 *)
Definition int_dts : list bytes :=
  [ bs "integer"; bs "int"; bs "unsignedInt"; bs "positiveInteger"; bs "negativeInteger";
    bs "nonPositiveInteger"; bs "nonNegativeInteger"; bs "long"; bs "unsignedLong"; bs "short";
    bs "unsignedShort"; bs "byte"; bs "unsignedByte" ].
(** src/formats/protocowl/writer/cowl_prt_encoder.c:332 dec_dts *)
Definition dec_dts : list bytes := [ bs "float"; bs "double"; bs "decimal" ].
(** src/formats/protocowl/writer/cowl_prt_encoder.c:275-280 dt_in: pointer comparison with vocabulary entities. *)
Definition dt_in (ns rem : bytes) (l : list bytes) : bool :=
  bytes_eqb ns xsd_ns && existsb (bytes_eqb rem) l.
(** src/formats/protocowl/writer/cowl_prt_encoder.c:322-335 datatype_group *)
Definition datatype_group (ns rem : bytes) : dgroup :=
  if dt_in ns rem [bs "boolean"] then DG_BOOL
  else if dt_in ns rem int_dts then DG_INT
  else if dt_in ns rem dec_dts then DG_DEC
  else DG_STRING.

Section Width.
  (** Width in bits of ulib_uint and ulib_int. *)
  Variable w : N.

  (** src/formats/protocowl/writer/cowl_prt_encoder.c:176-183 encode_literal_int: format and bytes. *)
  Definition literal_int (v : Z) : N * bytes :=
    if (v <? 0)%Z then (LVF_INT, svarint v) else (LVF_UINT, varint (Z.to_N v)).
  (** src/formats/protocowl/writer/cowl_prt_encoder.c:185-188 encode_literal_maybe_int *)
  Definition literal_maybe_int (s : bytes) : N * bytes :=
    match string_to_int w s with None => (LVF_STRING, []) | Some v => literal_int v end.
  (** src/formats/protocowl/writer/cowl_prt_encoder.c:190-210 bool_value, encode_literal_maybe_bool *)
  Definition literal_maybe_bool (s : bytes) : N * bytes :=
    if bytes_eqb s (bs "true") then (LVF_BOOL, [1])
    else if bytes_eqb s (bs "false") then (LVF_BOOL, [0])
    else literal_maybe_int s.
  (** src/formats/protocowl/writer/cowl_prt_encoder.c:226-237 parse_uint_reverse: the digits [d] read from the
      last to the first, in ulib_uint arithmetic. *)
  Definition digits_value_reverse (d : bytes) : N :=
    fold_left (fun n c => (n * 10 + (c - 48)) mod 2 ^ w) (rev d) 0.
  (** src/formats/protocowl/writer/cowl_prt_encoder.c:212-217 encode_literal_fixed_point *)
  Definition fixed_point (whole : Z) (frac : N) : bytes := svarint whole ++ varint frac.
  (** src/formats/protocowl/writer/cowl_prt_encoder.c:239-273 encode_literal_maybe_dec. Simplification: isdigit
      is also defined on the negative values of char (bytes above 127). *)
  Definition literal_maybe_dec (s : bytes) : N * bytes :=
    match str_to_int w s with
    | None => (LVF_STRING, [])
    | Some (whole, _, []) => literal_int whole
    | Some (whole, _, c :: s1) =>
        if negb (c =? 46) then (LVF_STRING, []) else
        let (d, r) := span_digits s1 in
        match d, r with
        | [], _ => (LVF_STRING, [])
        | _, [] => (LVF_FIXED_POINT, fixed_point whole (digits_value_reverse d))
        | _, c2 :: s2 =>
            if negb (c2 =? 69) then (LVF_STRING, []) else
            match str_to_int w s2 with
            | Some (e, _, []) => (LVF_E_NOTATION, fixed_point whole (digits_value_reverse d) ++ svarint e)
            | _ => (LVF_STRING, [])
            end
        end
    end.
  (** src/formats/protocowl/writer/cowl_prt_encoder.c:302-307, the switch of encode_literal_header_value *)
  Definition literal_payload (g : dgroup) (s : bytes) : N * bytes :=
    match g with
    | DG_BOOL => literal_maybe_bool s
    | DG_INT => literal_maybe_int s
    | DG_DEC => literal_maybe_dec s
    | DG_STRING => (LVF_STRING, [])
    end.
  (** src/formats/protocowl/writer/cowl_prt_encoder.c:289-320 encode_literal_header_value: header byte and
      value. The format is shifted by COWL_PRT_VALUE_FORMAT_OFFSET = 2. *)
  Definition literal_header_value (type : N) (g : dgroup) (s : bytes) : bytes :=
    let (fmt, payload) := literal_payload g s in
    if fmt =? LVF_STRING then type :: prt_string s else (type + fmt * 4) :: payload.
End Width.

(** src/formats/protocowl/reader/cowl_prt_decoder.c:372-379 buf_append_fixed_point *)
Definition show_fixed_point (whole : Z) (frac : N) : bytes :=
  show_int whole ++ [46] ++ rev (show_uint frac).
(** src/formats/protocowl/reader/cowl_prt_decoder.c:395-402 *)
Definition show_e_notation (whole : Z) (frac : N) (e : Z) : bytes :=
  show_fixed_point whole frac ++ [69] ++ show_int e.
