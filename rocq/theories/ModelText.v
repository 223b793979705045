(** IRIs, literals and decimal conversion as functions on byte strings.

    Models src/cowl_xml_utils.c, the text-level part of src/cowl_iri.c, src/cowl_string.c,
    src/cowl_literal.c, src/cowl_object.c:237-260 and src/cowl_cstring.c. Memory allocation is
    assumed to succeed. *)

From Coq Require Import NArith ZArith List Bool String.
From Verif Require Import Bytes ModelTypes ModelObject.
Import ListNotations.
Local Open Scope N_scope.

(** * Namespace splitting *)

(** src/cowl_xml_utils.c:12-13 IS_NCNAME_START_CHAR *)
Definition is_ncname_start_char (c : N) : bool :=
  ((65 <=? c) && (c <=? 90)) || (c =? 95) || ((97 <=? c) && (c <=? 122)) || (128 <=? c).

(** src/cowl_xml_utils.c:15 IS_NCNAME_NON_START_CHAR *)
Definition is_ncname_non_start_char (c : N) : bool :=
  (c =? 45) || (c =? 46) || ((48 <=? c) && (c <=? 57)).

(** src/cowl_xml_utils.c:23-30, the loop of cowl_xml_ns_length: [i] bytes are still unread. *)
Fixpoint ns_scan (s : bytes) (i ns_length : nat) : nat :=
  match i with
  | O => ns_length
  | S i' =>
      let ch := nth i' s 0 in
      if is_ncname_start_char ch then ns_scan s i' i'
      else if negb (is_ncname_non_start_char ch) then ns_length
      else ns_scan s i' ns_length
  end.

(** src/cowl_xml_utils.c:17-33 cowl_xml_ns_length *)
Definition xml_ns_length (s : bytes) : nat := ns_scan s (List.length s) (List.length s).

(** src/cowl_string.c:120-149 cowl_string_get_ns_rem: the two parts as texts. *)
Definition string_get_ns_rem (s : bytes) (ns_length : nat) : bytes * bytes :=
  if Nat.ltb ns_length (List.length s) then (firstn ns_length s, skipn ns_length s)
  else (s, []).

(** ulib ustring_size: length plus terminator (assumption about ulib). *)
Definition ustring_size (s : bytes) : nat := S (List.length s).

(** src/cowl_iri.c:147-158 cowl_iri_from_string: the namespace and remainder of the resulting IRI,
    [None] for NULL. cowl_iri_unvalidated (lines 67-89) looks up or creates the object with
    exactly these two texts. *)
Definition iri_from_string (s : bytes) : option (bytes * bytes) :=
  if Nat.leb (ustring_size s) 1 then None
  else Some (string_get_ns_rem s (xml_ns_length s)).

(** src/cowl_iri.c:91-145 cowl_iri, on non-NULL arguments. *)
Definition iri_of_parts (prefix suffix : bytes) : bytes * bytes :=
  let s_ns_len := xml_ns_length suffix in
  if Nat.ltb 0 s_ns_len then (prefix ++ firstn s_ns_len suffix, skipn s_ns_len suffix)
  else
    let p_ns_len := xml_ns_length prefix in
    if Nat.ltb p_ns_len (List.length prefix)
    then (firstn p_ns_len prefix, skipn p_ns_len prefix ++ suffix)
    else (prefix, suffix).

(** src/cowl_object.c:248-260 cowl_has_iri_string on an object with the given IRI. *)
Definition has_iri_string (iri : bytes * bytes) (s : bytes) : bool :=
  let (ns, rem) := iri in
  if negb (Nat.eqb (List.length s) (List.length ns + List.length rem)) then false
  else if negb (ends_with s rem) then false
  else starts_with s ns.

(** src/cowl_vocab.c:64-69 cowl_vocab_is_reserved_ns, src/cowl_iri.c:168-170 cowl_iri_is_reserved *)
Definition iri_is_reserved (iri : bytes * bytes) : bool :=
  bytes_eqb (fst iri) owl_ns || bytes_eqb (fst iri) rdf_ns ||
  bytes_eqb (fst iri) rdfs_ns || bytes_eqb (fst iri) xsd_ns.

(** src/cowl_object.c:339-342 cowl_is_reserved; src/cowl_entity.c:135-137 cowl_entity_is_reserved is
    the same function on entities. *)
Definition is_reserved (o : obj) : bool :=
  match get_iri o with Some (OIri ns rem) => iri_is_reserved (ns, rem) | _ => false end.

(** * Literals *)

(** ulib ulib_str_to_lower / ustring_to_lower: ASCII lower case. *)
Definition to_lower_char (c : N) : N := if (65 <=? c) && (c <=? 90) then c + 32 else c.
(** ulib ustring_to_lower *)
Definition to_lower (s : bytes) : bytes := map to_lower_char s.
(** ulib ustring_is_lower: no byte would change. *)
Definition is_lower (s : bytes) : bool := bytes_eqb (to_lower s) s.

(** ulib ustring_index_of_last: index of the last occurrence, the length if there is none. *)
Fixpoint index_of_last (s : bytes) (c : N) : option nat :=
  match s with
  | [] => None
  | x :: s' => match index_of_last s' c with
               | Some i => Some (S i)
               | None => if x =? c then Some O else None
               end
  end.

(** ulib ustring_index_of: index of the first occurrence, the length if there is none. *)
Fixpoint index_of (s : bytes) (c : N) : nat :=
  match s with
  | [] => O
  | x :: s' => if x =? c then O else S (index_of s' c)
  end.

(** src/cowl_literal.c:31-57 parse_lang: value and language tag, [None] for a NULL tag. *)
Definition parse_lang (value : bytes) : bytes * option bytes :=
  let val_len := List.length value in
  let last := match index_of_last value 64 with Some i => i | None => val_len end in
  let lang_idx := (last + 1)%nat in
  if Nat.leb val_len lang_idx then (value, None)
  else (firstn (lang_idx - 1) value, Some (to_lower (skipn lang_idx value))).

(** src/cowl_literal.c:59-73 internalize_lang, as a text *)
Definition internalize_lang (lang : bytes) : bytes := if is_lower lang then lang else to_lower lang.

(** Result of a literal constructor: an object, NULL, or a NULL pointer dereference
    (cowl_get_impl retains a NULL field, src/cowl_object.c:428,157-160). *)
Inductive lres : Type :=
| LObj (o : obj)
| LNull
| LCrash.

(** src/cowl_rdf_vocab.c vocab.dt.plain_literal *)
Definition rdf_plain_literal : obj := OEnt ET_DATATYPE rdf_ns (bs "PlainLiteral").
(** src/cowl_xsd_vocab.c vocab.dt.string *)
Definition xsd_string_rem : bytes := bs "string".

(** src/cowl_literal.c:86-88 cowl_literal_string_alloc *)
Definition literal_string (value : bytes) : lres := LObj (OLit value xsd_ns xsd_string_rem).

(** src/cowl_literal.c:90-96 cowl_literal_lang_alloc *)
Definition literal_lang_alloc (value lang : bytes) : lres :=
  if Nat.eqb (List.length lang) 0 then literal_string value
  else LObj (OLang value (internalize_lang lang)).

(** src/cowl_literal.c:98-105 cowl_literal_parse_lang_alloc *)
Definition literal_parse_lang_alloc (value : bytes) : lres :=
  match parse_lang value with
  | (_, None) => LCrash
  | (v, Some lang) => LObj (OLang v lang)
  end.

(** src/cowl_literal.c:75-78 is_lang_datatype (pointer comparison with two vocabulary entities) *)
Definition is_lang_datatype (ns rem : bytes) : bool :=
  prim_eqb (OEnt ET_DATATYPE ns rem) rdf_lang_string || prim_eqb (OEnt ET_DATATYPE ns rem) rdf_plain_literal.

(** Second argument of cowl_literal: NULL, a language tag or a datatype. *)
Inductive dt_or_lang : Type :=
| DLNull
| DLLang (l : bytes)
| DLDatatype (ns rem : bytes).

(** src/cowl_literal.c:117-124 cowl_literal *)
Definition cowl_literal (value : option bytes) (d : dt_or_lang) : lres :=
  match value with
  | None => LNull
  | Some v =>
      match d with
      | DLNull => literal_string v
      | DLLang l => literal_lang_alloc v l
      | DLDatatype ns rem =>
          if is_lang_datatype ns rem then literal_parse_lang_alloc v else LObj (OLit v ns rem)
      end
  end.

(** src/cowl_literal.c:126-132 cowl_literal_plain *)
Definition literal_plain (v : bytes) : lres := literal_string v.
(** src/cowl_literal.c:134-140 cowl_literal_typed *)
Definition literal_typed (v ns rem : bytes) : lres := LObj (OLit v ns rem).
(** src/cowl_literal.c:142-158 cowl_literal_lang *)
Definition literal_lang (v lang : bytes) : lres := literal_lang_alloc v lang.

(** src/cowl_literal.c:165-167 cowl_literal_get_value *)
Definition literal_get_value (o : obj) : bytes :=
  match o with OLit v _ _ => v | OLang v _ => v | _ => [] end.
(** src/cowl_literal.c:160-163 cowl_literal_get_datatype *)
Definition literal_get_datatype (o : obj) : obj :=
  match o with OLit _ ns rem => OEnt ET_DATATYPE ns rem | _ => rdf_lang_string end.
(** src/cowl_literal.c:169-172 cowl_literal_get_lang *)
Definition literal_get_lang (o : obj) : option bytes :=
  match o with OLang _ l => Some l | _ => None end.

(** * Decimal conversion *)

(** src/cowl_cstring.c:16-19: the digits, least significant first. Fuel: one unit per digit;
    [None] when it runs out. *)
Fixpoint digits_loop (fuel : nat) (n : N) : option bytes :=
  match fuel with
  | O => None
  | S f =>
      let c := (n mod 10) + 48 in
      let n' := n / 10 in
      if n' =? 0 then Some [c]
      else match digits_loop f n' with Some l => Some (c :: l) | None => None end
  end.

(** Writes [c] at index [i] of a buffer. *)
Fixpoint set_nth (l : bytes) (i : nat) (c : N) : bytes :=
  match l, i with
  | [], _ => []
  | _ :: l', O => c :: l'
  | x :: l', S i' => x :: set_nth l' i' c
  end.

(** src/cowl_cstring.c:24-28: in-place reversal; [lo] is the index of buf, [hi] that of cur, and
    [fuel] bounds the iterations by the buffer length (each iteration decreases cur). *)
Fixpoint reverse_loop (fuel : nat) (l : bytes) (lo hi : nat) : bytes :=
  match fuel with
  | O => l
  | S f =>
      if Nat.ltb lo hi then
        let hi' := (hi - 1)%nat in
        let tmp := nth hi' l 0 in
        let l1 := set_nth l hi' (nth lo l 0) in
        let l2 := set_nth l1 lo tmp in
        reverse_loop f l2 (S lo) hi'
      else l
  end.

(** src/cowl_cstring.c:13-31 cowl_str_from_uint: the text written (without terminator). *)
Definition str_from_uint (n : N) : option bytes :=
  match digits_loop (S (N.to_nat (N.log2 n))) n with
  | None => None
  | Some l => Some (reverse_loop (S (List.length l)) l 0 (List.length l))
  end.

(** src/cowl_cstring.c:33-42 cowl_str_to_uint; ulib_uint has [2^w] values. *)
Fixpoint str_to_uint_loop (w : N) (s : bytes) (res : N) : N :=
  match s with
  | [] => res
  | c :: s' =>
      if (c <? 48) || (57 <? c) then 2 ^ w - 1
      else str_to_uint_loop w s' ((res * 10 + (c - 48)) mod 2 ^ w)
  end.
(** src/cowl_cstring.c:33-42 cowl_str_to_uint *)
Definition str_to_uint (w : N) (s : bytes) : N := str_to_uint_loop w s 0.
