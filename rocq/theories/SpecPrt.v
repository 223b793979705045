(** Specification vocabulary for ProtocOWL: which literals survive a round trip, which objects can be stored,
    what a reader must be told. *)

From Coq Require Import NArith ZArith List Bool String.
From Verif Require Import Bytes ModelTypes ModelObject SpecObject SpecText ModelChange ModelPrtEncoder ModelPrtDecoder.
Import ListNotations.
Local Open Scope N_scope.

(** The two widths of ulib_uint: 32 bits, or 64 bits with COWL_HUGE. *)
Definition width (w : N) : Prop := w = 32 \/ w = 64.

(** * Numbers as texts *)

(** [d] is the decimal notation of [n], without superfluous zeros. *)
Definition nat_plain (d : bytes) (n : N) : Prop :=
  Forall is_digit d /\ dec_value d = n /\ (d = [48] \/ exists c r, d = c :: r /\ c <> 48).
(** [s] is the decimal notation of [z], without superfluous zeros and signs. *)
Definition int_plain (s : bytes) (z : Z) : Prop :=
  (exists n, nat_plain s n /\ z = Z.of_N n) \/
  (exists d n, s = 45 :: d /\ nat_plain d n /\ n <> 0 /\ z = (- Z.of_N n)%Z).
(** The signed integers of [w] bits. *)
Definition in_range (w : N) (z : Z) : Prop := (- 2 ^ (Z.of_N w - 1) <= z < 2 ^ (Z.of_N w - 1))%Z.

(** White space. *)
Definition white (c : N) : Prop := c = 32 \/ 9 <= c <= 13.
(** [s] is a text that C's strtol takes as the integer [z]: white space, an optional sign, digits. *)
Definition int_number (s : bytes) (z : Z) : Prop :=
  exists ws sign d, s = ws ++ sign ++ d /\ Forall white ws /\ d <> [] /\ Forall is_digit d /\
    ((sign = [] \/ sign = [43]) /\ z = Z.of_N (dec_value d) \/ sign = [45] /\ z = (- Z.of_N (dec_value d))%Z).
(** [s] is a number in fixed point or scientific notation ("E"), or an integer. *)
Inductive dec_number : bytes -> Prop :=
| dn_int s z : int_number s z -> dec_number s
| dn_fixed a z f : int_number a z -> f <> [] -> Forall is_digit f -> dec_number (a ++ 46 :: f)
| dn_exp a z f x y : int_number a z -> f <> [] -> Forall is_digit f -> int_number x y ->
    dec_number (a ++ 46 :: f ++ 69 :: x).

(** The texts of the compressed datatypes that a round trip preserves: shortest notation of a number that
    fits, or not a number. *)
Definition int_kept (w : N) (s : bytes) : Prop :=
  (exists z, int_plain s z /\ in_range w z) \/ (forall z, int_number s z -> ~ in_range w z).
Definition bool_kept (w : N) (s : bytes) : Prop := s = bs "true" \/ s = bs "false" \/ int_kept w s.
(** A fraction: its digits, read from the last to the first, are the notation of a number that fits. *)
Definition frac_plain (w : N) (f : bytes) : Prop := exists n, nat_plain (rev f) n /\ n < 2 ^ w.
Inductive dec_plain (w : N) : bytes -> Prop :=
| dp_int s z : int_plain s z -> in_range w z -> dec_plain w s
| dp_fixed a z f : int_plain a z -> in_range w z -> frac_plain w f -> dec_plain w (a ++ 46 :: f)
| dp_exp a z f x y : int_plain a z -> in_range w z -> frac_plain w f -> int_plain x y -> in_range w y ->
    dec_plain w (a ++ 46 :: f ++ 69 :: x).
Definition dec_kept (w : N) (s : bytes) : Prop := dec_plain w s \/ ~ dec_number s.

(** The datatypes whose values are compressed, by local name in the XML Schema namespace. *)
Definition xsd (ns rem : bytes) (names : list string) : Prop :=
  ns = bs "http://www.w3.org/2001/XMLSchema#" /\ In rem (map bs names).
Definition integer_names : list string :=
  [ "integer"; "int"; "unsignedInt"; "positiveInteger"; "negativeInteger"; "nonPositiveInteger";
    "nonNegativeInteger"; "long"; "unsignedLong"; "short"; "unsignedShort"; "byte"; "unsignedByte" ]%string.
Definition decimal_names : list string := [ "float"; "double"; "decimal" ]%string.

(** Values that survive, by datatype. *)
Definition value_kept (w : N) (ns rem v : bytes) : Prop :=
  (xsd ns rem ["boolean"%string] -> bool_kept w v) /\
  (xsd ns rem integer_names -> int_kept w v) /\
  (xsd ns rem decimal_names -> dec_kept w v).

(** The two datatypes that stand for language-tagged strings. *)
Definition lang_datatype (ns rem : bytes) : Prop :=
  ns = bs "http://www.w3.org/1999/02/22-rdf-syntax-ns#" /\ (rem = bs "langString" \/ rem = bs "PlainLiteral").

(** A text whose length fits ulib_uint. *)
Definition fits (w : N) (s : bytes) : Prop := N.of_nat (List.length s) < 2 ^ w.

(** The literals a round trip preserves: language-tagged ones (tags are lower case and not empty), and typed
    ones with such a value. *)
Definition literal_kept (w : N) (o : obj) : Prop :=
  match o with
  | OLang v l => l <> [] /\ Forall (fun c => ~ 65 <= c <= 90) l
  | OLit v ns rem => ~ lang_datatype ns rem /\ value_kept w ns rem v
  | _ => False
  end.

(** * Objects *)

(** The identifier of a primitive: the IRI of an entity, the IRI or anonymous individual itself. *)
Definition ident (p : obj) : obj := match p with OEnt _ ns rem => OIri ns rem | _ => p end.

(** The objects that can be stored: literals are preserved, texts and lists are not longer than
    ulib_uint can say, cardinalities leave one bit of ulib_uint free. *)
Inductive storable (w : N) : obj -> Prop :=
| st_iri ns rem : storable w (OIri ns rem)
| st_ent e ns rem : storable w (OEnt e ns rem)
| st_anon id : storable w (OAnon id)
| st_lit v ns rem : literal_kept w (OLit v ns rem) -> fits w v -> storable w (OLit v ns rem)
| st_lang v l : literal_kept w (OLang v l) -> fits w v -> fits w l -> storable w (OLang v l)
| st_vec ord l : N.of_nat (List.length l) < 2 ^ w -> Forall (storable w) l -> storable w (OVec ord l)
| st_comp t fs n : n < 2 ^ (w - 1) -> Forall (storable w) fs -> storable w (OComp t fs None n)
| st_comp_opt t fs p n : n < 2 ^ (w - 1) -> Forall (storable w) fs -> storable w p -> storable w (OComp t fs (Some p) n).

(** Writer and reader agree on the identifier of [p]: the number the writer emits for it is its position in the
    table of the reader, and there is room for the constants that the format adds to identifiers. *)
Definition agreed (w : N) (ids : list obj) (idx : obj -> idxr) (p : obj) : Prop :=
  exists i, idx p = IAt i /\ nth_error ids (N.to_nat i) = Some p /\ i + 17 < 2 ^ w.

(** * The reader *)

(** What a handler may be given: IRIs where IRIs are due, well-formed annotations and axioms. *)
Definition an_iri (o : obj) : Prop := exists ns rem, o = OIri ns rem.
Definition typed_part (p : dpart) : Prop :=
  match p with
  | DPrefix _ _ => True
  | DIri i | DVersion i | DImport i => an_iri i
  | DAnnot a => wt (SOne SAnnot) a = true
  | DAxiom a => is_axiom_object a
  end.
Definition typed_log (l : list dchange) : Prop := Forall (fun c => typed_part (snd c)) l.
(** No call of the handler follows one that returned an error. *)
Definition heeded (handler : list dchange -> ret) (l : list dchange) : Prop :=
  forall l1 c l2, l = l1 ++ c :: l2 -> l1 <> [] -> (0 <= handler l1)%Z.
(** The constructors that may be given NULL. *)
Definition null_sites : list otype :=
  [ OT_LITERAL; OT_CE_DATA_HAS_VALUE; OT_A_SUB_OBJ_PROP; OT_A_DATA_PROP_ASSERT; OT_A_NEG_DATA_PROP_ASSERT; OT_A_ANNOT_ASSERT ].
