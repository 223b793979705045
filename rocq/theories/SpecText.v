(** Specification vocabulary for IRIs, literals and decimal numerals. *)

From Coq Require Import NArith String List Bool.
From Verif Require Import Bytes ModelTypes ModelObject ModelText.
Import ListNotations.
Local Open Scope N_scope.

(** XML name characters, byte-wise: ASCII letters, underscore and every non-ASCII byte start a name;
    digits, hyphen and dot may follow. *)
Definition name_start (c : N) : Prop := 65 <= c <= 90 \/ c = 95 \/ 97 <= c <= 122 \/ 128 <= c.
Definition name_char (c : N) : Prop := name_start c \/ c = 45 \/ c = 46 \/ 48 <= c <= 57.

(** A non-empty name. *)
Definition ncname (s : bytes) : Prop := exists c r, s = c :: r /\ name_start c /\ Forall name_char r.

(** [ns] and [rem] are the canonical namespace and remainder of the text [s]: the remainder is the
    longest suffix that is a name, or empty if there is none. *)
Definition canonical_split (s ns rem : bytes) : Prop :=
  s = ns ++ rem /\ (rem = [] \/ ncname rem) /\
  (forall u v, s = u ++ v -> ncname v -> (List.length v <= List.length rem)%nat).

(** ASCII lower case, by cases. *)
Definition lower_case (c c' : N) : Prop := (65 <= c <= 90 /\ c' = c + 32) \/ (~ 65 <= c <= 90 /\ c' = c).

(** Decimal numerals. *)
Definition is_digit (c : N) : Prop := 48 <= c <= 57.
(** Value of a numeral, most significant digit first. *)
Fixpoint dec_value_from (acc : N) (s : bytes) : N :=
  match s with [] => acc | c :: s' => dec_value_from (10 * acc + (c - 48)) s' end.
Definition dec_value (s : bytes) : N := dec_value_from 0 s.

(** The suffixes for which cowl_iri splits differently from cowl_iri_from_string. *)
Definition name_continuation (s : bytes) : Prop :=
  exists c r, s = c :: r /\ ~ name_start c /\ Forall name_char s.

(** Value strings carrying a language tag: split at the last [@], with a non-empty tag. *)
Definition tagged (v a b : bytes) : Prop := v = a ++ 64 :: b /\ b <> [] /\ ~ In 64 b.

(** Literals any constructor of src/cowl_literal.c can return. *)
Inductive made : obj -> Prop :=
| made_any v d o : cowl_literal v d = LObj o -> made o
| made_plain v o : literal_plain v = LObj o -> made o
| made_typed v ns rem o : literal_typed v ns rem = LObj o -> made o
| made_lang v l o : literal_lang v l = LObj o -> made o.

(** The namespaces of the reserved vocabulary of OWL 2. *)
Definition reserved_namespaces : list bytes :=
  [bs "http://www.w3.org/2002/07/owl#"; bs "http://www.w3.org/1999/02/22-rdf-syntax-ns#";
   bs "http://www.w3.org/2000/01/rdf-schema#"; bs "http://www.w3.org/2001/XMLSchema#"].

(** A text in the reserved vocabulary: a reserved namespace, alone or followed by a name. *)
Definition reserved_text (s : bytes) : Prop :=
  exists n r, In n reserved_namespaces /\ s = n ++ r /\ (r = [] \/ ncname r).
