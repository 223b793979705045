(** Concrete cases for the text properties. *)

From Coq Require Import NArith ZArith String List Bool Lia.
From Verif Require Import Bytes ModelTypes ModelObject ModelText SpecText ProofText ProofLiteral.
Import ListNotations.
Local Open Scope N_scope.

Lemma Forall_by (f : N -> bool) (P : N -> Prop) l : (forall x, f x = true -> P x) -> forallb f l = true -> Forall P l.
Proof. intros H E. rewrite forallb_forall in E. apply Forall_forall. auto. Qed.

Definition digitb (c : N) : bool := (48 <=? c) && (c <=? 57).
Lemma digitb_spec c : digitb c = true -> is_digit c.
Proof. unfold digitb, is_digit. rewrite andb_true_iff, !N.leb_le. auto. Qed.
Definition nameb (c : N) : bool := is_ncname_start_char c || is_ncname_non_start_char c.
Lemma nameb_spec c : nameb c = true -> name_char c.
Proof.
  unfold nameb, name_char. rewrite orb_true_iff, start_char_spec, non_start_char_spec. tauto.
Qed.

Definition ex_text : bytes := bs "http://ex.org/ns#Item-1".

Lemma ex_split : iri_from_string ex_text = Some (bs "http://ex.org/ns#", bs "Item-1") /\
                 iri_from_string (bs "http://x/a1b") = Some (bs "http://x/", bs "a1b") /\
                 iri_from_string (bs "http://x/12") = Some (bs "http://x/12", []) /\ iri_from_string [] = None.
Proof. vm_compute. repeat split. Qed.

Lemma parts_counterexample : exists p s iri, p ++ s <> [] /\ iri_of_parts p s = iri /\
  iri_from_string (p ++ s) <> Some iri /\
  exists iri', iri_from_string (p ++ s) = Some iri' /\ fst iri' ++ snd iri' = fst iri ++ snd iri.
Proof.
  exists (bs "http://x/a"), (bs "1b"), (bs "http://x/a1", bs "b"). vm_compute.
  split; [discriminate|]. split; [reflexivity|]. split; [discriminate|]. eexists. split; reflexivity.
Qed.

Lemma ex_suffix_ok : ~ name_continuation (bs "Item-1") /\ name_continuation (bs "1b").
Proof.
  split.
  - intros (c & r & H & Hn & _). vm_compute in H. injection H as <- _. apply Hn. unfold name_start. lia.
  - exists 49, (bs "b"). split; [reflexivity|]. split; [unfold name_start; lia|].
    apply (Forall_by nameb); [exact nameb_spec|reflexivity].
Qed.

Lemma ex_has_iri : has_iri_string (bs "http://ex.org/ns#", bs "Item-1") ex_text = true /\
                   has_iri_string (bs "http://ex.org/ns#", bs "Item-1") (bs "http://ex.org/ns#Item-2") = false.
Proof. vm_compute. split; reflexivity. Qed.

Lemma ex_literals : exists a b c, made a /\ made b /\ made c /\
  literal_lang (bs "ciao") (bs "IT") = LObj a /\ literal_lang (bs "ciao") (bs "it") = LObj b /\
  literal_plain (bs "ciao") = LObj c /\ cowl_equals a b = true /\ cowl_equals a c = false.
Proof.
  exists (OLang (bs "ciao") (bs "it")), (OLang (bs "ciao") (bs "it")), (OLit (bs "ciao") xsd_ns (bs "string")).
  split; [exact (made_lang (bs "ciao") (bs "IT") _ eq_refl)|].
  split; [exact (made_lang (bs "ciao") (bs "it") _ eq_refl)|].
  split; [exact (made_plain (bs "ciao") _ eq_refl)|].
  vm_compute. repeat split.
Qed.

Lemma crash_counterexample : exists v ns rem,
  ns = bs "http://www.w3.org/1999/02/22-rdf-syntax-ns#" /\ rem = bs "PlainLiteral" /\
  cowl_literal (Some v) (DLDatatype ns rem) = LCrash.
Proof. exists (bs "abc"), rdf_ns, (bs "PlainLiteral"). vm_compute. repeat split. Qed.

Lemma ex_tagged : tagged (bs "a@b@en") (bs "a@b") (bs "en").
Proof. split; [reflexivity|]. split; [discriminate|]. vm_compute. intros [H|[H|[]]]; discriminate. Qed.

Lemma ex_numbers : str_from_uint 1234567890 = Some (bs "1234567890") /\ str_from_uint 0 = Some (bs "0") /\
                   str_from_uint (2 ^ 32 - 1) = Some (bs "4294967295") /\ str_to_uint 32 (bs "0042") = 42.
Proof. vm_compute. repeat split. Qed.

Lemma wrap_counterexample : exists s, Forall is_digit s /\ dec_value s = 2 ^ 32 /\ str_to_uint 32 s = 0.
Proof.
  exists (bs "4294967296"). split; [|vm_compute; split; reflexivity].
  apply (Forall_by digitb); [exact digitb_spec|reflexivity].
Qed.

Lemma error_ambiguity : exists s t, Forall is_digit s /\ ~ Forall is_digit t /\ str_to_uint 32 s = str_to_uint 32 t.
Proof.
  exists (bs "4294967295"), (bs "12x"). split; [apply (Forall_by digitb); [exact digitb_spec|reflexivity]|].
  split; [|reflexivity].
  intros H. rewrite Forall_forall in H. assert (is_digit 120) as D by (apply H; right; right; left; reflexivity).
  unfold is_digit in D. lia.
Qed.

Lemma ex_reserved : option_map iri_is_reserved (iri_from_string (bs "http://www.w3.org/2001/XMLSchema#integer")) = Some true /\
  option_map iri_is_reserved (iri_from_string (bs "http://www.w3.org/2002/07/owl#1a")) = Some false /\
  is_reserved owl_thing = true.
Proof. vm_compute. auto. Qed.
