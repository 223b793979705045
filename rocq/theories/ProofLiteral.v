(** Proofs about literal constructors and getters (C18, C19). *)

From Coq Require Import NArith ZArith String List Bool Lia.
From Verif Require Import Bytes ModelTypes ModelObject ModelText SpecText ProofObject ProofText.
Import ListNotations.
Local Open Scope N_scope.

Definition is_lit (o : obj) : Prop := match o with OLit _ _ _ | OLang _ _ => True | _ => False end.

Lemma string_alloc_lit v o : literal_string v = LObj o -> is_lit o.
Proof. intros [= <-]. exact I. Qed.

Lemma lang_alloc_lit v l o : literal_lang_alloc v l = LObj o -> is_lit o.
Proof.
  unfold literal_lang_alloc. destruct (Nat.eqb _ _); [apply string_alloc_lit|]. intros [= <-]. exact I.
Qed.

Lemma made_lit o : made o -> is_lit o.
Proof.
  intros H; destruct H as [v d o H|v o H|v ns rem o H|v l o H].
  - destruct v as [v|]; [|discriminate]. destruct d as [|l|ns rem]; simpl in H.
    + eapply string_alloc_lit; eauto.
    + eapply lang_alloc_lit; eauto.
    + destruct (is_lang_datatype ns rem).
      * unfold literal_parse_lang_alloc in H. destruct (parse_lang v) as [a [b|]]; [|discriminate].
        injection H as <-. exact I.
      * injection H as <-. exact I.
  - eapply string_alloc_lit; eauto.
  - injection H as <-. exact I.
  - eapply lang_alloc_lit; eauto.
Qed.

Theorem literal_equality a b : made a -> made b ->
  (cowl_equals a b = true <->
   literal_get_value a = literal_get_value b /\ literal_get_datatype a = literal_get_datatype b /\
   literal_get_lang a = literal_get_lang b).
Proof.
  intros Ha%made_lit Hb%made_lit.
  destruct a; try contradiction; destruct b; try contradiction;
    unfold cowl_equals; simpl; rewrite ?andb_true_iff, ?bytes_eqb_eq.
  - split; [intros ((-> & ->) & ->); auto|]. intros (-> & [= -> ->] & _). auto.
  - split; [discriminate|]. intros (_ & _ & [=]).
  - split; [discriminate|]. intros (_ & _ & [=]).
  - split; [intros (-> & ->); auto|]. intros (-> & _ & [= ->]). auto.
Qed.

Theorem plain_getters v : exists o, literal_plain v = LObj o /\ cowl_literal (Some v) DLNull = LObj o /\
  literal_get_value o = v /\
  literal_get_datatype o = OEnt ET_DATATYPE (bs "http://www.w3.org/2001/XMLSchema#") (bs "string") /\
  literal_get_lang o = None.
Proof. exists (OLit v xsd_ns xsd_string_rem). repeat split. Qed.

Theorem typed_getters v ns rem : exists o, literal_typed v ns rem = LObj o /\
  literal_get_value o = v /\ literal_get_datatype o = OEnt ET_DATATYPE ns rem /\ literal_get_lang o = None.
Proof. exists (OLit v ns rem). repeat split. Qed.

Lemma is_lang_datatype_spec ns rem : is_lang_datatype ns rem = true <->
  ns = bs "http://www.w3.org/1999/02/22-rdf-syntax-ns#" /\ (rem = bs "langString" \/ rem = bs "PlainLiteral").
Proof.
  unfold is_lang_datatype. rewrite orb_true_iff.
  unfold rdf_lang_string, rdf_plain_literal, prim_eqb.
  change (otype_eqb (etype_otype ET_DATATYPE) (etype_otype ET_DATATYPE)) with true.
  rewrite !andb_true_iff, !bytes_eqb_eq. unfold rdf_ns. intuition.
Qed.

Theorem datatype_getters v ns rem :
  ~ (ns = bs "http://www.w3.org/1999/02/22-rdf-syntax-ns#" /\ (rem = bs "langString" \/ rem = bs "PlainLiteral")) ->
  exists o, cowl_literal (Some v) (DLDatatype ns rem) = LObj o /\
  literal_get_value o = v /\ literal_get_datatype o = OEnt ET_DATATYPE ns rem /\ literal_get_lang o = None.
Proof.
  intros H. exists (OLit v ns rem). simpl.
  destruct (is_lang_datatype ns rem) eqn:E; [apply is_lang_datatype_spec in E; contradiction|]. repeat split.
Qed.

Theorem lang_getters v l : l <> [] -> exists o l', literal_lang v l = LObj o /\ cowl_literal (Some v) (DLLang l) = LObj o /\
  literal_get_value o = v /\
  literal_get_datatype o = OEnt ET_DATATYPE (bs "http://www.w3.org/1999/02/22-rdf-syntax-ns#") (bs "langString") /\
  literal_get_lang o = Some l' /\ Forall2 lower_case l l'.
Proof.
  intros H. exists (OLang v (to_lower l)), (to_lower l).
  unfold cowl_literal, literal_lang, literal_lang_alloc. rewrite internalize_lang_lower.
  destruct l; [contradiction|]. simpl Nat.eqb. repeat split. apply to_lower_spec.
Qed.

Theorem empty_tag v : literal_lang v [] = literal_plain v /\ cowl_literal (Some v) (DLLang []) = literal_plain v.
Proof. split; reflexivity. Qed.

Theorem lang_datatype_outcome ns rem v :
  ns = bs "http://www.w3.org/1999/02/22-rdf-syntax-ns#" -> rem = bs "langString" \/ rem = bs "PlainLiteral" ->
  (exists a b, tagged v a b /\ exists o l, cowl_literal (Some v) (DLDatatype ns rem) = LObj o /\
     literal_get_value o = a /\ literal_get_lang o = Some l /\ Forall2 lower_case b l /\
     literal_get_datatype o = OEnt ET_DATATYPE (bs "http://www.w3.org/1999/02/22-rdf-syntax-ns#") (bs "langString")) \/
  ((~ exists a b, tagged v a b) /\ cowl_literal (Some v) (DLDatatype ns rem) = LCrash).
Proof.
  intros Hn Hr. assert (E : is_lang_datatype ns rem = true) by (apply is_lang_datatype_spec; auto).
  unfold cowl_literal. rewrite E. unfold literal_parse_lang_alloc.
  pose proof (parse_lang_spec v) as P. destruct (parse_lang v) as [a [l|]].
  - destruct P as (b & Ht & ->). left. exists a, b. split; auto. exists (OLang a (to_lower b)), (to_lower b).
    repeat split. apply to_lower_spec.
  - right. destruct P. auto.
Qed.
