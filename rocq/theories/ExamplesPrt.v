(** Concrete cases and counterexamples about ProtocOWL. *)

From Coq Require Import String NArith ZArith List Bool Lia.
From Verif Require Import Bytes ModelTypes ModelObject ModelText SpecObject SpecText ProofObject ProofIter
  ModelChange ModelPrtValue ModelPrtEncoder ModelPrtDecoder SpecPrt ProofPrtValue ProofPrtRead ProofPrtAxiom ProofPrtSafe ProofPrtCodec.
Import ListNotations.
Local Open Scope N_scope.

(** * Literals *)

Definition px_dt (name : string) : obj := OIri xsd_ns (bs name).
(** A writer and a reader that know the datatypes of the examples. *)
Definition px_ids : list obj := [px_dt "integer"; px_dt "decimal"; px_dt "boolean"; OIri rdf_ns (bs "PlainLiteral")].
Definition px_idx (o : obj) : idxr :=
  if prim_eqb o (px_dt "integer") then IAt 0 else if prim_eqb o (px_dt "decimal") then IAt 1
  else if prim_eqb o (px_dt "boolean") then IAt 2 else if prim_eqb o (OIri rdf_ns (bs "PlainLiteral")) then IAt 3 else IMissing.
Definition px_anon (n : nat) : bytes := bs "anon".
Definition px_state (b : bytes) : dst := mkD b COWL_OK [] px_ids 0 false [].

(** The literal that is read back for a typed literal. *)
Definition px_trip (w : N) (o o' : obj) : Prop :=
  exists b, encode_literal w px_idx o = Some (b, false) /\
    decode_literal w px_anon (px_state b) = DRet (Some o') (px_state []).
Ltac px_bytes e := let v := eval vm_compute in e in match v with Some (?b, _) => exists b end; split; vm_compute; reflexivity.
Ltac px_trip_tac := match goal with |- px_trip ?w ?o _ => px_bytes (encode_literal w px_idx o) end.

Definition px_lit (v name : string) : obj := OLit (bs v) xsd_ns (bs name).

Lemma px_agreed name i : px_idx (px_dt name) = IAt i -> nth_error px_ids (N.to_nat i) = Some (px_dt name) -> i < 100 -> agreed 32 px_ids px_idx (px_dt name).
Proof. intros A B C. exists i. split; auto. split; auto. change (2 ^ 32) with 4294967296. lia. Qed.

(** "-12"^^xsd:integer is kept. *)
Lemma px_int_kept : value_kept 32 xsd_ns (bs "integer") (bs "-12").
Proof. apply back_kept; [now left|]. vm_compute. reflexivity. Qed.
Lemma px_int_number : int_number (bs " +0042") 42.
Proof.
  exists [32], [43], (bs "0042"). split; [reflexivity|]. split; [constructor; [now left|constructor]|]. split; [discriminate|].
  split; [|left; split; auto; vm_compute; reflexivity]. repeat (apply Forall_cons; [split; vm_compute; discriminate|]). constructor.
Qed.
(** "3.25"^^xsd:decimal and "yes"^^xsd:decimal are kept, "-0.5"^^xsd:decimal is not. *)
Lemma px_dec_kept : value_kept 32 xsd_ns (bs "decimal") (bs "3.25") /\ value_kept 32 xsd_ns (bs "decimal") (bs "yes") /\
  ~ value_kept 32 xsd_ns (bs "decimal") (bs "-0.5").
Proof.
  split; [|split]; rewrite <- back_kept by (now left); vm_compute; try reflexivity. discriminate.
Qed.

Lemma px_sign_lost : px_trip 32 (px_lit "-0.5" "decimal") (px_lit "0.5" "decimal").
Proof. px_trip_tac. Qed.
Lemma px_digits_lost : px_trip 32 (px_lit "3.14159265358979" "decimal") (px_lit "3.3941737624" "decimal") .
Proof. px_trip_tac. Qed.
Lemma px_digits_lost_huge : px_trip 64 (px_lit "3.14159265358979323846" "decimal") (px_lit "3.3920467224675612949" "decimal").
Proof. px_trip_tac. Qed.
Lemma px_whole_lost : px_trip 32 (px_lit "2147483648.5" "decimal") (px_lit "2147483647.5" "decimal").
Proof. px_trip_tac. Qed.
Lemma px_text_changed : px_trip 32 (px_lit "007" "integer") (px_lit "7" "integer") /\ px_trip 32 (px_lit "1.50" "decimal") (px_lit "1.5" "decimal").
Proof. split; px_trip_tac. Qed.
Lemma px_plain_literal : px_trip 32 (OLit (bs "ciao@it") rdf_ns (bs "PlainLiteral")) (OLang (bs "ciao") (bs "it")).
Proof. px_trip_tac. Qed.
Lemma px_plain_crash : exists b, encode_literal 32 px_idx (OLit (bs "ciao") rdf_ns (bs "PlainLiteral")) = Some (b, false) /\
  decode_literal 32 px_anon (px_state b) = DUB OT_LITERAL.
Proof. px_bytes (encode_literal 32 px_idx (OLit (bs "ciao") rdf_ns (bs "PlainLiteral"))). Qed.

Lemma px_spaced : px_trip 32 (px_lit " +0042" "integer") (px_lit "42" "integer").
Proof. px_trip_tac. Qed.
Lemma px_lang : literal_kept 32 (OLang (bs "hi") (bs "en-gb")) /\ px_trip 32 (OLang (bs "hi") (bs "en-gb")) (OLang (bs "hi") (bs "en-gb")).
Proof.
  split; [|px_trip_tac]. split; [discriminate|].
  repeat (apply Forall_cons; [intros [A B]; vm_compute in A, B; (now apply A) || (now apply B)|]). constructor.
Qed.

(** * Axioms *)

Definition px_ns : bytes := bs "http://x/".
Definition px_ent (e : etype) (s : string) : obj := OEnt e px_ns (bs s).
(** SubClassOf(Annotation(:c "hi"@en) :A DataMinCardinality(3 :d DatatypeRestriction(xsd:integer :f "3.25"^^xsd:decimal))) *)
Definition px_axiom : obj :=
  mk_annot OT_A_SUB_CLASS
    [ px_ent ET_CLASS "A";
      mk_card OT_CE_DATA_MIN_CARD (px_ent ET_DATA_PROP "d") 3
        (Some (mk_plain OT_DR_DATATYPE_RESTR
                 [ OEnt ET_DATATYPE xsd_ns (bs "integer");
                   OVec false [mk_plain OT_FACET_RESTR [OIri px_ns (bs "f"); px_lit "3.25" "decimal"]] ])) ]
    (Some (OVec false [mk_annot OT_ANNOTATION [px_ent ET_ANNOT_PROP "c"; OLang (bs "hi") (bs "en")] None])).
Definition px_iri (s : string) : obj := OIri px_ns (bs s).
Definition px_ax_ids : list obj := [px_iri "A"; px_iri "d"; px_dt "integer"; px_dt "decimal"; px_iri "f"; px_iri "c"; OIri rdf_ns (bs "langString")].
Fixpoint px_pos (o : obj) (l : list obj) (i : N) : idxr :=
  match l with [] => IMissing | x :: l' => if prim_eqb o x then IAt i else px_pos o l' (i + 1) end.
Definition px_ax_idx (o : obj) : idxr := px_pos o px_ax_ids 0.

Lemma px_axiom_ok : is_axiom_object px_axiom.
Proof. vm_compute. reflexivity. Qed.
Ltac px_fits := unfold fits; vm_compute; reflexivity.
Lemma px_axiom_storable : storable 32 px_axiom.
Proof.
  assert (L1 : forall v, value_kept 32 xsd_ns (bs "decimal") v -> literal_kept 32 (OLit v xsd_ns (bs "decimal"))).
  { intros v H. split; auto. intros [E _]. discriminate E. }
  assert (L2 : literal_kept 32 (OLang (bs "hi") (bs "en"))).
  { split; [discriminate|]. repeat constructor; intros [A B]; vm_compute in A, B; (now apply A) || (now apply B). }
  assert (K := proj1 px_dec_kept).
  unfold px_axiom, mk_annot, mk_card, mk_plain, px_lit, px_ent.
  repeat first [ apply Forall_nil | apply Forall_cons | apply st_comp_opt | apply st_comp | apply st_vec | apply st_ent | apply st_iri
    | apply st_lang | apply st_lit | exact K | apply L1 | exact L2 | px_fits | match goal with |- _ < _ => vm_compute; reflexivity end ].
Qed.
Lemma px_axiom_agreed : forall p, mentions p px_axiom -> agreed 32 px_ax_ids px_ax_idx (ident p).
Proof.
  assert (H : Forall (fun p => agreed 32 px_ax_ids px_ax_idx (ident p)) (occ px_axiom)).
  { let v := eval vm_compute in (occ px_axiom) in change (occ px_axiom) with v.
    repeat (apply Forall_cons; [eexists; (split; [vm_compute; reflexivity|]); split; vm_compute; reflexivity|]). constructor. }
  intros p M. rewrite Forall_forall in H. apply H. now apply mentions_occ.
Qed.

(** ObjectMinCardinality(2147483648 :p): twice the number does not fit 32 bits. *)
Definition px_card : obj :=
  mk_annot OT_A_SUB_CLASS [px_ent ET_CLASS "A"; mk_card OT_CE_OBJ_MIN_CARD (px_ent ET_OBJ_PROP "d") (2 ^ 31) None] None.
Definition px_card' : obj :=
  mk_annot OT_A_SUB_CLASS [px_ent ET_CLASS "A"; mk_card OT_CE_OBJ_MIN_CARD (px_ent ET_OBJ_PROP "d") 0 None] None.
Lemma px_card_ok : is_axiom_object px_card.
Proof. vm_compute. reflexivity. Qed.
Lemma px_card_differs : px_card <> px_card'.
Proof. discriminate. Qed.
Definition px_ax_state (b : bytes) (log : list dchange) : dst := mkD b COWL_OK [] px_ax_ids 0 false log.
Lemma px_card_lost : exists b, encode_object 32 px_ax_idx px_card = Some (b, false) /\
  decode_frame 32 px_anon (fun _ => COWL_OK) 100 (px_ax_state b []) = DRet true (px_ax_state [] [(CHANGE_ADD, DAxiom px_card')]).
Proof. px_bytes (encode_object 32 px_ax_idx px_card). Qed.

(** * Streams *)

(** The outcome of reading a file with a handler that always answers [COWL_OK]. *)
Definition px_read (b : bytes) : dres unit := read_ontology 32 px_anon (fun _ => COWL_OK) b.
(** A file that declares one IRI, rdf:a. *)
Definition px_decl : bytes := [1; 69; 1; 0; 1; 97].

Lemma px_null_sites : px_read [1; 19] = DUB OT_A_SUB_OBJ_PROP /\
  px_read (px_decl ++ [45; 0; 0; 3; 0]) = DUB OT_A_DATA_PROP_ASSERT /\
  px_read (px_decl ++ [46; 0; 0; 3; 0]) = DUB OT_A_NEG_DATA_PROP_ASSERT /\
  px_read (px_decl ++ [47; 0; 0; 0; 3; 0]) = DUB OT_A_ANNOT_ASSERT /\
  px_read (px_decl ++ [15; 13; 0; 3; 0]) = DUB OT_CE_DATA_HAS_VALUE /\
  px_read ([1; 69; 1; 0; 12] ++ bs "PlainLiteral" ++ [45; 0; 0; 2; 1; 97; 0]) = DUB OT_LITERAL.
Proof. repeat split; vm_compute; reflexivity. Qed.

(** SubObjectPropertyOf(rdf:a rdf:a) whose annotations are cut off. *)
Definition px_cut : bytes := px_decl ++ [19 + 64; 1; 1].
Definition px_sub : obj := OComp OT_A_SUB_OBJ_PROP [OEnt ET_OBJ_PROP rdf_ns [97]; OEnt ET_OBJ_PROP rdf_ns [97]] None 0.
Lemma px_cut_delivered : exists s, px_read px_cut = DRet tt s /\ (d_code s < 0)%Z /\ d_log s = [(CHANGE_ADD, DAxiom px_sub)].
Proof.
  eexists (mkD [] ERR_SYNTAX _ _ _ _ _). split; [vm_compute; reflexivity|]. split; [vm_compute; reflexivity|]. cbn. vm_compute. reflexivity.
Qed.
(** The same bytes with another axiom. *)
Lemma px_cut_other : exists s, px_read (px_decl ++ [27 + 64; 1; 1]) = DRet tt s /\ (d_code s < 0)%Z /\ d_log s = [].
Proof.
  eexists (mkD [] ERR_SYNTAX _ _ _ _ _). split; [vm_compute; reflexivity|]. split; [vm_compute; reflexivity|]. cbn. vm_compute. reflexivity.
Qed.

(** A handler that refuses the second change. *)
Definition px_refuse (l : list dchange) : ret := if (2 <=? List.length l)%nat then ERR_MEM else COWL_OK.
(** Three declarations. *)
Definition px_three : bytes := px_decl ++ [9; 0; 10; 0; 11; 0].
Lemma px_refused : exists s, read_ontology 32 px_anon px_refuse px_three = DRet tt s /\ List.length (d_log s) = 2%nat /\ d_code s = ERR_MEM.
Proof. eexists (mkD _ _ _ _ _ _ _). split; [vm_compute; reflexivity|]. split; vm_compute; reflexivity. Qed.
Lemma px_accepted : exists s, px_read px_three = DRet tt s /\ List.length (d_log s) = 3%nat /\ d_code s = COWL_OK.
Proof. eexists (mkD _ _ _ _ _ _ _). split; [vm_compute; reflexivity|]. split; vm_compute; reflexivity. Qed.
