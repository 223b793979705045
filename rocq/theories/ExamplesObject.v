(** Concrete objects used to show that the hypotheses of the theorems about objects are met, and the
    counterexamples. *)

From Coq Require Import NArith ZArith List Bool String Lia.
From Verif Require Import Bytes ModelTypes ModelObject ModelTable SpecObject SpecTable ProofObject ProofIter ProofHash ProofAxiom ProofTable.
Import ListNotations.
Local Open Scope N_scope.

(** Namespace of the examples. *)
Definition ex_ns : bytes := bs "http://ex.org/o#".
(** Example entities. *)
Definition ex_cls (s : string) : obj := OEnt ET_CLASS ex_ns (bs s).
Definition ex_op (s : string) : obj := OEnt ET_OBJ_PROP ex_ns (bs s).
Definition ex_ind (s : string) : obj := OEnt ET_NAMED_IND ex_ns (bs s).
Definition ex_ap (s : string) : obj := OEnt ET_ANNOT_PROP ex_ns (bs s).
Definition ex_A := ex_cls "A".
Definition ex_B := ex_cls "B".
Definition ex_C := ex_cls "C".
Definition ex_p := ex_op "p".
Definition ex_q := ex_op "q".

Definition ex_annot : obj := mk_annot OT_ANNOTATION [ex_ap "note"; OLang (bs "ciao") (bs "it")] None.

(** EquivalentClasses(Annotation(:note "ciao"@it) :A ObjectMinCardinality(2 :p :B)
    ObjectSomeValuesFrom(ObjectInverseOf(:q) owl:Thing)) *)
Definition ex_card : obj := mk_card OT_CE_OBJ_MIN_CARD ex_p 2 (Some ex_B).
Definition ex_some : obj := mk_quant OT_CE_OBJ_SOME (mk_plain OT_OPE_INV_OBJ_PROP [ex_q]) (Some owl_thing).
Definition ex_equiv : obj :=
  mk_annot OT_A_EQUIV_CLASSES [OVec false [ex_A; ex_card; ex_some]] (Some (OVec false [ex_annot])).
(** The same with the operands in another order. *)
Definition ex_equiv' : obj :=
  mk_annot OT_A_EQUIV_CLASSES [OVec false [ex_some; ex_A; ex_card]] (Some (OVec false [ex_annot])).
(** SubObjectPropertyOf(ObjectPropertyChain(:p :q) :p) *)
Definition ex_chain : obj := mk_annot OT_A_SUB_OBJ_PROP [OVec true [ex_p; ex_q]; ex_p] None.
(** ObjectPropertyAssertion(:p :a _:x) *)
Definition ex_opa : obj := mk_annot OT_A_OBJ_PROP_ASSERT [ex_p; ex_ind "a"; OAnon (bs "_:x")] None.

Lemma ex_wt : is_axiom_object ex_equiv /\ is_axiom_object ex_equiv' /\ is_axiom_object ex_chain /\ is_axiom_object ex_opa.
Proof. repeat split; vm_compute; reflexivity. Qed.

Ltac not_seq := let H := fresh in intro H; exfalso; inversion H; congruence.

Lemma ex_dup_free : dup_free ex_equiv /\ dup_free ex_equiv' /\ dup_free ex_chain /\ dup_free ex_opa.
Proof.
  repeat split; simpl; try discriminate; intros; repeat constructor; not_seq.
Qed.

Lemma ex_equiv_seq : seq ex_equiv ex_equiv' /\ ex_equiv <> ex_equiv'.
Proof.
  split; [|discriminate].
  unfold ex_equiv, ex_equiv', mk_annot. apply seq_comp_opt; [|apply seq_refl|discriminate].
  constructor; [|constructor]. apply seq_set.
  - intros x Hx. exists x. split; [|apply seq_refl]. simpl in *. tauto.
  - intros x Hx. exists x. split; [|apply seq_refl]. simpl in *. tauto.
Qed.

(** * Counterexamples *)

Definition ex_dup (l : list obj) : obj := mk_annot OT_A_EQUIV_CLASSES [OVec false l] None.

Lemma sym_counterexample : exists a b, is_axiom_object a /\ is_axiom_object b /\
  cowl_equals a b = true /\ cowl_equals b a = false.
Proof. exists (ex_dup [ex_A; ex_A; ex_B]), (ex_dup [ex_A; ex_B; ex_C]). vm_compute. auto. Qed.

Lemma mixed_order_counterexample : exists a b,
  wt (SMany false SObjProp) a = true /\ wt SSubProp b = true /\
  cowl_equals a b = true /\ cowl_equals b a = false.
Proof. exists (OVec false [ex_q; ex_p]), (OVec true [ex_p; ex_q]). vm_compute. auto. Qed.

(** Hash functions telling the examples apart. *)
Definition ex_ptr_hash (o : obj) : N := match o with OEnt _ _ rem => List.fold_left (fun h x => 31 * h + x) rem 0 | _ => 0 end.
Definition ex_str_hash (s : bytes) : N := List.fold_left (fun h x => 31 * h + x) s 0.
Definition ex_combine (h x : N) : N := 31 * h + x.

Lemma hash_counterexample : exists ptr_hash str_hash combine a b, is_axiom_object a /\ is_axiom_object b /\
  cowl_equals a b = true /\ cowl_equals b a = true /\
  cowl_hash ptr_hash str_hash combine a <> cowl_hash ptr_hash str_hash combine b.
Proof.
  exists ex_ptr_hash, ex_str_hash, ex_combine, (ex_dup [ex_A; ex_A; ex_B]), (ex_dup [ex_A; ex_B; ex_B]).
  repeat split; try (vm_compute; reflexivity). vm_compute. discriminate.
Qed.

Lemma structural_counterexample : exists a b, is_axiom_object a /\ is_axiom_object b /\
  cowl_equals a b = true /\ ~ seq a b.
Proof.
  exists (ex_dup [ex_A; ex_A; ex_B]), (ex_dup [ex_A; ex_B; ex_C]).
  repeat split; try (vm_compute; reflexivity). intros H.
  unfold ex_dup, mk_annot in H. apply seq_comp_inv in H as (gs & q & k & E & HF & _). inversion E; subst.
  inversion HF as [|? ? ? ? Hv _]; subst. apply seq_set_inv in Hv as [_ Hv].
  destruct (Hv ex_C) as (x & Hx & Hq); [simpl; auto|].
  simpl in Hx. destruct Hx as [<-|[<-|[<-|[]]]]; inversion Hq.
Qed.

Lemma structural_counterexample' : exists a b, is_axiom_object a /\ is_axiom_object b /\
  seq a b /\ cowl_equals a b = false.
Proof.
  exists (ex_dup [ex_A; ex_A; ex_B]), (ex_dup [ex_A; ex_B]).
  repeat split; try (vm_compute; reflexivity).
  unfold ex_dup, mk_annot. apply seq_comp; [|discriminate]. constructor; [|constructor]. apply seq_set.
  - intros x Hx. exists x. split; [simpl in *; tauto|apply seq_refl].
  - intros x Hx. exists x. split; [simpl in *; tauto|apply seq_refl].
Qed.

(** Occurrences in the example axiom. *)
Lemma ex_occurrences : occurrences ex_equiv
  [ex_A; ex_p; ex_B; ex_q; owl_thing; ex_ap "note"; rdf_lang_string].
Proof. apply (occ_occurrences ex_equiv). Qed.

Lemma ex_mentions : mentions ex_q ex_equiv /\ ~ mentions ex_C ex_equiv.
Proof.
  split; [apply mentions_occ; split; [eexists; reflexivity|simpl; tauto]|].
  intros H. apply mentions_occ in H as [_ H]. simpl in H.
  repeat (destruct H as [H|H]; [discriminate|]). destruct H.
Qed.

Lemma ex_operand_at : operand_at ex_opa (ex_ind "a") PS_MIDDLE /\ ~ operand_at ex_opa (ex_ind "a") PS_LEFT.
Proof.
  split.
  - exists 1%nat, (ex_ind "a"), 4. repeat split; simpl; auto; [constructor|discriminate].
  - intros (i & f & m & Hi & Hop & Hp & Hm). simpl in Hp. inversion Hp; subst; simpl in *; inversion Hi; subst.
    + destruct Hop as [H|[]]. discriminate.
    + now apply Hm.
    + now apply Hm.
Qed.

(** Tables. *)
Definition ex_table (n : N) (v1 v2 : obj) : table :=
  {| tbl_is_map := true; tbl_entries := [(ex_A, Some {| pv_addr := n; pv_obj := v1 |}); (ex_B, Some {| pv_addr := n + 1; pv_obj := v2 |})] |}.

Lemma simple_prim o : (exists i, wt (SOne i) o = true) -> (exists k, kind o = Some k) -> simple o.
Proof. intros H [k K]. split; auto. destruct o; simpl; auto; discriminate. Qed.

Lemma ex_table_proper n a b : proper_table (ex_table n (ex_ind a) (ex_ind b)).
Proof.
  split; [|split].
  - simpl. repeat constructor. simpl. not_seq.
  - intros k v [E|[E|[]]]; inversion E; subst; apply simple_prim; try (eexists; reflexivity);
      exists SCls; reflexivity.
  - intros k v [E|[E|[]]]; inversion E; subst; apply simple_prim; try (eexists; reflexivity);
      exists SInd; reflexivity.
Qed.

Lemma ex_table_disjoint : disjoint_values (ex_table 1 (ex_ind "a") (ex_ind "b")) (ex_table 10 (ex_ind "a") (ex_ind "b")).
Proof.
  split.
  - intros k v [E|[E|[]]]; inversion E; subst; discriminate.
  - intros k v k' w [E|[E|[]]] [E'|[E'|[]]]; inversion E; inversion E'; subst; discriminate.
Qed.

(** Two tables sharing the value of the first key but not that of the second. *)
Lemma table_counterexample : exists a b, proper_table a /\ proper_table b /\
  table_equals a b = Some true /\ ~ same_table a b.
Proof.
  exists (ex_table 1 (ex_ind "a") (ex_ind "b")), (ex_table 1 (ex_ind "a") (ex_ind "c")).
  split; [apply ex_table_proper|]. split; [apply ex_table_proper|]. split; [reflexivity|].
  intros (_ & H & _). destruct (H ex_B (Some {| pv_addr := 2; pv_obj := ex_ind "b" |})) as (k & w & Hin & Hq & Hv); [simpl; auto|].
  destruct Hin as [E|[E|[]]]; inversion E; subst; [inversion Hq|].
  specialize (Hv eq_refl). simpl in Hv. inversion Hv.
Qed.

(** A NULL value against a non-NULL one. *)
Definition ex_null_table : table := {| tbl_is_map := true; tbl_entries := [(ex_A, None)] |}.
Lemma table_null_counterexample : exists a b, proper_table a /\ proper_table b /\ table_equals a b = None.
Proof.
  exists ex_null_table, {| tbl_is_map := true; tbl_entries := [(ex_A, Some {| pv_addr := 1; pv_obj := ex_B |})] |}.
  split; [|split; [|reflexivity]].
  - split; [|split]; simpl.
    + repeat constructor.
    + intros k v [E|[]]; inversion E; subst; apply simple_prim; [exists SCls|eexists]; reflexivity.
    + intros k v [E|[]]; inversion E.
  - split; [|split]; simpl.
    + repeat constructor.
    + intros k v [E|[]]; inversion E; subst; apply simple_prim; [exists SCls|eexists]; reflexivity.
    + intros k v [E|[]]; inversion E; subst; apply simple_prim; [exists SCls|eexists]; reflexivity.
Qed.

Lemma table_has_primitive_counterexample : exists t v k p, In (k, Some v) (tbl_entries t) /\
  proper_table t /\ mentions p (pv_obj v) /\ table_has_primitive t p = Some false.
Proof.
  exists (ex_table 1 (ex_ind "a") (ex_ind "b")), {| pv_addr := 1; pv_obj := ex_ind "a" |}, ex_A, (ex_ind "a").
  split; [simpl; auto|]. split; [apply ex_table_proper|]. split; [|reflexivity].
  eapply mentions_here. reflexivity.
Qed.

(** A string obtained from the intern table: iterating over its primitives reads past its header. *)
Lemma string_counterexample : exists o p k, kind p = Some k /\ has_primitive o p = None.
Proof. exists (OStr true (bs "x")), ex_A, (PT_ENT ET_CLASS). split; reflexivity. Qed.

(** The set iterator stops at the first repetition. *)
Definition ex_rep : obj := mk_annot OT_A_EQUIV_CLASSES
  [OVec false [ex_card; mk_quant OT_CE_OBJ_ALL ex_p (Some ex_C)]] None.

Lemma set_counterexample : exists o l x, well_formed o /\ occurrences o l /\ In x l /\
  exists s r, iterate_primitives (iterator_set false) PF_ALL o ([], []) = IRet s r /\ ~ In x (fst s) /\ r = COWL_STOP.
Proof.
  exists ex_rep, (occ ex_rep), ex_C. split; [exists (SOne SAxiom); reflexivity|].
  split; [apply occ_occurrences|]. split; [simpl; auto|].
  eexists _, _. split; [vm_compute; reflexivity|]. split; [|reflexivity].
  simpl. intros [E|[E|[]]]; discriminate.
Qed.

Lemma ex_set_ok : Forall simple (occ ex_opa) /\ ForallOrdPairs (fun x y => ~ seq x y) (occ ex_opa).
Proof.
  split.
  - simpl. repeat constructor; try discriminate; [exists SObjProp|exists SInd|exists SInd]; reflexivity.
  - simpl. repeat constructor; not_seq.
Qed.

Lemma ex_delivers : delivers (fun S call s => iterate_primitives call PF_ALL ex_opa s) (occ ex_opa).
Proof.
  replace (occ ex_opa) with (filter (enabled PF_ALL) (occ ex_opa)) by reflexivity.
  apply iterate_delivers; [|apply occ_occurrences]. exists (SOne SAxiom). apply ex_wt.
Qed.

Lemma ex_table_entries : well_formed_entries (tbl_entries (ex_table 0 ex_A ex_B)) /\
  exists l, entry_occurrences (tbl_entries (ex_table 0 ex_A ex_B)) l /\ (2 < List.length l)%nat.
Proof.
  split.
  - intros k v [E|[E|[]]]; injection E as <- <-; (split; [exists (SOne SCls); reflexivity|]);
      intros p [=<-]; exists (SOne SCls); reflexivity.
  - exists (occ ex_A ++ occ ex_A ++ occ ex_B ++ occ ex_B ++ []). split; [|cbn; repeat constructor].
    apply eo_pair; [apply occ_occurrences|apply occ_occurrences|]. apply eo_pair; [apply occ_occurrences..|constructor].
Qed.
