(** Round trips of literals and axioms, stated on the state of the reader. *)

From Coq Require Import NArith ZArith String List Bool Lia.
From Verif Require Import Bytes ModelTypes ModelObject ModelText SpecObject SpecText ProofObject ProofIter
  ModelChange ModelPrtValue ModelPrtEncoder ModelPrtDecoder SpecPrt ProofPrtValue ProofPrtRead ProofPrtAxiom.
Import ListNotations.
Local Open Scope N_scope.

Section Codec.
  Variable w : N.
  Hypothesis W : width w.
  Variable anon_id : nat -> bytes.
  Variable ids : list obj.
  Variable idx : obj -> idxr.

  Lemma rd_read m x o : (forall f, rd ids f m x o) -> exists b, x = Some (b, false) /\ b <> [] /\ gives ids m b (Some o).
  Proof.
    intros H. destruct (H 0%nat) as (b & E & Nb & _). exists b. split; auto. split; auto.
    destruct (H (List.length b)) as (b' & E' & _ & G). rewrite E in E'. inversion E'; subst b'. auto.
  Qed.

  Lemma typed_trip v ns rem : fits w v -> ~ lang_datatype ns rem ->
    (~ xsd ns rem ["string"%string] -> agreed w ids idx (OIri ns rem)) ->
    exists b, encode_literal w idx (OLit v ns rem) = Some (b, false) /\
      gives ids (decode_literal w anon_id) b (Some (OLit (back w (datatype_group ns rem) v) ns rem)).
  Proof.
    intros F L K. destruct (rd_read (decode_literal w anon_id) (encode_literal w idx (OLit v ns rem)) (OLit (back w (datatype_group ns rem) v) ns rem)) as (b & E & _ & G).
    - intros f. apply rd_literal_back; auto. intros H. apply K. intros [E1 [E2|[]]]. apply H. split; auto.
    - eauto.
  Qed.

  Lemma typed_exact v ns rem : fits w v -> ~ lang_datatype ns rem ->
    (~ xsd ns rem ["string"%string] -> agreed w ids idx (OIri ns rem)) ->
    exists b v', encode_literal w idx (OLit v ns rem) = Some (b, false) /\
      (forall s rest, d_ok s = true -> d_ids s = ids -> d_in s = b ++ rest ->
         decode_literal w anon_id s = DRet (Some (OLit v' ns rem)) (set_in rest s)) /\
      (v' = v <-> value_kept w ns rem v).
  Proof.
    intros F L K. destruct (typed_trip v ns rem F L K) as (b & E & G). exists b, (back w (datatype_group ns rem) v). split; auto. split; auto.
    now apply back_kept.
  Qed.

  Lemma integer_group ns rem : xsd ns rem integer_names -> datatype_group ns rem = DG_INT.
  Proof.
    intros H. destruct (group_cases ns rem) as [(E & A & B & C)|[(E & A & B & C)|[(E & A & B & C)|(E & A & B & C)]]]; auto; tauto.
  Qed.
  Lemma integer_value v ns rem z : fits w v -> xsd ns rem integer_names -> int_number v z -> in_range w z ->
    agreed w ids idx (OIri ns rem) ->
    exists b v', encode_literal w idx (OLit v ns rem) = Some (b, false) /\ int_plain v' z /\
      (forall s rest, d_ok s = true -> d_ids s = ids -> d_in s = b ++ rest ->
         decode_literal w anon_id s = DRet (Some (OLit v' ns rem)) (set_in rest s)).
  Proof.
    intros F X Hn R K. destruct (typed_trip v ns rem F) as (b & E & G); auto.
    { intros [Hns _]. destruct X as [X _]. rewrite X in Hns. discriminate Hns. }
    rewrite (integer_group _ _ X) in G. cbn [back] in G. unfold back_int in G.
    rewrite (proj2 (string_to_int_some w v z)) in G by auto. exists b, (show_int z). split; auto. split; auto using show_int_plain.
  Qed.

  Lemma lang_trip v l : fits w v -> fits w l -> literal_kept w (OLang v l) ->
    exists b, encode_literal w idx (OLang v l) = Some (b, false) /\
      (forall s rest, d_ok s = true -> d_ids s = ids -> d_in s = b ++ rest ->
         decode_literal w anon_id s = DRet (Some (OLang v l)) (set_in rest s)).
  Proof.
    intros F Fl (Nl & Ll). destruct (rd_read (decode_literal w anon_id) (encode_literal w idx (OLang v l)) (OLang v l)) as (b & E & _ & G).
    - intros f. now apply rd_literal_lang.
    - eauto.
  Qed.

  (** An axiom frame delivers the axiom. *)
  Lemma axiom_trip o : is_axiom_object o -> storable w o -> (forall p, mentions p o -> agreed w ids idx (ident p)) ->
    exists b, encode_object w idx o = Some (b, false) /\
      forall handler fuel s rest, (List.length b <= fuel)%nat -> d_ok s = true -> d_ids s = ids -> d_in s = b ++ rest ->
        exists s', decode_frame w anon_id handler fuel s = DRet true s' /\
          d_in s' = rest /\ d_ids s' = ids /\ d_ns s' = d_ns s /\ d_remove s' = d_remove s /\
          d_log s' = d_log s ++ [(if d_remove s then CHANGE_REMOVE else CHANGE_ADD, DAxiom o)] /\
          d_code s' = handler (d_log s').
  Proof.
    intros T St K. destruct (axiom_frame w W anon_id ids idx (fun _ => COWL_OK) o T St K) as (b & E & _ & _). exists b. split; auto.
    intros handler f s rest L Ok Ids Ein. destruct (axiom_frame w W anon_id ids idx handler o T St K) as (b' & E' & _ & G).
    rewrite E in E'. inversion E'; subst b'. clear E'. rewrite (G f s rest) by auto. unfold dbind, handle_change, dret.
    eexists. split; [reflexivity|]. unfold d_ok in Ok. unfold set_code. cbn [d_code set_in].
    replace (d_code s <? 0)%Z with false by lia. cbn. auto 10.
  Qed.
End Codec.
