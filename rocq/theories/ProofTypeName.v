(** Proofs about the names of object types. *)

From Coq Require Import String NArith List Bool Lia.
From Verif Require Import Bytes ModelTypes ModelFuncWriter ModelTypeName ProofObject.
Import ListNotations.
Local Open Scope N_scope.

Lemma loop_found s left : forall t n, type_loop s left t = n -> n <> OT_COUNT -> type_to_string n = s /\ t <= n.
Proof.
  induction left as [|left IH]; intros t n; cbn [type_loop]; [congruence|].
  destruct (bytes_eqb s (type_to_string t)) eqn:E.
  - intros <- _. apply bytes_eqb_eq in E. split; [congruence|lia].
  - intros H N0. destruct (IH _ _ H N0) as [A B]. split; [auto|lia].
Qed.
Lemma loop_missed s left : forall t, (N.of_nat left + t <= OT_COUNT) -> type_loop s left t = OT_COUNT ->
  forall n, t <= n < t + N.of_nat left -> type_to_string n <> s.
Proof.
  induction left as [|left IH]; intros t L H n R; [lia|]. cbn [type_loop] in H.
  destruct (bytes_eqb s (type_to_string t)) eqn:E; [lia|].
  destruct (N.eq_dec n t) as [->|N0].
  - intros <-. rewrite (proj2 (bytes_eqb_eq _ _) eq_refl) in E. discriminate.
  - apply (IH (t + 1)); auto; lia.
Qed.

Lemma names_back t : type_from_string (type_name t) = otype_num t.
Proof. destruct t; vm_compute; reflexivity. Qed.
Lemma num_small t : otype_num t < OT_COUNT.
Proof. destruct t; reflexivity. Qed.
Lemma to_string_num t : type_to_string (otype_num t) = type_name t.
Proof. unfold type_to_string. now rewrite otype_of_num_num. Qed.

Lemma from_name s t : type_from_string s = otype_num t <-> s = type_name t.
Proof.
  split; [|intros ->; apply names_back]. intros H. pose proof (num_small t).
  destruct (loop_found s _ _ _ H) as [A _]; [lia|]. now rewrite to_string_num in A.
Qed.
Lemma from_other s : OT_COUNT <= type_from_string s <-> forall t, s <> type_name t.
Proof.
  split.
  - intros H t ->. rewrite names_back in H. pose proof (num_small t). lia.
  - intros H. destruct (N.le_gt_cases OT_COUNT (type_from_string s)) as [L|L]; [exact L|exfalso].
    destruct (loop_found s (N.to_nat OT_COUNT) 0 (type_from_string s) eq_refl) as [A _]; [lia|].
    assert (X : exists t, otype_of_num (type_from_string s) = Some t).
    { unfold otype_of_num. destruct (nth_error all_otypes (N.to_nat (type_from_string s))) eqn:E; [eauto|].
      apply nth_error_None in E. change (length all_otypes) with 78%nat in E. unfold OT_COUNT in L. lia. }
    destruct X as [t X]. unfold type_to_string in A. rewrite X in A. now apply (H t).
Qed.
Lemma names_apart a b : type_name a = type_name b -> a = b.
Proof. intros H. apply otype_num_inj. now rewrite <- !names_back, H. Qed.
Lemma unknown_number n : OT_COUNT <= n -> type_from_string (type_to_string n) = OT_COUNT.
Proof.
  intros H. unfold type_to_string, otype_of_num.
  rewrite (proj2 (nth_error_None all_otypes (N.to_nat n))) by (change (length all_otypes) with 78%nat; unfold OT_COUNT in H; lia).
  vm_compute. reflexivity.
Qed.

Lemma from_string_name s t : type_from_string s = otype_num t <-> s = type_to_string (otype_num t).
Proof. rewrite to_string_num. apply from_name. Qed.
Lemma from_string_other s : OT_COUNT <= type_from_string s <-> forall t, s <> type_to_string (otype_num t).
Proof. rewrite from_other. split; intros H t; specialize (H t); now rewrite to_string_num in *. Qed.
Lemma to_string_apart a b : type_to_string (otype_num a) = type_to_string (otype_num b) -> a = b.
Proof. rewrite !to_string_num. apply names_apart. Qed.
Lemma unknown_name n : (forall t, n <> otype_num t) -> OT_COUNT <= type_from_string (type_to_string n).
Proof.
  intros H. rewrite unknown_number; [lia|]. destruct (N.le_gt_cases OT_COUNT n) as [L|L]; [exact L|exfalso].
  assert (X : existsb (fun t => otype_num t =? n) all_otypes = true).
  { assert (Y : forall k, (k < 78)%nat -> existsb (fun t => otype_num t =? N.of_nat k) all_otypes = true).
    { intros k K. do 78 (destruct k as [|k]; [reflexivity|]). lia. }
    rewrite <- (N2Nat.id n). apply Y. unfold OT_COUNT in L. lia. }
  apply existsb_exists in X as (t & _ & X). apply N.eqb_eq in X. now apply (H t).
Qed.
Lemma name_case : type_from_string (bs "SubClassOf") = otype_num OT_A_SUB_CLASS /\ type_from_string (bs "SubClassO") = OT_COUNT /\
  type_to_string 100 = bs "UnknownConstruct" /\ (forall t, 100 <> otype_num t).
Proof. split; [reflexivity|]. split; [reflexivity|]. split; [reflexivity|]. intros t. pose proof (num_small t). unfold OT_COUNT in *. lia. Qed.
