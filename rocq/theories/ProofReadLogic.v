(** Reasoning about the programs of ModelReadOwn.v. *)

From Coq Require Import NArith List Bool.
From Verif Require Import Bytes ModelTypes ModelHeader ModelText ModelHeap ModelReadRules ModelReadOwn.
Import ListNotations.
Local Open Scope N_scope.

Section Logic.
Variable huge : bool.
Variable fresh : N -> heap -> N.
Variable e : env.
Variable fine : state -> call -> Prop.
Variable handler : list N -> list N -> state -> list N -> state -> list N -> Prop.
Local Notation runs := (ModelReadOwn.runs huge fresh e fine handler).

(** Every run of the program ends without an invalid access, with a result that satisfies Q. *)
Definition holds {A} (p : prog A) (s : state) (out : list N) (Q : A -> state -> list N -> Prop) : Prop :=
  forall o, runs p s out o -> exists x s' out', o = Some (x, s', out') /\ Q x s' out'.

Lemma h_ret {A} (x : A) s out (Q : A -> state -> list N -> Prop) : Q x s out -> holds (Ret x) s out Q.
Proof. intros q o R. inversion R; subst. eauto. Qed.
Lemma h_never {A} s out (Q : A -> state -> list N -> Prop) : holds Never s out Q.
Proof. intros o R. inversion R. Qed.
Lemma h_do {A} k (c : option N -> prog A) s out Q :
  (fine s k -> exists r s', exec huge fresh e k s = Ok r s' /\ holds (c r) s' out Q) -> holds (Do k c) s out Q.
Proof.
  intros X o R. inversion R; subst; destruct (X ltac:(assumption)) as (r0 & s0 & E & HC).
  - rewrite E in *. match goal with Z : Ok _ _ = Ok _ _ |- _ => injection Z as -> -> end. apply HC. assumption.
  - congruence.
Qed.
Lemma h_intern {A} a (c : N -> prog A) s out Q :
  (fine s (KIntern a) -> exists m s', string_intern huge e (Some a) s = Ok (Some m) s' /\ holds (c m) s' out Q) -> holds (Intern a c) s out Q.
Proof.
  intros X o R. inversion R; subst; destruct (X ltac:(assumption)) as (r0 & s0 & E & HC).
  - rewrite E in *. match goal with Z : Ok _ _ = Ok _ _ |- _ => injection Z as <- <- end. apply HC. assumption.
  - congruence.
Qed.
Lemma h_look {A} (c : state -> prog A) s out Q : holds (c s) s out Q -> holds (Look c) s out Q.
Proof. intros X o R. inversion R; subst. now apply X. Qed.
Lemma h_hand {A} passed rest (c : prog A) s out Q :
  (forall s' out', handler passed rest s out s' out' -> holds c s' out' Q) -> holds (Hand passed rest c) s out Q.
Proof. intros X o R. inversion R; subst. eapply X; eauto. Qed.
Lemma h_choose {A} (c d : prog A) s out Q : holds c s out Q -> holds d s out Q -> holds (Choose c d) s out Q.
Proof. intros X Y o R. inversion R; subst; [now apply X|now apply Y]. Qed.
Lemma h_post {A} (p : prog A) s out (P Q : A -> state -> list N -> Prop) : holds p s out P ->
  (forall x s' out', P x s' out' -> Q x s' out') -> holds p s out Q.
Proof. intros X Y o R. destruct (X o R) as (x & s' & out' & -> & Z). exists x, s', out'. auto. Qed.
Lemma h_then {A B} (p : prog A) (f : A -> prog B) s out Q :
  holds p s out (fun x s' out' => holds (f x) s' out' Q) -> holds (after_that p f) s out Q.
Proof.
  revert s out. induction p as [x| | |k c IH|a c IH|c IH|l r c IH|c IHc d IHd]; intros s out X; cbn [after_that].
  - destruct (X (Some (x, s, out)) (r_ret _ _ _ _ _ _ _ _)) as (x' & s' & out' & E & Y). injection E as <- <- <-. exact Y.
  - destruct (X None (r_stuck _ _ _ _ _ _ _)) as (x' & s' & out' & E & Y). discriminate E.
  - apply h_never.
  - intros o R. inversion R; subst.
    + match goal with Z : runs (after_that (c ?r) f) ?s1 _ _ |- _ => apply (IH r s1 out) end; [|assumption].
      intros o' R'. apply X. eapply r_do; eauto.
    + match goal with F : fine _ _, Z : exec _ _ _ _ _ = Err _ |- _ =>
        destruct (X None (r_do_err _ _ _ _ _ _ _ _ _ _ F Z)) as (x' & s' & out' & E & Y); discriminate E end.
  - intros o R. inversion R; subst.
    + match goal with F : fine _ _, Z : string_intern _ _ _ _ = Ok ?m ?s1 |- _ =>
        pose proof (fun o' => r_intern huge fresh e fine handler a c s out m s1 o' F Z) as G; destruct m as [m|] end.
      * match goal with Z : runs (after_that (c m) f) ?s1 _ _ |- _ => apply (IH m s1 out) end; [|assumption].
        intros o' R'. apply X. apply G. exact R'.
      * destruct (X None (G None (r_stuck _ _ _ _ _ _ _))) as (x' & s2 & out' & E & Y). discriminate E.
    + match goal with F : fine _ _, Z : string_intern _ _ _ _ = Err _ |- _ =>
        destruct (X None (r_intern_err _ _ _ _ _ _ _ _ _ _ F Z)) as (x' & s' & out' & E & Y); discriminate E end.
  - apply h_look. apply IH. intros o' R'. apply X. now apply r_look.
  - apply h_hand. intros s' out' W. apply IH. intros o' R'. apply X. eapply r_hand; eauto.
  - apply h_choose; [apply IHc|apply IHd]; intros o' R'; apply X; [now apply r_left|now apply r_right].
Qed.
End Logic.
