(** The theorems about the functional syntax reader and memory. *)

From Coq Require Import NArith List Bool Permutation Lia.
From Verif Require Import Bytes ModelTypes ModelHeader SpecHeader ModelText ModelHeap SpecHeap SpecIsolate ModelReadRules ModelReadOwn SpecRead.
From Verif Require Import ProofReadCalls ProofReadLogic ProofReadRule.
Import ListNotations.
Local Open Scope N_scope.

Lemma read_all huge fresh e vs lib global l s out o : allocator fresh -> sound huge fresh e vs lib s out -> global_map huge lib s out global ->
  reads huge fresh e vs lib global l s out o -> exists b s' out', o = Some (b, s', out') /\ sound huge fresh e vs lib s' out'.
Proof.
  intros F H G R. apply (read_ok huge fresh F e vs lib s out global l H); [|exact R].
  intros p n J. unfold global_map in G. rewrite Forall_forall in G. destruct (G (p, n) J) as (_ & A & _ & B). auto.
Qed.
Lemma read_safe huge fresh e vs lib global l s out o : allocator fresh -> sound huge fresh e vs lib s out -> global_map huge lib s out global ->
  reads huge fresh e vs lib global l s out o -> o <> None.
Proof. intros F H G R. destruct (read_all _ _ _ _ _ _ _ _ _ _ F H G R) as (b & s' & out' & -> & _). discriminate. Qed.
Lemma read_sound huge fresh e vs lib global l s out b s' out' : allocator fresh -> sound huge fresh e vs lib s out -> global_map huge lib s out global ->
  reads huge fresh e vs lib global l s out (Some (b, s', out')) -> sound huge fresh e vs lib s' out'.
Proof. intros F H G R. destruct (read_all _ _ _ _ _ _ _ _ _ _ F H G R) as (b0 & s0 & out0 & E & Z). injection E as <- <- <-. exact Z. Qed.
Lemma read_counts huge fresh e vs lib global l s out b s' out' : allocator fresh -> sound huge fresh e vs lib s out -> global_map huge lib s out global ->
  reads huge fresh e vs lib global l s out (Some (b, s', out')) ->
  (forall a c, lookup (s_heap s') a = Some c -> ref_of huge c = N.of_nat (references (lib ++ out') s' a)) /\
  (forall a, alive s' a -> usable (lib ++ out') s' a).
Proof.
  intros F H G R. pose proof (read_sound _ _ _ _ _ _ _ _ _ _ _ _ F H G R) as S. split.
  - intros a c E. exact (proj1 (ref_count huge fresh F e vs lib s' out' S a c E)).
  - intros a A. exact (any_usable huge fresh F e vs lib s' out' S a A).
Qed.
