(** Concrete cases for PropertiesPrtOwn.v. *)

From Coq Require Import String.
From Coq Require Import NArith List Bool Arith Lia Permutation.
From Verif Require Import Bytes ModelTypes ModelObject ModelHeader SpecHeader ModelText ModelHeap SpecHeap SpecIsolate.
From Verif Require Import ModelReadOwn SpecRead ModelPrtOwn SpecPrtOwn ExamplesIsolate ExamplesRead.
Import ListNotations.
Local Open Scope N_scope.

Definition foreseenb (e : env) (s : state) (k : call) : bool :=
  expectedb e s k && match k with KConstruct _ fields _ _ => forallb is_some fields | _ => true end.
Lemma foreseenb_ok e s k : foreseenb e s k = true -> foreseen false e s k.
Proof.
  unfold foreseenb. rewrite andb_true_iff. intros [A B]. split; [now apply expectedb_ok|]. destruct k; try exact I.
  intros _ J. rewrite forallb_forall in B. specialize (B _ J). discriminate B.
Qed.

(** A prefix, three IRIs, the IRI of the ontology, SubClassOf(Annotation(ex:A "hi"@en) ObjectIntersectionOf(ex:A ex:B)
    ex:C) and ClassAssertion(ex:A _:x), where _:x is an individual without identifier. *)
Definition file : bytes :=
  [1; 68; 1; 2] ++ bs "ex" ++ [13] ++ bs "http://e.org/" ++ [69; 3; 5; 1; 65; 5; 1; 66; 5; 1; 67; 6; 0] ++
  [79; 0; 2; 17; 18; 19; 1; 1; 0; 1; 2] ++ bs "hi" ++ [2] ++ bs "en" ++ [42; 17; 3].
(** The file ends after the first class expression of the first axiom. *)
Definition cut_file : bytes := firstn 36 file.
Definition ids (n : nat) : list bytes := [bs "x"].

Lemma file_example : exists e vs lib s s' out',
  sound false next e vs lib s [] /\
  decodes false next e vs lib ids 20 20 file s [] (Some (true, s', out')) /\ List.length out' = 5%nat /\ s_heap s' <> s_heap s.
Proof.
  destruct (start_ok (fun e vs lib s =>
    match interp false (foreseenb e) e lib keep (read_stream false ids vs 20 20 file) s [] with
    | Some (Some (true, s', out')) => Nat.eqb (List.length out') 5 && negb (Nat.eqb (List.length (s_heap s')) (List.length (s_heap s)))
    | _ => false
    end)) as (e & vs & lib & s & H & P); [vm_compute; reflexivity|].
  destruct (interp false (foreseenb e) e lib keep (read_stream false ids vs 20 20 file) s []) as [[[[[|] s'] out']|]|] eqn:R; try discriminate P.
  apply andb_true_iff in P. destruct P as [P1 P2]. exists e, vs, lib, s, s', out'.
  split; [exists []; auto|]. split; [exact (interp_ok false _ _ e lib keep _ (foreseenb_ok e) s [] _ R)|].
  split; [now apply Nat.eqb_eq|]. intros E. rewrite E, Nat.eqb_refl in P2. discriminate P2.
Qed.
Lemma cut_file_example : exists e vs lib s s' out',
  sound false next e vs lib s [] /\
  decodes false next e vs lib ids 20 20 cut_file s [] (Some (false, s', out')) /\ List.length out' = 3%nat.
Proof.
  destruct (start_ok (fun e vs lib s =>
    match interp false (foreseenb e) e lib keep (read_stream false ids vs 20 20 cut_file) s [] with
    | Some (Some (false, s', out')) => Nat.eqb (List.length out') 3
    | _ => false
    end)) as (e & vs & lib & s & H & P); [vm_compute; reflexivity|].
  destruct (interp false (foreseenb e) e lib keep (read_stream false ids vs 20 20 cut_file) s []) as [[[[[|] s'] out']|]|] eqn:R; try discriminate P.
  exists e, vs, lib, s, s', out'. split; [exists []; auto|]. split; [exact (interp_ok false _ _ e lib keep _ (foreseenb_ok e) s [] _ R)|].
  now apply Nat.eqb_eq.
Qed.
(** The two bytes of C39. *)
Lemma null_example : exists e vs lib s,
  sound false next e vs lib s [] /\ decodes_if (expected false e) false next e vs lib ids 20 20 [1; 19] s [] None.
Proof.
  destruct (start_ok (fun e vs lib s =>
    match interp false (expectedb e) e lib keep (read_stream false ids vs 20 20 [1; 19]) s [] with Some None => true | _ => false end))
    as (e & vs & lib & s & H & P); [vm_compute; reflexivity|].
  destruct (interp false (expectedb e) e lib keep (read_stream false ids vs 20 20 [1; 19]) s []) as [[x|]|] eqn:R; try discriminate P.
  exists e, vs, lib, s. split; [exists []; auto|]. exact (interp_ok false _ _ e lib keep _ (expectedb_ok e) s [] _ R).
Qed.
