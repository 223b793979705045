(** Cases: histories that meet the assumptions of the theorems about readers and writers, and one that refutes the
    general claim. *)

From Coq Require Import NArith List Bool Lia.
From Verif Require Import ModelPlugin SpecPlugin ProofPlugin.
Import ListNotations.
Local Open Scope N_scope.

(** The client installs a writer of its own and gives up its reference, installs the built-in one again after keeping
    it, and shuts the library down. *)
Definition swap : list call :=
  [CInit; CMake Writer; CRetain 1; CSet Writer (Some 2); CRelease 2; CUse 2; CSet Writer (Some 1); CRelease 1; CDeinit].
(** The final state of a history, computed. *)
Fixpoint go (h : list call) (s : plugins) : option plugins :=
  match h with [] => Some s | c :: t => match exec c s with None => None | Some s' => go t s' end end.

(** Whether a call obeys the rules, computed. *)
Definition may_useb (s : plugins) (own : N -> nat) (i : N) : bool :=
  Nat.ltb 0 (own i) || same (get_default Reader s) (Some i) || same (get_default Writer s) (Some i).
Definition obeysb (null : bool) (c : call) (s : plugins) (own : N -> nat) : bool :=
  match c with
  | CMake _ | CInit | CDeinit => true
  | CRetain i | CUse i => may_useb s own i
  | CRelease i => Nat.ltb 0 (own i)
  | CSet k (Some i) => p_init s && may_useb s own i && slot_eqb (p_kind s i) k
  | CSet k None => p_init s && null
  end.
(** The state and the references after a history that obeys the rules, computed. *)
Fixpoint follow (null : bool) (h : list call) (s : plugins) (own : N -> nat) : option (plugins * (N -> nat)) :=
  match h with
  | [] => Some (s, own)
  | c :: t =>
      if obeysb null c s own then
        match exec c s with None => None | Some s' => follow null t s' (ledger c s own) end
      else None
  end.
Lemma may_useb_ok s own i : may_useb s own i = true -> may_use s own i.
Proof.
  unfold may_useb. intros H. apply orb_prop in H as [H|H]; [apply orb_prop in H as [H|H]|].
  - left. now apply PeanoNat.Nat.ltb_lt.
  - right. exists Reader. now apply same_true.
  - right. exists Writer. now apply same_true.
Qed.
Lemma obeysb_ok null c s own : obeysb null c s own = true -> obeys null c s own.
Proof.
  destruct c as [k|i|i|i|k [i|]| |]; cbn [obeysb obeys]; auto using may_useb_ok.
  - intros H. now apply PeanoNat.Nat.ltb_lt.
  - intros H. apply andb_prop in H as [H K]. apply andb_prop in H as [P M]. split; [auto|]. split; [now apply may_useb_ok|].
    now apply slot_eqb_true.
  - intros H. now apply andb_prop in H.
Qed.
Lemma follow_ok null t : forall h s own s' own', history null h s own -> follow null t s own = Some (s', own') -> history null (h ++ t) s' own'.
Proof.
  induction t as [|c t IH]; cbn [follow]; intros h s own s' own' H E.
  - injection E as <- <-. now rewrite app_nil_r.
  - destruct (obeysb null c s own) eqn:O; [|discriminate]. destruct (exec c s) as [s1|] eqn:X; [|discriminate].
    change (c :: t) with ([c] ++ t). rewrite app_assoc. eapply IH; [|exact E]. econstructor; eauto using obeysb_ok.
Qed.
(** What a history leads to has a property that can be computed. *)
Lemma follow_case null h (Q : plugins -> (N -> nat) -> Prop) :
  match follow null h start (fun _ => 0%nat) with None => False | Some (s, own) => Q s own end ->
  exists s own, history null h s own /\ Q s own.
Proof.
  destruct (follow null h start (fun _ => 0%nat)) as [[s own]|] eqn:E; [|tauto]. intros H. exists s, own. split; auto.
  exact (follow_ok null h [] _ _ _ _ (at_start null) E).
Qed.

Lemma swap_use : exists s own, history false [CInit; CMake Writer; CRetain 1; CSet Writer (Some 2); CRelease 2] s own /\
  obeys false (CUse 2) s own /\ own 2 = 0%nat /\ get_default Writer s = Some 2 /\ ~ In 2 (p_freed s) /\ p_next s = 3.
Proof.
  destruct (follow_case false [CInit; CMake Writer; CRetain 1; CSet Writer (Some 2); CRelease 2]
    (fun s own => own 2 = 0%nat /\ get_default Writer s = Some 2 /\ p_freed s = [] /\ p_next s = 3)) as (s & own & H & O & G & F & L).
  - vm_compute. repeat split.
  - exists s, own. split; [exact H|]. split; [right; exists Writer; exact G|]. rewrite F. auto.
Qed.
Lemma swap_end : exists s own, history false swap s own /\ (forall i, own i = 0%nat) /\ p_freed s = [1; 0; 2] /\ p_next s = 3.
Proof.
  destruct (follow_case false swap
    (fun s own => (own 0 = 0%nat /\ own 1 = 0%nat /\ own 2 = 0%nat) /\ p_freed s = [1; 0; 2] /\ p_next s = 3)) as (s & own & H & O & F & L).
  - vm_compute. repeat split.
  - exists s, own. split; [exact H|]. split; [|auto]. intros i. destruct (history_inv _ _ _ H) as (C & B & _).
    destruct (N.lt_ge_cases i 3) as [Q|Q].
    + assert (X : i = 0 \/ i = 1 \/ i = 2) by lia. destruct X as [X|[X|X]]; subst i; tauto.
    + specialize (C i). rewrite B in C by lia. lia.
Qed.

(** NULL is set as the default. *)
Lemma null_witness : exists s own, history true [CInit] s own /\ obeys true (CSet Writer None) s own /\ exec (CSet Writer None) s = None.
Proof. apply follow_case. vm_compute. repeat split. Qed.

(** A reader set before the library is initialized is forgotten by cowl_init. *)
Lemma early_witness : exists s, go [CMake Reader; CSet Reader (Some 0); CRelease 0; CInit; CDeinit] start = Some s /\
  p_next s = 3 /\ ~ In 0 (p_freed s) /\ get_default Reader s = None /\ get_default Writer s = None.
Proof.
  destruct (go [CMake Reader; CSet Reader (Some 0); CRelease 0; CInit; CDeinit] start) as [s|] eqn:E.
  - exists s. split; [reflexivity|].
    assert (X : match go [CMake Reader; CSet Reader (Some 0); CRelease 0; CInit; CDeinit] start with
                | None => False
                | Some s => p_next s = 3 /\ p_freed s = [2; 1] /\ get_default Reader s = None /\ get_default Writer s = None
                end) by (vm_compute; repeat split).
    rewrite E in X. destruct X as (L & F & R & W). rewrite F. repeat split; auto. intros [H|[H|[]]]; discriminate.
  - exfalso. assert (X : match go [CMake Reader; CSet Reader (Some 0); CRelease 0; CInit; CDeinit] start with
                | None => False | Some _ => True end) by (vm_compute; exact I).
    rewrite E in X. exact X.
Qed.
