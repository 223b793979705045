(** Concrete cases for PropertiesIsolate.v. *)

From Coq Require Import String.
From Coq Require Import NArith List Bool Arith Lia.
From Verif Require Import Bytes ModelTypes ModelObject ModelHeader SpecHeader ModelText ModelHeap SpecHeap SpecIsolate.
From Verif Require Import ProofIsolate ProofIsolateTop.
From Verif Require ExamplesHeap.
Import ListNotations.
Local Open Scope N_scope.

Definition next := ExamplesHeap.next.
Notation mem := ExamplesHeap.mem.

Lemma pointers_none a h b c : pointers_to a h = O -> lookup h b = Some c -> ~ In a (pointers_of (c_body c)).
Proof.
  induction h as [|[x d] h IH]; cbn; [discriminate|]. intros P. destruct (x =? b).
  - intros E. injection E as <-. intros J. apply (count_occ_In N.eq_dec) in J. unfold count in P. lia.
  - apply IH. lia.
Qed.
Lemma reach_none s a v : pointers_to v (s_heap s) = O -> reach s a v -> a = v.
Proof.
  intros P R. induction R as [a _|a c b d E J R IH]; [reflexivity|].
  specialize (IH P). subst b. exfalso. exact (pointers_none d _ a c P E J).
Qed.
Definition apartb (lib from : list N) (s : state) (v : N) : bool :=
  Nat.eqb (pointers_to v (s_heap s)) 0 && negb (mem v (lib ++ from)) && ExamplesHeap.typeb s v OT_VECTOR.
Lemma mem_not a l : mem a l = false -> ~ In a l.
Proof.
  unfold ExamplesHeap.mem. intros M J. assert (existsb (N.eqb a) l = true) by (apply existsb_exists; exists a; split; auto; apply N.eqb_refl).
  congruence.
Qed.
Lemma apartb_ok lib from s v : apartb lib from s v = true -> apart false lib from s v.
Proof.
  unfold apartb. rewrite !andb_true_iff, negb_true_iff. intros [[P M] T]. apply Nat.eqb_eq in P. apply mem_not in M.
  apply ExamplesHeap.typeb_ok in T. destruct T as (c & E & T). split; [exists c; exact E|].
  intros a A R. apply (reach_none s a v P) in R. subst a. rewrite in_app_iff in M. destruct A as [A|[A|(d & F & A)]]; [tauto|tauto|].
  rewrite E in F. injection F as <-. rewrite T in A. discriminate A.
Qed.

(** Runs calls of a part of a program. *)
Fixpoint job (e : env) (lib rest : list N) (ks : list (list N -> call)) (s : state) (mine : list N) : option (state * list N) :=
  match ks with
  | [] => Some (s, mine)
  | k :: ks' =>
      if ExamplesHeap.check lib mine s (k mine) && ExamplesHeap.roomb (lib ++ mine ++ rest) s (k mine) then
        match exec false next e (k mine) s with
        | Ok r s' => job e lib rest ks' s' (after (k mine) r mine)
        | Err _ => None
        end
      else None
  end.
Lemma job_ok e lib rest ks : forall s mine s' mine', job e lib rest ks s mine = Some (s', mine') ->
  works false next e lib rest s mine s' mine'.
Proof.
  induction ks as [|k ks IH]; intros s mine s' mine'; cbn [job].
  - intros E. injection E as <- <-. constructor.
  - destruct (ExamplesHeap.check lib mine s (k mine) && ExamplesHeap.roomb (lib ++ mine ++ rest) s (k mine)) eqn:B; [|discriminate].
    apply andb_true_iff in B as [B1 B2]. destruct (ExamplesHeap.check_ok e _ _ _ _ B1) as [AL NC]. apply ExamplesHeap.roomb_ok in B2.
    destruct (exec false next e (k mine) s) as [r s1|] eqn:E; [|discriminate]. intros J. eapply work_call; eauto.
Qed.

Definition o (own : list N) (n : nat) : N := nth n own 0.
Definition name : bytes := bs "http://example.org/#A".
Definition setup : list (list N -> call) :=
  [fun own => KEntityText OT_CE_CLASS name; fun own => KVector [o own 0]; fun own => KRelease (o own 1)].
Definition work : list (list N -> call) :=
  [fun own => KOntology; fun own => KEntityText OT_CE_CLASS name; fun own => KConstruct OT_A_DECL [Some (o own 0)] None 0;
   fun own => KAddAxiom (o own 2) (o own 0); fun own => KRelease (o own 1); fun own => KRemoveAxiom (o own 1) (o own 0);
   fun own => KRelease (o own 0)].

Lemma program_example : exists e vs lib rest s mine s' mine' v,
  history false next e vs lib s (mine ++ rest) /\ works false next e lib rest s mine s' mine' /\
  rest = [v] /\ has_type false s v OT_VECTOR /\ apart false lib mine s v /\ List.length mine' = 1%nat /\ s_heap s' <> s_heap s.
Proof.
  destruct (ExamplesHeap.go_from_env setup (fun e lib s own =>
    match own with
    | [v] => apartb lib [] s v && ExamplesHeap.typeb s v OT_VECTOR &&
             match job e lib [v] work s [] with
             | Some (s', [x]) => negb (Nat.eqb (List.length (s_heap s')) (List.length (s_heap s)))
             | _ => false
             end
    | _ => false
    end)) as (e & vs & lib & s & own & H & P); [vm_compute; reflexivity|].
  destruct own as [|v [|w own]]; try discriminate P. rewrite !andb_true_iff in P. destruct P as [[P1 P2] P3].
  destruct (job e lib [v] work s []) as [[s' [|x [|y m]]]|] eqn:J; try discriminate P3.
  exists e, vs, lib, [v], s, [], s', [x], v. split; [exact H|]. split; [apply (job_ok e lib [v] work); exact J|].
  split; [reflexivity|]. split; [apply ExamplesHeap.typeb_ok; exact P2|]. split; [apply apartb_ok; exact P1|].
  split; [reflexivity|]. intros E. rewrite E, Nat.eqb_refl in P3. discriminate P3.
Qed.

(** A class, a vector with it and another class. *)
Lemma call_example : exists e vs lib own s k r s' v,
  history false next e vs lib s own /\ allowed false e lib own s k /\ SpecHeap.no_cycle s k /\ room false (lib ++ own) s k /\
  exec false next e k s = Ok r s' /\ apart false lib (arguments k) s v /\ arguments k <> [] /\ s' <> s.
Proof.
  destruct (ExamplesHeap.go_from_env [fun own => KEntityText OT_CE_CLASS name; fun own => KVector [o own 0]] (fun e lib s own =>
    match own with
    | [v; c] => let k := KConstruct OT_A_DECL [Some c] None 0 in
        ExamplesHeap.check lib own s k && ExamplesHeap.roomb (lib ++ own) s k && apartb lib [c] s v &&
        match exec false next e k s with Ok _ s' => negb (s_n s' =? s_n s) | _ => false end
    | _ => false
    end)) as (e & vs & lib & s & own & H & P); [vm_compute; reflexivity|].
  destruct own as [|v [|c [|w own]]]; try discriminate P. cbv zeta in P. rewrite !andb_true_iff in P. destruct P as [[[P1 P2] P3] P4].
  destruct (exec false next e (KConstruct OT_A_DECL [Some c] None 0) s) as [r s'|] eqn:E; [|discriminate P4].
  destruct (ExamplesHeap.check_ok e _ _ _ _ P1) as [AL NC]. apply ExamplesHeap.roomb_ok in P2. apply apartb_ok in P3.
  exists e, vs, lib, [v; c], s, (KConstruct OT_A_DECL [Some c] None 0), r, s', v.
  repeat (split; [first [exact H|exact AL|exact NC|exact P2|exact E|exact P3|discriminate]|]).
  intros X. rewrite X, N.eqb_refl in P4. discriminate P4.
Qed.

Lemma unique_example : exists e vs lib own s k r s' v,
  history false next e vs lib s own /\ allowed false e lib own s k /\ SpecHeap.no_cycle s k /\ room false (lib ++ own) s k /\
  exec false next e k s = Ok r s' /\ arguments k = [] /\ alive s v /\ (forall a, In a lib -> ~ reach s a v) /\
  lookup (s_heap s') v <> lookup (s_heap s) v.
Proof.
  destruct (ExamplesHeap.go_from_env [fun own => KIriText name] (fun e lib s own =>
    match own with
    | [v] => let k := KIriText name in
        ExamplesHeap.check lib own s k && ExamplesHeap.roomb (lib ++ own) s k && negb (mem v lib) &&
        Nat.eqb (pointers_to v (s_heap s)) 0 &&
        match exec false next e k s with
        | Ok _ s' => match lookup (s_heap s') v, lookup (s_heap s) v with Some c, Some d => negb (c_hdr c =? c_hdr d) | _, _ => false end
        | _ => false
        end
    | _ => false
    end)) as (e & vs & lib & s & own & H & P); [vm_compute; reflexivity|].
  destruct own as [|v [|w own]]; try discriminate P. cbv zeta in P. rewrite !andb_true_iff in P. destruct P as [[[[P1 P2] P3] P4] P5].
  destruct (exec false next e (KIriText name) s) as [r s'|] eqn:E; [|discriminate P5].
  destruct (ExamplesHeap.check_ok e _ _ _ _ P1) as [AL NC]. apply ExamplesHeap.roomb_ok in P2.
  apply Nat.eqb_eq in P4. apply negb_true_iff in P3. apply mem_not in P3.
  destruct (lookup (s_heap s') v) as [c|] eqn:L1; [|discriminate P5]. destruct (lookup (s_heap s) v) as [d|] eqn:L2; [|discriminate P5].
  exists e, vs, lib, [v], s, (KIriText name), r, s', v.
  repeat (split; [first [exact H|exact AL|exact NC|exact P2|exact E|reflexivity]|]).
  split; [exists d; exact L2|]. split.
  - intros a J R. apply (reach_none s a v P4) in R. subst. contradiction.
  - rewrite L1, L2. intros X. injection X as ->. rewrite N.eqb_refl in P5. discriminate P5.
Qed.
