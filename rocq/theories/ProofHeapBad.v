(** Histories that keep the ownership rule but break the other two conditions. *)

From Coq Require Import NArith List Bool Arith Lia.
From Coq Require Import ZifyBool ZifyNat ZifyN.
From Verif Require Import Bytes ModelTypes ModelObject ModelHeader SpecHeader ModelText ModelHeap SpecHeap.
From Verif Require Import ProofObject ProofHeader ProofHeap ProofHeapRun ProofHeapFun ProofHeapTop ProofHeapLib ProofHeapEnd.
Import ListNotations.
Local Open Scope N_scope.

Section Bad.
Variable huge : bool.
Variable fresh : N -> heap -> N.
Hypothesis fresh_ok : allocator fresh.

Lemma history_owned e vs lib s own : history huge fresh e vs lib s own -> owned huge fresh e vs lib s own.
Proof. induction 1; [now constructor|eapply owned_call; eauto]. Qed.

(** An empty vector. *)
Definition at_ (s : state) (a h : N) (l : list N) : Prop :=
  lookup (s_heap s) a = Some (mkCell h (BVec l)) /\ NoDup (map fst (s_heap s)).

Lemma new_vector : exists e vs lib s a, owned huge fresh e vs lib s [a] /\ ~ In a lib /\
  at_ s a (hd_init huge (otype_num OT_VECTOR) false) [].
Proof.
  destruct (lib_init_ok huge fresh fresh_ok) as (e & vs & A & X & L & E & I & LB).
  set (lib := library e vs (ProofHeap.cs huge A)).
  set (a := fresh (s_n (ProofHeap.cs huge A)) (s_heap (ProofHeap.cs huge A))).
  assert (NF : lookup (s_heap (ProofHeap.cs huge A)) a = None) by apply fresh_ok.
  assert (O : owned huge fresh e vs lib (ProofHeap.cs huge A) []) by (now constructor).
  exists e, vs, lib. eexists. exists a. split; [|split].
  - change [a] with (after (KVector []) (Some a) []). eapply owned_call; [exact O|constructor|].
    cbn [exec]. unfold some, vector, bind, ret. cbn [mapm map]. unfold alloc. fold a. reflexivity.
  - unfold lib. rewrite (library_fst huge e vs X A L LB). intros J.
    destruct (held_live huge e A (map fst L) [] a I J) as (w & F & _). rewrite lookup_cs, F in NF. discriminate.
  - split; cbn [s_heap lookup]; [now rewrite N.eqb_refl|]. cbn [map fst]. constructor.
    + intros J. apply lookup_none in NF. contradiction.
    + cbn. unfold amap. rewrite map_map. apply I.
Qed.

Lemma retain_step s a h l : at_ s a h l -> exists s', retain huge (Some a) s = Ok a s' /\ at_ s' a (hd_incr huge h) l.
Proof.
  intros (E & N). unfold retain, incr_ref, read, write, bind, nonnull, ret. rewrite E. cbn [c_hdr c_body]. rewrite E.
  eexists. split; [reflexivity|]. split; cbn [with_heap s_heap].
  - rewrite lookup_store, E, N.eqb_refl. reflexivity.
  - now rewrite store_keys.
Qed.

Lemma usable_own lib own s a h l : In a own -> at_ s a h l -> usable (lib ++ own) s a.
Proof. intros J (E & _). exists a. split; [apply in_or_app; auto|]. constructor. exists (mkCell h (BVec l)). exact E. Qed.

Lemma many e vs lib s a h n : owned huge fresh e vs lib s [a] -> at_ s a h [] -> exists s' own,
  owned huge fresh e vs lib s' (a :: own) /\ at_ s' a (N.iter (N.of_nat n) (hd_incr huge) h) [] /\ List.length own = n /\ Forall (eq a) own.
Proof.
  intros O AT. induction n as [|n IH].
  - exists s, []. repeat split; auto; apply AT.
  - destruct IH as (s1 & own & O1 & AT1 & LN & FA). destruct (retain_step s1 a _ _ AT1) as (s2 & E2 & AT2).
    exists s2, (a :: own). split; [|split; [|split]].
    + change (a :: a :: own) with (after (KRetain a) (Some a) (a :: own)). eapply owned_call; [exact O1| |].
      * cbn. eapply usable_own; eauto. now left.
      * cbn [exec]. unfold some. rewrite (bind_ok _ _ _ _ _ E2). reflexivity.
    + replace (N.of_nat (S n)) with (N.succ (N.of_nat n)) by lia. rewrite N.iter_succ. exact AT2.
    + cbn. auto.
    + constructor; auto.
Qed.

Lemma iter_incr n h : N.iter n (hd_incr huge) (wrap huge h) = wrap huge (h + n).
Proof.
  induction n as [|n IH] using N.peano_ind; [cbn; now rewrite N.add_0_r|]. rewrite N.iter_succ, IH. unfold hd_incr, wrap.
  rewrite N.add_mod_idemp_l by (destruct huge; discriminate). f_equal. lia.
Qed.

(** The count wraps to 1 after the limit is passed; one release then frees the object. *)
Lemma over_retain : exists e vs lib s own a, owned huge fresh e vs lib s own /\ In a own /\ ~ alive s a.
Proof.
  destruct new_vector as (e & vs & lib & s & a & O & _ & AT).
  set (h := hd_init huge (otype_num OT_VECTOR) false) in *.
  destruct (many e vs lib s a h (N.to_nat (max_refs huge + 1)) O AT) as (s1 & own & O1 & AT1 & LN & FA).
  rewrite N2Nat.id in AT1. assert (W : h = wrap huge h) by (unfold h; destruct huge; reflexivity).
  rewrite W, iter_incr in AT1. set (h1 := wrap huge (h + (max_refs huge + 1))) in *.
  destruct AT1 as (E1 & N1). set (c1 := mkCell h1 (BVec [])) in *.
  set (c2 := mkCell (hd_decr huge h1) (BVec [])).
  assert (R2 : ref_of huge c2 = 0) by (unfold c2, h1, h; destruct huge; reflexivity).
  assert (T2 : type_of huge c2 = Some OT_VECTOR) by (unfold c2, h1, h; destruct huge; reflexivity).
  set (s2 := with_heap s1 (store (s_heap s1) a c2)).
  assert (E2 : lookup (s_heap s2) a = Some c2) by (cbn [s2 with_heap s_heap]; rewrite lookup_store, E1, N.eqb_refl; reflexivity).
  set (s3 := with_heap s2 (drop (s_heap s2) a)).
  assert (DC : decr_ref huge a s1 = Ok 0 s2).
  { unfold decr_ref, bind, read, write. rewrite E1. cbn [c_hdr c_body c1]. rewrite E1. fold c2 s2. rewrite E2. unfold ret. now rewrite R2. }
  assert (DI : dispose huge a s2 = Ok [Fin a] s2).
  { unfold dispose, get_type_at, items_at, bind, read, ret. rewrite E2, T2, E2. reflexivity. }
  assert (FR : free a s2 = Ok tt s3) by (unfold free; rewrite E2; reflexivity).
  assert (EX : exec huge fresh e (KRelease a) s1 = Ok None s3).
  { cbn [exec]. unfold none, release.
    assert (exists k, S (weight huge (s_heap s1)) = S (S k)) as (k & WK).
    { clear -E1. revert E1. generalize (s_heap s1). intros l. induction l as [|[x c] l IH]; [discriminate|]. intros _. cbn. 
      exists (N.to_nat (ref_of huge c) + weight huge l)%nat. unfold weight. lia. }
    unfold bind at 1. rewrite WK. cbn [release_loop]. rewrite (bind_ok _ _ _ _ _ DC). change (0 =? 0) with true. cbv iota.
    rewrite (bind_ok _ _ _ _ _ DI). cbn [app release_loop]. rewrite (bind_ok _ _ _ _ _ FR). now destruct k. }
  exists e, vs, lib, s3, (after (KRelease a) None (a :: own)), a. split; [|split].
  - eapply owned_call; [exact O1|now left|exact EX].
  - cbn [after give_up]. rewrite N.eqb_refl. destruct own as [|b own].
    + cbn in LN. exfalso. revert LN. destruct huge; cbn [max_refs]; lia.
    + inversion FA; subst. now left.
  - intros (c & Q). cbn [s3 with_heap s_heap] in Q. rewrite lookup_drop in Q by (cbn; now rewrite store_keys).
    rewrite N.eqb_refl in Q. discriminate.
Qed.

(** A vector inside itself is never freed. *)
Lemma cycle : exists e vs lib s a, owned huge fresh e vs lib s [] /\ alive s a /\ ~ In a lib.
Proof.
  destruct new_vector as (e & vs & lib & s & a & O & NL & AT).
  set (h := hd_init huge (otype_num OT_VECTOR) false) in *.
  destruct (retain_step s a h [] AT) as (s1 & E1 & AT1).
  set (h1 := hd_incr huge h) in *. assert (AT1' := AT1). destruct AT1 as (L1 & N1).
  set (s2 := with_heap s1 (store (s_heap s1) a (mkCell h1 (BVec [a])))).
  assert (L2 : lookup (s_heap s2) a = Some (mkCell h1 (BVec [a]))).
  { cbn [s2 with_heap s_heap]. now rewrite lookup_store, L1, N.eqb_refl. }
  assert (O2 : owned huge fresh e vs lib s2 [a]).
  { change [a] with (after (KVectorAdd a a) None [a]). eapply owned_call; [exact O| |].
    - cbn. assert (U : usable (lib ++ [a]) s a) by (eapply usable_own; eauto; now left). split; auto. split; auto.
      destruct AT as (L0 & _). eexists. split; [exact L0|]. unfold h. destruct huge; reflexivity.
    - cbn [exec]. unfold none. unfold vector_add. unfold bind at 2. cbn [nonnull ret]. unfold bind. rewrite E1.
      unfold push_item, bind, read, write. rewrite L1. cbn [c_body c_hdr app]. rewrite L1. reflexivity. }
  set (c3 := mkCell (hd_decr huge h1) (BVec [a])). set (s3 := with_heap s2 (store (s_heap s2) a c3)).
  assert (L3 : lookup (s_heap s3) a = Some c3) by (cbn [s3 with_heap s_heap]; now rewrite lookup_store, L2, N.eqb_refl).
  assert (R3 : ref_of huge c3 = 1) by (unfold c3, h1, h; destruct huge; reflexivity).
  exists e, vs, lib, s3, a. split; [|split; [exists c3; auto|auto]].
  replace ([] : list N) with (after (KRelease a) None [a]) by (cbn; now rewrite N.eqb_refl).
  eapply owned_call; [exact O2|now left|]. cbn [exec]. unfold none, release. unfold bind at 1. cbn [release_loop].
  assert (DC : decr_ref huge a s2 = Ok 1 s3).
  { unfold decr_ref, bind, read, write. rewrite L2. cbn [c_hdr c_body]. rewrite L2. fold c3 s3. rewrite L3. unfold ret. now rewrite R3. }
  rewrite (bind_ok _ _ _ _ _ DC). change (1 =? 0) with false. cbv iota. now destruct (weight huge (s_heap s2)).
Qed.
End Bad.
