(** Proofs about prefix maps (C20-C23, C51). *)

From Coq Require Import NArith ZArith String List Bool Lia Permutation.
From Verif Require Import Bytes ModelTypes ModelObject ModelText ModelPrefixMap SpecPrefixMap SpecText ProofObject ProofText.
Import ListNotations.
Local Open Scope N_scope.

(** * Tables *)

Lemma distinct_cons e t : distinct_keys (e :: t) <-> (forall f, In f t -> stx (fst e) <> stx (fst f)) /\ distinct_keys t.
Proof.
  unfold distinct_keys. split.
  - intros H. inversion H; subst. rewrite Forall_forall in *. auto.
  - intros (H1 & H2). constructor; auto. now apply Forall_forall.
Qed.

Lemma distinct_NoDup t : distinct_keys t <-> NoDup (map (fun e => stx (fst e)) t).
Proof.
  induction t as [|e t IH]; simpl; [split; intros; constructor|].
  rewrite distinct_cons, NoDup_cons_iff, IH, in_map_iff. split.
  - intros (H & H'). split; auto. intros (f & E & I). apply (H f I). auto.
  - intros (H & H'). split; auto. intros f I E. apply H. exists f. auto.
Qed.

Lemma distinct_perm t t' : Permutation t t' -> distinct_keys t -> distinct_keys t'.
Proof.
  rewrite !distinct_NoDup. intros P. apply Permutation_NoDup. now apply Permutation_map.
Qed.

Lemma find_in t p k v : find_entry t p = Some (k, v) -> In (k, v) t /\ stx k = p.
Proof.
  unfold find_entry. intros H. apply find_some in H as (H & E). simpl in E. apply bytes_eqb_eq in E. auto.
Qed.

Lemma find_none t p : find_entry t p = None -> forall k v, In (k, v) t -> stx k <> p.
Proof.
  unfold find_entry. intros H k v I E. apply (find_none _ _ H) in I. simpl in I. subst p.
  assert (bytes_eqb (stx k) (stx k) = true) by now apply bytes_eqb_eq. congruence.
Qed.

Lemma distinct_unique t e f : distinct_keys t -> In e t -> In f t -> stx (fst e) = stx (fst f) -> e = f.
Proof.
  induction t as [|x t IH]; [intros _ []|]. rewrite distinct_cons. intros (D1 & D2) [->|I] [->|J] E; auto.
  - exfalso. apply (D1 _ J). auto.
  - exfalso. apply (D1 _ I). auto.
Qed.

Lemma in_find t p k v : distinct_keys t -> In (k, v) t -> stx k = p -> find_entry t p = Some (k, v).
Proof.
  intros D I E. destruct (find_entry t p) as [[k' v']|] eqn:F.
  - apply find_in in F as (I' & E'). f_equal. eapply distinct_unique; eauto. simpl. congruence.
  - exfalso. eapply find_none; eauto.
Qed.

Lemma in_del t p e : In e (del_entry t p) <-> In e t /\ stx (fst e) <> p.
Proof.
  unfold del_entry. rewrite filter_In, negb_true_iff. split; intros (H & E); split; auto.
  - intros <-. assert (bytes_eqb (stx (fst e)) (stx (fst e)) = true) by now apply bytes_eqb_eq. congruence.
  - destruct (bytes_eqb (stx (fst e)) p) eqn:B; auto. apply bytes_eqb_eq in B. contradiction.
Qed.

Lemma distinct_filter f t : distinct_keys t -> distinct_keys (filter f t).
Proof.
  induction t as [|e t IH]; simpl; auto. rewrite distinct_cons. intros (H & D). destruct (f e); auto.
  apply distinct_cons. split; auto. intros g I. apply filter_In in I as (I & _). auto.
Qed.

Lemma in_set t p v k w : In (k, w) (set_val t p v) <->
  (stx k = p /\ w = v /\ exists w', In (k, w') t) \/ (stx k <> p /\ In (k, w) t).
Proof.
  unfold set_val. rewrite in_map_iff. split.
  - intros ((k', w') & E & I). simpl in E. destruct (bytes_eqb (stx k') p) eqn:B.
    + injection E as <- <-. apply bytes_eqb_eq in B. left. eauto.
    + injection E as <- <-. right. split; auto. intros H. apply bytes_eqb_eq in H. congruence.
  - intros [(E & -> & w' & I)|(E & I)].
    + exists (k, w'). simpl. apply bytes_eqb_eq in E. rewrite E. auto.
    + exists (k, w). simpl. destruct (bytes_eqb (stx k) p) eqn:B; auto. apply bytes_eqb_eq in B. contradiction.
Qed.

Lemma set_keys t p v : map (fun e => stx (fst e)) (set_val t p v) = map (fun e => stx (fst e)) t.
Proof.
  unfold set_val. rewrite map_map. apply map_ext. intros e. destruct (bytes_eqb _ _); reflexivity.
Qed.

Lemma distinct_set t p v : distinct_keys t -> distinct_keys (set_val t p v).
Proof. now rewrite !distinct_NoDup, set_keys. Qed.

Lemma distinct_snoc t k v : distinct_keys t -> (forall k' v', In (k', v') t -> stx k' <> stx k) -> distinct_keys (t ++ [(k, v)]).
Proof.
  intros D H. induction t as [|[k' v'] t IH]; simpl.
  - apply distinct_cons. split; [intros ? []|constructor].
  - apply distinct_cons in D as (D1 & D2). apply distinct_cons. split.
    + intros f I. apply in_app_iff in I as [I|[<-|[]]]; auto. simpl. eapply H. left. reflexivity.
    + apply IH; auto. intros k2 v2 I. apply (H k2 v2). right. auto.
Qed.

(** * The abstract map of a table *)

Definition fm (t : tbl) : amap := fun p => option_map (fun e => stx (snd e)) (find_entry t p).

Lemma fm_some t p n : distinct_keys t -> (fm t p = Some n <-> exists k v, In (k, v) t /\ stx k = p /\ stx v = n).
Proof.
  intros D. unfold fm. split.
  - destruct (find_entry t p) as [[k v]|] eqn:F; [|discriminate]. simpl. intros [= <-].
    apply find_in in F as (I & E). exists k, v. auto.
  - intros (k & v & I & E & <-). rewrite (in_find _ _ _ _ D I E). reflexivity.
Qed.

Lemma fm_none t p : fm t p = None <-> forall k v, In (k, v) t -> stx k <> p.
Proof.
  unfold fm. split.
  - destruct (find_entry t p) eqn:F; [discriminate|]. intros _. now apply find_none.
  - intros H. destruct (find_entry t p) as [[k v]|] eqn:F; auto. apply find_in in F as (I & E).
    exfalso. eapply H; eauto.
Qed.

Lemma fm_ext t t' p : distinct_keys t -> distinct_keys t' ->
  (forall n, (exists k v, In (k, v) t /\ stx k = p /\ stx v = n) <-> (exists k v, In (k, v) t' /\ stx k = p /\ stx v = n)) ->
  fm t p = fm t' p.
Proof.
  intros D D' H. destruct (fm t' p) as [n|] eqn:E.
  - apply fm_some; auto. apply H. now apply fm_some.
  - destruct (fm t p) as [n|] eqn:E'; auto. apply fm_some in E' as E2; auto. apply H in E2.
    apply fm_some in E2; auto. congruence.
Qed.

Lemma answers_fm s : (forall x, alive (rc s) x = true) -> answers s (fm (fwd s)).
Proof.
  intros A p. unfold get_ns, fm. destruct (find_entry (fwd s) p) as [[k v]|].
  - rewrite A. eexists. split; reflexivity.
  - eexists. split; reflexivity.
Qed.

(** * References held by tables *)

Lemma held_app t t' i : held (t ++ t') i = held t i + held t' i.
Proof. induction t as [|[k v] t IH]; simpl; [reflexivity|]. rewrite IH. lia. Qed.

Lemma held_perm t t' i : Permutation t t' -> held t i = held t' i.
Proof.
  induction 1 as [|[k v] t t' H IH|[k v] [k' v'] t|]; simpl; try lia.
Qed.

Definition one (a i : N) : N := if a =? i then 1 else 0.

Lemma held_cons k v t i : held ((k, v) :: t) i = one (sid k) i + one (sid v) i + held t i.
Proof. reflexivity. Qed.

Lemma del_absent t p : (forall k v, In (k, v) t -> stx k <> p) -> del_entry t p = t.
Proof.
  induction t as [|[k v] t IH]; simpl; intros H; auto.
  destruct (bytes_eqb (stx k) p) eqn:B.
  - exfalso. apply bytes_eqb_eq in B. eapply (H k v); eauto.
  - simpl. f_equal. apply IH. intros k' v' I. apply (H k' v'). auto.
Qed.

Lemma set_absent t p w : (forall k v, In (k, v) t -> stx k <> p) -> set_val t p w = t.
Proof.
  induction t as [|[k v] t IH]; simpl; intros H; auto.
  destruct (bytes_eqb (stx k) p) eqn:B.
  - exfalso. apply bytes_eqb_eq in B. eapply (H k v); eauto.
  - f_equal. apply IH. intros k' v' I. apply (H k' v'). auto.
Qed.

Lemma held_del t p k v i : distinct_keys t -> In (k, v) t -> stx k = p ->
  held t i = one (sid k) i + one (sid v) i + held (del_entry t p) i.
Proof.
  induction t as [|[k' v'] t IH]; [intros _ []|]. rewrite distinct_cons. intros (D1 & D2) I E. cbn [del_entry filter fst].
  destruct I as [I|I].
  - injection I as -> ->. apply bytes_eqb_eq in E as B. rewrite B. cbn [negb]. rewrite held_cons.
    fold (del_entry t p). rewrite del_absent; [reflexivity|]. intros k2 v2 I2 E2. apply (D1 _ I2). simpl. congruence.
  - destruct (bytes_eqb (stx k') p) eqn:B.
    + exfalso. apply bytes_eqb_eq in B. apply (D1 _ I). simpl. congruence.
    + cbn [negb]. rewrite !held_cons. fold (del_entry t p). rewrite (IH D2 I E). lia.
Qed.

Lemma held_set t p k v w i : distinct_keys t -> In (k, v) t -> stx k = p ->
  held (set_val t p w) i + one (sid v) i = held t i + one (sid w) i.
Proof.
  induction t as [|[k' v'] t IH]; [intros _ []|]. rewrite distinct_cons. intros (D1 & D2) I E. cbn [set_val map fst].
  destruct I as [I|I].
  - injection I as -> ->. apply bytes_eqb_eq in E as B. rewrite B. rewrite !held_cons.
    fold (set_val t p w). rewrite set_absent; [lia|]. intros k2 v2 I2 E2. apply (D1 _ I2). simpl. congruence.
  - destruct (bytes_eqb (stx k') p) eqn:B.
    + exfalso. apply bytes_eqb_eq in B. apply (D1 _ I). simpl. congruence.
    + rewrite !held_cons. fold (set_val t p w). pose proof (IH D2 I E). lia.
Qed.

Lemma held_in t k v : In (k, v) t -> 1 <= held t (sid k) /\ 1 <= held t (sid v).
Proof.
  induction t as [|[k' v'] t IH]; [intros []|]. rewrite !held_cons. unfold one. intros [[= -> ->]|I].
  - rewrite !N.eqb_refl. lia.
  - apply IH in I. lia.
Qed.

(** * Reference counts *)

Lemma retain_some r s : r (sid s) <> 0 -> exists r', retain r s = Some r' /\ forall i, r' i = r i + one (sid s) i.
Proof.
  intros H. unfold retain, alive. apply N.eqb_neq in H as ->. simpl. eexists. split; [reflexivity|].
  intros i. unfold one. simpl. destruct (i =? sid s) eqn:E; rewrite (N.eqb_sym (sid s) i), E; lia.
Qed.

Lemma release_some r s : r (sid s) <> 0 -> exists r', release r s = Some r' /\ forall i, r' i = r i - one (sid s) i.
Proof.
  intros H. unfold release, alive. apply N.eqb_neq in H as ->. simpl. eexists. split; [reflexivity|].
  intros i. unfold one. simpl. destruct (i =? sid s) eqn:E; rewrite (N.eqb_sym (sid s) i), E; lia.
Qed.

Lemma one_le a i : one a i <= 1.
Proof. unfold one. destruct (a =? i); lia. Qed.

Lemma alive_keeps t (r : N -> N) : (forall i, held t i < r i) -> forall x, alive r x = true.
Proof. intros H x. unfold alive. rewrite negb_true_iff, N.eqb_neq. specialize (H (sid x)). lia. Qed.

(** * One call, for a client that keeps all its strings *)

Definition good (s : pst) : Prop := distinct_keys (fwd s) /\ client_keeps_all s.

Lemma good_alive s : good s -> forall x, alive (rc s) x = true.
Proof. intros (_ & K). now apply alive_keeps with (t := fwd s). Qed.

Lemma good_rc s i : good s -> rc s i <> 0.
Proof. intros (_ & K). specialize (K i). lia. Qed.

(** The namespace the reserved table pins. *)
Lemma intern_pinned p n : pinned_ns (stx p) (stx n) (stx (intern_ns p n)).
Proof.
  unfold intern_ns, find_entry, reserved, pinned_ns. cbn [find fst].
  repeat match goal with
  | |- context [bytes_eqb ?a ?b] => let E := fresh "E" in destruct (bytes_eqb a b) eqn:E
  end;
  repeat match goal with H : bytes_eqb _ _ = true |- _ => apply bytes_eqb_eq in H end;
  try (left; cbn [vstr stx] in *; repeat match goal with H : _ = stx p |- _ => rewrite <- H end;
       unfold standard; simpl; tauto).
  right. split; auto. intros x I.
  unfold standard in I. simpl in I.
  repeat match goal with H : bytes_eqb _ _ = false |- _ => apply not_true_iff_false in H; rewrite bytes_eqb_eq in H end.
  cbn [vstr stx] in *.
  destruct I as [I|[I|[I|[I|[]]]]]; injection I as I _; match goal with H : _ <> _ |- _ => apply H; exact I end.
Qed.

Lemma add_good s p n ow : good s -> exists s' r, pm_add s p n ow = Some (s', r) /\ good s' /\
  exists b, a_add (fm (fwd s)) (stx p) (stx n) ow (fm (fwd s')) b /\ r = (if b then COWL_OK else COWL_NO).
Proof.
  intros G. pose proof (good_alive s G) as A. destruct G as (D & K). unfold pm_add.
  set (ns := intern_ns p n). pose proof (intern_pinned p n) as P. fold ns in P.
  unfold a_add. destruct (find_entry (fwd s) (stx p)) as [[k old]|] eqn:F.
  - apply find_in in F as (I & E). rewrite A. cbn [negb].
    assert (M : fm (fwd s) (stx p) = Some (stx old)) by (apply fm_some; eauto).
    destruct ow; cbn [negb].
    + destruct (release_some (rc s) old) as (r1 & -> & R1); [specialize (K (sid old)); lia|].
      destruct (retain_some r1 ns) as (r2 & -> & R2).
      { rewrite R1. pose proof (held_in _ _ _ I). specialize (K (sid ns)). unfold one.
        destruct (sid old =? sid ns) eqn:Q; [|lia]. apply N.eqb_eq in Q. rewrite <- Q in *. lia. }
      eexists _, _. split; [reflexivity|]. split.
      * split; cbn [fwd rc]; [now apply distinct_set|]. intros i. cbn [fwd rc].
        rewrite R2, R1. pose proof (held_set _ _ _ _ ns i D I E). specialize (K i). pose proof (one_le (sid old) i). lia.
      * exists true. cbn [fwd]. rewrite M. split; auto. split.
        -- intros q Hq. apply fm_ext; auto using distinct_set. intros x. split.
           ++ intros (k1 & v1 & I1 & E1 & E2). apply in_set in I1 as [(Q & _)|(Q & I1)]; [congruence|eauto].
           ++ intros (k1 & v1 & I1 & E1 & E2). exists k1, v1. split; auto. apply in_set. right. split; auto. congruence.
        -- split; auto. exists (stx ns). split; auto. apply fm_some; auto using distinct_set.
           exists k, ns. split; auto. apply in_set. left. eauto.
    + eexists _, _. split; [reflexivity|]. split; [split; auto|]. exists false. rewrite M. auto.
  - pose proof (find_none _ _ F) as N0. assert (M : fm (fwd s) (stx p) = None) by now apply fm_none.
    destruct (retain_some (rc s) p) as (r1 & -> & R1); [specialize (K (sid p)); lia|].
    destruct (retain_some r1 ns) as (r2 & -> & R2); [rewrite R1; specialize (K (sid ns)); lia|].
    assert (D' : distinct_keys (fwd s ++ [(p, ns)])) by now apply distinct_snoc.
    eexists _, _. split; [reflexivity|]. split.
    + split; cbn [fwd rc]; [auto|]. intros i. cbn [fwd rc].
      rewrite R2, R1, held_app, held_cons. specialize (K i). simpl. lia.
    + exists true. cbn [fwd]. rewrite M. split; auto. split.
      * intros q Hq. apply fm_ext; auto. intros x. split.
        -- intros (k1 & v1 & I1 & E1 & E2). apply in_app_iff in I1 as [I1|[[= <- <-]|[]]]; [eauto|congruence].
        -- intros (k1 & v1 & I1 & E1 & E2). exists k1, v1. split; auto. apply in_app_iff. auto.
      * split; auto. exists (stx ns). split; auto. apply fm_some; auto. exists p, ns.
        split; auto. apply in_app_iff. simpl. auto.
Qed.

Lemma remove_ns_loop_good ns es : forall r K0, (forall i, K0 i + held es i < r i) ->
  exists r' b, remove_ns_loop r es ns = Some (filter (fun e => negb (bytes_eqb (stx (snd e)) (stx ns))) es, r', b) /\
    (forall i, K0 i + held (filter (fun e => negb (bytes_eqb (stx (snd e)) (stx ns))) es) i < r' i) /\
    (b = true <-> exists k v, In (k, v) es /\ stx v = stx ns).
Proof.
  induction es as [|[k v] es IH]; intros r K0 H; simpl.
  - exists r, false. split; auto. split; auto. split; [discriminate|]. intros (? & ? & [] & _).
  - assert (A : forall x, alive r x = true).
    { intros x. unfold alive. rewrite negb_true_iff, N.eqb_neq. specialize (H (sid x)). lia. }
    rewrite !A. cbn [andb negb].
    destruct (bytes_eqb (stx v) (stx ns)) eqn:B.
    + destruct (release_some r k) as (r1 & -> & Q1); [specialize (H (sid k)); lia|].
      destruct (release_some r1 v) as (r2 & -> & Q2).
      { rewrite Q1. specialize (H (sid v)). rewrite held_cons in H. unfold one in H at 2. rewrite N.eqb_refl in H.
        pose proof (one_le (sid k) (sid v)). lia. }
      destruct (IH r2 K0) as (r3 & b & -> & H3 & Hb).
      { intros i. rewrite Q2, Q1. specialize (H i). rewrite held_cons in H. lia. }
      exists r3, true. simpl. split; auto. split; auto. split; auto. intros _. exists k, v. apply bytes_eqb_eq in B. auto.
    + destruct (IH r (fun i => K0 i + (one (sid k) i + one (sid v) i))) as (r3 & b & -> & H3 & Hb).
      { intros i. specialize (H i). rewrite held_cons in H. lia. }
      exists r3, b. simpl. split; auto. split.
      * intros i. specialize (H3 i). fold (one (sid k) i). fold (one (sid v) i). lia.
      * rewrite Hb. split.
        -- intros (k1 & v1 & I & E). eauto.
        -- intros (k1 & v1 & [[= <- <-]|I] & E); [|eauto]. apply bytes_eqb_eq in E. congruence.
Qed.

Section Order.
Variable visit : tbl -> tbl.
Hypothesis visit_perm : forall t, Permutation (visit t) t.

Lemma update_some r es : (forall x, alive r x = true) -> forall h2, exists h2', update_loop r es h2 = Some h2'.
Proof.
  intros A. induction es as [|[k v] es IH]; intros h2; simpl; eauto.
  rewrite !A. simpl. destruct (find_entry h2 (stx v)) as [[n ex]|]; auto. rewrite !A. simpl.
  destruct (Nat.ltb _ _); auto.
Qed.

Lemma reverse_some s : (forall x, alive (rc s) x = true) ->
  exists s', reverse_table visit s = Some s' /\ fwd s' = fwd s /\ rc s' = rc s.
Proof.
  intros A. unfold reverse_table. destruct (dirty s); simpl; [|eauto].
  destruct (update_some (rc s) (visit (fwd s)) A (rev_tbl s)) as (h & ->). eexists. split; [reflexivity|]. auto.
Qed.

Lemma get_prefix_good s n : good s -> exists s' r, get_prefix visit s n = Some (s', r) /\ good s' /\ fwd s' = fwd s /\ rc s' = rc s.
Proof.
  intros G. pose proof (good_alive s G) as A. unfold get_prefix.
  destruct (reverse_some s A) as (s' & -> & F & R). 
  assert (G' : good s') by (unfold good, client_keeps_all in *; rewrite F, R; auto).
  destruct (find_entry (rev_tbl s') n) as [[k v]|].
  - rewrite R, A. eauto 7.
  - eauto 7.
Qed.

Lemma remove_prefix_good s p : good s -> exists s' r, pm_remove_prefix visit s p = Some (s', r) /\ good s' /\
  a_step (fm (fwd s)) (PRemovePrefix p) (fm (fwd s')) r.
Proof.
  intros G. pose proof (good_alive s G) as A. destruct G as (D & K). unfold pm_remove_prefix.
  destruct (find_entry (fwd s) p) as [[k v]|] eqn:F.
  - apply find_in in F as (I & E). rewrite A. cbn [negb].
    set (s1 := {| fwd := del_entry (fwd s) p; rev_tbl := rev_tbl s; dirty := dirty s; rc := rc s |}).
    destruct (reverse_some s1) as (s2 & -> & F2 & R2); [exact A|].
    assert (HK : forall i, held (fwd s) i = one (sid k) i + one (sid v) i + held (fwd s2) i).
    { intros i. rewrite F2. now apply held_del. }
    assert (exists s3, match find_entry (rev_tbl s2) (stx v) with
              | None => Some s2
              | Some (n, p0) =>
                  if negb (alive (rc s2) n) then None else
                  if sid k =? sid p0
                  then Some {| fwd := fwd s2; rev_tbl := del_entry (rev_tbl s2) (stx v); dirty := true; rc := rc s2 |}
                  else Some s2
              end = Some s3 /\ fwd s3 = fwd s2 /\ rc s3 = rc s2) as (s3 & -> & F3 & R3).
    { destruct (find_entry (rev_tbl s2) (stx v)) as [[n p0]|]; eauto. rewrite R2. unfold s1; cbn [rc]. rewrite A. cbn [negb].
      destruct (sid k =? sid p0); eexists; split; try reflexivity; auto. }
    rewrite R3, R2. cbn [rc s1].
    destruct (release_some (rc s) k) as (r1 & -> & Q1); [specialize (K (sid k)); lia|].
    destruct (release_some r1 v) as (r2 & -> & Q2).
    { rewrite Q1. specialize (K (sid v)). specialize (HK (sid v)). unfold one in HK at 2. rewrite N.eqb_refl in HK.
      pose proof (one_le (sid k) (sid v)). lia. }
    eexists _, _. split; [reflexivity|]. split.
    + split; cbn [fwd rc]; [rewrite F3, F2; apply distinct_filter; auto|]. intros i. cbn [fwd rc]. rewrite F3, Q2, Q1.
      specialize (K i). specialize (HK i). lia.
    + cbn [fwd]. rewrite F3, F2. cbn [fwd s1 a_step]. split; [|split].
      * apply fm_none. intros k1 v1 I1. apply in_del in I1. tauto.
      * intros q Hq. apply fm_ext; auto; [apply distinct_filter; auto|]. intros x. split.
        -- intros (k1 & v1 & I1 & E1 & E2). apply in_del in I1 as (I1 & _). eauto.
        -- intros (k1 & v1 & I1 & E1 & E2). exists k1, v1. split; auto. apply in_del. split; auto. simpl. congruence.
      * left. split; auto. assert (fm (fwd s) p = Some (stx v)) as -> by (apply fm_some; eauto). discriminate.
  - eexists _, _. split; [reflexivity|]. split; [split; auto|]. pose proof (find_none _ _ F) as N0.
    assert (M : fm (fwd s) p = None) by now apply fm_none. simpl. auto.
Qed.

Lemma visit_in t e : In e (visit t) <-> In e t.
Proof.
  split; intros H; [apply (Permutation_in _ (visit_perm t))|apply (Permutation_in _ (Permutation_sym (visit_perm t)))]; auto.
Qed.

Lemma visit_distinct t : distinct_keys t -> distinct_keys (visit t).
Proof. apply distinct_perm, Permutation_sym, visit_perm. Qed.

Lemma remove_ns_good s ns : good s -> exists s' r, pm_remove_ns visit s ns = Some (s', r) /\ good s' /\
  a_step (fm (fwd s)) (PRemoveNs ns) (fm (fwd s')) r.
Proof.
  intros G. destruct G as (D & K). unfold pm_remove_ns.
  destruct (remove_ns_loop_good ns (visit (fwd s)) (rc s) (fun _ => 0)) as (r & b & -> & K' & Hb).
  { intros i. rewrite (held_perm _ _ i (visit_perm (fwd s))). specialize (K i). lia. }
  set (es := filter _ (visit (fwd s))) in *.
  assert (De : distinct_keys es) by (apply distinct_filter, visit_distinct; auto).
  assert (Ie : forall k v, In (k, v) es <-> In (k, v) (fwd s) /\ stx v <> stx ns).
  { intros k v. unfold es. rewrite filter_In, visit_in, negb_true_iff. simpl. rewrite <- bytes_eqb_eq, not_true_iff_false. tauto. }
  set (s1 := {| fwd := es; rev_tbl := rev_tbl s; dirty := dirty s; rc := r |}).
  assert (A : forall x, alive r x = true) by (apply alive_keeps with (t := es); intros i; specialize (K' i); lia).
  destruct (reverse_some s1) as (s2 & -> & F2 & R2); [exact A|]. rewrite R2. unfold s1 at 1; cbn [rc]. rewrite A. cbn [negb].
  assert (HA : a_step (fm (fwd s)) (PRemoveNs ns) (fm es) (if b then COWL_OK else COWL_NO)).
  { cbn [a_step]. split; [|split].
    - intros q Hq. apply fm_none. intros k v I E. apply Ie in I as (I & Hn).
      apply fm_some in Hq as (k' & v' & I' & E' & En); auto.
      assert ((k, v) = (k', v')) as [= -> ->] by (apply (distinct_unique (fwd s)); auto; simpl; congruence). contradiction.
    - intros q Hq. apply fm_ext; auto. intros x. split.
      + intros (k1 & v1 & I1 & E1 & E2). apply Ie in I1 as (I1 & _). eauto.
      + intros (k1 & v1 & I1 & E1 & E2). exists k1, v1. split; auto. apply Ie. split; auto. intros En. apply Hq.
        apply fm_some; eauto.
    - destruct b.
      + left. split; auto. destruct (proj1 Hb eq_refl) as (k & v & I & E). exists (stx k).
        rewrite visit_in in I. apply fm_some; auto. exists k, v. auto.
      + right. split; auto. intros q Hq. apply fm_some in Hq as (k & v & I & E & En); auto.
        assert (false = true); [|discriminate]. apply Hb. exists k, v. rewrite visit_in. auto. }
  assert (G2 : good s2).
  { split; unfold client_keeps_all; rewrite F2; [exact De|]. rewrite R2. intros i. specialize (K' i). cbn [fwd rc s1]. lia. }
  destruct (find_entry (rev_tbl s2) (stx ns)) as [[n x]|].
  - unfold s1; cbn [rc]. rewrite A. cbn [negb]. eexists _, _. split; [reflexivity|]. split.
    + split; cbn [fwd]; [apply G2|]. intros i. cbn [fwd rc]. pose proof (proj2 G2 i) as Q. rewrite R2 in Q. exact Q.
    + cbn [fwd]. rewrite F2. exact HA.
  - eexists _, _. split; [reflexivity|]. split; auto. rewrite F2. exact HA.
Qed.

Lemma merge_loop_good es ow : distinct_keys es -> forall s r0, good s -> exists s' r, merge_loop s es ow r0 = Some (s', r) /\ good s' /\
  exists b, a_merge (fm (fwd s)) (map (fun e => (stx (fst e), stx (snd e))) es) ow (fm (fwd s')) b /\
            r = (if b then COWL_OK else r0).
Proof.
  induction es as [|[k v] es IH]; intros D s r0 G; simpl.
  - exists s, r0. split; auto. split; auto. exists false. split; auto. split; [auto|]. split; [intros p n []|].
    split; [discriminate|]. intros (p & n & [] & _).
  - apply distinct_cons in D as (D1 & D2). destruct (add_good s k v ow G) as (s1 & r1 & -> & G1 & b1 & Ha & Hr).
    destruct (IH D2 s1 (if Z.eqb r1 COWL_OK then COWL_OK else r0) G1) as (s2 & r2 & -> & G2 & b2 & Hm & Hr2).
    exists s2, r2. split; auto. split; auto. exists (b1 || b2). split.
    + destruct Ha as (Ho & Hk). destruct Hm as (Mo & Mi & Mc).
      assert (Nk : forall n, ~ In (stx k, n) (map (fun e => (stx (fst e), stx (snd e))) es)).
      { intros n I. apply in_map_iff in I as (e & [= E _] & I). apply (D1 e I). simpl. auto. }
      split; [|split].
      * intros p Hp. rewrite Mo; [apply Ho|]; intros; intros E; eapply Hp; [left; rewrite E; reflexivity|right; eauto].
      * intros p n [[= <- <-]|I].
        -- rewrite (Mo _ Nk). destruct ow; destruct (fm (fwd s) (stx k)); tauto.
        -- assert (Hpk : p <> stx k) by (intros Epk; rewrite Epk in *; eapply Nk; eauto). specialize (Mi p n I). rewrite (Ho p) in Mi; auto.
      * rewrite orb_true_iff. split.
        -- intros [->|Hb].
           ++ exists (stx k), (stx v). split; [now left|]. destruct (fm (fwd s) (stx k)); [|auto].
              destruct ow; auto. destruct Hk; discriminate.
           ++ apply Mc in Hb as (p & n & I & Hb). exists p, n. split; [now right|].
              assert (Hpk : p <> stx k) by (intros Epk; rewrite Epk in *; eapply Nk; eauto). rewrite (Ho p) in Hb; auto.
        -- intros (p & n & [E0|I] & Hc).
           ++ injection E0 as <- <-. left. destruct Hc as [->|Hc]; [|rewrite Hc in Hk; tauto]. destruct (fm (fwd s) (stx k)); tauto.
           ++ right. apply Mc. exists p, n. split; auto. assert (Hpk : p <> stx k) by (intros Epk; rewrite Epk in *; eapply Nk; eauto). rewrite (Ho p); auto.
    + rewrite Hr2, Hr. destruct b1, b2; reflexivity.
Qed.

Lemma merge_good s src ow : distinct_keys src -> good s -> exists s' r, pm_merge visit s src ow = Some (s', r) /\ good s' /\
  a_step (fm (fwd s)) (PMerge src ow) (fm (fwd s')) r.
Proof.
  intros D G. unfold pm_merge.
  destruct (merge_loop_good (visit src) ow (visit_distinct _ D) s COWL_NO G) as (s' & r & -> & G' & b & (Mo & Mi & Mc) & Hr).
  exists s', r. split; auto. split; auto. cbn [a_step]. exists b. split; auto.
  assert (Q : forall p n, In (p, n) (map (fun e => (stx (fst e), stx (snd e))) (visit src)) <->
                          In (p, n) (map (fun e => (stx (fst e), stx (snd e))) src)).
  { intros p n. rewrite !in_map_iff. split; intros (e & E & I); exists e; split; auto; now apply visit_in. }
  split; [|split].
  - intros p H. apply Mo. intros n I. apply (H n). now apply Q.
  - intros p n I. apply Mi. now apply Q.
  - rewrite Mc. split; intros (p & n & I & H); exists p, n; split; auto; now apply Q.
Qed.

Lemma step_good s o : keeps o -> good s -> exists s' r, pm_step visit s o = Some (s', r) /\ good s' /\
  a_step (fm (fwd s)) o (fm (fwd s')) r.
Proof.
  intros Ho G. destruct o as [p n ow|p|n|src ow|n|x]; cbn [pm_step keeps] in *.
  - destruct (add_good s p n ow G) as (s' & r & E & G' & H). exists s', r. auto.
  - now apply remove_prefix_good.
  - now apply remove_ns_good.
  - now apply merge_good.
  - destruct (get_prefix_good s n G) as (s' & r & -> & G' & F & R). exists s', COWL_OK. split; auto. split; auto.
    cbn [a_step]. rewrite F. auto.
  - destruct Ho.
Qed.

Lemma run_good ops : forall s, Forall keeps ops -> good s -> exists s' rs, pm_run visit s ops = Some (s', rs) /\ good s' /\
  a_run (fm (fwd s)) ops (fm (fwd s')) rs.
Proof.
  induction ops as [|o ops IH]; intros s H G; simpl.
  - exists s, []. split; auto. split; auto. constructor. auto.
  - inversion H as [|? ? H1 H2]; subst. destruct (step_good s o H1 G) as (s1 & r & -> & G1 & HS).
    destruct (IH s1 H2 G1) as (s2 & rs & -> & G2 & HR). exists s2, (r :: rs). split; auto. split; auto.
    econstructor; eauto.
Qed.

End Order.

Lemma init_good r : (forall i, r i <> 0) -> exists s c, pm_init r = Some (s, c) /\ good s /\ (forall p, fm (fwd s) p = a_init p).
Proof.
  intros H. unfold pm_init.
  assert (G0 : good {| fwd := []; rev_tbl := []; dirty := false; rc := r |}).
  { split; [constructor|]. intros i. simpl. specialize (H i). lia. }
  assert (D : distinct_keys reserved).
  { apply distinct_NoDup. vm_compute.
    repeat (constructor; [simpl; intros Q; repeat match goal with H : _ \/ _ |- _ => destruct H end; try discriminate; auto|]). constructor. }
  destruct (merge_loop_good reserved false D _ COWL_NO G0) as (s & c & -> & G & b & (Mo & Mi & Mc) & _).
  exists s, c. split; auto. split; auto. intros p. cbn [fwd] in *.
  change (map (fun e => (stx (fst e), stx (snd e))) reserved) with standard in *.
  unfold a_init. destruct (find _ standard) as [[q n]|] eqn:F.
  - apply find_some in F as (I & E). simpl in E. apply bytes_eqb_eq in E. subst q. simpl.
    pose proof (Mi p n I) as X. simpl in X. destruct X as (n' & P & ->). f_equal.
    destruct P as [P|(P & ->)]; auto.
    clear - P I. unfold standard in *. simpl in P, I.
    destruct P as [P|[P|[P|[P|[]]]]], I as [I|[I|[I|[I|[]]]]]; injection P as P1 P2; injection I as I1 I2;
      try (rewrite <- P2, <- I2; reflexivity); exfalso; rewrite <- I1 in P1; vm_compute in P1; discriminate.
  - rewrite Mo; auto. intros n I. pose proof (List.find_none _ _ F _ I) as F0. simpl in F0.
    assert (bytes_eqb p p = true) by now apply bytes_eqb_eq. congruence.
Qed.
