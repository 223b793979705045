(** Concrete prefix-map histories. *)

From Coq Require Import NArith ZArith String List Bool Lia Permutation.
From Verif Require Import Bytes ModelTypes ModelObject ModelText ModelPrefixMap SpecPrefixMap SpecText ProofObject ProofText
  ProofPrefixMap ProofPrefixRev ProofPrefixSafe.
Import ListNotations.
Local Open Scope N_scope.

Definition id_visit : tbl -> tbl := fun t => t.
Lemma id_visit_perm t : Permutation (id_visit t) t.
Proof. apply Permutation_refl. Qed.

Definition ex_rc : N -> N := fun _ => 1.
Lemma ex_rc_nz i : ex_rc i <> 0.
Proof. discriminate. Qed.

Definition s_ex := vstr 20 (bs "ex").
Definition s_e := vstr 21 (bs "e").
Definition s_n1 := vstr 22 (bs "http://ex.org/1#").
Definition s_n2 := vstr 23 (bs "http://ex.org/2#").
Definition s_tmp := vstr 24 (bs "http://ex.org/1#").
Definition s_owl := vstr 25 (bs "owl").

(** The state after creating a map and performing calls, with the answers of look-ups. *)
Definition run0 (ops : list pop) : option (pst * list ret) :=
  match pm_init ex_rc with Some (s, _) => pm_run id_visit s ops | None => None end.
Definition ns_after (ops : list pop) (p : bytes) : option (option bytes) :=
  match run0 ops with Some (s, _) => option_map (option_map stx) (get_ns s p) | None => None end.
Definition prefix_after (ops : list pop) (n : bytes) : option (option bytes) :=
  match run0 ops with
  | Some (s, _) => option_map (fun x => option_map stx (snd x)) (get_prefix id_visit s n)
  | None => None
  end.

Definition ex_ops : list pop :=
  [PAdd s_ex s_n1 false; PAdd s_e s_n1 false; PGetPrefix (stx s_n1); PRemovePrefix (stx s_e);
   PMerge [(s_e, s_n2); (s_owl, s_n1)] true; PRemoveNs s_n2; PAdd s_e s_n1 false].

Lemma ex_keeps : Forall keeps ex_ops.
Proof.
  repeat (apply Forall_cons; [try exact I|]); [|apply Forall_nil].
  simpl. apply distinct_NoDup. vm_compute. repeat constructor; simpl; intuition discriminate.
Qed.

Lemma ex_outcome : ns_after ex_ops (bs "ex") = Some (Some (bs "http://ex.org/1#")) /\
                   ns_after ex_ops (bs "owl") = Some (Some owl_ns) /\
                   prefix_after ex_ops (bs "http://ex.org/1#") = Some (Some (bs "e")) /\
                   prefix_after ex_ops (bs "http://ex.org/2#") = Some None.
Proof. vm_compute. repeat split. Qed.

(** Boolean versions of the per-call conditions, so that they can be computed. *)
Definition str_eqb (a b : str) : bool := (sid a =? sid b) && bytes_eqb (stx a) (stx b).
Lemma str_eqb_eq a b : str_eqb a b = true -> a = b.
Proof.
  unfold str_eqb. rewrite andb_true_iff, N.eqb_eq, bytes_eqb_eq. destruct a, b; simpl. intros (-> & ->). reflexivity.
Qed.
Definition owns_b (s : pst) (x : str) : bool := held (fwd s) (sid x) <? rc s (sid x).
Lemma owns_b_spec s x : owns_b s x = true -> client_owns s x.
Proof. apply N.ltb_lt. Qed.
Definition interned_b (t : tbl) (n : str) : bool := forallb (fun e => negb (bytes_eqb (stx (snd e)) (stx n)) || str_eqb (snd e) n) t.
Lemma interned_b_spec t n : interned_b t n = true -> interned_in t n.
Proof.
  unfold interned_b. rewrite forallb_forall. intros H k v I E. specialize (H _ I). simpl in H.
  apply bytes_eqb_eq in E. rewrite E in H. simpl in H. now apply str_eqb_eq.
Qed.
Definition lawful_b (s : pst) (o : pop) : bool :=
  match o with
  | PAdd p n _ => owns_b s p && alive (rc s) (intern_ns p n) && interned_b (fwd s) (intern_ns p n)
  | PRemovePrefix _ | PGetPrefix _ => true
  | PRemoveNs n => owns_b s n
  | PMerge src _ => forallb (fun e => owns_b s (fst e) && owns_b s (snd e)) src
  | PRelease x => owns_b s x
  end.
Lemma lawful_b_spec s o : lawful_b s o = true -> lawful s o.
Proof.
  destruct o as [p n ow|p|n|src ow|n|x]; simpl; auto using owns_b_spec.
  - rewrite !andb_true_iff, alive_nz. intros ((A & B) & C). auto using owns_b_spec, interned_b_spec.
  - rewrite forallb_forall. intros H k v I. specialize (H _ I). simpl in H. apply andb_true_iff in H as (A & B).
    auto using owns_b_spec.
Qed.
Definition fair_b (s : pst) (o : pop) : bool :=
  match o with
  | PAdd p n ow => alive (rc s) p && alive (rc s) (intern_ns p n) && interned_b (fwd s) (intern_ns p n) && negb ow
  | PRemovePrefix _ | PGetPrefix _ => true
  | PRemoveNs n => owns_b s n && forallb (fun e => negb (bytes_eqb (stx (snd e)) (stx n)) || owns_b s (snd e)) (fwd s)
  | PMerge _ _ => false
  | PRelease x => owns_b s x
  end.
Lemma fair_b_spec s o : fair_b s o = true -> fair s o.
Proof.
  destruct o as [p n ow|p|n|src ow|n|x]; simpl; auto using owns_b_spec.
  - rewrite !andb_true_iff, !alive_nz, negb_true_iff. intros (((A & B) & C) & D). auto using interned_b_spec.
  - rewrite andb_true_iff, forallb_forall. intros (A & B). split; [now apply owns_b_spec|].
    intros k v I E. specialize (B _ I). simpl in B. apply bytes_eqb_eq in E. rewrite E in B. simpl in B. now apply owns_b_spec.
  - discriminate.
Qed.
Definition pinned_b (p n x : bytes) : bool :=
  match find (fun e => bytes_eqb (fst e) p) standard with Some e => bytes_eqb (snd e) x | None => bytes_eqb x n end.
Lemma pinned_b_spec p n x : pinned_b p n x = true -> pinned_ns p n x.
Proof.
  unfold pinned_b, pinned_ns. destruct (find _ standard) as [[q y]|] eqn:F; rewrite bytes_eqb_eq; simpl.
  - intros <-. apply find_some in F as (I & E). simpl in E. apply bytes_eqb_eq in E. subst q. auto.
  - intros ->. right. split; auto. intros z I. pose proof (List.find_none _ _ F _ I) as X. simpl in X.
    assert (bytes_eqb p p = true) by now apply bytes_eqb_eq. congruence.
Qed.
Definition no_rebind_b (s : pst) (p n : str) (ow : bool) : bool :=
  negb ow || match get_ns s (stx p) with Some (Some old) => pinned_b (stx p) (stx n) (stx old) | _ => true end.
Lemma no_rebind_b_spec s p n ow : no_rebind_b s p n ow = true -> no_rebind s p n ow.
Proof. unfold no_rebind_b. intros H -> old E. simpl in H. rewrite E in H. now apply pinned_b_spec. Qed.
Definition quiet_b (s : pst) (o : pop) : bool :=
  match o with
  | PAdd p n ow => no_rebind_b s p n ow
  | PMerge src ow => forallb (fun e => no_rebind_b s (fst e) (snd e) ow) src
  | _ => true
  end.
Lemma quiet_b_spec s o : quiet_b s o = true -> quiet s o.
Proof.
  destruct o as [p n ow|p|n|src ow|n|x]; simpl; auto using no_rebind_b_spec.
  rewrite forallb_forall. intros H k v I. exact (no_rebind_b_spec _ _ _ _ (H _ I)).
Qed.

Fixpoint check (f : pst -> pop -> bool) (s : pst) (ops : list pop) : bool :=
  match ops with
  | [] => true
  | o :: ops' => f s o && match pm_step id_visit s o with Some (s', _) => check f s' ops' | None => true end
  end.
Lemma check_spec f (P : pst -> pop -> Prop) : (forall s o, f s o = true -> P s o) -> forall ops s, check f s ops = true -> all_calls P id_visit s ops.
Proof.
  intros H. induction ops as [|o ops IH]; intros s E; [constructor|]. simpl in E. apply andb_true_iff in E as (A & B).
  constructor; auto. intros s' r Es. rewrite Es in B. auto.
Qed.
Definition check0 (f : pst -> pop -> bool) (ops : list pop) : bool :=
  match pm_init ex_rc with Some (s, _) => check f s ops | None => false end.

Lemma ex_quiet s0 c : pm_init ex_rc = Some (s0, c) -> all_calls quiet id_visit s0 ex_ops.
Proof.
  intros H. apply (check_spec _ _ quiet_b_spec).
  assert (E : check0 quiet_b ex_ops = true) by (vm_compute; reflexivity). unfold check0 in E. rewrite H in E. exact E.
Qed.

(** * Counterexamples *)

Definition stale_ops : list pop := [PAdd s_ex s_n1 false; PGetPrefix (stx s_n1); PAdd s_ex s_n2 true].

Lemma reverse_counterexample : exists ops n p x, Forall keeps ops /\
  prefix_after ops n = Some (Some p) /\ ns_after ops p = Some (Some x) /\ x <> n.
Proof.
  exists stale_ops, (stx s_n1), (bs "ex"), (stx s_n2). split; [repeat constructor|]. vm_compute. repeat split; try reflexivity.
  discriminate.
Qed.

Lemma reverse_missing_counterexample : exists ops n p, Forall keeps ops /\
  prefix_after ops n = Some (Some p) /\ ns_after ops p = Some None.
Proof.
  exists (stale_ops ++ [PRemovePrefix (bs "ex")]), (stx s_n1), (bs "ex").
  split; [repeat constructor|]. vm_compute. repeat split; reflexivity.
Qed.

(** add_raw, get_prefix, remove_ns_raw *)
Definition dangling_ns_ops : list pop :=
  [PAdd s_ex s_n1 false; PRelease s_ex; PRelease s_n1; PGetPrefix (stx s_n1); PRemoveNs s_tmp].
(** add_raw twice with overwrite, look-ups in between and after *)
Definition dangling_rev_ops : list pop :=
  [PAdd s_ex s_n1 false; PRelease s_n1; PGetPrefix (stx s_n1); PAdd s_ex s_n2 true; PGetPrefix (stx s_tmp)].
(** add the same binding twice, the second time through a string that is interned by the call *)
Definition self_overwrite_ops : list pop := [PAdd s_ex s_n1 false; PRelease s_n1; PAdd s_ex s_n1 true].

Definition undefined0 (ops : list pop) : bool :=
  match pm_init ex_rc with Some (s, _) => match pm_run id_visit s ops with None => true | Some _ => false end | None => false end.

Lemma lawful_undefined ops : check0 lawful_b ops = true -> undefined0 ops = true ->
  exists s0 c, pm_init ex_rc = Some (s0, c) /\ all_calls lawful id_visit s0 ops /\ pm_run id_visit s0 ops = None.
Proof.
  unfold check0, undefined0. destruct (pm_init ex_rc) as [[s0 c]|]; [|discriminate]. intros A B.
  exists s0, c. split; auto. split; [now apply (check_spec _ _ lawful_b_spec)|]. destruct (pm_run _ _ _); [discriminate|auto].
Qed.

Lemma use_after_free_remove_ns : exists ops s0 c, pm_init ex_rc = Some (s0, c) /\
  all_calls lawful id_visit s0 ops /\ pm_run id_visit s0 ops = None.
Proof. exists dangling_ns_ops. apply lawful_undefined; vm_compute; reflexivity. Qed.

Lemma use_after_free_overwrite : exists ops s0 c, pm_init ex_rc = Some (s0, c) /\
  all_calls lawful id_visit s0 ops /\ pm_run id_visit s0 ops = None /\
  (forall o, In o ops -> match o with PRemoveNs _ => False | _ => True end).
Proof.
  exists dangling_rev_ops. destruct (lawful_undefined dangling_rev_ops) as (s0 & c & A & B & C);
    [vm_compute; reflexivity|vm_compute; reflexivity|]. exists s0, c. repeat (split; auto).
  intros o [<-|[<-|[<-|[<-|[<-|[]]]]]]; exact I.
Qed.

Lemma use_after_free_same_ns : exists p n s0 c, pm_init ex_rc = Some (s0, c) /\
  all_calls lawful id_visit s0 [PAdd p n false; PRelease n; PAdd p n true] /\
  pm_run id_visit s0 [PAdd p n false; PRelease n; PAdd p n true] = None.
Proof. exists s_ex, s_n1. apply lawful_undefined; vm_compute; reflexivity. Qed.

Definition fair_ops : list pop :=
  [PAdd s_ex s_n1 false; PRelease s_ex; PAdd s_e s_n1 false; PGetPrefix (stx s_n1); PRemovePrefix (stx s_e); PGetPrefix (stx s_n1)].

Lemma ex_fair s0 c : pm_init ex_rc = Some (s0, c) -> all_calls fair id_visit s0 fair_ops.
Proof.
  intros H. apply (check_spec _ _ fair_b_spec).
  assert (E : check0 fair_b fair_ops = true) by (vm_compute; reflexivity). unfold check0 in E. rewrite H in E. exact E.
Qed.

Lemma ex_reserved_alive : forall k v, In (k, v) reserved -> ex_rc (sid k) <> 0 /\ ex_rc (sid v) <> 0.
Proof. intros. split; discriminate. Qed.

(** Parsing "owl" reads past the end of the string. *)
Definition parses0 (t : bytes) : option (option (option (bytes * bytes))) :=
  match pm_init ex_rc with Some (s, _) => Some (pm_parse_iri s t) | None => None end.
Definition parses_short0 (t : bytes) : option (option (option (bytes * bytes))) :=
  match pm_init ex_rc with Some (s, _) => Some (pm_parse_short_iri s t) | None => None end.

Lemma short_iri_counterexample : exists s0 c t, pm_init ex_rc = Some (s0, c) /\ pm_parse_short_iri s0 t = None /\ pm_parse_iri s0 t = None.
Proof.
  assert (A : parses0 (bs "owl") = Some None) by (vm_compute; reflexivity).
  assert (B : parses_short0 (bs "owl") = Some None) by (vm_compute; reflexivity).
  unfold parses0, parses_short0 in *. destruct (pm_init ex_rc) as [[s0 c]|]; [|discriminate].
  injection A as A. injection B as B. exists s0, c, (bs "owl"). auto.
Qed.

Lemma ex_short : exists s0 c, pm_init ex_rc = Some (s0, c) /\
  pm_parse_iri s0 (bs "owl:Thing") = Some (Some (owl_ns, bs "Thing")) /\
  pm_parse_iri s0 (bs "http://ex.org/a") = Some (Some (bs "http://ex.org/", bs "a")).
Proof.
  assert (A : parses0 (bs "owl:Thing") = Some (Some (Some (owl_ns, bs "Thing")))) by (vm_compute; reflexivity).
  assert (B : parses0 (bs "http://ex.org/a") = Some (Some (Some (bs "http://ex.org/", bs "a")))) by (vm_compute; reflexivity).
  unfold parses0 in *. destruct (pm_init ex_rc) as [[s0 c]|]; [|discriminate].
  injection A as A. injection B as B. exists s0, c. auto.
Qed.

(** A prefix bound twice before anything is looked up. *)
Definition ex_rebinds : list pop := [PAdd s_ex s_n1 false; PAdd s_ex s_n2 true].
Lemma ex_rebinds_case : Forall adds ex_rebinds /\ Forall keeps ex_rebinds /\ prefix_after ex_rebinds (bs "http://ex.org/1#") = Some None /\
  prefix_after ex_rebinds (bs "http://ex.org/2#") = Some (Some (bs "ex")).
Proof. split; [repeat constructor|]. split; [repeat constructor|]. split; vm_compute; reflexivity. Qed.
