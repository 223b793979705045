(** When no request for memory fails, objects are created. *)

From Coq Require Import NArith List Bool Arith Lia.
From Verif Require Import Bytes ModelTypes ModelHeader ModelText ModelHeap SpecHeap ModelOom SpecOom.
Import ListNotations.
Local Open Scope N_scope.

Definition yields {A} (P : A -> Prop) (m : oact A) : Prop := forall n s x n' s', m n s = Ok (x, n') s' -> P x.

Lemma yields_ret {A} (P : A -> Prop) x : P x -> yields P (oret x).
Proof. intros H n s x' n' s' E. cbv in E. now inversion E; subst. Qed.
Lemma yields_bind {A B} (P : A -> Prop) (Q : B -> Prop) m k : yields P m -> (forall x, P x -> yields Q (k x)) -> yields Q (obind m k).
Proof.
  intros H K n s x n' s' E. unfold obind, bind in E. destruct (m n s) as [[y n1] s1|] eqn:M; [|discriminate]. exact (K y (H _ _ _ _ _ M) _ _ _ _ _ E).
Qed.
Lemma yields_any {A} (m : oact A) : yields (fun _ => True) m.
Proof. intros ? **. exact I. Qed.

Definition some {A} (x : option A) : Prop := exists y, x = Some y.
Lemma yields_some {A} (x : A) : yields some (oret (Some x)).
Proof. apply yields_ret. now exists x. Qed.

Section Enough.
Variable huge : bool.
Variable fresh : N -> heap -> N.
Variable e : env.
Variable full : N -> bool.
Hypothesis enough : forall n, full n = false.

Ltac skip := eapply yields_bind; [apply yields_any|intros ? _; cbn beta].
Ltac step H := eapply yields_bind; [exact H|let x := fresh "x" in let X := fresh "X" in intros x X; try (destruct X as [? ->])].

Lemma y_attempt : yields (fun b => b = true) (attempt full).
Proof. intros n s x n' s' E. unfold attempt in E. inversion E. now rewrite enough. Qed.
Lemma y_raw_new : yields (fun b => b = true) (raw_new full).
Proof.
  eapply yields_bind; [exact y_attempt|]. intros b ->. cbn. intros n s x n' s' E. cbv in E. now inversion E.
Qed.
Lemma y_put T eq : yields (fun r => r <> PErr) (put full T eq).
Proof.
  eapply yields_bind; [exact y_attempt|]. intros b ->. cbn. skip. apply yields_ret. now destruct x.
Qed.
Lemma y_one m : yields some (one_alloc full m).
Proof. eapply yields_bind; [exact y_attempt|]. intros b ->. cbn. skip. apply yields_some. Qed.

Lemma y_string_get t copy : yields some (string_get_f huge fresh full t copy).
Proof.
  unfold string_get_f. apply yields_bind with (P := fun b => b = true).
  - destruct copy; [exact y_raw_new|now apply yields_ret].
  - intros b ->. eapply yields_bind; [exact y_attempt|]. intros b ->. cbn. skip. skip. apply yields_some.
Qed.
Lemma y_intern t copy : yields some (string_get_intern_f huge fresh full t copy).
Proof.
  unfold string_get_intern_f. eapply yields_bind; [apply y_put|]. intros [|k|] N; [| |easy].
  - eapply yields_bind; [apply y_string_get|]. intros ? [a ->]. skip. skip. apply yields_some.
  - skip. skip. apply yields_some.
Qed.
Lemma y_string_intern a : yields some (string_intern_f huge e full (Some a)).
Proof.
  unfold string_intern_f. skip. destruct x; [apply yields_some|]. skip. destruct (Nat.eqb _ _); [apply yields_some|].
  eapply yields_bind; [apply y_put|]. intros [|k|] N; [| |easy]; [skip; skip|]; apply yields_some.
Qed.
Lemma y_string_copy t : yields some (string_copy_f huge fresh full t).
Proof. unfold string_copy_f. eapply yields_bind; [exact y_attempt|]. intros b ->. skip. skip. skip. apply yields_some. Qed.
Lemma y_cowl_string t : yields some (cowl_string_f huge fresh e full (Some t)).
Proof. unfold cowl_string_f. destruct (Nat.eqb _ _); [skip; apply yields_some|apply y_string_get]. Qed.
Lemma y_string_opt t copy intern : yields some (string_opt_f huge fresh e full t copy intern).
Proof.
  unfold string_opt_f. destruct (Nat.eqb _ _); [skip; apply yields_some|]. destruct intern; [apply y_intern|apply y_string_get].
Qed.
Lemma y_ns_rem t n : yields some (get_ns_rem_f huge fresh e full t n).
Proof.
  unfold get_ns_rem_f. apply yields_bind with (P := some).
  - destruct (Nat.ltb _ _); [apply y_string_opt|]. skip. apply yields_some.
  - intros ? [r ->]. eapply yields_bind; [apply y_string_opt|]. intros ? [l ->]. apply yields_some.
Qed.
Lemma y_unvalidated a r : yields some (iri_unvalidated_f huge fresh e full (Some a) r).
Proof.
  unfold iri_unvalidated_f. eapply yields_bind; [apply y_string_intern|]. intros ? [i ->]. skip.
  eapply yields_bind; [apply y_put|]. intros [|k|] N; [| |easy].
  - eapply yields_bind; [exact y_attempt|]. intros b ->. skip. skip. skip. skip. apply yields_some.
  - skip. apply yields_some.
Qed.
Lemma y_append : yields (fun b => b = true) (append_two full).
Proof.
  unfold append_two. eapply yields_bind; [exact y_raw_new|]. intros b ->. eapply yields_bind; [exact y_attempt|]. intros b ->. now apply yields_ret.
Qed.
Lemma y_to_string t : yields (fun x => x = Some t) (to_string full t).
Proof. unfold to_string. eapply yields_bind; [exact y_attempt|]. intros b ->. now apply yields_ret. Qed.
Lemma y_iri p q : yields some (cowl_iri_f huge fresh e full (Some p) (Some q)).
Proof.
  unfold cowl_iri_f. skip. skip. apply yields_bind with (P := fun r => some (fst r) /\ some (snd r)).
  - destruct (Nat.ltb _ _).
    + eapply yields_bind; [exact y_append|]. intros b ->. eapply yields_bind; [apply y_to_string|]. intros ? ->.
      eapply yields_bind; [apply y_cowl_string|]. intros ? [p' ->]. eapply yields_bind; [apply y_string_opt|]. intros ? [q' ->].
      apply yields_ret. split; eexists; reflexivity.
    + cbv zeta. destruct (Nat.ltb _ _).
      * eapply yields_bind; [exact y_append|]. intros b ->. eapply yields_bind; [apply y_string_opt|]. intros ? [p' ->].
        eapply yields_bind; [apply y_to_string|]. intros ? ->. eapply yields_bind; [apply y_cowl_string|]. intros ? [q' ->].
        apply yields_ret. split; eexists; reflexivity.
      * skip. skip. apply yields_ret. split; eexists; reflexivity.
  - intros [? ?] [[p' X] [q' Y]]. cbn in X, Y. subst. eapply yields_bind; [apply y_unvalidated|]. intros ? [i ->]. skip. skip. apply yields_some.
Qed.
Lemma y_iri_text t : t <> [] -> yields some (iri_of_string_f huge fresh e full t).
Proof.
  intros T. unfold iri_of_string_f. destruct (Nat.leb_spec (ustring_size t) 1) as [L|_].
  - exfalso. apply T. destruct t; auto. unfold ustring_size in L. cbn [List.length] in L. lia.
  - eapply yields_bind; [apply y_ns_rem|]. intros ? [[l r] ->]. eapply yields_bind; [apply y_unvalidated|]. intros ? [i ->]. skip. skip. apply yields_some.
Qed.
Lemma y_entity t i : yields some (entity_get_f huge fresh full t (Some i)).
Proof.
  unfold entity_get_f. eapply yields_bind; [apply y_put|]. intros [|k|] N; [| |easy].
  - eapply yields_bind; [exact y_attempt|]. intros b ->. skip. skip. skip. apply yields_some.
  - skip. apply yields_some.
Qed.
Lemma y_entity_text t u : u <> [] -> yields some (entity_of_string_f huge fresh e full t u).
Proof.
  intros U. unfold entity_of_string_f. eapply yields_bind; [exact (y_iri_text u U)|]. intros ? [i ->].
  eapply yields_bind; [apply y_entity|]. intros ? [x ->]. skip. apply yields_some.
Qed.
Lemma y_anon_alloc i : yields some (anon_alloc_f huge fresh full i).
Proof. unfold anon_alloc_f. eapply yields_bind; [exact y_attempt|]. intros b ->. skip. skip. skip. apply yields_some. Qed.
Lemma y_anon_id i : yields some (anon_of_id_f huge fresh full i).
Proof.
  unfold anon_of_id_f. skip. eapply yields_bind; [apply y_put|]. intros [|k|] N; [| |easy]; [apply y_anon_alloc|skip; apply yields_some].
Qed.
Lemma y_literal_alloc v d b : yields some (literal_alloc_f huge fresh full v d b).
Proof. unfold literal_alloc_f. eapply yields_bind; [apply y_one|]. intros ? [l ->]. skip. apply yields_some. Qed.
Lemma y_intern_lang l : yields some (intern_lang_f huge fresh e full l).
Proof.
  unfold intern_lang_f. skip. destruct (is_lower x).
  - eapply yields_bind; [apply y_string_intern|]. intros ? [i ->]. skip. apply yields_some.
  - eapply yields_bind; [exact y_raw_new|]. intros b ->. apply y_string_opt.
Qed.
Lemma y_lang_alloc v l : yields some (lit_lang_alloc_f huge fresh e full v l).
Proof.
  unfold lit_lang_alloc_f. skip. destruct (Nat.eqb _ _); [apply y_literal_alloc|]. eapply yields_bind; [apply y_intern_lang|]. intros ? [i ->].
  eapply yields_bind; [apply y_literal_alloc|]. intros ? [a ->]. skip. apply yields_some.
Qed.
Lemma y_parse_lang v : yields some (parse_lang_at_f huge fresh e full v).
Proof.
  unfold parse_lang_at_f. skip. destruct (parse_lang x) as [u [lang|]].
  - eapply yields_bind; [apply y_string_opt|]. intros ? [v' ->]. eapply yields_bind; [exact y_raw_new|]. intros b ->.
    eapply yields_bind; [apply y_string_opt|]. intros ? [l ->]. apply yields_some.
  - skip. apply yields_some.
Qed.
Lemma y_literal v d : yields some (literal_f huge fresh e full (Some v) d).
Proof.
  unfold literal_f. destruct d as [d|]; [|apply y_literal_alloc]. skip.
  assert (D : yields some (if (d =? e_lang_string e) || (d =? e_plain_literal e) then lit_parse_lang_alloc_f huge fresh e full v
                 else literal_alloc_f huge fresh full (Some v) (Some d) false)).
  { destruct (_ || _); [|apply y_literal_alloc]. unfold lit_parse_lang_alloc_f. eapply yields_bind; [apply y_parse_lang|]. intros ? [[a l] ->].
    eapply yields_bind; [apply y_literal_alloc|]. intros ? [x0 ->]. skip. skip. apply yields_some. }
  destruct x as [[]|]; try exact D. apply y_lang_alloc.
Qed.
Lemma y_copied t d : yields some (lit_copied_f huge fresh e full t d).
Proof.
  unfold lit_copied_f. eapply yields_bind; [apply y_string_opt|]. intros ? [v ->]. eapply yields_bind; [apply y_literal_alloc|]. intros ? [a ->].
  skip. apply yields_some.
Qed.
Lemma y_vector l : yields some (vector_f huge fresh full l).
Proof. unfold vector_f. eapply yields_bind; [exact y_attempt|]. intros b ->. apply y_one. Qed.
Lemma y_push l : forall b, yields (fun r => r = true) (push_all full b l).
Proof.
  induction l as [|x l IH]; intros b; cbn [push_all]; [now apply yields_ret|].
  apply yields_bind with (P := fun b => b = true); [destruct b; [exact y_raw_new|exact y_attempt]|]. intros ? ->. apply IH.
Qed.
Lemma y_nary t l : yields some (nary_get_impl_f huge fresh full t l).
Proof.
  unfold nary_get_impl_f. apply yields_bind with (P := some).
  - unfold vector_with_args_f. eapply yields_bind; [apply y_push|]. intros ? ->. eapply yields_bind; [apply y_vector|]. intros ? [v ->].
    destruct l; [apply yields_some|]. skip. apply yields_some.
  - intros ? [v ->]. eapply yields_bind; [apply y_one|]. intros ? [a ->]. skip. apply yields_some.
Qed.
Lemma y_construct t fs opt val : yields some (construct_f huge fresh e full t fs opt val).
Proof.
  assert (D : yields some (one_alloc full (construct huge fresh e t fs opt val))) by apply y_one.
  unfold construct_f. destruct (ctor_of t) as [[]|]; try exact D.
  destruct fs as [|c [|o [|d [|]]]]; try exact D.
  unfold has_key_f. skip. skip. eapply yields_bind; [apply y_one|]. intros ? [a ->]. skip. skip. apply yields_some.
Qed.

Lemma enough_creates k s r n s' : creates k = true -> hopeless k = false ->
  exec_f huge fresh e full k 0 s = Ok (r, n) s' -> r <> None.
Proof.
  intros C H E. assert (Y : yields some (exec_f huge fresh e full k)).
  { destruct k; try discriminate C; cbn [exec_f].
    - apply y_string_opt.
    - apply y_iri.
    - apply y_iri_text. now intros ->.
    - apply y_entity.
    - apply y_entity_text. now intros ->.
    - destruct id as [i|]; [|discriminate H]. apply y_anon_id.
    - apply y_literal.
    - apply y_copied.
    - apply y_copied.
    - apply y_vector.
    - apply y_construct.
    - apply y_nary.
    - unfold chain_axiom_f. skip. apply y_one.
    - apply y_one. }
  destruct (Y _ _ _ _ _ E) as [a ->]. discriminate.
Qed.

End Enough.
