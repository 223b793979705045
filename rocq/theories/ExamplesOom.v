(** Concrete histories in which memory runs out. *)

From Coq Require Import String.
From Coq Require Import NArith List Bool Arith Lia.
From Verif Require Import Bytes ModelTypes ModelObject ModelHeader SpecHeader ModelText ModelHeap SpecHeap ModelOom SpecOom.
From Verif Require Import ProofObject ProofHeap ProofHeapRun ExamplesHeap.
Import ListNotations.
Local Open Scope N_scope.

(** The request with this number, counted from a state, fails. *)
Definition nth_fails (s : state) (j : N) : N -> bool := fun n => n =? s_n s + j.

(** A check that is enough for [checked]. *)
Definition checkedb (e : env) (s : state) (k : call) : bool :=
  match k with
  | KAnonText _ | KLitLang _ _ | KVectorOrdered => false
  | KLiteral _ (Some _) => false
  | KConstruct OT_A_HAS_KEY _ _ _ => false
  | KAnon None _ => false
  | _ => true
  end.
Lemma checkedb_ok e s k : checkedb e s k = true -> checked false e s k.
Proof.
  destruct k as [| |p|s0|a|a|p q|t|t i|t u|[id|] ids|t|v [d|]|t|t d|t l|items| |v x|v x|t fs opt val|t items|sub super annot|a b|a| |o i|o i|o|o x|o x|o i|o i|o x|o x|o x];
    try discriminate; try (intros _; exact I). destruct t; try discriminate; intros _; exact I.
Qed.

(** Runs calls; in a call with a number, the request with that number fails. *)
Fixpoint fgo (e : env) (lib : list N) (ks : list (option N * (list N -> call))) (s : state) (own : list N) : option (state * list N) :=
  match ks with
  | [] => Some (s, own)
  | (j, k) :: ks' =>
      if check lib own s (k own) && roomb (lib ++ own) s (k own) then
        match j with
        | None =>
            match exec false next e (k own) s with
            | Ok r s' => fgo e lib ks' s' (after (k own) r own)
            | Err _ => None
            end
        | Some j =>
            if checkedb e s (k own) then
              match exec_f false next e (nth_fails s j) (k own) 0 s with
              | Ok (r, _) s' => fgo e lib ks' s' (after (k own) r own)
              | Err _ => None
              end
            else None
        end
      else None
  end.
Lemma fgo_ok e vs lib ks : forall s own s' own', fhistory false next e vs lib s own -> fgo e lib ks s own = Some (s', own') ->
  fhistory false next e vs lib s' own'.
Proof.
  induction ks as [|[j k] ks IH]; intros s own s' own' H; cbn [fgo].
  - intros X. inversion X; subst. auto.
  - destruct (check lib own s (k own) && roomb (lib ++ own) s (k own)) eqn:B; [|discriminate].
    apply andb_true_iff in B as [B1 B2]. destruct (check_ok e _ _ _ _ B1) as [AL NC]. apply roomb_ok in B2.
    destruct j as [j|].
    + destruct (checkedb e s (k own)) eqn:C; [|discriminate]. apply checkedb_ok in C.
      destruct (exec_f false next e (nth_fails s j) (k own) 0 s) as [[r n] s1|] eqn:E; [|discriminate]. apply IH. eapply fh_call; eauto.
    + destruct (exec false next e (k own) s) as [r s1|] eqn:E; [|discriminate]. apply IH. eapply fh_plain; eauto.
Qed.
Definition fgo_from (i : res (env * list vocab)) (ks : list (option N * (list N -> call))) : option (env * list vocab * list N * state * list N) :=
  match i with
  | Ok (e, vs) s =>
      let lib := library e vs s in
      match fgo e lib ks s [] with Some (s', own) => Some (e, vs, lib, s', own) | None => None end
  | Err _ => None
  end.
Lemma fgo_from_env ks (P : env -> list N -> state -> list N -> bool) :
  (match fgo_from (lib_init false next s_zero) ks with Some (e, _, lib, s, own) => P e lib s own | None => false end) = true ->
  exists e vs lib s own, fhistory false next e vs lib s own /\ P e lib s own = true.
Proof.
  unfold fgo_from. remember (lib_init false next s_zero) as i eqn:E. destruct i as [[e vs] s0|]; [|discriminate].
  destruct (fgo e (library e vs s0) ks s0 []) as [[s1 own1]|] eqn:G; [|discriminate].
  intros H. exists e, vs, (library e vs s0), s1, own1. split; auto. eapply fgo_ok; [|exact G]. constructor; auto.
Qed.

(** A class; then an IRI, a literal, an axiom and a class for which memory runs out, and an axiom that is created. *)
Definition short_story : list (option N * (list N -> call)) :=
  [ (None, fun _ => KEntityText OT_CE_CLASS (bs "http://x.org/b"));
    (Some 1, fun _ => KIriText (bs "http://x.org/a"));
    (Some 3, fun _ => KIriText (bs "http://y.org/a"));
    (Some 3, fun _ => KLitPlain (bs "some text"));
    (Some 0, fun w => KConstruct OT_A_SUB_CLASS [Some (o w 0); Some (o w 0)] None 0);
    (Some 11, fun _ => KEntityText OT_CE_CLASS (bs "http://z.org/a"));
    (Some 4, fun w => KConstruct OT_A_SUB_CLASS [Some (o w 0); Some (o w 0)] None 0) ].
(** Two references are left. The next call asks for another class. *)
Lemma short_story_runs : exists e vs lib s a c,
  fhistory false next e vs lib s [a; c] /\ has_type false s a OT_A_SUB_CLASS /\ has_type false s c OT_CE_CLASS /\
  allowed false e lib [a; c] s (KEntityText OT_CE_CLASS (bs "http://w.org/a")) /\
  room false (lib ++ [a; c]) s (KEntityText OT_CE_CLASS (bs "http://w.org/a")) /\
  exists s', exec_f false next e (nth_fails s 10) (KEntityText OT_CE_CLASS (bs "http://w.org/a")) 0 s = Ok (None, 0) s'.
Proof.
  destruct (fgo_from_env short_story (fun e lib s own => match own with
      | [a; c] => typeb s a OT_A_SUB_CLASS && typeb s c OT_CE_CLASS && (check lib [a; c] s (KEntityText OT_CE_CLASS (bs "http://w.org/a")) &&
          roomb (lib ++ [a; c]) s (KEntityText OT_CE_CLASS (bs "http://w.org/a"))) &&
          match exec_f false next e (nth_fails s 10) (KEntityText OT_CE_CLASS (bs "http://w.org/a")) 0 s with Ok (None, 0) _ => true | _ => false end
      | _ => false end))
    as (e & vs & lib & s & own & H & P); [vm_compute; reflexivity|].
  destruct own as [|a [|c [|? ?]]]; try discriminate. rewrite !andb_true_iff in P. destruct P as [[[P1 P2] [P3 P4]] P5].
  exists e, vs, lib, s, a, c. split; [exact H|]. split; [now apply typeb_ok|]. split; [now apply typeb_ok|].
  split; [now apply (check_ok e)|]. split; [now apply roomb_ok|].
  destruct (exec_f false next e (nth_fails s 10) (KEntityText OT_CE_CLASS (bs "http://w.org/a")) 0 s) as [[[r|] [|n]] s'|]; try discriminate P5. eauto.
Qed.
Definition closed_short_story : list (option N * (list N -> call)) :=
  short_story ++ [ (None, fun w => KRelease (o w 0)); (None, fun w => KRelease (o w 0)) ].
Lemma closed_short_story_runs : exists e vs lib s, fhistory false next e vs lib s [].
Proof.
  destruct (fgo_from_env closed_short_story (fun _ _ s own => match own with [] => true | _ => false end))
    as (e & vs & lib & s & own & H & P); [vm_compute; reflexivity|].
  destruct own; [|discriminate]. eauto.
Qed.

(** * Calls that do not survive *)

(** A call dereferences NULL when this request fails. *)
Definition breaksb (k : list N -> call) (j : N) (e : env) (lib : list N) (s : state) (own : list N) : bool :=
  check lib own s (k own) && roomb (lib ++ own) s (k own) &&
  match exec_f false next e (nth_fails s j) (k own) 0 s with Err ENull => true | _ => false end.
Definition breaks (k : list N -> call) (j : N) : Prop := exists e vs lib s own,
  history false next e vs lib s own /\ allowed false e lib own s (k own) /\ SpecHeap.no_cycle s (k own) /\ room false (lib ++ own) s (k own) /\
  exec_f false next e (nth_fails s j) (k own) 0 s = Err ENull.
Lemma breaks_ok ks k j :
  (match go_from (lib_init false next s_zero) ks with Some (e, _, lib, s, own) => breaksb k j e lib s own | None => false end) = true -> breaks k j.
Proof.
  intros B. destruct (go_from_env ks (breaksb k j) B) as (e & vs & lib & s & own & H & P). clear B. unfold breaksb in P.
  rewrite !andb_true_iff in P. destruct P as [[P1 P2] P3]. destruct (check_ok e _ _ _ _ P1) as [AL NC]. apply roomb_ok in P2.
  destruct (exec_f false next e (nth_fails s j) (k own) 0 s) as [|[]] eqn:E; try discriminate P3.
  exists e, vs, lib, s, own. auto 6.
Qed.

(** cowl_anon_ind_from_string: the copy of the identifier is not created *)
Lemma anon_breaks : breaks (fun _ => KAnonText (bs "a-long-identifier-of-a-node")) 1.
Proof. apply (breaks_ok []). vm_compute. reflexivity. Qed.
(** cowl_literal_lang: the literal is not created *)
Lemma lang_breaks : exists j, breaks (fun _ => KLitLang (bs "some text") (bs "en")) j.
Proof. exists 7. apply (breaks_ok []). vm_compute. reflexivity. Qed.
(** cowl_vector_ordered_empty: the vector is not created *)
Lemma ordered_breaks : breaks (fun _ => KVectorOrdered) 0.
Proof. apply (breaks_ok []). vm_compute. reflexivity. Qed.
(** cowl_has_key_axiom without object properties: the empty vector is not created *)
Lemma key_breaks : breaks (fun w => KConstruct OT_A_HAS_KEY [Some (o w 1); None; Some (o w 0)] None 0) 0.
Proof. apply (breaks_ok [ fun _ => KEntityText OT_CE_CLASS (bs "http://x.org/b"); fun _ => KVector [] ]). vm_compute. reflexivity. Qed.

(** cowl_anon_ind_from_string: the text of the copy is not created; the individual has another identifier *)
Lemma anon_lost : exists e vs lib s, history false next e vs lib s [] /\
  exists a s', exec_f false next e (nth_fails s 2) (KAnonText (bs "a-long-identifier-of-a-node")) 0 s = Ok (Some a, 0) s' /\
    anon_key s' a [] /\ ~ anon_key s' a (bs "a-long-identifier-of-a-node").
Proof.
  destruct (go_from_env [] (fun e lib s own => match own with [] => match exec_f false next e (nth_fails s 2) (KAnonText (bs "a-long-identifier-of-a-node")) 0 s with
    | Ok (Some a, 0) s' => anon_keyb s' a [] | _ => false end | _ => false end)) as (e & vs & lib & s & own & H & P); [vm_compute; reflexivity|].
  destruct own; [|discriminate]. exists e, vs, lib, s. split; auto.
  destruct (exec_f false next e (nth_fails s 2) (KAnonText (bs "a-long-identifier-of-a-node")) 0 s) as [[[a|] [|n]] s'|]; try discriminate P.
  exists a, s'. split; auto. apply anon_keyb_ok in P. split; auto.
  intros (c & i & E & D & (d & F & T)). destruct P as (c' & i' & E' & D' & (d' & F' & T')).
  rewrite E in E'. inversion E'; subst c'. rewrite D in D'. inversion D'; subst i'. rewrite F in F'. inversion F'; subst d'. rewrite T in T'. discriminate.
Qed.

(** cowl_nary_get_impl: the array of the arguments is left when the vector is not created *)
Lemma nary_leaks : exists e vs lib s own k, history false next e vs lib s own /\ allowed false e lib own s k /\ room false (lib ++ own) s k /\
  exists s', exec_f false next e (nth_fails s 3) k 0 s = Ok (None, 1) s'.
Proof.
  set (k := fun w : list N => KNary OT_CE_OBJ_INTERSECT [o w 0; o w 0]).
  destruct (go_from_env [ fun _ => KEntityText OT_CE_CLASS (bs "http://x.org/b") ] (fun e lib s own => check lib own s (k own) && roomb (lib ++ own) s (k own) &&
    match exec_f false next e (nth_fails s 3) (k own) 0 s with Ok (None, 1) _ => true | _ => false end)) as (e & vs & lib & s & own & H & P); [vm_compute; reflexivity|].
  rewrite !andb_true_iff in P. destruct P as [[P1 P2] P3]. destruct (check_ok e _ _ _ _ P1) as [AL NC]. apply roomb_ok in P2.
  exists e, vs, lib, s, own, (k own). split; auto. split; auto. split; auto.
  destruct (exec_f false next e (nth_fails s 3) (k own) 0 s) as [[[a|] [|[n|n|]]] s'|]; try discriminate P3. eauto.
Qed.
