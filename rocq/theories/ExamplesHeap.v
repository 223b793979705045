(** Concrete histories that meet the hypotheses of PropertiesHeap.v. *)

From Coq Require Import String.
From Coq Require Import NArith List Bool Arith Lia.
From Coq Require Import ZifyBool ZifyNat ZifyN.
From Verif Require Import Bytes ModelTypes ModelObject ModelHeader SpecHeader ModelText ModelHeap SpecHeap.
From Verif Require Import ProofObject ProofHeap ProofHeapRun.
Import ListNotations.
Local Open Scope N_scope.

(** An allocator: the address after the highest one in use. *)
Definition next (_ : N) (h : heap) : N := 1 + fold_right (fun x m => N.max (fst x) m) 0 h.
Lemma next_ok : allocator next.
Proof.
  intros n h. unfold next. assert (forall a, In a (map fst h) -> a <= fold_right (fun x m => N.max (fst x) m) 0 h) as H.
  { induction h as [|[b c] h IH]; cbn [map fold_right fst]; [easy|]. intros a [<-|J]; [lia|]. specialize (IH a J). lia. }
  destruct (lookup h _) as [c|] eqn:E; auto. apply lookup_in in E. apply (in_map fst) in E. apply H in E. cbn [fst] in E. lia.
Qed.

Definition mem (a : N) (l : list N) : bool := existsb (N.eqb a) l.
Lemma mem_in a l : mem a l = true -> In a l.
Proof. unfold mem. rewrite existsb_exists. intros (b & J & E). apply N.eqb_eq in E. now subst. Qed.
Definition typeb (s : state) (a : N) (t : otype) : bool :=
  match lookup (s_heap s) a with
  | Some c => match type_of false c with Some u => otype_eqb u t | None => false end
  | None => false
  end.
Lemma typeb_ok s a t : typeb s a t = true -> has_type false s a t.
Proof.
  unfold typeb. destruct (lookup (s_heap s) a) as [c|] eqn:E; [|discriminate]. destruct (type_of false c) as [u|] eqn:T; [|discriminate].
  intros X. apply otype_eqb_eq in X. subst. exists c. auto.
Qed.
(** Held, or stored in an object that is held. *)
Definition held (l : list N) (s : state) (a : N) : bool :=
  match lookup (s_heap s) a with Some _ => true | None => false end &&
  (mem a l || existsb (fun r => match lookup (s_heap s) r with Some c => mem a (pointers_of (c_body c)) | None => false end) l).
Lemma held_ok l s a : held l s a = true -> usable l s a.
Proof.
  unfold held. rewrite andb_true_iff, orb_true_iff. intros [E J].
  assert (RA : reach s a a). { constructor. destruct (lookup (s_heap s) a) as [c|] eqn:Q; [|discriminate]. exists c. auto. }
  destruct J as [J|J]; [exists a; split; auto; now apply mem_in|].
  apply existsb_exists in J as (r & J & K). exists r. split; auto.
  destruct (lookup (s_heap s) r) as [c|] eqn:Q; [|discriminate]. apply reach_step with c a; auto. now apply mem_in.
Qed.

(** A set that contains what its members lead to contains everything reachable from them. *)
Definition next_of (f : cell -> list N) (s : state) (a : N) : list N :=
  match lookup (s_heap s) a with Some c => f c | None => [] end.
Fixpoint spread (n : nat) (f : cell -> list N) (s : state) (seen todo : list N) : list N :=
  match n, todo with
  | S n', a :: todo' => if mem a seen then spread n' f s seen todo' else spread n' f s (a :: seen) (next_of f s a ++ todo')
  | _, _ => seen
  end.
Definition closedb (f : cell -> list N) (s : state) (l : list N) : bool := forallb (fun a => forallb (fun b => mem b l) (next_of f s a)) l.
Definition set_of (f : cell -> list N) (s : state) (a : N) : list N := spread 4000 f s [] [a].
Lemma closedb_step f s l a c b : closedb f s l = true -> In a l -> lookup (s_heap s) a = Some c -> In b (f c) -> In b l.
Proof.
  unfold closedb. rewrite forallb_forall. intros H J E K. specialize (H a J). rewrite forallb_forall in H.
  apply mem_in, H. unfold next_of. now rewrite E.
Qed.
Definition apart (s : state) (x y : N) : bool :=
  let l := set_of (fun c => pointers_of (c_body c)) s x in
  closedb (fun c => pointers_of (c_body c)) s l && mem x l && negb (mem y l).
Lemma apart_ok s x y : apart s x y = true -> ~ reach s x y.
Proof.
  unfold apart. generalize (set_of (fun c => pointers_of (c_body c)) s x). intros l. rewrite !andb_true_iff, negb_true_iff. intros [[C J] K] R.
  apply mem_in in J. assert (In y l) as Y.
  { clear K. induction R as [a A|a c b d E B R IH]; auto. apply IH. apply (closedb_step _ s l a c b C J E B). }
  unfold mem in K. assert (existsb (N.eqb y) l = true) by (apply existsb_exists; exists y; split; auto; apply N.eqb_refl). congruence.
Qed.
Definition cleanb (s : state) (x : N) : bool :=
  let l := set_of (parts false) s x in
  closedb (parts false) s l && mem x l && forallb (fun a => negb (typeb s a OT_STRING) && negb (typeb s a OT_ONTOLOGY)) l.
Lemma typeb_false s a t : typeb s a t = false -> ~ has_type false s a t.
Proof.
  unfold typeb. intros H (c & E & T). rewrite E, T in H. assert (otype_eqb t t = true) by now apply otype_eqb_eq. congruence.
Qed.
Lemma cleanb_ok s x : cleanb s x = true -> clean false s x.
Proof.
  unfold cleanb. generalize (set_of (parts false) s x). intros l. rewrite !andb_true_iff. intros [[C J] K] b I. apply mem_in in J.
  assert (In b l) as B.
  { clear K. induction I as [a|a c b d E B I IH]; auto. apply IH. apply (closedb_step _ s l a c b C J E B). }
  rewrite forallb_forall in K. specialize (K b B). rewrite andb_true_iff, !negb_true_iff in K. destruct K. split; now apply typeb_false.
Qed.

(** Objects with different contents. *)
Fixpoint differ (n : nat) (s : state) (a b : N) : bool :=
  match n with
  | O => false
  | S n' =>
      negb (a =? b) &&
      match lookup (s_heap s) a, lookup (s_heap s) b with
      | Some (mkCell _ (BEnt _)), Some _ | Some (mkCell _ (BIri _ _)), Some _ => true
      | Some (mkCell h (BComp fs)), Some (mkCell h' (BComp gs)) =>
          match type_of false (mkCell h (BComp fs)), type_of false (mkCell h' (BComp gs)) with
          | Some t, Some u => negb (otype_eqb t u)
          | _, _ => false
          end ||
          (fix some (fs gs : list slot) : bool :=
             match fs, gs with
             | Obj x :: fs', Obj y :: gs' => differ n' s x y || some fs' gs'
             | _, _ => false
             end) fs gs
      | _, _ => false
      end
  end.
Lemma differ_ok n : forall s a b, differ n s a b = true -> ~ twins false s a b.
Proof.
  induction n as [|n IH]; intros s a b H T; [discriminate|]. cbn [differ] in H. rewrite andb_true_iff, negb_true_iff in H.
  destruct H as [NE H]. apply N.eqb_neq in NE.
  destruct (lookup (s_heap s) a) as [[h d]|] eqn:E; [|discriminate]. destruct (lookup (s_heap s) b) as [[h' d']|] eqn:E'; [|destruct d; discriminate].
  inversion T as [a0|a0 b0 t (c & F & D) _|a0 b0 l m (c & F & D) _ _ _|a0 b0 c c' fs gs F F' TT D D' SL]; subst.
  - contradiction.
  - rewrite E in F. inversion F; subst c. cbn in D. subst d. discriminate.
  - rewrite E in F. inversion F; subst c. cbn in D. subst d. discriminate.
  - rewrite E in F. rewrite E' in F'. inversion F; subst c. inversion F'; subst c'. cbn in D, D'. subst d d'.
    apply orb_true_iff in H as [H|H].
    + rewrite TT in H. destruct (type_of false _) as [u|]; [|discriminate].
      assert (otype_eqb u u = true) as Q by now apply otype_eqb_eq. rewrite Q in H. discriminate.
    + clear -IH H SL. revert gs H SL. induction fs as [|[x|x] fs IHf]; intros [|[y|y] gs] H SL; try discriminate.
      apply orb_true_iff in H as [H|H]; inversion SL; subst; [eapply IH; eauto|eauto].
Qed.
Definition ontob (s : state) (a : N) : option onto :=
  match lookup (s_heap s) a with Some (mkCell _ (BOnto o)) => Some o | _ => None end.
Lemma ontob_ok s a o : onto_is s a o -> ontob s a = Some o.
Proof. intros ([h d] & E & D). unfold ontob. rewrite E. cbn in D. now subst d. Qed.
Definition itemsb (s : state) (a : N) : list N :=
  match lookup (s_heap s) a with Some (mkCell _ (BVec l)) => l | _ => [] end.
Lemma itemsb_ok s a l : has_items s a l -> itemsb s a = l.
Proof. intros ([h d] & E & D). unfold itemsb. rewrite E. cbn in D. now subst d. Qed.
Lemma tindex_all l t y : In y (tindex l t) -> In y (flat_map snd l).
Proof.
  induction l as [|[u m] l IH]; cbn; [easy|]. rewrite in_app_iff. destruct (otype_eqb u t); auto.
Qed.

Definition onlyb (s : state) (x : N) (l : list N) : bool := forallb (fun y => (y =? x) || differ 12 s x y) l.
Lemma onlyb_ok s x l y : onlyb s x l = true -> In y l -> twins false s x y -> y = x.
Proof.
  unfold onlyb. rewrite forallb_forall. intros H J T. specialize (H y J). apply orb_true_iff in H as [H|H]; [now apply N.eqb_eq|].
  now apply differ_ok in H.
Qed.
Definition other (held : list N) (s : state) (i : N) (p : option N) : bool :=
  match p with Some j => negb (j =? i) || Nat.leb 2 (references held s i) | None => true end.
Lemma other_ok held s i p : other held s i p = true -> p = Some i -> (2 <= references held s i)%nat.
Proof. intros H ->. cbn in H. rewrite N.eqb_refl in H. now apply Nat.leb_le. Qed.
Definition axiomb (s : state) (x : N) : bool :=
  match lookup (s_heap s) x with
  | Some c => match type_of false c with Some t => type_is_axiom t | None => false end
  | None => false
  end && cleanb s x.
Lemma axiomb_ok s x : axiomb s x = true -> (exists t, has_type false s x t /\ type_is_axiom t = true) /\ clean false s x.
Proof.
  unfold axiomb. rewrite andb_true_iff. intros [H C]. split; [|now apply cleanb_ok].
  destruct (lookup (s_heap s) x) as [c|] eqn:E; [|discriminate]. destruct (type_of false c) as [t|] eqn:T; [|discriminate].
  exists t. split; auto. exists c. auto.
Qed.

(** A check for some of the calls that is enough for the ownership rule. *)
Definition check (lib own : list N) (s : state) (k : call) : bool :=
  let ok := held (lib ++ own) s in
  match k with
  | KString _ _ | KEmpty | KIriText _ | KAnonText _ | KLitPlain _ | KLitLang _ _ | KVectorOrdered => true
  | KRetain a => ok a
  | KRelease a => mem a own
  | KIri p q => ok p && typeb s p OT_STRING && (ok q && typeb s q OT_STRING)
  | KIntern p => ok p && typeb s p OT_STRING
  | KEntity t i => type_is_entity t && (ok i && typeb s i OT_IRI)
  | KEntityText t _ => type_is_entity t
  | KAnon (Some i) _ => ok i && typeb s i OT_STRING
  | KVector items => forallb ok items
  | KConstruct t fs opt _ =>
      let all n := Nat.eqb (List.length fs) n && forallb (fun f => match f with Some a => ok a | None => false end) fs in
      match ctor_of t with
      | Some (CPlain n) => all n
      | Some (CAnnot n) => all n && match opt with Some a => ok a && typeb s a OT_VECTOR | None => true end
      | Some (CUInt n) | Some (CQuant n) => all n && match opt with Some a => ok a | None => true end
      | _ => match t, fs, opt with
             | OT_A_HAS_KEY, [Some c; None; Some d], None => ok c && ok d
             | _, _, _ => false
             end
      end
  | KNary t items =>
      match ctor_of t with Some (CPlain 1) | Some (CAnnot 1) => forallb ok items | _ => false end
  | KChain sub super None => ok sub && typeb s sub OT_VECTOR && ok super
  | KEquals a b => ok a && ok b
  | KPrimitives a => ok a && cleanb s a
  | KOntology => true
  | KSetIri o None | KSetVersion o None | KGetAnnot o => ok o && typeb s o OT_ONTOLOGY
  | KSetIri o (Some i) =>
      ok o && typeb s o OT_ONTOLOGY && (ok i && typeb s i OT_IRI) &&
      other (lib ++ own) s i (match ontob s o with Some p => n_iri p | None => None end)
  | KSetVersion o (Some i) =>
      ok o && typeb s o OT_ONTOLOGY && (ok i && typeb s i OT_IRI) &&
      other (lib ++ own) s i (match ontob s o with Some p => n_version p | None => None end)
  | KAddAnnot o x =>
      ok o && typeb s o OT_ONTOLOGY && (ok x && typeb s x OT_ANNOTATION) && cleanb s x && apart s x o &&
      match ontob s o with Some p => match n_annot p with Some v => apart s x v | None => true end | None => true end
  | KRemoveAnnot o x =>
      ok o && typeb s o OT_ONTOLOGY && (ok x && typeb s x OT_ANNOTATION) &&
      match ontob s o with
      | Some p => match n_annot p with Some v => Nat.eqb (pointers_to v (s_heap s)) 1 && onlyb s x (itemsb s v) | None => true end
      | None => true
      end
  | KAddImport o i | KRemoveImport o i => ok o && typeb s o OT_ONTOLOGY && (ok i && typeb s i OT_IRI)
  | KAddAxiom o x => ok o && typeb s o OT_ONTOLOGY && (ok x && axiomb s x) && apart s x o
  | KHasAxiom o x => ok o && typeb s o OT_ONTOLOGY && (ok x && axiomb s x)
  | KRemoveAxiom o x =>
      ok o && typeb s o OT_ONTOLOGY && (ok x && axiomb s x) &&
      match ontob s o with Some p => onlyb s x (flat_map snd (n_axioms p)) | None => true end
  | _ => false
  end.
Lemma check_ok e lib own s k : check lib own s k = true -> allowed false e lib own s k /\ SpecHeap.no_cycle s k.
Proof.
  destruct k as [| |p|s0|a|a|p q|t|t i|t u|id ids|t|v d|t|t d|t l|items| |v x|v x|t fs opt val|t items|sub super annot|a b|a| |o i|o i|o|o x|o x|o i|o i|o x|o x|o x];
    cbn [check allowed SpecHeap.no_cycle];
    try discriminate; auto; rewrite ?andb_true_iff.
  - intros [H1 H2]. split; auto. split; [now apply held_ok|now apply typeb_ok].
  - intros H. split; auto. now apply held_ok.
  - intros H. split; auto. now apply mem_in.
  - intros [[H1 H2] [H3 H4]]. repeat split; auto using held_ok, typeb_ok.
  - intros [H1 [H2 H3]]. repeat split; auto using held_ok, typeb_ok.
  - destruct id as [i|]; [|discriminate]. rewrite andb_true_iff. intros [H1 H2]. cbn. repeat split; auto using held_ok, typeb_ok.
  - rewrite forallb_forall. intros H. split; auto. apply Forall_forall. intros x J. apply held_ok. auto.
  - assert (AL : forall n, Nat.eqb (List.length fs) n && forallb (fun f => match f with Some a => held (lib ++ own) s a | None => false end) fs = true ->
      List.length fs = n /\ Forall (required (usable (lib ++ own) s)) fs).
    { intros n. rewrite andb_true_iff, forallb_forall. intros [H1 H2]. split; [now apply Nat.eqb_eq|]. apply Forall_forall. intros f J.
      specialize (H2 f J). destruct f; [now apply held_ok|discriminate]. }
    destruct (ctor_of t) as [[n|n|n|n|]|] eqn:CT.
    + intros H. split; auto.
    + rewrite andb_true_iff. intros [H1 H2]. split; auto. destruct (AL n H1). split; auto. split; auto. destruct opt; cbn; auto.
      apply andb_true_iff in H2 as [H2 H3]. split; [now apply held_ok|now apply typeb_ok].
    + rewrite andb_true_iff. intros [H1 H2]. split; auto. destruct (AL n H1). split; auto. split; auto. destruct opt; cbn; auto. now apply held_ok.
    + rewrite andb_true_iff. intros [H1 H2]. split; auto. destruct (AL n H1). split; auto. split; auto. destruct opt; cbn; auto. now apply held_ok.
    + destruct t; try discriminate. destruct fs as [|[c|] [|[|] [|[d|] [|? ?]]]]; try discriminate. destruct opt; [discriminate|].
      rewrite andb_true_iff. intros [H1 H2]. split; auto. exists c, None, (Some d). cbn. repeat split; auto using held_ok.
    + destruct t; discriminate.
  - intros H. split; auto. split.
    + destruct (ctor_of t) as [[[|[|n]]|[|[|n]]|n|n|]|]; try discriminate; auto.
    + assert (forallb (held (lib ++ own) s) items = true) as H0.
      { destruct (ctor_of t) as [[[|[|n]]|[|[|n]]|n|n|]|]; try discriminate; auto. }
      rewrite forallb_forall in H0. apply Forall_forall. intros x J. apply held_ok. auto.
  - destruct annot; [discriminate|]. rewrite !andb_true_iff. intros [[H1 H2] H3]. cbn. repeat split; auto using held_ok, typeb_ok.
  - intros [H1 H2]. auto using held_ok.
  - intros [H1 H2]. split; auto using held_ok, cleanb_ok.
  - destruct i as [i|]; rewrite !andb_true_iff.
    + intros [[[H1 H2] [H3 H4]] H5]. split; auto. split; [auto using held_ok, typeb_ok|]. cbn. split; [auto using held_ok, typeb_ok|].
      intros p P. apply ontob_ok in P. rewrite P in H5. now apply other_ok.
    + intros [H1 H2]. split; auto. split; [auto using held_ok, typeb_ok|exact I].
  - destruct i as [i|]; rewrite !andb_true_iff.
    + intros [[[H1 H2] [H3 H4]] H5]. split; auto. split; [auto using held_ok, typeb_ok|]. cbn. split; [auto using held_ok, typeb_ok|].
      intros p P. apply ontob_ok in P. rewrite P in H5. now apply other_ok.
    + intros [H1 H2]. split; auto. split; [auto using held_ok, typeb_ok|exact I].
  - intros [H1 H2]. auto using held_ok, typeb_ok.
  - intros [[[[[H1 H2] [H3 H4]] H5] H6] H7]. split.
    + split; [auto using held_ok, typeb_ok|]. split; [now apply held_ok|]. split; [now apply typeb_ok|now apply cleanb_ok].
    + split; [now apply apart_ok|]. intros p v P V. apply ontob_ok in P. rewrite P, V in H7. now apply apart_ok.
  - intros [[[H1 H2] [H3 H4]] H5]. split; auto. split; [auto using held_ok, typeb_ok|]. split; [now apply held_ok|]. split; [now apply typeb_ok|].
    intros p v l P V L. apply ontob_ok in P. apply itemsb_ok in L. rewrite P, V, L in H5. apply andb_true_iff in H5 as [H5 H6].
    split; [now apply Nat.eqb_eq|]. intros y. now apply onlyb_ok.
  - intros [[H1 H2] [H3 H4]]. auto 6 using held_ok, typeb_ok.
  - intros [[H1 H2] [H3 H4]]. auto 6 using held_ok, typeb_ok.
  - intros [[[H1 H2] [H3 H4]] H5]. apply axiomb_ok in H4. split; [|now apply apart_ok].
    split; [auto using held_ok, typeb_ok|]. split; [now apply held_ok|exact H4].
  - intros [[H1 H2] [H3 H4]]. apply axiomb_ok in H4. split; auto.
    split; [auto using held_ok, typeb_ok|]. split; [now apply held_ok|exact H4].
  - intros [[[H1 H2] [H3 H4]] H5]. apply axiomb_ok in H4. split; auto.
    split; [auto using held_ok, typeb_ok|]. split; [split; [now apply held_ok|exact H4]|].
    intros p t y P J. apply ontob_ok in P. rewrite P in H5. apply (onlyb_ok s x _ y H5). eapply tindex_all; eauto.
Qed.

(** No object can have more references than there are pointers. *)
Definition total_pointers (h : heap) : nat := fold_right (fun x n => (List.length (pointers_of (c_body (snd x))) + n)%nat) O h.
Definition roomb (l : list N) (s : state) (k : call) : bool :=
  N.of_nat (List.length l + total_pointers (s_heap s) + size k + 8) <=? max_refs false.
Lemma roomb_ok l s k : roomb l s k = true -> room false l s k.
Proof.
  unfold roomb, room. intros H a. apply N.leb_le in H.
  assert (C : forall m, (count a m <= List.length m)%nat) by (intros m; apply count_occ_bound).
  assert (P : (pointers_to a (s_heap s) <= total_pointers (s_heap s))%nat).
  { clear H. induction (s_heap s) as [|[b c] h IH]; [reflexivity|]. cbn [pointers_to total_pointers fold_right snd]. fold (total_pointers h).
    specialize (C (pointers_of (c_body c))). lia. }
  unfold references. specialize (C l). lia.
Qed.

(** Runs calls that depend on the references held. *)
Fixpoint go (e : env) (lib : list N) (ks : list (list N -> call)) (s : state) (own : list N) : option (state * list N) :=
  match ks with
  | [] => Some (s, own)
  | k :: ks' =>
      if check lib own s (k own) && roomb (lib ++ own) s (k own) then
        match exec false next e (k own) s with
        | Ok r s' => go e lib ks' s' (after (k own) r own)
        | Err _ => None
        end
      else None
  end.
Lemma go_ok e vs lib ks : forall s own s' own', history false next e vs lib s own -> go e lib ks s own = Some (s', own') ->
  history false next e vs lib s' own'.
Proof.
  induction ks as [|k ks IH]; intros s own s' own' H; cbn [go].
  - intros X. inversion X; subst. auto.
  - destruct (check lib own s (k own) && roomb (lib ++ own) s (k own)) eqn:B; [|discriminate].
    apply andb_true_iff in B as [B1 B2]. destruct (check_ok e _ _ _ _ B1) as [AL NC]. apply roomb_ok in B2.
    destruct (exec false next e (k own) s) as [r s1|] eqn:E; [|discriminate]. apply IH. eapply hist_call; eauto.
Qed.
Definition go_from (i : res (env * list vocab)) (ks : list (list N -> call)) : option (env * list vocab * list N * state * list N) :=
  match i with
  | Ok (e, vs) s =>
      let lib := library e vs s in
      match go e lib ks s [] with Some (s', own) => Some (e, vs, lib, s', own) | None => None end
  | Err _ => None
  end.
(** Starts the library, runs calls and tests the final state. *)
Lemma go_from_env ks (P : env -> list N -> state -> list N -> bool) :
  (match go_from (lib_init false next s_zero) ks with Some (e, _, lib, s, own) => P e lib s own | None => false end) = true ->
  exists e vs lib s own, history false next e vs lib s own /\ P e lib s own = true.
Proof.
  unfold go_from. remember (lib_init false next s_zero) as i eqn:E. destruct i as [[e vs] s0|]; [|discriminate].
  destruct (go e (library e vs s0) ks s0 []) as [[s1 own1]|] eqn:G; [|discriminate].
  intros H. exists e, vs, (library e vs s0), s1, own1. split; auto. eapply go_ok; [|exact G]. constructor; auto.
Qed.

Lemma go_from_ok ks (P : list N -> state -> list N -> bool) :
  (match go_from (lib_init false next s_zero) ks with Some (_, _, lib, s, own) => P lib s own | None => false end) = true ->
  exists e vs lib s own, history false next e vs lib s own /\ P lib s own = true.
Proof. apply (go_from_env ks (fun _ => P)). Qed.

Definition o (own : list N) (n : nat) : N := nth n own 0.

(** An IRI, two classes, an axiom on them, a vector, two releases. *)
Definition story : list (list N -> call) :=
  [ fun _ => KIriText (bs "http://x.org/a");
    fun w => KEntity OT_CE_CLASS (o w 0);
    fun _ => KEntityText OT_CE_CLASS (bs "http://x.org/b");
    fun w => KConstruct OT_A_SUB_CLASS [Some (o w 0); Some (o w 1)] None 0;
    fun w => KVector [o w 0; o w 1; o w 1];
    fun w => KRelease (o w 3);
    fun w => KRelease (o w 1) ].

(** The story runs; three references are left: the vector and the two classes. *)
Lemma story_runs : exists e vs lib s v c d,
  history false next e vs lib s [v; c; d] /\ has_type false s v OT_VECTOR /\ has_type false s d OT_IRI.
Proof.
  destruct (go_from_ok story (fun _ s own => match own with [v; c; d] => typeb s v OT_VECTOR && typeb s d OT_IRI | _ => false end))
    as (e & vs & lib & s & own & H & P); [vm_compute; reflexivity|].
  destruct own as [|v [|c [|d [|? ?]]]]; try discriminate. apply andb_true_iff in P as [H1 H2].
  exists e, vs, lib, s, v, c, d. split; [exact H|]. split; now apply typeb_ok.
Qed.

(** Everything released. *)
Definition closed_story : list (list N -> call) :=
  story ++ [ fun w => KRelease (o w 0); fun w => KRelease (o w 1); fun w => KRelease (o w 0) ].
Lemma closed_story_runs : exists e vs lib s, history false next e vs lib s [].
Proof.
  destruct (go_from_ok closed_story (fun _ s own => match own with [] => true | _ => false end))
    as (e & vs & lib & s & own & H & P); [vm_compute; reflexivity|].
  destruct own; [|discriminate]. eauto.
Qed.

Definition iri_keyb (s : state) (a : N) (ns rem : bytes) : bool :=
  match lookup (s_heap s) a with
  | Some (mkCell _ (BIri i r)) =>
      match lookup (s_heap s) i, lookup (s_heap s) r with
      | Some (mkCell _ (BStr t)), Some (mkCell _ (BStr u)) => bytes_eqb t ns && bytes_eqb u rem
      | _, _ => false
      end
  | _ => false
  end.
Lemma iri_keyb_ok s a ns rem : iri_keyb s a ns rem = true -> iri_key s a ns rem.
Proof.
  unfold iri_keyb. destruct (lookup (s_heap s) a) as [[h []]|] eqn:E; try discriminate.
  destruct (lookup (s_heap s) ns0) as [[h1 []]|] eqn:E1; try discriminate.
  destruct (lookup (s_heap s) rem0) as [[h2 []]|] eqn:E2; try discriminate.
  rewrite andb_true_iff, !bytes_eqb_eq. intros [-> ->].
  exists (mkCell h (BIri ns0 rem0)), ns0, rem0. repeat split; auto; eexists; split; eauto.
Qed.
Definition ent_keyb (s : state) (a : N) (t : otype) (i : N) : bool :=
  match lookup (s_heap s) a with
  | Some (mkCell _ (BEnt j)) => N.eqb j i && typeb s a t
  | _ => false
  end.
Lemma ent_keyb_ok s a t i : ent_keyb s a t i = true -> entity_key false s a t i.
Proof.
  unfold ent_keyb, typeb. destruct (lookup (s_heap s) a) as [[h []]|] eqn:E; try discriminate.
  destruct (type_of false _) as [u|] eqn:T; [|now rewrite andb_false_r].
  rewrite andb_true_iff, otype_eqb_eq, N.eqb_eq. intros [-> ->]. eexists. split; eauto.
Qed.
Definition anon_keyb (s : state) (a : N) (t : bytes) : bool :=
  match lookup (s_heap s) a with
  | Some (mkCell _ (BAnon i)) => match lookup (s_heap s) i with Some (mkCell _ (BStr u)) => bytes_eqb u t | _ => false end
  | _ => false
  end.
Lemma anon_keyb_ok s a t : anon_keyb s a t = true -> anon_key s a t.
Proof.
  unfold anon_keyb. destruct (lookup (s_heap s) a) as [[h []]|] eqn:E; try discriminate.
  destruct (lookup (s_heap s) id) as [[h1 []]|] eqn:E1; try discriminate.
  rewrite bytes_eqb_eq. intros ->. exists (mkCell h (BAnon id)), id. repeat split; auto. eexists; split; eauto.
Qed.
Definition internb (s : state) (a : N) (t : bytes) : bool :=
  match lookup (s_heap s) a with
  | Some (mkCell h (BStr u)) => bytes_eqb u t && hd_get_bit false h
  | _ => false
  end.
Lemma internb_ok e s a t : internb s a t = true -> interned false e s a t.
Proof.
  unfold internb. destruct (lookup (s_heap s) a) as [[h []]|] eqn:E; try discriminate.
  rewrite andb_true_iff, bytes_eqb_eq. intros [-> B]. split; [eexists; split; eauto|]. right. eexists. split; [exact E|exact B].
Qed.

(** An interned string, an IRI from strings, a class, an anonymous individual; a second IRI object is asked for. *)
Definition names : list (list N -> call) :=
  [ fun _ => KString (bs "x:") true;
    fun _ => KString (bs "a") false;
    fun w => KIri (o w 1) (o w 0);
    fun w => KEntity OT_CE_CLASS (o w 0);
    fun _ => KAnonText (bs "genid1") ].
Lemma names_run : exists e vs lib s n c i r p,
  history false next e vs lib s [n; c; i; r; p] /\ anon_key s n (bs "genid1") /\ entity_key false s c OT_CE_CLASS i /\
  iri_key s i (bs "x:") (bs "a") /\ interned false e s p (bs "x:") /\
  (allowed false e lib [n; c; i; r; p] s (KEntity OT_CE_CLASS i) /\ room false (lib ++ [n; c; i; r; p]) s (KEntity OT_CE_CLASS i)) /\
  (allowed false e lib [n; c; i; r; p] s (KIri p r) /\ room false (lib ++ [n; c; i; r; p]) s (KIri p r)).
Proof.
  destruct (go_from_ok names (fun lib s own => match own with
    | [n; c; i; r; p] => anon_keyb s n (bs "genid1") && (ent_keyb s c OT_CE_CLASS i && (iri_keyb s i (bs "x:") (bs "a") &&
        (internb s p (bs "x:") && ((check lib own s (KEntity OT_CE_CLASS i) && roomb (lib ++ own) s (KEntity OT_CE_CLASS i)) &&
          (check lib own s (KIri p r) && roomb (lib ++ own) s (KIri p r))))))
    | _ => false end))
    as (e & vs & lib & s & own & H & P); [vm_compute; reflexivity|].
  destruct own as [|n [|c [|i [|r [|p [|? ?]]]]]]; try discriminate. rewrite !andb_true_iff in P.
  destruct P as (P1 & P2 & P3 & P4 & [P5 P6] & [P7 P8]).
  exists e, vs, lib, s, n, c, i, r, p. split; [exact H|]. split; [now apply anon_keyb_ok|]. split; [now apply ent_keyb_ok|].
  split; [now apply iri_keyb_ok|]. split; [now apply internb_ok|].
  split; split; try (now apply roomb_ok); now apply (check_ok e lib).
Qed.

(** An ontology with an IRI, an import, an annotation and two axioms, one of them removed again. *)
Definition onto_story : list (list N -> call) :=
  [ fun _ => KOntology;                                                        (* o *)
    fun _ => KIriText (bs "http://x.org/o");                                   (* i o *)
    fun w => KSetIri (o w 1) (Some (o w 0));
    fun w => KSetIri (o w 1) (Some (o w 0));
    fun w => KAddImport (o w 1) (o w 0);
    fun _ => KEntityText OT_CE_CLASS (bs "http://x.org/a");                    (* a i o *)
    fun _ => KEntityText OT_CE_CLASS (bs "http://x.org/b");                    (* b a i o *)
    fun w => KConstruct OT_A_SUB_CLASS [Some (o w 0); Some (o w 1)] None 0;    (* x b a i o *)
    fun w => KConstruct OT_A_SUB_CLASS [Some (o w 2); Some (o w 1)] None 0;    (* y x b a i o *)
    fun w => KAddAxiom (o w 5) (o w 1);
    fun w => KAddAxiom (o w 5) (o w 0);
    fun w => KHasAxiom (o w 5) (o w 0);
    fun w => KEquals (o w 0) (o w 1);
    fun _ => KEntityText OT_ANNOT_PROP (bs "http://x.org/p");                  (* p y x b a i o *)
    fun w => KConstruct OT_ANNOTATION [Some (o w 0); Some (o w 5)] None 0;     (* n p y x b a i o *)
    fun w => KAddAnnot (o w 7) (o w 0);
    fun w => KRemoveAxiom (o w 7) (o w 3);
    fun w => KPrimitives (o w 2);
    fun w => KRelease (o w 1);
    fun w => KRelease (o w 2) ].                                               (* n y b a i o without p, x *)
