(** Proof that a call leaves alone what cannot be reached from its arguments. *)

From Coq Require Import NArith List Bool Arith Lia.
From Verif Require Import Bytes ModelTypes ModelObject ModelHeader SpecHeader ModelText ModelHeap SpecHeap SpecIsolate.
Import ListNotations.
Local Open Scope N_scope.

Lemma lookup_pair {A} (h : list (N * A)) a c : lookup h a = Some c -> In (a, c) h.
Proof.
  induction h as [|[b d] h IH]; cbn; [discriminate|]. destruct (N.eqb_spec b a) as [->|]; intros H; [left; congruence|right; auto].
Qed.
Lemma lookup_store_ne {A} (h : list (N * A)) a c v : a <> v -> lookup (store h a c) v = lookup h v.
Proof.
  intros D. induction h as [|[b d] h IH]; cbn; auto. destruct (N.eqb_spec b a) as [->|]; cbn.
  - destruct (N.eqb_spec a v); [contradiction|auto].
  - destruct (b =? v); auto.
Qed.
Lemma lookup_drop_ne {A} (h : list (N * A)) a v : a <> v -> lookup (drop h a) v = lookup h v.
Proof.
  intros D. induction h as [|[b d] h IH]; cbn; auto. destruct (N.eqb_spec b a) as [->|]; cbn.
  - destruct (N.eqb_spec a v); [contradiction|auto].
  - destruct (b =? v); auto.
Qed.
Lemma in_store {A} (h : list (N * A)) a c x d : In (x, d) (store h a c) -> In (x, d) h \/ (x = a /\ d = c).
Proof.
  induction h as [|[b f] h IH]; cbn; auto. destruct (N.eqb_spec b a) as [->|]; cbn; intros [H|H]; auto.
  - injection H as <- <-. auto.
  - destruct (IH H); auto.
Qed.
Lemma in_drop {A} (h : list (N * A)) a x d : In (x, d) (drop h a) -> In (x, d) h.
Proof.
  induction h as [|[b f] h IH]; cbn; auto. destruct (N.eqb_spec b a) as [->|]; cbn; auto. intros [H|H]; auto.
Qed.

Section Isolate.
Variable huge : bool.
Variable fresh : N -> heap -> N.
Hypothesis fresh_ok : allocator fresh.
Variable e : env.
(** The objects to be left alone. *)
Variable V : N -> Prop.

Definition off (a : N) : Prop := ~ V a.
Definition offb (b : body) : Prop := Forall off (pointers_of b).

(** Nothing else points to the objects left alone. *)
Record Q (s : state) : Prop := {
  q_heap : forall a c, In (a, c) (s_heap s) -> off a -> offb (c_body c);
  q_tab : forall t, Forall off (table t s);
  q_alive : forall v, V v -> alive s v
}.
Hypothesis e_off : off (e_empty e) /\ off (e_thing e) /\ off (e_literal e) /\ off (e_lang_string e) /\
  off (e_plain_literal e) /\ off (e_string e).

Definition kept (s s' : state) : Prop := forall v, V v -> lookup (s_heap s') v = lookup (s_heap s) v.

Definition quiet {A} (P : A -> Prop) (m : act A) : Prop :=
  forall s, Q s -> match m s with Ok x s' => Q s' /\ kept s s' /\ P x | Err _ => True end.

Definition anyv {A} (x : A) : Prop := True.
Definition oopt (p : option N) : Prop := match p with Some a => off a | None => True end.

Lemma kept_refl s : kept s s.
Proof. intros v _. reflexivity. Qed.
Lemma quiet_ret {A} (P : A -> Prop) x : P x -> quiet P (ret x).
Proof. intros H s q. cbn. split; [exact q|split; [apply kept_refl|exact H]]. Qed.
Lemma quiet_fail {A} (P : A -> Prop) er : quiet P (@fail A er).
Proof. intros s q. exact I. Qed.
Lemma quiet_bind {A B} (P : A -> Prop) (R : B -> Prop) m (k : A -> act B) :
  quiet P m -> (forall x, P x -> quiet R (k x)) -> quiet R (bind m k).
Proof.
  intros M K s q. unfold bind. specialize (M s q). destruct (m s) as [x s1|er]; [|exact I].
  destruct M as (q1 & k1 & p1). specialize (K x p1 s1 q1). destruct (k x s1) as [y s2|er]; [|exact I].
  destruct K as (q2 & k2 & p2). split; [exact q2|split; [|exact p2]].
  intros v i. rewrite (k2 v i). apply (k1 v i).
Qed.
Lemma quiet_mono {A} (P R : A -> Prop) m : (forall x, P x -> R x) -> quiet P m -> quiet R m.
Proof.
  intros I M s q. specialize (M s q). destruct (m s); [|exact M]. destruct M as (q1 & k1 & p1). auto.
Qed.
Lemma quiet_any {A} (P : A -> Prop) m : quiet P m -> quiet anyv m.
Proof. apply quiet_mono. intros; exact I. Qed.

(** Actions that only read. *)
Definition reads {A} (m : act A) : Prop := forall s, match m s with Ok x s' => s' = s | Err _ => True end.
Lemma reads_quiet {A} (m : act A) : reads m -> quiet anyv m.
Proof.
  intros M s q. specialize (M s). destruct (m s); [|exact I]. subst. split; [exact q|split; [apply kept_refl|exact I]].
Qed.
Lemma reads_ret {A} (x : A) : reads (ret x).
Proof. intros s. reflexivity. Qed.
Lemma reads_fail {A} er : reads (@fail A er).
Proof. intros s. exact I. Qed.
Lemma reads_bind {A B} (m : act A) (k : A -> act B) : reads m -> (forall x, reads (k x)) -> reads (bind m k).
Proof.
  intros M K s. unfold bind. specialize (M s). destruct (m s) as [x s1|er]; [|exact I]. subst s1. apply K.
Qed.
Lemma reads_read a : reads (read a).
Proof. intros s. unfold read. destruct (lookup (s_heap s) a); cbn; auto. Qed.
Lemma reads_mapm {A B} (f : A -> act B) l : (forall x, reads (f x)) -> reads (mapm f l).
Proof.
  intros F. induction l as [|x l IH]; cbn; [apply reads_ret|]. apply reads_bind; [apply F|]. intros y.
  apply reads_bind; [exact IH|]. intros ys. apply reads_ret.
Qed.
Lemma reads_pointers n : forall l, reads (pointers n l).
Proof.
  induction n as [|n IH]; intros l; cbn; [apply reads_ret|]. destruct l as [|[a|u] l]; try apply reads_fail.
  apply reads_bind; [apply IH|]. intros r. apply reads_ret.
Qed.
Lemma reads_uint_at n l : reads (uint_at n l).
Proof. unfold uint_at. destruct (nth_error l n) as [[|]|]; try apply reads_fail. apply reads_ret. Qed.

Ltac rd :=
  repeat first
    [ apply reads_ret | apply reads_fail | apply reads_read | apply reads_pointers | apply reads_uint_at
    | assumption
    | (apply reads_bind; [|intros ?])
    | match goal with
      | |- reads (if ?b then _ else _) => destruct b
      | |- reads (match ?b with _ => _ end) => destruct b
      end ].
Lemma reads_all_eq (f : N -> N -> act bool) : (forall a b, reads (f a b)) -> forall l m, reads (all_eq f l m).
Proof.
  intros F. induction l as [|x l IH]; intros [|y m]; cbn; rd. apply F. apply IH.
Qed.
Lemma reads_some_eq (f : N -> act bool) : (forall b, reads (f b)) -> forall m, reads (some_eq f m).
Proof. intros F. induction m as [|y m IH]; cbn; rd. apply F. Qed.
Lemma reads_all_in (f : N -> N -> act bool) : (forall a b, reads (f a b)) -> forall l m, reads (all_in f l m).
Proof.
  intros F. induction l as [|x l IH]; intros m; cbn; rd. apply reads_some_eq. apply F. apply IH.
Qed.
Lemma reads_find_at (f : N -> act bool) : (forall b, reads (f b)) -> forall m, reads (find_at f m).
Proof. intros F. induction m as [|y m IH]; cbn; rd. apply F. Qed.

Lemma reads_get_type a : reads (get_type_at huge a).
Proof. unfold get_type_at. rd. Qed.
Lemma reads_get_bit a : reads (get_bit huge a).
Proof. unfold get_bit. rd. Qed.
Lemma reads_text a : reads (text_at a).
Proof. unfold text_at. rd. Qed.
Lemma reads_items a : reads (items_at a).
Proof. unfold items_at. rd. Qed.
Lemma reads_fields a : reads (fields_at a).
Proof. unfold fields_at. rd. Qed.
Lemma reads_onto a : reads (onto_at a).
Proof. unfold onto_at. rd. Qed.

Lemma reads_equals_in n : forall a b, reads (equals_in huge n a b).
Proof.
  induction n as [|n IH]; intros a b; cbn [equals_in]; [apply reads_fail|].
  repeat first
    [ apply reads_get_type | apply reads_get_bit | apply reads_text | apply reads_items | apply reads_fields
    | (apply reads_all_eq; exact IH) | (apply reads_all_in; exact IH) | progress rd ].
Qed.
Lemma reads_equals a b : reads (equals huge a b).
Proof. intros s. unfold equals. apply (reads_equals_in (S (List.length (s_heap s))) a b s). Qed.
Lemma reads_prims_in n : forall a, reads (prims_in huge e n a).
Proof.
  induction n as [|n IH]; intros a; cbn [prims_in]; [apply reads_fail|].
  repeat first
    [ apply reads_get_type | apply reads_get_bit | apply reads_text | apply reads_items | apply reads_fields
    | apply reads_onto | apply IH | (apply reads_mapm; exact IH) | progress rd ].
Qed.
Lemma reads_prims a : reads (prims huge e a).
Proof. intros s. unfold prims. apply (reads_prims_in (S (List.length (s_heap s))) a s). Qed.

(** * Memory *)

Lemma quiet_read a : off a -> quiet (fun c => offb (c_body c)) (read a).
Proof.
  intros O s q. unfold read. destruct (lookup (s_heap s) a) as [c|] eqn:E; [|exact I].
  split; [exact q|split; [apply kept_refl|]]. apply (q_heap s q a c); [apply lookup_pair; exact E|exact O].
Qed.
Lemma quiet_write a c : off a -> offb (c_body c) -> quiet anyv (write a c).
Proof.
  intros O B s q. unfold write. destruct (lookup (s_heap s) a) as [d|] eqn:E; [|exact I].
  assert (K : kept s (with_heap s (store (s_heap s) a c))).
  { intros v i. cbn. apply lookup_store_ne. intros ->. exact (O i). }
  split; [|split; [exact K|exact I]]. constructor.
  - intros x d' H o. cbn in H. apply in_store in H. destruct H as [H|[-> ->]]; [apply (q_heap s q x d' H o)|exact B].
  - intros t. generalize (q_tab s q t). destruct t; auto.
  - intros v i. destruct (q_alive s q v i) as [d' L]. exists d'. rewrite (K v i). exact L.
Qed.
Lemma quiet_free a : off a -> quiet anyv (free a).
Proof.
  intros O s q. unfold free. destruct (lookup (s_heap s) a) as [d|] eqn:E; [|exact I].
  assert (K : kept s (with_heap s (drop (s_heap s) a))).
  { intros v i. cbn. apply lookup_drop_ne. intros ->. exact (O i). }
  split; [|split; [exact K|exact I]]. constructor.
  - intros x d' H o. cbn in H. apply in_drop in H. apply (q_heap s q x d' H o).
  - intros t. generalize (q_tab s q t). destruct t; auto.
  - intros v i. destruct (q_alive s q v i) as [d' L]. exists d'. rewrite (K v i). exact L.
Qed.
Lemma quiet_alloc t b bd : offb bd -> quiet off (alloc huge fresh t b bd).
Proof.
  intros B s q. cbn.
  assert (F : off (fresh (s_n s) (s_heap s))).
  { intros i. destruct (q_alive s q _ i) as [d L]. rewrite (fresh_ok (s_n s) (s_heap s)) in L. discriminate. }
  split; [|split; [|exact F]].
  - constructor.
    + intros x d [H|H] o; [injection H as <- <-; exact B|apply (q_heap s q x d H o)].
    + intros u. generalize (q_tab s q u). destruct u; auto.
    + intros v i. destruct (q_alive s q v i) as [d L]. exists d. cbn.
      destruct (N.eqb_spec (fresh (s_n s) (s_heap s)) v) as [E|]; [rewrite E in F; contradiction|exact L].
  - intros v i. cbn. destruct (N.eqb_spec (fresh (s_n s) (s_heap s)) v) as [E|]; [rewrite E in F; contradiction|reflexivity].
Qed.
Lemma q_set t l s : Forall off l -> Q s -> Q (set_table t l s).
Proof.
  intros F q. constructor.
  - intros a c H. apply (q_heap s q a c). destruct t; exact H.
  - intros u. generalize (q_tab s q u). destruct t, u; cbn; auto.
  - intros v i. destruct (q_alive s q v i) as [d L]. exists d. destruct t; exact L.
Qed.
Lemma kept_set t l s : kept s (set_table t l s).
Proof. intros v _. destruct t; reflexivity. Qed.
Lemma quiet_table_add t a : off a -> quiet anyv (table_add t a).
Proof.
  intros O s q. cbn. split; [|split; [apply kept_set|exact I]]. apply q_set; auto. constructor; [exact O|apply (q_tab s q t)].
Qed.
Lemma quiet_table_del t a : quiet anyv (table_del t a).
Proof.
  intros s q. cbn. split; [|split; [apply kept_set|exact I]]. apply q_set; auto.
  apply Forall_forall. intros x i. apply in_remove in i. destruct i as [i _].
  apply (proj1 (Forall_forall _ _) (q_tab s q t) x i).
Qed.
Lemma quiet_find_key eq l : (forall k, off k -> quiet anyv (eq k)) -> Forall off l -> quiet oopt (find_key eq l).
Proof.
  intros E F. induction F as [|k l O F IH]; cbn; [apply quiet_ret; exact I|].
  apply quiet_bind with (P := anyv); [apply E; exact O|]. intros b _. destruct b; [apply quiet_ret; exact O|exact IH].
Qed.
Lemma quiet_table_find t eq : (forall k, off k -> quiet anyv (eq k)) -> quiet oopt (table_find t eq).
Proof. intros E s q. apply (quiet_find_key eq (table t s) E (q_tab s q t) s q). Qed.
Lemma quiet_table_remove t eq : (forall k, off k -> quiet anyv (eq k)) -> quiet anyv (table_remove t eq).
Proof.
  intros E. unfold table_remove. apply quiet_bind with (P := oopt); [apply quiet_table_find; exact E|].
  intros [k|] _; [apply quiet_table_del|apply quiet_ret; exact I].
Qed.
Lemma quiet_nonnull p : oopt p -> quiet off (nonnull p).
Proof. intros O. destruct p; [apply quiet_ret; exact O|apply quiet_fail]. Qed.
Lemma quiet_mapm {A B} (P : B -> Prop) (f : A -> act B) l : (forall x, In x l -> quiet P (f x)) -> quiet (Forall P) (mapm f l).
Proof.
  induction l as [|x l IH]; intros F; cbn; [apply quiet_ret; constructor|].
  apply quiet_bind with (P := P); [apply F; left; reflexivity|]. intros y p.
  apply quiet_bind with (P := Forall P); [apply IH; intros z i; apply F; right; exact i|].
  intros ys ps. apply quiet_ret. constructor; assumption.
Qed.

(** * Objects *)

Lemma quiet_incr a : off a -> quiet anyv (incr_ref huge a).
Proof.
  intros O. unfold incr_ref. apply quiet_bind with (P := fun c => offb (c_body c)); [apply quiet_read; exact O|].
  intros c B. apply quiet_write; assumption.
Qed.
Lemma quiet_decr a : off a -> quiet anyv (decr_ref huge a).
Proof.
  intros O. unfold decr_ref. apply quiet_bind with (P := fun c => offb (c_body c)); [apply quiet_read; exact O|].
  intros c B. apply quiet_bind with (P := anyv); [apply quiet_write; assumption|]. intros _ _.
  apply reads_quiet. rd.
Qed.
Lemma quiet_set_bit a : off a -> quiet anyv (set_bit huge a).
Proof.
  intros O. unfold set_bit. apply quiet_bind with (P := fun c => offb (c_body c)); [apply quiet_read; exact O|].
  intros c B. apply quiet_write; assumption.
Qed.
Lemma quiet_get_bit a : quiet anyv (get_bit huge a).
Proof. apply reads_quiet, reads_get_bit. Qed.
Lemma quiet_get_type a : quiet anyv (get_type_at huge a).
Proof. apply reads_quiet, reads_get_type. Qed.
Lemma quiet_text a : quiet anyv (text_at a).
Proof. apply reads_quiet, reads_text. Qed.
Lemma quiet_retain p : oopt p -> quiet off (retain huge p).
Proof.
  intros O. unfold retain. apply quiet_bind with (P := off); [apply quiet_nonnull; exact O|]. intros a o.
  apply quiet_bind with (P := anyv); [apply quiet_incr; exact o|]. intros _ _. apply quiet_ret. exact o.
Qed.
Lemma quiet_at {A} (P : A -> Prop) a (f : body -> act A) : off a -> (forall b, offb b -> quiet P (f b)) ->
  quiet P (bind (read a) (fun c => f (c_body c))).
Proof.
  intros O F. apply quiet_bind with (P := fun c => offb (c_body c)); [apply quiet_read; exact O|]. intros c B. apply F, B.
Qed.
Lemma quiet_iri_at a : off a -> quiet (fun p => off (fst p) /\ off (snd p)) (iri_at a).
Proof.
  intros O. unfold iri_at. apply (quiet_at _ a (fun b => match b with BIri ns rem => ret (ns, rem) | _ => fail EKind end)); [exact O|].
  intros [ | |ns rem| | | | ] B; try apply quiet_fail. apply quiet_ret. inversion B as [|? ? B1 B2]; subst. inversion B2; subst. auto.
Qed.
Lemma quiet_ent_iri_at a : off a -> quiet off (ent_iri_at a).
Proof.
  intros O. unfold ent_iri_at. apply (quiet_at _ a (fun b => match b with BEnt i => ret i | _ => fail EKind end)); [exact O|].
  intros [ | | |i| | | ] B; try apply quiet_fail. apply quiet_ret. inversion B; subst; auto.
Qed.
Lemma quiet_anon_id_at a : off a -> quiet off (anon_id_at a).
Proof.
  intros O. unfold anon_id_at. apply (quiet_at _ a (fun b => match b with BAnon i => ret i | _ => fail EKind end)); [exact O|].
  intros [ | | | |i| | ] B; try apply quiet_fail. apply quiet_ret. inversion B; subst; auto.
Qed.
Lemma quiet_items_at a : off a -> quiet (Forall off) (items_at a).
Proof.
  intros O. unfold items_at. apply (quiet_at _ a (fun b => match b with BVec l => ret l | _ => fail EKind end)); [exact O|].
  intros [ |l| | | | | ] B; try apply quiet_fail. apply quiet_ret. exact B.
Qed.
Lemma quiet_fields_at a : off a -> quiet (fun l => offb (BComp l)) (fields_at a).
Proof.
  intros O. unfold fields_at. apply (quiet_at _ a (fun b => match b with BComp l => ret l | _ => fail EKind end)); [exact O|].
  intros [ | | | | |l| ] B; try apply quiet_fail. apply quiet_ret. exact B.
Qed.
Lemma quiet_onto_at a : off a -> quiet (fun o => offb (BOnto o)) (onto_at a).
Proof.
  intros O. unfold onto_at. apply (quiet_at _ a (fun b => match b with BOnto l => ret l | _ => fail EKind end)); [exact O|].
  intros [ | | | | | |o] B; try apply quiet_fail. apply quiet_ret. exact B.
Qed.
Lemma quiet_pointers n : forall l, offb (BComp l) -> quiet (Forall off) (pointers n l).
Proof.
  induction n as [|n IH]; intros l B; cbn; [apply quiet_ret; constructor|]. destruct l as [|[a|u] l]; try apply quiet_fail.
  unfold offb in B. cbn in B. inversion B; subst.
  apply quiet_bind with (P := Forall off); [apply IH; assumption|]. intros r F. apply quiet_ret. constructor; assumption.
Qed.

Lemma quiet_str_eq t k : quiet anyv (str_eq t k).
Proof. apply reads_quiet. unfold str_eq. apply reads_bind; [apply reads_text|]. intros u. apply reads_ret. Qed.
Lemma quiet_iri_eq n r k : quiet anyv (iri_eq n r k).
Proof.
  apply reads_quiet. unfold iri_eq, iri_at. repeat first [apply reads_text|progress rd].
Qed.
Lemma quiet_ent_eq t i k : quiet anyv (ent_eq huge t i k).
Proof. apply reads_quiet. unfold ent_eq, ent_iri_at. repeat first [apply reads_get_type|progress rd]. Qed.
Lemma quiet_anon_eq t k : quiet anyv (anon_eq t k).
Proof. apply reads_quiet. unfold anon_eq, anon_id_at. repeat first [apply reads_text|progress rd]. Qed.

Definition offt (w : todo) : Prop := match w with Rel a | Fin a => off a end.
Lemma offt_rels l : Forall off l -> Forall offt (map Rel l).
Proof. intros F. induction F; cbn; constructor; assumption. Qed.

Ltac qb X := apply quiet_bind with (P := X).
Ltac todos := repeat first [apply Forall_app; split | apply offt_rels; assumption | constructor | assumption].

Lemma quiet_dispose a : off a -> quiet (Forall offt) (dispose huge a).
Proof.
  intros O. unfold dispose. qb (@anyv (option otype)); [apply quiet_get_type|]. intros t _.
  assert (Comp : forall n, quiet (Forall offt) (bind (fields_at a) (fun f => bind (pointers n f) (fun l => ret (map Rel l ++ [Fin a]))))).
  { intros n. qb (fun l => offb (BComp l)); [apply quiet_fields_at; exact O|]. intros f B.
    qb (Forall off); [apply quiet_pointers; exact B|]. intros l F. apply quiet_ret. todos. }
  assert (Other : forall t n, quiet (Forall offt)
    (if type_is_entity t then bind (ent_iri_at a) (fun i => bind (table_remove TEnt (ent_eq huge t i)) (fun _ => ret [Rel i; Fin a]))
     else bind (get_bit huge a) (fun b => bind (fields_at a) (fun f => bind (pointers (n + (if b then 1 else 0)) f) (fun l => ret (map Rel l ++ [Fin a])))))).
  { intros t' n. destruct (type_is_entity t').
    - qb off; [apply quiet_ent_iri_at; exact O|]. intros i oi.
      qb (@anyv unit); [apply quiet_table_remove; intros; apply quiet_ent_eq|]. intros _ _. apply quiet_ret. todos.
    - qb (@anyv bool); [apply quiet_get_bit|]. intros b _. apply Comp. }
  destruct t as [t|]; [|apply quiet_fail].
  destruct t; try apply quiet_fail; try (apply (Other _ _)).
  - qb (@anyv bool); [apply quiet_get_bit|]. intros b _. qb (@anyv unit).
    + destruct b; [|apply quiet_ret; exact I]. qb (@anyv bytes); [apply quiet_text|]. intros u _.
      apply quiet_table_remove. intros; apply quiet_str_eq.
    + intros _ _. qb (@anyv bytes); [apply quiet_text|]. intros _ _. apply quiet_ret. todos.
  - qb (Forall off); [apply quiet_items_at; exact O|]. intros l F. apply quiet_ret. todos.
  - qb (fun p => off (fst p) /\ off (snd p)); [apply quiet_iri_at; exact O|]. intros p [F1 F2].
    qb (@anyv unit); [apply quiet_table_remove; intros; apply quiet_iri_eq|]. intros _ _. apply quiet_ret. todos.
  - apply (Comp 2%nat).
  - qb (fun o => offb (BOnto o)); [apply quiet_onto_at; exact O|]. intros o B. apply quiet_ret. todos.
  - qb off; [apply quiet_anon_id_at; exact O|]. intros i oi. qb (@anyv bytes); [apply quiet_text|]. intros u _.
    qb (@anyv unit); [apply quiet_table_remove; intros; apply quiet_anon_eq|]. intros _ _. apply quiet_ret. todos.
Qed.

Lemma quiet_release_loop n : forall w, Forall offt w -> quiet anyv (release_loop huge n w).
Proof.
  induction n as [|n IH]; intros w F; destruct F as [|x w O F]; cbn [release_loop];
    [apply quiet_ret; exact I|apply quiet_fail|apply quiet_ret; exact I|].
  destruct x as [a|a].
  - qb (@anyv N); [apply quiet_decr; exact O|]. intros r _. destruct (r =? 0); [|apply IH; exact F].
    qb (Forall offt); [apply quiet_dispose; exact O|]. intros l L. apply IH. apply Forall_app. auto.
  - qb (@anyv unit); [apply quiet_free; exact O|]. intros _ _. apply IH. exact F.
Qed.
Lemma quiet_release p : oopt p -> quiet anyv (release huge p).
Proof.
  intros O. destruct p as [a|]; [|apply quiet_ret; exact I]. intros s q. unfold release.
  apply (quiet_release_loop _ [Rel a]); [|exact q]. constructor; [exact O|constructor].
Qed.

(** * Strings, IRIs, entities, anonymous individuals *)

Lemma quiet_string_get t : quiet off (string_get huge fresh t).
Proof. apply quiet_alloc. constructor. Qed.
Lemma quiet_get_intern t : quiet off (string_get_intern huge fresh t).
Proof.
  unfold string_get_intern. qb oopt; [apply quiet_table_find; intros; apply quiet_str_eq|]. intros [k|] O.
  - apply quiet_retain. exact O.
  - qb off; [apply quiet_string_get|]. intros a oa. qb (@anyv unit); [apply quiet_set_bit; exact oa|]. intros _ _.
    qb (@anyv unit); [apply quiet_table_add; exact oa|]. intros _ _. apply quiet_ret. exact oa.
Qed.
Lemma quiet_intern p : oopt p -> quiet oopt (string_intern huge e p).
Proof.
  intros O. destruct p as [a|]; [|apply quiet_ret; exact I]. cbn [string_intern].
  qb (@anyv bool); [apply quiet_get_bit|]. intros b _. destruct b; [apply quiet_ret; exact O|].
  qb (@anyv bytes); [apply quiet_text|]. intros t _. destruct (Nat.eqb (List.length t) 0).
  { apply quiet_ret. apply e_off. }
  qb oopt; [apply quiet_table_find; intros; apply quiet_str_eq|]. intros [k|] Ok'; [apply quiet_ret; exact Ok'|].
  qb (@anyv unit); [apply quiet_table_add; exact O|]. intros _ _.
  qb (@anyv unit); [apply quiet_set_bit; exact O|]. intros _ _. apply quiet_ret. exact O.
Qed.
Lemma quiet_empty : quiet off (string_empty huge e).
Proof. apply quiet_retain. apply e_off. Qed.
Lemma quiet_string t : quiet off (cowl_string huge fresh e t).
Proof. unfold cowl_string. destruct (Nat.eqb (List.length t) 0); [apply quiet_empty|apply quiet_string_get]. Qed.
Lemma quiet_opt t i : quiet off (string_opt huge fresh e t i).
Proof.
  unfold string_opt. destruct (Nat.eqb (List.length t) 0); [apply quiet_empty|].
  destruct i; [apply quiet_get_intern|apply quiet_string_get].
Qed.
Lemma quiet_ns_rem t n : quiet (fun p => off (fst p) /\ off (snd p)) (get_ns_rem huge fresh e t n).
Proof.
  unfold get_ns_rem. qb off.
  - destruct (Nat.ltb n (List.length t)); [apply quiet_opt|apply quiet_empty].
  - intros r Or. qb off; [apply quiet_opt|]. intros l Ol. apply quiet_ret. auto.
Qed.
Lemma quiet_copy_raw a : off a -> quiet anyv (release_copying_raw huge (Some a)).
Proof.
  intros O. cbn [release_copying_raw]. qb (@anyv N); [apply quiet_decr; exact O|]. intros n _.
  qb (@anyv bytes); [apply quiet_text|]. intros t _. destruct (n =? 0); [|apply quiet_ret; exact I].
  qb (fun c : cell => True); [apply reads_quiet, reads_read|]. intros c _.
  qb (@anyv unit); [apply quiet_write; [exact O|constructor]|]. intros _ _.
  qb (@anyv bool); [apply quiet_get_bit|]. intros b _.
  qb (@anyv unit); [destruct b; [apply quiet_table_remove; intros; apply quiet_str_eq|apply quiet_ret; exact I]|]. intros _ _.
  qb (@anyv unit); [apply quiet_free; exact O|]. intros _ _. apply quiet_ret. exact I.
Qed.
Lemma quiet_iri_unvalidated n r : oopt n -> oopt r -> quiet oopt (iri_unvalidated huge fresh e n r).
Proof.
  intros On Or. unfold iri_unvalidated. destruct n as [n|]; [|apply quiet_ret; exact I].
  qb oopt; [apply quiet_intern; exact On|]. intros [i|] Oi; [|apply quiet_ret; exact I].
  qb off; [apply quiet_nonnull; exact Or|]. intros r' Or'.
  qb oopt; [apply quiet_table_find; intros; apply quiet_iri_eq|]. intros [k|] Ok'.
  - qb (@anyv unit); [apply quiet_incr; exact Ok'|]. intros _ _. apply quiet_ret. exact Ok'.
  - qb off; [apply quiet_retain; exact Oi|]. intros _ _. qb off; [apply quiet_retain; exact Or'|]. intros _ _.
    qb off; [apply quiet_alloc; repeat constructor; assumption|]. intros a Oa.
    qb (@anyv unit); [apply quiet_table_add; exact Oa|]. intros _ _. apply quiet_ret. exact Oa.
Qed.
Lemma quiet_iri p q : oopt p -> oopt q -> quiet oopt (cowl_iri huge fresh e p q).
Proof.
  intros Op Oq. unfold cowl_iri. destruct p as [p|]; [|apply quiet_ret; exact I].
  destruct q as [q|]; [|apply quiet_ret; exact I].
  qb (@anyv bytes); [apply quiet_text|]. intros pt _. qb (@anyv bytes); [apply quiet_text|]. intros qt _. cbv zeta.
  qb (fun p => off (fst p) /\ off (snd p)).
  - destruct (Nat.ltb 0 (xml_ns_length qt)).
    { qb off; [apply quiet_string|]. intros a Oa. qb off; [apply quiet_opt|]. intros b Ob. apply quiet_ret. auto. }
    destruct (Nat.ltb (xml_ns_length pt) (List.length pt)).
    { qb off; [apply quiet_opt|]. intros a Oa. qb off; [apply quiet_string|]. intros b Ob. apply quiet_ret. auto. }
    qb off; [apply quiet_retain; exact Op|]. intros a Oa. qb off; [apply quiet_retain; exact Oq|]. intros b Ob. apply quiet_ret. auto.
  - intros [a b] [Oa Ob]. qb oopt; [apply quiet_iri_unvalidated; assumption|]. intros r Or.
    qb (@anyv unit); [apply quiet_release; exact Oa|]. intros _ _.
    qb (@anyv unit); [apply quiet_release; exact Ob|]. intros _ _. apply quiet_ret. exact Or.
Qed.
Lemma quiet_iri_text t : quiet oopt (iri_of_string huge fresh e t).
Proof.
  unfold iri_of_string. destruct (Nat.leb (ustring_size t) 1); [apply quiet_ret; exact I|].
  qb (fun p => off (fst p) /\ off (snd p)); [apply quiet_ns_rem|].
  intros [a b] [Oa Ob]. qb oopt; [apply quiet_iri_unvalidated; assumption|]. intros r Or.
  qb (@anyv unit); [apply quiet_release; exact Oa|]. intros _ _.
  qb (@anyv unit); [apply quiet_release; exact Ob|]. intros _ _. apply quiet_ret. exact Or.
Qed.
Lemma quiet_entity t i : oopt i -> quiet oopt (entity_get huge fresh t i).
Proof.
  intros O. unfold entity_get. destruct i as [i|]; [|apply quiet_ret; exact I].
  qb oopt; [apply quiet_table_find; intros; apply quiet_ent_eq|]. intros [k|] Ok'.
  - qb (@anyv unit); [apply quiet_incr; exact Ok'|]. intros _ _. apply quiet_ret. exact Ok'.
  - qb off; [apply quiet_retain; exact O|]. intros _ _.
    qb off; [apply quiet_alloc; repeat constructor; assumption|]. intros a Oa.
    qb (@anyv unit); [apply quiet_table_add; exact Oa|]. intros _ _. apply quiet_ret. exact Oa.
Qed.
Lemma quiet_entity_text t u : quiet oopt (entity_of_string huge fresh e t u).
Proof.
  unfold entity_of_string. qb oopt; [apply quiet_iri_text|]. intros [i|] O; [|apply quiet_ret; exact I].
  qb oopt; [apply quiet_entity; exact O|]. intros x Ox. qb (@anyv unit); [apply quiet_release; exact O|]. intros _ _.
  apply quiet_ret. exact Ox.
Qed.
Lemma quiet_anon_alloc i : off i -> quiet off (anon_alloc huge fresh i).
Proof.
  intros O. unfold anon_alloc. qb off; [apply quiet_retain; exact O|]. intros _ _.
  qb off; [apply quiet_alloc; repeat constructor; assumption|]. intros a Oa.
  qb (@anyv unit); [apply quiet_table_add; exact Oa|]. intros _ _. apply quiet_ret. exact Oa.
Qed.
Lemma quiet_anon_id i : off i -> quiet off (anon_of_id huge fresh i).
Proof.
  intros O. unfold anon_of_id. qb (@anyv bytes); [apply quiet_text|]. intros t _.
  qb oopt; [apply quiet_table_find; intros; apply quiet_anon_eq|]. intros [k|] Ok'.
  - qb (@anyv unit); [apply quiet_incr; exact Ok'|]. intros _ _. apply quiet_ret. exact Ok'.
  - apply quiet_anon_alloc. exact O.
Qed.
Lemma quiet_anon_text t : quiet off (anon_of_string huge fresh t).
Proof.
  unfold anon_of_string. qb oopt; [apply quiet_table_find; intros; apply quiet_anon_eq|]. intros [k|] Ok'.
  - qb (@anyv unit); [apply quiet_incr; exact Ok'|]. intros _ _. apply quiet_ret. exact Ok'.
  - qb off; [apply quiet_string_get|]. intros i Oi. qb off; [apply quiet_anon_alloc; exact Oi|]. intros a Oa.
    qb (@anyv unit); [apply quiet_release; exact Oi|]. intros _ _. apply quiet_ret. exact Oa.
Qed.
Lemma quiet_anon_generate ids : quiet oopt (anon_generate huge fresh e ids).
Proof.
  induction ids as [|t ids IH]; cbn [anon_generate]; [apply quiet_ret; exact I|].
  qb oopt; [apply quiet_table_find; intros; apply quiet_anon_eq|]. intros [k|] _; [exact IH|].
  qb off; [apply quiet_string|]. intros i Oi. qb off; [apply quiet_anon_alloc; exact Oi|]. intros a Oa.
  qb (@anyv unit); [apply quiet_release; exact Oi|]. intros _ _. apply quiet_ret. exact Oa.
Qed.
Lemma quiet_anon i ids : oopt i -> quiet oopt (anon_ind huge fresh e i ids).
Proof.
  intros O. unfold anon_ind. destruct i as [i|]; [|apply quiet_anon_generate].
  qb off; [apply quiet_anon_id; exact O|]. intros a Oa. apply quiet_ret. exact Oa.
Qed.

(** * Composite objects, vectors, literals *)

Lemma offb_objs l : Forall off l -> offb (BComp (map Obj l)).
Proof. unfold offb. cbn. intros F. induction F; cbn; [constructor|]. constructor; assumption. Qed.
Lemma offb_app l m : offb (BComp l) -> offb (BComp m) -> offb (BComp (l ++ m)).
Proof. unfold offb. cbn. rewrite flat_map_app. intros. apply Forall_app. auto. Qed.
Lemma quiet_retains l : Forall oopt l -> quiet (Forall off) (mapm (retain huge) l).
Proof. intros F. apply quiet_mapm. intros x i. apply quiet_retain. apply (proj1 (Forall_forall _ _) F x i). Qed.
Lemma quiet_get_impl t fs opt : Forall oopt fs -> oopt opt -> quiet off (get_impl huge fresh t fs opt).
Proof.
  intros F O. unfold get_impl. qb (Forall off); [apply quiet_retains; exact F|]. intros l L.
  destruct opt as [o|].
  - qb off; [apply quiet_retain; exact O|]. intros _ _. apply quiet_alloc. apply offb_app; [apply offb_objs; exact L|].
    repeat constructor. exact O.
  - apply quiet_alloc. apply offb_objs. exact L.
Qed.
Lemma quiet_get_annot t fs opt : Forall oopt fs -> oopt opt -> quiet off (get_impl_annot huge fresh t fs opt).
Proof.
  intros F O. unfold get_impl_annot. destruct opt as [v|]; [|apply quiet_get_impl; auto].
  qb (Forall off); [apply quiet_items_at; exact O|]. intros l _. apply quiet_get_impl; [exact F|].
  destruct (Nat.eqb (List.length l) 0); [exact I|exact O].
Qed.
Lemma quiet_get_uint t fs val opt : Forall oopt fs -> oopt opt -> quiet off (get_impl_uint huge fresh t fs val opt).
Proof.
  intros F O. unfold get_impl_uint. qb (Forall off); [apply quiet_retains; exact F|]. intros l L.
  destruct opt as [o|].
  - qb off; [apply quiet_retain; exact O|]. intros _ _. apply quiet_alloc. apply offb_app; [apply offb_objs; exact L|].
    repeat constructor. exact O.
  - apply quiet_alloc. apply offb_app; [apply offb_objs; exact L|constructor].
Qed.
Lemma quiet_vector l : Forall oopt l -> quiet off (vector huge fresh l).
Proof. intros F. unfold vector. qb (Forall off); [apply quiet_retains; exact F|]. intros m M. apply quiet_alloc. exact M. Qed.
Lemma quiet_ordered : quiet off (vector_ordered_empty huge fresh).
Proof.
  unfold vector_ordered_empty. qb off; [apply quiet_vector; constructor|]. intros v Ov. unfold vector_set_ordered.
  qb (@anyv unit); [qb off; [apply quiet_nonnull; exact Ov|intros a Oa; apply quiet_set_bit; exact Oa]|].
  intros _ _. apply quiet_ret. exact Ov.
Qed.
Lemma quiet_push_item v x : off v -> off x -> quiet anyv (push_item v x).
Proof.
  intros Ov Ox. unfold push_item. qb (fun c => offb (c_body c)); [apply quiet_read; exact Ov|]. intros c B.
  destruct (c_body c) eqn:E; try apply quiet_fail. apply quiet_write; [exact Ov|].
  unfold offb in *. cbn in *. apply Forall_app. split; [exact B|]. repeat constructor. exact Ox.
Qed.
Lemma quiet_push v x : oopt v -> oopt x -> quiet anyv (vector_push v x).
Proof.
  intros Ov Ox. unfold vector_push. qb off; [apply quiet_nonnull; exact Ov|]. intros a Oa.
  qb off; [apply quiet_nonnull; exact Ox|]. intros b Ob. apply quiet_push_item; assumption.
Qed.
Lemma quiet_add v x : oopt v -> oopt x -> quiet anyv (vector_add huge v x).
Proof.
  intros Ov Ox. unfold vector_add.
  repeat first
    [ (qb off; [apply quiet_nonnull; assumption|]; intros ? ?)
    | (qb off; [apply quiet_retain; assumption|]; intros ? ?)
    | apply quiet_push_item; assumption ].
Qed.
Lemma quiet_nary t l : Forall off l -> quiet off (nary_get_impl huge fresh t l).
Proof.
  intros F. unfold nary_get_impl.
  qb off; [apply quiet_vector; apply Forall_map; exact F|]. intros v Ov.
  qb off; [apply quiet_get_impl; [repeat constructor; exact Ov|exact I]|]. intros o Oo.
  qb (@anyv unit); [apply quiet_release; exact Ov|]. intros _ _. apply quiet_ret. exact Oo.
Qed.
Lemma quiet_has_key c o d annot : oopt c -> oopt o -> oopt d -> oopt annot -> quiet off (has_key huge fresh c o d annot).
Proof.
  intros Oc Oo Od Oa. unfold has_key.
  qb off; [destruct o; [apply quiet_retain; exact Oo|apply quiet_vector; constructor]|]. intros o' Oo'.
  qb off; [destruct d; [apply quiet_retain; exact Od|apply quiet_vector; constructor]|]. intros d' Od'.
  qb off; [apply quiet_get_annot; [repeat constructor; assumption|exact Oa]|]. intros r Or.
  qb (@anyv unit); [apply quiet_release; exact Oo'|]. intros _ _.
  qb (@anyv unit); [apply quiet_release; exact Od'|]. intros _ _. apply quiet_ret. exact Or.
Qed.
Lemma quiet_chain a b annot : oopt a -> oopt b -> oopt annot -> quiet off (chain_axiom huge fresh a b annot).
Proof.
  intros Oa Ob Oc. unfold chain_axiom, vector_set_ordered.
  qb (@anyv unit); [qb off; [apply quiet_nonnull; exact Oa|intros v Ov; apply quiet_set_bit; exact Ov]|].
  intros _ _. apply quiet_get_annot; [repeat constructor; assumption|exact Oc].
Qed.
Lemma quiet_quant t d p f : oopt p -> oopt f -> quiet off (quant huge fresh t d p f).
Proof.
  intros Op Of. unfold quant. apply quiet_get_impl; [repeat constructor; exact Op|].
  destruct f as [f|]; [destruct (f =? d)|]; [exact I|exact Of|exact I].
Qed.
Lemma quiet_construct t fs opt val : Forall oopt fs -> oopt (optional_argument t opt) -> quiet off (construct huge fresh e t fs opt val).
Proof.
  intros F O. unfold construct. unfold optional_argument in O. destruct (ctor_of t) as [[n|n|n|n|]|].
  - apply quiet_get_impl; [exact F|exact I].
  - apply quiet_get_annot; assumption.
  - apply quiet_get_uint; assumption.
  - destruct F as [|p fs Op F]; [apply quiet_fail|]. destruct fs; [|apply quiet_fail]. apply quiet_quant; assumption.
  - destruct F as [|c fs Oc F]; [apply quiet_fail|]. destruct F as [|o fs Oo F]; [apply quiet_fail|].
    destruct F as [|d fs Od F]; [apply quiet_fail|]. destruct F; [|apply quiet_fail]. apply quiet_has_key; assumption.
  - apply quiet_fail.
Qed.
Lemma quiet_literal_alloc v d b : oopt v -> oopt d -> quiet off (literal_alloc huge fresh v d b).
Proof.
  intros Ov Od. unfold literal_alloc. qb off; [apply quiet_get_impl; [repeat constructor; assumption|exact I]|].
  intros l Ol. qb (@anyv unit); [destruct b; [apply quiet_set_bit; exact Ol|apply quiet_ret; exact I]|].
  intros _ _. apply quiet_ret. exact Ol.
Qed.
Lemma quiet_lit_string v : oopt v -> quiet off (literal_string_alloc huge fresh e v).
Proof. intros O. apply quiet_literal_alloc; [exact O|apply e_off]. Qed.
Lemma quiet_intern_lang l : off l -> quiet off (intern_lang huge fresh e l).
Proof.
  intros O. unfold intern_lang. qb (@anyv bytes); [apply quiet_text|]. intros t _. destruct (is_lower t); [|apply quiet_opt].
  qb oopt; [apply quiet_intern; exact O|]. intros i Oi. apply quiet_retain. exact Oi.
Qed.
Lemma quiet_lit_lang_alloc v l : oopt v -> off l -> quiet off (lit_lang_alloc huge fresh e v l).
Proof.
  intros Ov Ol. unfold lit_lang_alloc. qb (@anyv bytes); [apply quiet_text|]. intros t _.
  destruct (Nat.eqb (List.length t) 0); [apply quiet_lit_string; exact Ov|].
  qb off; [apply quiet_intern_lang; exact Ol|]. intros i Oi.
  qb off; [apply quiet_literal_alloc; [exact Ov|exact Oi]|]. intros r Or.
  qb (@anyv unit); [apply quiet_release; exact Oi|]. intros _ _. apply quiet_ret. exact Or.
Qed.
Lemma quiet_parse_lang v : off v -> quiet (fun p => off (fst p) /\ oopt (snd p)) (parse_lang_at huge fresh e v).
Proof.
  intros O. unfold parse_lang_at. qb (@anyv bytes); [apply quiet_text|]. intros t _.
  destruct (parse_lang t) as [u [l|]].
  - qb off; [apply quiet_opt|]. intros a Oa. qb off; [apply quiet_opt|]. intros b Ob. apply quiet_ret. cbn. auto.
  - qb off; [apply quiet_retain; exact O|]. intros a Oa. apply quiet_ret. cbn. auto.
Qed.
Lemma quiet_lit_parse v : off v -> quiet off (lit_parse_lang_alloc huge fresh e v).
Proof.
  intros O. unfold lit_parse_lang_alloc. qb (fun p => off (fst p) /\ oopt (snd p)); [apply quiet_parse_lang; exact O|].
  intros [a b] [Oa Ob]. cbn [fst snd] in *. qb off; [apply quiet_literal_alloc; [exact Oa|exact Ob]|]. intros r Or.
  qb (@anyv unit); [apply quiet_release; exact Oa|]. intros _ _.
  qb (@anyv unit); [apply quiet_release; exact Ob|]. intros _ _. apply quiet_ret. exact Or.
Qed.
Lemma quiet_literal v d : oopt v -> oopt d -> quiet oopt (literal huge fresh e v d).
Proof.
  intros Ov Od. unfold literal. destruct v as [v|]; [|apply quiet_ret; exact I]. destruct d as [d|].
  - qb (@anyv (option otype)); [apply quiet_get_type|]. intros t _. qb off.
    + assert (G : quiet off (if (d =? e_lang_string e) || (d =? e_plain_literal e) then lit_parse_lang_alloc huge fresh e v
                             else literal_alloc huge fresh (Some v) (Some d) false)).
      { destruct ((d =? e_lang_string e) || (d =? e_plain_literal e)); [apply quiet_lit_parse; exact Ov|].
        apply quiet_literal_alloc; assumption. }
      destruct t as [t|]; [|exact G]. destruct t; try exact G. apply quiet_lit_lang_alloc; assumption.
    + intros l Ol. apply quiet_ret. exact Ol.
  - qb off; [apply quiet_lit_string; exact Ov|]. intros l Ol. apply quiet_ret. exact Ol.
Qed.
Lemma quiet_lit_plain t : quiet off (lit_plain huge fresh e t).
Proof.
  unfold lit_plain. qb off; [apply quiet_opt|]. intros v Ov. qb off; [apply quiet_lit_string; exact Ov|]. intros l Ol.
  qb (@anyv unit); [apply quiet_release; exact Ov|]. intros _ _. apply quiet_ret. exact Ol.
Qed.
Lemma quiet_lit_typed t d : oopt d -> quiet off (lit_typed huge fresh e t d).
Proof.
  intros Od. unfold lit_typed. qb off; [apply quiet_opt|]. intros v Ov.
  qb off; [apply quiet_literal_alloc; [exact Ov|exact Od]|]. intros l Ol.
  qb (@anyv unit); [apply quiet_release; exact Ov|]. intros _ _. apply quiet_ret. exact Ol.
Qed.
Lemma quiet_lit_lang t u : quiet off (lit_lang huge fresh e t u).
Proof.
  unfold lit_lang. qb off; [apply quiet_opt|]. intros v Ov. qb off; [apply quiet_opt|]. intros i Oi.
  qb off; [apply quiet_lit_lang_alloc; [exact Ov|exact Oi]|]. intros l Ol.
  qb (@anyv unit); [apply quiet_release; exact Ov|]. intros _ _.
  qb (@anyv unit); [apply quiet_release; exact Oi|]. intros _ _. apply quiet_ret. exact Ol.
Qed.

(** * Ontologies *)

Definition offo (o : onto) : Prop := offb (BOnto o).
Lemma offo_iff o : offo o <-> oopt (n_iri o) /\ oopt (n_version o) /\ Forall off (n_imports o) /\ oopt (n_annot o) /\
  Forall off (flat_map snd (n_axioms o)).
Proof.
  unfold offo, offb. cbn. rewrite !Forall_app.
  assert (G : forall p, Forall off (opt_list p) <-> oopt p).
  { intros [a|]; cbn; split; intros H; auto. inversion H; auto. }
  rewrite !G. tauto.
Qed.
Lemma quiet_set_onto a f : off a -> (forall o, offo o -> offo (f o)) -> quiet anyv (set_onto a f).
Proof.
  intros O F. unfold set_onto. qb (fun c => offb (c_body c)); [apply quiet_read; exact O|]. intros c B.
  destruct (c_body c); try apply quiet_fail. apply quiet_write; [exact O|]. apply F. exact B.
Qed.
Lemma quiet_onto o : off o -> quiet offo (onto_at o).
Proof. apply quiet_onto_at. Qed.
Lemma quiet_set_iri o i : off o -> oopt i -> quiet anyv (set_iri huge o i).
Proof.
  intros Oo Oi. unfold set_iri, set_member. qb offo; [apply quiet_onto; exact Oo|]. intros p B. apply offo_iff in B.
  qb (@anyv unit); [apply quiet_set_onto; [exact Oo|]; intros q; rewrite !offo_iff; cbn; tauto|]. intros _ _.
  qb (@anyv unit); [apply quiet_release; tauto|]. intros _ _. destruct i as [i|]; [|apply quiet_ret; exact I].
  qb off; [apply quiet_retain; exact Oi|]. intros _ _. apply quiet_set_onto; [exact Oo|]. intros q. rewrite !offo_iff. cbn.
  cbn in Oi. tauto.
Qed.
Lemma quiet_set_version o i : off o -> oopt i -> quiet anyv (set_version huge o i).
Proof.
  intros Oo Oi. unfold set_version, set_member. qb offo; [apply quiet_onto; exact Oo|]. intros p B. apply offo_iff in B.
  qb (@anyv unit); [apply quiet_set_onto; [exact Oo|]; intros q; rewrite !offo_iff; cbn; tauto|]. intros _ _.
  qb (@anyv unit); [apply quiet_release; tauto|]. intros _ _. destruct i as [i|]; [|apply quiet_ret; exact I].
  qb off; [apply quiet_retain; exact Oi|]. intros _ _. apply quiet_set_onto; [exact Oo|]. intros q. rewrite !offo_iff. cbn.
  cbn in Oi. tauto.
Qed.
Lemma quiet_annot_vec o : off o -> quiet off (annot_vec huge fresh o).
Proof.
  intros O. unfold annot_vec. qb offo; [apply quiet_onto; exact O|]. intros p B. apply offo_iff in B.
  destruct (n_annot p) as [v|]; [apply quiet_ret; cbn in B; tauto|].
  qb off; [apply quiet_ordered|]. intros v Ov.
  qb (@anyv unit); [apply quiet_set_onto; [exact O|]; intros q; rewrite !offo_iff; cbn; tauto|]. intros _ _.
  apply quiet_ret. exact Ov.
Qed.
Lemma forall_sub {A} (P : A -> Prop) l m : incl l m -> Forall P m -> Forall P l.
Proof. intros I F. apply Forall_forall. intros x i. apply (proj1 (Forall_forall _ _) F). apply I, i. Qed.
Lemma firstn_incl {A} n (l : list A) : incl (firstn n l) l.
Proof. revert l. induction n; intros [|x l] y; cbn; intros i; auto; [destruct i|]. destruct i as [->|i]; auto. right. apply (IHn l y i). Qed.
Lemma skipn_incl {A} n (l : list A) : incl (skipn n l) l.
Proof. revert l. induction n; intros [|x l] y; cbn; intros i; auto. right. apply (IHn l y i). Qed.
Lemma remove_at_incl {A} i (l : list A) : incl (remove_at i l) l.
Proof. unfold remove_at. apply incl_app; [apply firstn_incl|apply skipn_incl]. Qed.
Lemma removelast_incl {A} (l : list A) : incl (removelast l) l.
Proof.
  induction l as [|x l IH]; cbn; [apply incl_refl|]. destruct l; [intros y []|].
  intros y [->|i]; [left; reflexivity|right; apply IH; exact i].
Qed.
Lemma last_in {A} (l : list A) d : l <> [] -> In (last l d) l.
Proof.
  induction l as [|x l IH]; intros H; [contradiction|]. destruct l as [|y l]; [left; reflexivity|]. right. apply IH. discriminate.
Qed.
Lemma swap_incl i l : l <> [] -> incl (swap_remove_at i l) l.
Proof.
  intros H. unfold swap_remove_at. eapply incl_tran; [apply removelast_incl|]. apply incl_app; [apply firstn_incl|].
  intros y [<-|j]; [apply last_in; exact H|apply (skipn_incl (S i) l y j)].
Qed.
Lemma remove_last_incl x l : incl (remove_last x l) l.
Proof.
  unfold remove_last. destruct (last_at x l) as [i|] eqn:E; [|apply incl_refl].
  apply swap_incl. intros ->. discriminate.
Qed.
Lemma quiet_find_at x l : quiet anyv (find_at (equals huge x) l).
Proof. apply reads_quiet. apply reads_find_at. intros b. apply reads_equals. Qed.
Lemma quiet_vector_remove v x : off v -> off x -> quiet anyv (vector_remove huge v x).
Proof.
  intros Ov Ox. unfold vector_remove. qb (Forall off); [apply quiet_items_at; exact Ov|]. intros l F.
  destruct l as [|z l'] eqn:El.
  { cbn. qb (fun r : option nat => r = None); [apply quiet_ret; reflexivity|]. intros r ->. apply quiet_ret. exact I. }
  rewrite <- El in *.
  qb (@anyv (option nat)); [apply quiet_find_at|]. intros [i|] _; [|apply quiet_ret; exact I].
  qb (@anyv bool); [apply quiet_get_bit|]. intros b _.
  qb (fun c : cell => True); [apply reads_quiet, reads_read|]. intros c _.
  qb (@anyv unit).
  { apply quiet_write; [exact Ov|]. unfold offb. cbn. apply forall_sub with (m := l); [|exact F].
    destruct b; [apply remove_at_incl|apply swap_incl; rewrite El; discriminate]. }
  intros _ _. qb (@anyv unit); [apply quiet_release; exact Ox|]. intros _ _. apply quiet_ret. exact I.
Qed.
Lemma quiet_remove_annot o x : off o -> off x -> quiet anyv (remove_annot huge o x).
Proof.
  intros Oo Ox. unfold remove_annot. qb offo; [apply quiet_onto; exact Oo|]. intros p B. apply offo_iff in B.
  destruct (n_annot p) as [v|]; [|apply quiet_ret; exact I]. assert (Ov : off v) by (cbn in B; tauto).
  qb (@anyv bool); [apply quiet_vector_remove; assumption|]. intros r _. destruct (negb r); [apply quiet_ret; exact I|].
  qb (Forall off); [apply quiet_items_at; exact Ov|]. intros l _. destruct (Nat.eqb (List.length l) 0); [|apply quiet_ret; exact I].
  qb (@anyv unit); [apply quiet_set_onto; [exact Oo|]; intros q; rewrite !offo_iff; cbn; tauto|]. intros _ _.
  qb (@anyv unit); [apply quiet_release; exact Ov|]. intros _ _. apply quiet_ret. exact I.
Qed.
Lemma quiet_add_import o i : off o -> off i -> quiet anyv (add_import huge o i).
Proof.
  intros Oo Oi. unfold add_import. qb off; [apply quiet_retain; exact Oi|]. intros _ _.
  qb offo; [apply quiet_onto; exact Oo|]. intros p B. apply offo_iff in B.
  apply quiet_set_onto; [exact Oo|]. intros q. rewrite !offo_iff. cbn. rewrite Forall_app. intros H.
  repeat split; try tauto. constructor; [exact Oi|constructor].
Qed.
Lemma quiet_remove_import o i : off o -> off i -> quiet anyv (remove_import huge o i).
Proof.
  intros Oo Oi. unfold remove_import. qb offo; [apply quiet_onto; exact Oo|]. intros p B. apply offo_iff in B.
  qb (@anyv (option nat)); [apply quiet_find_at|]. intros [n|] _; [|apply quiet_ret; exact I].
  qb (@anyv unit).
  { apply quiet_set_onto; [exact Oo|]. intros q. rewrite !offo_iff. cbn. intros H. repeat split; try tauto.
    apply forall_sub with (m := n_imports p); [apply remove_at_incl|tauto]. }
  intros _ _. qb (@anyv unit); [apply quiet_release; exact Oi|]. intros _ _. apply quiet_ret. exact I.
Qed.
Lemma change_axioms_off t f l : (forall m, Forall off m -> Forall off (f m)) -> Forall off (flat_map snd l) ->
  Forall off (flat_map snd (change_axioms t f l)).
Proof.
  intros F. induction l as [|[u v] l IH]; cbn; intros H.
  - rewrite app_nil_r. apply F. constructor.
  - apply Forall_app in H. destruct H as [H1 H2]. destruct (otype_eqb u t); cbn; apply Forall_app; split; auto.
Qed.
Lemma quiet_add_annot o x : off o -> off x -> quiet anyv (add_annot huge fresh e o x).
Proof.
  intros Oo Ox. unfold add_annot. qb (fun _ : list N => True); [apply reads_quiet, reads_prims|]. intros ps _.
  qb (@anyv unit); [apply quiet_set_onto; [exact Oo|]; intros q; rewrite !offo_iff; cbn; tauto|]. intros _ _.
  qb off; [apply quiet_annot_vec; exact Oo|]. intros v Ov. apply quiet_add; assumption.
Qed.
Lemma quiet_add_axiom o x : off o -> off x -> quiet anyv (add_axiom huge e o x).
Proof.
  intros Oo Ox. unfold add_axiom. qb (@anyv bool); [apply quiet_get_bit|]. intros b _.
  qb (fun _ : list N => True); [destruct b; [apply quiet_ret; exact I|apply reads_quiet, reads_prims]|]. intros ps _.
  qb (@anyv (option otype)); [apply quiet_get_type|]. intros [t|] _; [|apply quiet_fail].
  qb off; [apply quiet_retain; exact Ox|]. intros _ _. apply quiet_set_onto; [exact Oo|].
  intros q. rewrite !offo_iff. cbn. intros H. repeat split; try tauto.
  apply change_axioms_off; [|tauto]. intros m M. apply Forall_app. split; [exact M|]. repeat constructor. exact Ox.
Qed.
Lemma quiet_has_axiom o x : quiet anyv (has_axiom huge e o x).
Proof.
  apply reads_quiet. unfold has_axiom. apply reads_bind; [apply reads_onto|]. intros p.
  apply reads_bind; [apply reads_prims|]. intros ps. apply reads_bind; [apply reads_get_type|]. intros [t|]; [|apply reads_fail].
  apply reads_bind; [apply reads_find_at; intros; apply reads_equals|]. intros r. apply reads_ret.
Qed.
Lemma quiet_remove_axiom o x : off o -> off x -> quiet anyv (remove_axiom huge e o x).
Proof.
  intros Oo Ox. unfold remove_axiom. qb offo; [apply quiet_onto; exact Oo|]. intros p _.
  qb (fun _ : list N => True); [apply reads_quiet, reads_prims|]. intros ps _.
  qb (@anyv (option otype)); [apply quiet_get_type|]. intros [t|] _; [|apply quiet_fail].
  qb (@anyv (option nat)); [apply quiet_find_at|]. intros [n|] _; [|apply quiet_ret; exact I].
  qb (@anyv unit).
  { apply quiet_set_onto; [exact Oo|]. intros q. rewrite !offo_iff. cbn. intros H. repeat split; try tauto.
    apply change_axioms_off; [|tauto]. intros m M. apply forall_sub with (m := m); [apply remove_last_incl|exact M]. }
  intros _ _. qb (@anyv unit); [apply quiet_release; exact Ox|]. intros _ _. apply quiet_ret. exact I.
Qed.

(** * Calls *)

Lemma quiet_none {A} (P : A -> Prop) m : quiet P m -> quiet oopt (none m).
Proof. intros M. unfold none. qb P; [exact M|]. intros _ _. apply quiet_ret. exact I. Qed.
Lemma quiet_some m : quiet off m -> quiet oopt (some m).
Proof. intros M. unfold some. qb off; [exact M|]. intros a O. apply quiet_ret. exact O. Qed.
Lemma opts_off l : Forall off (flat_map opt_list l) -> Forall oopt l.
Proof.
  induction l as [|[a|] l IH]; cbn; intros H; constructor; auto; [inversion H; auto|apply IH; inversion H; auto|exact I].
Qed.
Lemma opt_off p : Forall off (opt_list p) -> oopt p.
Proof. destruct p; cbn; intros H; [inversion H; auto|exact I]. Qed.

Ltac args H := repeat match type of H with Forall _ (_ :: _) => let a := fresh "a" in let b := fresh "b" in inversion H as [|? ? a b]; subst; clear H; rename b into H end.

Lemma quiet_exec k : Forall off (arguments k) -> quiet oopt (exec huge fresh e k).
Proof.
  intros F. destruct k; cbn [arguments exec] in *;
    repeat match goal with
    | H : Forall off (_ :: _) |- _ =>
        let a := fresh "Oa" in let b := fresh "Ob" in inversion H as [|? ? a b]; subst; clear H
    | H : Forall off (opt_list _) |- _ => apply opt_off in H
    | H : Forall off (_ ++ _) |- _ => apply Forall_app in H; destruct H
    | H : Forall off (flat_map opt_list _) |- _ => apply opts_off in H
    end;
    first
    [ apply quiet_some; first
        [ apply quiet_opt | apply quiet_empty | apply quiet_retain; assumption | apply quiet_anon_text
        | apply quiet_lit_plain | apply quiet_lit_typed; assumption | apply quiet_lit_lang | apply quiet_ordered
        | apply quiet_construct; assumption | apply quiet_nary; assumption | apply quiet_chain; assumption
        | (apply quiet_vector; apply Forall_map; assumption) | (apply quiet_alloc; constructor) ]
    | apply quiet_iri; assumption | apply quiet_iri_text | apply quiet_entity; assumption | apply quiet_entity_text
    | apply quiet_anon; assumption | apply quiet_literal; assumption
    | eapply quiet_none; first
        [ apply quiet_intern; assumption | apply quiet_copy_raw; assumption | apply quiet_release; assumption
        | apply quiet_add; assumption | apply quiet_push; assumption
        | (apply reads_quiet, reads_equals) | (apply reads_quiet, reads_prims)
        | apply quiet_set_iri; assumption | apply quiet_set_version; assumption | apply quiet_annot_vec; assumption
        | apply quiet_add_annot; assumption | apply quiet_remove_annot; assumption
        | apply quiet_add_import; assumption | apply quiet_remove_import; assumption
        | apply quiet_add_axiom; assumption | apply quiet_has_axiom | apply quiet_remove_axiom; assumption ] ].
Qed.

(** Pointers from objects that are not left alone stay away from those that are. *)
Lemma reach_off s a v : Q s -> reach s a v -> off a -> off v.
Proof.
  intros q R. induction R as [a _|a c b d L i R IH]; intros O; [exact O|]. apply IH.
  apply (proj1 (Forall_forall _ _) (q_heap s q a c (lookup_pair _ _ _ L) O) b i).
Qed.

End Isolate.
