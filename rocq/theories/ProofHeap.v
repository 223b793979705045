(** Memory invariant and its preservation by the elementary steps. *)

From Coq Require Import NArith List Bool Arith Lia Relations.
From Coq Require Import ZifyBool ZifyNat ZifyN.
From Verif Require Import Bytes ModelTypes ModelObject ModelHeader SpecHeader ModelText ModelHeap SpecHeap.
From Verif Require Import ProofObject ProofHeader.
Import ListNotations.
Local Open Scope N_scope.

(** * Association lists *)

Section Assoc.
Context {A : Type}.
Implicit Types h : list (N * A).

Lemma lookup_store h a c b : lookup (store h a c) b =
  if a =? b then match lookup h a with Some _ => Some c | None => None end else lookup h b.
Proof.
  induction h as [|[k d] h IH]; cbn; [now destruct (a =? b)|].
  destruct (k =? a) eqn:E; cbn.
  - apply N.eqb_eq in E. subst k. now destruct (a =? b).
  - rewrite IH. destruct (a =? b) eqn:F; auto.
    apply N.eqb_eq in F. subst b. rewrite E. auto.
Qed.

Lemma lookup_in h a c : lookup h a = Some c -> In (a, c) h.
Proof.
  induction h as [|[k d] h IH]; cbn; [discriminate|]. destruct (k =? a) eqn:E; intros H.
  - apply N.eqb_eq in E. left. congruence.
  - right; auto.
Qed.

Lemma lookup_none h a : lookup h a = None -> ~ In a (map fst h).
Proof.
  induction h as [|[k d] h IH]; cbn; auto. destruct (k =? a) eqn:E; [discriminate|].
  apply N.eqb_neq in E. intros H [F|F]; [auto|]. now apply IH.
Qed.

Lemma in_lookup h a c : NoDup (map fst h) -> In (a, c) h -> lookup h a = Some c.
Proof.
  induction h as [|[k d] h IH]; cbn; [tauto|]. intros D [E|E].
  - inversion E; subst. now rewrite N.eqb_refl.
  - inversion D as [|x l X Y]; subst. destruct (k =? a) eqn:F; auto.
    apply N.eqb_eq in F. subst k. contradiction X. change a with (fst (a, c)). now apply in_map.
Qed.

Lemma store_keys h a c : map fst (store h a c) = map fst h.
Proof. induction h as [|[k d] h IH]; cbn; auto. destruct (k =? a); cbn; congruence. Qed.

Lemma drop_keys_in h a x : In x (map fst (drop h a)) -> In x (map fst h).
Proof. induction h as [|[k d] h IH]; cbn; auto. destruct (k =? a); cbn; tauto. Qed.

Lemma drop_nodup h a : NoDup (map fst h) -> NoDup (map fst (drop h a)).
Proof.
  induction h as [|[k d] h IH]; cbn; auto. intros D. inversion D; subst.
  destruct (k =? a); auto. cbn. constructor; auto. intros I. now apply drop_keys_in in I.
Qed.

Lemma lookup_drop h a b : NoDup (map fst h) -> lookup (drop h a) b = if a =? b then None else lookup h b.
Proof.
  induction h as [|[k d] h IH]; cbn; intros D; [now destruct (a =? b)|].
  inversion D as [|x l X Y]; subst. destruct (k =? a) eqn:E.
  - apply N.eqb_eq in E. subst k. destruct (a =? b) eqn:F; auto.
    apply N.eqb_eq in F. subst b. destruct (lookup h a) eqn:G; auto.
    apply lookup_in in G. contradiction X. change a with (fst (a, a0)). now apply in_map.
  - cbn. rewrite IH by auto. destruct (k =? b) eqn:F; auto. destruct (a =? b) eqn:G; auto. lia.
Qed.

(** Sums over an association list. *)
Definition total (f : A -> nat) h : nat := fold_right (fun x n => f (snd x) + n)%nat O h.

Lemma total_store f h a c d : lookup h a = Some d -> (total f (store h a c) + f d = total f h + f c)%nat.
Proof.
  induction h as [|[k x] h IH]; cbn; [discriminate|]. destruct (k =? a) eqn:E; intros H.
  - inversion H; subst. cbn. unfold total. lia.
  - cbn. specialize (IH H). unfold total in *. lia.
Qed.

Lemma total_drop f h a d : lookup h a = Some d -> (total f (drop h a) + f d = total f h)%nat.
Proof.
  induction h as [|[k x] h IH]; cbn; [discriminate|]. destruct (k =? a) eqn:E; intros H.
  - inversion H; subst. unfold total. lia.
  - cbn. specialize (IH H). unfold total in *. lia.
Qed.

Lemma total_lookup f h a d : lookup h a = Some d -> (f d <= total f h)%nat.
Proof. intros H. apply total_drop with (f := f) in H. lia. Qed.

Lemma total_pos f h : (0 < total f h)%nat -> exists a d, In (a, d) h /\ (0 < f d)%nat.
Proof.
  induction h as [|[k x] h IH]; cbn; [lia|]. intros H. destruct (f x) eqn:E.
  - destruct IH as (a & d & I & J); [unfold total in *; lia|]. exists a, d; auto.
  - exists k, x. split; auto. lia.
Qed.

Lemma total_ext f g h : (forall a c, In (a, c) h -> f c = g c) -> total f h = total g h.
Proof.
  induction h as [|[k x] h IH]; cbn; intros E; auto.
  rewrite (E k x) by auto. f_equal. apply IH. intros a c I. apply (E a c). auto.
Qed.

End Assoc.

Section Map.
Context {A B : Type}.
Variable f : A -> B.
Definition amap (h : list (N * A)) : list (N * B) := map (fun x => (fst x, f (snd x))) h.

Lemma lookup_amap h a : lookup (amap h) a = option_map f (lookup h a).
Proof. induction h as [|[k d] h IH]; cbn; auto. destruct (k =? a); auto. Qed.
Lemma store_amap h a c : store (amap h) a (f c) = amap (store h a c).
Proof. induction h as [|[k d] h IH]; cbn; auto. destruct (k =? a); cbn; [auto|]. f_equal. apply IH. Qed.
Lemma drop_amap h a : drop (amap h) a = amap (drop h a).
Proof. induction h as [|[k d] h IH]; cbn; auto. destruct (k =? a); cbn; [auto|]. f_equal. apply IH. Qed.
End Map.

(** * Counting *)

Lemma count_app a l m : count a (l ++ m) = (count a l + count a m)%nat.
Proof. apply count_occ_app. Qed.
Lemma count_cons a b l : count a (b :: l) = ((if N.eqb b a then 1 else 0) + count a l)%nat.
Proof.
  unfold count. cbn. destruct (N.eq_dec b a) as [E|E].
  - subst. now rewrite N.eqb_refl.
  - apply N.eqb_neq in E. now rewrite E.
Qed.
Lemma count_nil a : count a [] = O.
Proof. reflexivity. Qed.
Lemma count_in a l : (0 < count a l)%nat <-> In a l.
Proof. unfold count. rewrite (count_occ_In N.eq_dec). lia. Qed.
Lemma count_self a l : count a (a :: l) = S (count a l).
Proof. rewrite count_cons, N.eqb_refl. auto. Qed.

Arguments count : simpl never.

(** * Objects with their header taken apart *)

Section Proofs.
Variable huge : bool.
Variable fresh : N -> heap -> N.
Hypothesis fresh_ok : allocator fresh.
Variable e : env.

(** Type, flag, count, contents. *)
Record ob := mkOb { o_t : otype; o_b : bool; o_n : N; o_d : body }.
Definition cell_of (v : ob) : cell :=
  mkCell (word huge (mkHdr (otype_num (o_t v)) (o_b v) (o_n v))) (o_d v).
Definition fitv (v : ob) : Prop := o_n v <= max_refs huge.

Lemma fits_ob v : fitv v -> fits huge (mkHdr (otype_num (o_t v)) (o_b v) (o_n v)).
Proof. split; cbn; [apply otype_num_small|auto]. Qed.

Lemma otype_of_num_num t : otype_of_num (otype_num t) = Some t.
Proof. destruct t; reflexivity. Qed.

Lemma ref_cell v : fitv v -> ref_of huge (cell_of v) = o_n v.
Proof. intros F. apply (shows_word huge _ (fits_ob v F)). Qed.
Lemma type_cell v : fitv v -> type_of huge (cell_of v) = Some (o_t v).
Proof.
  intros F. unfold type_of. destruct (shows_word huge _ (fits_ob v F)) as (E & _).
  cbn [cell_of c_hdr]. rewrite E. apply otype_of_num_num.
Qed.
Lemma bit_cell v : fitv v -> bit_of huge (cell_of v) = o_b v.
Proof. intros F. apply (shows_word huge _ (fits_ob v F)). Qed.
Lemma incr_cell v : o_n v < max_refs huge ->
  mkCell (hd_incr huge (c_hdr (cell_of v))) (c_body (cell_of v)) = cell_of (mkOb (o_t v) (o_b v) (o_n v + 1) (o_d v)).
Proof.
  intros F. unfold cell_of; cbn. f_equal.
  apply (step_word huge (mkHdr (otype_num (o_t v)) (o_b v) (o_n v)) HRetain).
  - apply fits_ob. unfold fitv. lia.
  - now constructor.
Qed.
Lemma decr_cell v : fitv v -> 0 < o_n v ->
  mkCell (hd_decr huge (c_hdr (cell_of v))) (c_body (cell_of v)) = cell_of (mkOb (o_t v) (o_b v) (o_n v - 1) (o_d v)).
Proof.
  intros F P. unfold cell_of; cbn. f_equal.
  apply (step_word huge (mkHdr (otype_num (o_t v)) (o_b v) (o_n v)) HRelease); [now apply fits_ob|].
  replace (o_n v) with (o_n v - 1 + 1) at 1 by lia. constructor.
Qed.
Lemma set_cell v : fitv v ->
  mkCell (hd_set_bit huge (c_hdr (cell_of v))) (c_body (cell_of v)) = cell_of (mkOb (o_t v) true (o_n v) (o_d v)).
Proof.
  intros F. unfold cell_of; cbn. f_equal.
  apply (step_word huge (mkHdr (otype_num (o_t v)) (o_b v) (o_n v)) HSetBit); [now apply fits_ob|constructor].
Qed.
Lemma init_cell t b d : mkCell (hd_init huge (otype_num t) b) d = cell_of (mkOb t b 1 d).
Proof. unfold cell_of; cbn. f_equal. apply init_word, otype_num_small. Qed.

(** * States with the headers taken apart *)

Definition obs := list (N * ob).
Record ast := mkA { a_h : obs; a_s : list N; a_i : list N; a_e : list N; a_a : list N; a_n : N }.
Definition cs (A : ast) : state := mkState (amap cell_of (a_h A)) (a_s A) (a_i A) (a_e A) (a_a A) (a_n A).

Definition atab (t : table_id) (A : ast) : list N :=
  match t with TStr => a_s A | TIri => a_i A | TEnt => a_e A | TAno => a_a A end.
Definition set_atab (t : table_id) (l : list N) (A : ast) : ast :=
  match t with
  | TStr => mkA (a_h A) l (a_i A) (a_e A) (a_a A) (a_n A)
  | TIri => mkA (a_h A) (a_s A) l (a_e A) (a_a A) (a_n A)
  | TEnt => mkA (a_h A) (a_s A) (a_i A) l (a_a A) (a_n A)
  | TAno => mkA (a_h A) (a_s A) (a_i A) (a_e A) l (a_n A)
  end.
Definition set_h (A : ast) (h : obs) : ast := mkA h (a_s A) (a_i A) (a_e A) (a_a A) (a_n A).

Lemma table_cs t A : table t (cs A) = atab t A.
Proof. destruct t; reflexivity. Qed.
Lemma set_table_cs t l A : set_table t l (cs A) = cs (set_atab t l A).
Proof. destruct t; reflexivity. Qed.
Lemma with_heap_cs A h : with_heap (cs A) (amap cell_of h) = cs (set_h A h).
Proof. reflexivity. Qed.
Lemma lookup_cs A a : lookup (s_heap (cs A)) a = option_map cell_of (lookup (a_h A) a).
Proof. apply lookup_amap. Qed.
Lemma atab_set_h A h T : atab T (set_h A h) = atab T A.
Proof. destruct T; reflexivity. Qed.
Lemma atab_set A T U l : atab U (set_atab T l A) = if (match T, U with TStr,TStr | TIri,TIri | TEnt,TEnt | TAno,TAno => true | _,_ => false end) then l else atab U A.
Proof. destruct T, U; reflexivity. Qed.
Lemma atab_set_same A T l : atab T (set_atab T l A) = l.
Proof. destruct T; reflexivity. Qed.
Lemma atab_set_other A T U l : T <> U -> atab U (set_atab T l A) = atab U A.
Proof. destruct T, U; try reflexivity; congruence. Qed.
Lemma a_h_set_atab A T l : a_h (set_atab T l A) = a_h A.
Proof. destruct T; reflexivity. Qed.

(** * The invariant *)

(** Header and contents fit together. *)
Inductive shape : otype -> bool -> body -> Prop :=
| sh_str b t : shape OT_STRING b (BStr t)
| sh_vec b l : shape OT_VECTOR b (BVec l)
| sh_iri b ns rem : shape OT_IRI b (BIri ns rem)
| sh_ano b i : shape OT_I_ANONYMOUS b (BAnon i)
| sh_lit b x y : shape OT_LITERAL b (BComp [Obj x; Obj y])
| sh_ent t b i : type_is_entity t = true -> shape t b (BEnt i)
| sh_comp t (b : bool) ks us : ctor_of t <> None -> List.length ks = (type_field_count t + if b then 1 else 0)%nat ->
    List.length us = (if type_is_card t then 1 else 0)%nat -> shape t b (BComp (map Obj ks ++ map UInt us))
| sh_onto b o : shape OT_ONTOLOGY b (BOnto o).

Definition txt (h : obs) (a : N) : option bytes :=
  match lookup h a with
  | Some v => match o_d v with BStr t => Some t | _ => None end
  | None => None
  end.

(** Keys of the instance tables. *)
Inductive key : Type := KeyS (t : bytes) | KeyI (ns : N) (t : bytes) | KeyE (t : otype) (i : N) | KeyA (t : bytes).
Definition ident (h : obs) (v : ob) : option (table_id * key) :=
  match o_d v with
  | BStr t => if o_b v then Some (TStr, KeyS t) else None
  | BIri ns rem => match txt h rem with Some t => Some (TIri, KeyI ns t) | None => None end
  | BEnt i => Some (TEnt, KeyE (o_t v) i)
  | BAnon i => match txt h i with Some t => Some (TAno, KeyA t) | None => None end
  | _ => None
  end.

Definition is_type (h : obs) (a : N) (t : otype) : Prop := exists v, lookup h a = Some v /\ o_t v = t.
Definition ns_ok (h : obs) (a : N) : Prop :=
  a = e_empty e \/ exists v, lookup h a = Some v /\ o_t v = OT_STRING /\ o_b v = true.
(** The objects an object points to are what they should be. *)
Definition kids_ok (h : obs) (v : ob) : Prop :=
  match o_d v with
  | BStr t => o_b v = true -> t <> []
  | BIri ns rem => ns_ok h ns /\ is_type h ns OT_STRING /\ is_type h rem OT_STRING
  | BEnt i => is_type h i OT_IRI
  | BAnon i => is_type h i OT_STRING
  | BComp (Obj x :: _) => o_t v = OT_LITERAL -> is_type h x OT_STRING
  | BOnto o => (forall i, n_iri o = Some i -> is_type h i OT_IRI) /\
               (forall i, n_version o = Some i -> is_type h i OT_IRI) /\
               (forall i, n_annot o = Some i -> is_type h i OT_VECTOR) /\
               NoDup (map fst (n_axioms o)) /\
               (forall t l y, In (t, l) (n_axioms o) -> In y l -> is_type h y t)
  | _ => True
  end.

(** The primitives in an object, to depth [n]. *)
Fixpoint pl (n : nat) (h : obs) (a : N) : list N :=
  match n with
  | O => []
  | S n' =>
      match lookup h a with
      | None => []
      | Some v =>
          match o_d v with
          | BStr _ | BOnto _ => []
          | BIri _ _ | BEnt _ | BAnon _ => [a]
          | BVec l => flat_map (pl n' h) l
          | BComp fs =>
              if otype_eqb (o_t v) OT_LITERAL then
                if o_b v then [e_lang_string e] else flat_map (pl n' h) (skipn 1 (pointers_of (BComp fs)))
              else flat_map (pl n' h) (pointers_of (BComp fs)) ++
                   (if o_b v then []
                    else if type_between OT_CE_OBJ_SOME OT_CE_OBJ_ALL (o_t v) then [e_thing e]
                    else if type_between OT_CE_DATA_SOME OT_CE_DATA_ALL (o_t v) then [e_literal e]
                    else [])
          end
      end
  end.
(** The axioms of an ontology. *)
Definition axs (o : onto) : list N := flat_map snd (n_axioms o).
(** The index of an ontology mentions only its axioms, and no more often than they mention the key. *)
Definition indexed (h : obs) (o : onto) : Prop :=
  forall p l y, lookup (n_refs o) p = Some (Some l) ->
    exists n, (count y l <= count p (pl n h y) * count y (axs o))%nat.

(** Pointers stored in an object that is not being destroyed. *)
Definition kids (v : ob) : list N := if o_n v =? 0 then [] else pointers_of (o_d v).
Definition indeg (x : N) (h : obs) : nat := total (fun v => count x (kids v)) h.

Definition rels (W : list todo) : list N := flat_map (fun w => match w with Rel a => [a] | Fin _ => [] end) W.
Definition fins (W : list todo) : list N := flat_map (fun w => match w with Rel _ => [] | Fin a => [a] end) W.

Definition edge (h : obs) (b a : N) : Prop := exists v, lookup h a = Some v /\ In b (kids v).

(** References held outside memory, R, and calls of cowl_release still to be made, W. *)
Record Inv (A : ast) (R : list N) (W : list todo) : Prop := {
  i_keys : NoDup (map fst (a_h A));
  i_fit : forall a v, lookup (a_h A) a = Some v -> fitv v /\ shape (o_t v) (o_b v) (o_d v);
  i_ref : forall a v, lookup (a_h A) a = Some v ->
    o_n v = N.of_nat (count a R + count a (rels W) + indeg a (a_h A));
  i_dead : forall a, lookup (a_h A) a = None -> (count a R + count a (rels W) + indeg a (a_h A) = 0)%nat;
  i_fins : NoDup (fins W) /\ forall a, In a (fins W) <-> exists v, lookup (a_h A) a = Some v /\ o_n v = 0;
  i_kids : forall a v, lookup (a_h A) a = Some v -> 0 < o_n v -> kids_ok (a_h A) v;
  i_nodup : forall T, NoDup (atab T A);
  i_tab : forall T a, In a (atab T A) <->
    exists v k, lookup (a_h A) a = Some v /\ 0 < o_n v /\ ident (a_h A) v = Some (T, k);
  i_uniq : forall a b v w x, lookup (a_h A) a = Some v -> lookup (a_h A) b = Some w ->
    0 < o_n v -> 0 < o_n w -> ident (a_h A) v = Some x -> ident (a_h A) w = Some x -> a = b;
  i_acyclic : forall a, Acc (edge (a_h A)) a;
  i_empty : exists v, lookup (a_h A) (e_empty e) = Some v /\ o_t v = OT_STRING /\ o_b v = false /\ o_d v = BStr [] /\
    In (e_empty e) R;
  i_index : forall a v o, lookup (a_h A) a = Some v -> 0 < o_n v -> o_d v = BOnto o -> indexed (a_h A) o
}.

(** Room for [k] more references to any object. *)
Definition Room (A : ast) (k : N) : Prop := forall a v, lookup (a_h A) a = Some v -> o_n v + k <= max_refs huge.

Lemma room_less A k k' : Room A k -> k' <= k -> Room A k'.
Proof. intros H L a v E. specialize (H a v E). lia. Qed.

(** * Elementary facts *)

Lemma acc_sub (P Q : N -> N -> Prop) : (forall b a, Q b a -> P b a) -> forall a, Acc P a -> Acc Q a.
Proof. intros S a H. induction H as [a _ IH]. constructor. intros b E. apply IH. auto. Qed.

Lemma indeg_store h a v w x : lookup h a = Some v ->
  (indeg x (store h a w) + count x (kids v) = indeg x h + count x (kids w))%nat.
Proof. intros E. unfold indeg. apply (total_store (fun v => count x (kids v)) h a w v E). Qed.
Lemma indeg_drop h a v x : lookup h a = Some v ->
  (indeg x (drop h a) + count x (kids v) = indeg x h)%nat.
Proof. intros E. unfold indeg. apply (total_drop (fun v => count x (kids v)) h a v E). Qed.
Lemma indeg_cons h a v x : indeg x ((a, v) :: h) = (count x (kids v) + indeg x h)%nat.
Proof. reflexivity. Qed.
Lemma indeg_pos h a v x : lookup h a = Some v -> In x (kids v) -> (0 < indeg x h)%nat.
Proof.
  intros E I. apply total_lookup with (f := fun v => count x (kids v)) in E. apply count_in in I.
  unfold indeg. cbn in E. lia.
Qed.
Lemma indeg_edge h x : NoDup (map fst h) -> (0 < indeg x h)%nat -> exists a, edge h x a.
Proof.
  intros D P. apply total_pos in P as (a & v & I & C). exists a, v. split.
  - now apply in_lookup.
  - now apply count_in.
Qed.
Lemma kids_live v : 0 < o_n v -> kids v = pointers_of (o_d v).
Proof. intros P. unfold kids. destruct (o_n v =? 0) eqn:E; auto. lia. Qed.

(** The objects a live object points to are live. *)
Lemma kid_live A R W a v x : Inv A R W -> lookup (a_h A) a = Some v -> In x (kids v) ->
  exists w, lookup (a_h A) x = Some w /\ 0 < o_n w.
Proof.
  intros I E K. pose proof (indeg_pos _ _ _ _ E K) as P. destruct (lookup (a_h A) x) as [w|] eqn:F.
  - exists w. split; auto. rewrite (i_ref _ _ _ I x w F). lia.
  - pose proof (i_dead _ _ _ I x F). lia.
Qed.
Lemma held_live A R W a : Inv A R W -> In a R -> exists w, lookup (a_h A) a = Some w /\ 0 < o_n w.
Proof.
  intros I H. apply count_in in H. destruct (lookup (a_h A) a) as [w|] eqn:F.
  - exists w. split; auto. rewrite (i_ref _ _ _ I a w F). lia.
  - pose proof (i_dead _ _ _ I a F). lia.
Qed.
Lemma rel_live A R W a : Inv A R W -> In a (rels W) -> exists w, lookup (a_h A) a = Some w /\ 0 < o_n w.
Proof.
  intros I H. apply count_in in H. destruct (lookup (a_h A) a) as [w|] eqn:F.
  - exists w. split; auto. rewrite (i_ref _ _ _ I a w F). lia.
  - pose proof (i_dead _ _ _ I a F). lia.
Qed.

Lemma empty_in A R W : Inv A R W -> In (e_empty e) R.
Proof. intros I. destruct (i_empty _ _ _ I) as (v & H). apply H. Qed.

Lemma ident_ext h h' v : (forall x, In x (pointers_of (o_d v)) -> txt h' x = txt h x) -> ident h' v = ident h v.
Proof.
  intros S. unfold ident. destruct (o_d v) eqn:E; auto.
  - rewrite S; auto. cbn. auto.
  - rewrite S; auto. cbn. auto.
Qed.
Lemma kids_ok_ext h h' v : (forall x u, In x (pointers_of (o_d v)) -> lookup h x = Some u ->
    exists w, lookup h' x = Some w /\ o_t w = o_t u /\ (o_b u = true -> o_b w = true)) ->
  kids_ok h v -> kids_ok h' v.
Proof.
  intros S K. unfold kids_ok in *. destruct (o_d v) eqn:E; auto; cbn [pointers_of] in S.
  - destruct K as (K1 & K2 & K3). split; [|split].
    + destruct K1 as [K1|(u & F & T & B)]; [now left|]. right.
      destruct (S ns u) as (w & F' & T' & B'); cbn; auto. exists w. repeat split; auto; congruence.
    + destruct K2 as (u & F & T). destruct (S ns u) as (w & F' & T' & B'); cbn; auto. exists w. split; congruence.
    + destruct K3 as (u & F & T). destruct (S rem u) as (w & F' & T' & B'); cbn; auto. exists w. split; congruence.
  - destruct K as (u & F & T). destruct (S iri u) as (w & F' & T' & B'); cbn; auto. exists w. split; congruence.
  - destruct K as (u & F & T). destruct (S id u) as (w & F' & T' & B'); cbn; auto. exists w. split; congruence.
  - destruct fields as [|[x|n] fs]; auto. intros L. destruct (K L) as (u & F & T).
    destruct (S x u) as (w & F' & T' & B'); cbn; auto. exists w. split; congruence.
  - destruct K as (K1 & K2 & K3 & K4 & K5). split; [|split; [|split; [|split]]]; [intros i Q|intros i Q|intros i Q|exact K4|intros t l y Q QL].
    + destruct (K1 i Q) as (u & F & T). destruct (S i u) as (w & F' & T' & B'); auto.
      { rewrite Q. cbn. auto. }
      exists w. split; congruence.
    + destruct (K2 i Q) as (u & F & T). destruct (S i u) as (w & F' & T' & B'); auto.
      { rewrite Q. cbn. rewrite in_app_iff. cbn. auto. }
      exists w. split; congruence.
    + destruct (K3 i Q) as (u & F & T). destruct (S i u) as (w & F' & T' & B'); auto.
      { rewrite Q. rewrite !in_app_iff. cbn. do 3 right. left. auto. }
      exists w. split; congruence.
    + destruct (K5 t l y Q QL) as (u & F & T). destruct (S y u) as (w & F' & T' & B'); auto.
      { rewrite !in_app_iff. do 4 right. apply in_flat_map. exists (t, l). auto. }
      exists w. split; congruence.
Qed.

(** ** Primitives *)

Lemma flat_map_le {A} (f g : A -> list N) p l : (forall x, In x l -> (count p (f x) <= count p (g x))%nat) ->
  (count p (flat_map f l) <= count p (flat_map g l))%nat.
Proof.
  induction l as [|x l IH]; cbn; intros H; auto. rewrite !count_app. specialize (H x (or_introl eq_refl)) as H1.
  assert (count p (flat_map f l) <= count p (flat_map g l))%nat by (apply IH; intros; apply H; now right). lia.
Qed.
Lemma skipn_in {A} k (l : list A) x : In x (skipn k l) -> In x l.
Proof.
  revert l. induction k; intros [|y l]; cbn; auto.
Qed.

(** The primitives in an object do not become fewer if the objects on the way do not lose any. *)
Definition fuller (h h' : obs) (a : N) : Prop :=
  forall v, lookup h a = Some v ->
    exists w, lookup h' a = Some w /\ o_t w = o_t v /\
      ((exists l m, o_d v = BVec l /\ o_d w = BVec (l ++ m)) \/ (exists o, o_d v = BOnto o) \/
       (o_d w = o_d v /\ ((exists fs, o_d v = BComp fs) -> o_b w = o_b v))).
(** A pointer stored in an object other than an ontology. *)
Definition inner (h : obs) (y x : N) : Prop :=
  exists v, lookup h x = Some v /\ (forall o, o_d v <> BOnto o) /\ In y (pointers_of (o_d v)).
Lemma pl_fuller h h' : forall n a p, (forall b, clos_refl_trans _ (inner h) b a -> fuller h h' b) ->
  (count p (pl n h a) <= count p (pl n h' a))%nat.
Proof.
  induction n as [|n IH]; intros a p H; cbn [pl]; auto.
  destruct (lookup h a) as [v|] eqn:E; [|rewrite count_nil; lia].
  destruct (H a (rt_refl _ _ _) v E) as (w & F & T & D). rewrite F.
  assert (K : (forall o, o_d v <> BOnto o) -> forall x, In x (pointers_of (o_d v)) -> (count p (pl n h x) <= count p (pl n h' x))%nat).
  { intros O x X. apply IH. intros b B. apply H. eapply rt_trans; [exact B|]. apply rt_step. exists v. auto. }
  destruct D as [(l & m & D1 & D2)|[(o & D)|(D & B)]].
  - assert (K' := K ltac:(congruence)). clear K; rename K' into K. rewrite D1 in *. rewrite D2. rewrite flat_map_app, count_app.
    pose proof (flat_map_le (pl n h) (pl n h') p l K). lia.
  - rewrite D. rewrite count_nil. lia.
  - rewrite D, T. destruct (o_d v) eqn:X; auto; assert (K' := K ltac:(discriminate)); clear K; rename K' into K.
    + now apply flat_map_le.
    + rewrite (B (ex_intro _ _ eq_refl)). destruct (otype_eqb (o_t v) OT_LITERAL).
      * destruct (o_b v); auto. apply flat_map_le. intros x I. apply K. eapply skipn_in; eauto.
      * rewrite !count_app. pose proof (flat_map_le (pl n h) (pl n h') p _ K). lia.
Qed.
Lemma indexed_mono h h' o : (forall n p y, In y (axs o) -> (count p (pl n h y) <= count p (pl n h' y))%nat) ->
  indexed h o -> indexed h' o.
Proof.
  intros H X p l y L. destruct (X p l y L) as (n & Q). exists n.
  destruct (count y (axs o)) as [|c] eqn:Y; [lia|].
  assert (In y (axs o)) as I by (apply count_in; lia). specialize (H n p y I). nia.
Qed.
Lemma axs_kid v o y : 0 < o_n v -> o_d v = BOnto o -> In y (axs o) -> In y (kids v).
Proof. intros P D I. rewrite kids_live, D by auto. cbn. rewrite !in_app_iff. do 4 right. exact I. Qed.

(** * Changing a count *)

Definition with_n (v : ob) (n : N) : ob := mkOb (o_t v) (o_b v) n (o_d v).

(** Same type, flag and contents. *)
Definition alike (v w : ob) : Prop := o_t w = o_t v /\ o_b w = o_b v /\ o_d w = o_d v.
Definition sim (h h' : obs) : Prop :=
  (forall a v, lookup h a = Some v -> exists w, lookup h' a = Some w /\ alike v w) /\
  (forall a w, lookup h' a = Some w -> exists v, lookup h a = Some v /\ alike v w).

Lemma sim_txt h h' a : sim h h' -> txt h' a = txt h a.
Proof.
  intros [S T]. unfold txt. destruct (lookup h a) as [v|] eqn:E.
  - destruct (S _ _ E) as (w & F & _ & _ & G). now rewrite F, G.
  - destruct (lookup h' a) as [w|] eqn:F; auto. destruct (T _ _ F) as (v & G & _). congruence.
Qed.
Lemma sim_ident h h' v w : sim h h' -> alike v w -> ident h' w = ident h v.
Proof.
  intros S (A & B & C). rewrite (ident_ext h h'); [|intros; now apply sim_txt].
  unfold ident. now rewrite A, B, C.
Qed.
Lemma sim_kids_ok h h' v w : sim h h' -> alike v w -> kids_ok h v -> kids_ok h' w.
Proof.
  intros [S _] (A & B & C) K.
  assert (kids_ok h w) by (unfold kids_ok in *; now rewrite A, B, C).
  revert H. apply kids_ok_ext. intros x u I E. destruct (S _ _ E) as (y & F & F1 & F2 & F3). exists y. repeat split; auto; congruence.
Qed.
Lemma sim_store h a v n : lookup h a = Some v -> sim h (store h a (with_n v n)).
Proof.
  intros E. split; intros b w F.
  - rewrite lookup_store, E. destruct (a =? b) eqn:X.
    + apply N.eqb_eq in X. subst b. exists (with_n v n). split; auto. rewrite E in F. inversion F; subst. repeat split.
    + exists w. repeat split; auto.
  - rewrite lookup_store, E in F. destruct (a =? b) eqn:X.
    + apply N.eqb_eq in X. subst b. exists v. split; auto. inversion F; subst. repeat split.
    + exists w. repeat split; auto.
Qed.

Lemma inv_n A R W a v n R' W' A' : Inv A R W -> lookup (a_h A) a = Some v -> 0 < o_n v -> n <= max_refs huge ->
  a_h A' = store (a_h A) a (with_n v n) ->
  (forall T, NoDup (atab T A')) ->
  (forall T b, In b (atab T A') <-> In b (atab T A) /\ (b <> a \/ 0 < n)) ->
  (forall x, x <> a -> count x R' + count x (rels W') + indeg x (a_h A') = count x R + count x (rels W) + indeg x (a_h A))%nat ->
  n = N.of_nat (count a R' + count a (rels W') + indeg a (a_h A')) ->
  NoDup (fins W') -> (forall b, In b (fins W') <-> In b (fins W) \/ (b = a /\ n = 0)) ->
  In (e_empty e) R' ->
  Inv A' R' W'.
Proof.
  intros I E P M EA ND TB CX CA FN FW EM.
  assert (S : sim (a_h A) (a_h A')) by (rewrite EA; now apply sim_store).
  assert (LK : forall b w, lookup (a_h A') b = Some w ->
             exists w0, lookup (a_h A) b = Some w0 /\ alike w0 w /\ (b <> a -> w = w0) /\ (b = a -> w = with_n v n /\ w0 = v)).
  { intros b w F. rewrite EA, lookup_store, E in F. destruct (a =? b) eqn:X.
    - apply N.eqb_eq in X. subst b. inversion F; subst w. exists v. repeat split; auto; congruence.
    - exists w. apply N.eqb_neq in X. repeat split; auto; congruence. }
  assert (KL : forall b w, b <> a -> lookup (a_h A) b = Some w -> lookup (a_h A') b = Some w).
  { intros b w X F. rewrite EA, lookup_store. destruct (a =? b) eqn:Y; auto. lia. }
  assert (KA : lookup (a_h A') a = Some (with_n v n)).
  { rewrite EA, lookup_store, E, N.eqb_refl. auto. }
  destruct I as [I1 I2 I3 I4 I5 I6 I7 I8 I9 I10 I11 I12]. constructor; auto.
  - now rewrite EA, store_keys.
  - intros b w F. destruct (LK b w F) as (w0 & F0 & (L1 & L2 & L3) & X & Y).
    destruct (I2 b w0 F0) as [F1 F2]. split; [|congruence].
    destruct (N.eq_dec b a) as [->|N0].
    + destruct (Y eq_refl) as [-> _]. exact M.
    + rewrite (X N0). auto.
  - intros b w F. destruct (LK b w F) as (w0 & F0 & _ & X & Y).
    destruct (N.eq_dec b a) as [->|N0].
    + destruct (Y eq_refl) as [-> _]. exact CA.
    + rewrite (X N0), (CX b N0). auto.
  - intros b F. destruct (N.eq_dec b a) as [->|N0]; [congruence|]. rewrite (CX b N0). apply I4.
    destruct (lookup (a_h A) b) eqn:G; auto. rewrite (KL _ _ N0 G) in F. discriminate.
  - split; auto. intros b. rewrite FW. destruct I5 as [_ F2]. rewrite F2. split.
    + intros [(w & F & Z)|[-> Z]]; eauto. destruct (N.eq_dec b a) as [->|N0]; [|eauto].
      rewrite E in F. inversion F; subst. lia.
    + intros (w & F & Z). destruct (LK b w F) as (w0 & F0 & _ & X & Y). destruct (N.eq_dec b a) as [->|N0].
      * right. destruct (Y eq_refl) as [-> _]. auto.
      * left. rewrite (X N0) in Z. eauto.
  - intros b w F Z. destruct (LK b w F) as (w0 & F0 & L' & X & Y). apply (sim_kids_ok _ _ w0 w S L').
    apply (I6 b w0 F0). destruct (N.eq_dec b a) as [->|N0].
    + now destruct (Y eq_refl) as [_ ->].
    + now rewrite <- (X N0).
  - intros T b. rewrite TB, I8. split.
    + intros [(w & k & F & Z & K) H]. destruct (proj1 S _ _ F) as (w' & F' & L'). exists w', k.
      rewrite (sim_ident _ _ _ _ S L'). repeat split; auto.
      destruct (LK b w' F') as (w0 & F0 & _ & X & Y). destruct (N.eq_dec b a) as [->|N0].
      * destruct (Y eq_refl) as [-> _]. cbn. tauto.
      * rewrite (X N0). congruence.
    + intros (w & k & F & Z & K). destruct (LK b w F) as (w0 & F0 & L' & X & Y).
      rewrite (sim_ident _ _ _ _ S L') in K. split.
      * exists w0, k. repeat split; auto. destruct (N.eq_dec b a) as [->|N0].
        -- now destruct (Y eq_refl) as [_ ->].
        -- now rewrite <- (X N0).
      * destruct (N.eq_dec b a) as [->|N0]; auto. right. destruct (Y eq_refl) as [-> _]. exact Z.
  - assert (PP : forall b w w0, (b <> a -> w = w0) -> (b = a -> w = with_n v n /\ w0 = v) -> 0 < o_n w -> 0 < o_n w0).
    { intros b w w0 X Y Z. destruct (N.eq_dec b a) as [->|N0].
      - now destruct (Y eq_refl) as [_ ->].
      - now rewrite <- (X N0). }
    intros b c w u x F1 F2 Z1 Z2 K1 K2.
    destruct (LK b w F1) as (w0 & G1 & L1 & X1 & Y1). destruct (LK c u F2) as (u0 & G2 & L2 & X2 & Y2).
    rewrite (sim_ident _ _ _ _ S L1) in K1. rewrite (sim_ident _ _ _ _ S L2) in K2.
    apply (I9 b c w0 u0 x); auto; [apply (PP b w w0)|apply (PP c u u0)]; auto.
  - intros b. apply (acc_sub (edge (a_h A))); auto. intros c d (w & F & K).
    destruct (LK d w F) as (w0 & F0 & (_ & _ & L3) & X & Y). exists w0. split; auto.
    destruct (N.eq_dec d a) as [->|N0].
    + destruct (Y eq_refl) as [-> ->]. rewrite kids_live by auto. unfold kids in K. cbn in K. destruct (n =? 0); easy.
    + now rewrite <- (X N0).
  - destruct I11 as (w & F & T1 & T2 & T3 & T4). destruct (proj1 S _ _ F) as (w' & F' & (L1 & L2 & L3)).
    exists w'. repeat split; auto; congruence.
  - intros b w o F Z D. destruct (LK b w F) as (w0 & F0 & (_ & _ & L3) & X & Y).
    apply (indexed_mono (a_h A)).
    + intros m p y _. apply pl_fuller. intros c _ u U. destruct (proj1 S _ _ U) as (u' & U' & (A1 & A2 & A3)).
      exists u'. repeat split; auto.
    + apply (I12 b w0 o F0); [|congruence]. destruct (N.eq_dec b a) as [->|N0].
      * now destruct (Y eq_refl) as [_ ->].
      * now rewrite <- (X N0).
Qed.

Lemma indeg_with_n h a v n x : lookup h a = Some v -> 0 < o_n v -> 0 < n -> indeg x (store h a (with_n v n)) = indeg x h.
Proof.
  intros E P Q. pose proof (indeg_store h a v (with_n v n) x E) as H.
  rewrite kids_live, (kids_live (with_n v n)) in H by auto. cbn in H. lia.
Qed.
Lemma indeg_dying h a v x : lookup h a = Some v -> 0 < o_n v ->
  (indeg x (store h a (with_n v 0)) + count x (pointers_of (o_d v)) = indeg x h)%nat.
Proof.
  intros E P. pose proof (indeg_store h a v (with_n v 0) x E) as H.
  rewrite kids_live in H by auto. unfold kids in H. cbn in H. unfold count in *. cbn in H. lia.
Qed.

(** cowl_retain *)
Lemma inv_retain A R W a v : Inv A R W -> lookup (a_h A) a = Some v -> 0 < o_n v -> o_n v < max_refs huge ->
  Inv (set_h A (store (a_h A) a (with_n v (o_n v + 1)))) (a :: R) W.
Proof.
  intros I E P M. apply (inv_n A R W a v (o_n v + 1)); auto; cbn [set_h a_h]; try lia.
  - intros T. rewrite atab_set_h. apply I.
  - intros T b. rewrite atab_set_h. split; [|tauto]. intros H; split; auto. right. lia.
  - intros x N0. rewrite indeg_with_n by (auto; lia). rewrite count_cons. destruct (a =? x) eqn:X; lia.
  - rewrite indeg_with_n by (auto; lia). rewrite count_self. rewrite (i_ref _ _ _ I a v E). lia.
  - apply I.
  - intros b. split; auto. intros [H|[_ H]]; auto. lia.
  - right. now apply (empty_in A R W).
Qed.

(** cowl_release, not the last reference *)
Lemma inv_decr A R W a v : Inv A R (Rel a :: W) -> lookup (a_h A) a = Some v -> 1 < o_n v ->
  Inv (set_h A (store (a_h A) a (with_n v (o_n v - 1)))) R W.
Proof.
  intros I E P. apply (inv_n A R (Rel a :: W) a v (o_n v - 1)); auto; cbn [set_h a_h]; try lia.
  - destruct (i_fit _ _ _ I a v E) as [F _]. unfold fitv in F. lia.
  - intros T. rewrite atab_set_h. apply I.
  - intros T b. rewrite atab_set_h. split; [|tauto]. intros H; split; auto. right. lia.
  - intros x N0. rewrite indeg_with_n by (auto; lia). change (rels (Rel a :: W)) with (a :: rels W).
    rewrite count_cons. destruct (a =? x) eqn:X; lia.
  - rewrite indeg_with_n by (auto; lia). pose proof (i_ref _ _ _ I a v E) as H.
    change (rels (Rel a :: W)) with (a :: rels W) in H. rewrite count_self in H. lia.
  - apply (i_fins _ _ _ I).
  - intros b. cbn. split; auto. intros [H|[_ H]]; auto. lia.
  - eapply empty_in; eauto.
Qed.

Lemma rels_app V W : rels (V ++ W) = rels V ++ rels W.
Proof. apply flat_map_app. Qed.
Lemma fins_app V W : fins (V ++ W) = fins V ++ fins W.
Proof. apply flat_map_app. Qed.
Lemma rels_map l : rels (map Rel l) = l.
Proof. induction l; cbn; auto. f_equal. auto. Qed.
Lemma fins_map l : fins (map Rel l) = [].
Proof. induction l; cbn; auto. Qed.

(** cowl_release, the last reference: the object leaves its table *)
Lemma inv_die A R W a v A' : Inv A R (Rel a :: W) -> lookup (a_h A) a = Some v -> o_n v = 1 ->
  a_h A' = store (a_h A) a (with_n v 0) ->
  (forall T, NoDup (atab T A')) -> (forall T b, In b (atab T A') <-> In b (atab T A) /\ b <> a) ->
  Inv A' R ((map Rel (pointers_of (o_d v)) ++ [Fin a]) ++ W).
Proof.
  intros I E P EA ND TB. pose proof (i_ref _ _ _ I a v E) as H.
  change (rels (Rel a :: W)) with (a :: rels W) in H. rewrite count_self in H.
  assert (C : forall x, count x (rels ((map Rel (pointers_of (o_d v)) ++ [Fin a]) ++ W)) = (count x (pointers_of (o_d v)) + count x (rels W))%nat).
  { intros x. rewrite !rels_app, rels_map, !count_app. cbn [rels flat_map app]. rewrite count_nil. unfold rels. lia. }
  assert (FF : fins ((map Rel (pointers_of (o_d v)) ++ [Fin a]) ++ W) = a :: fins W).
  { rewrite !fins_app, fins_map. reflexivity. }
  apply (inv_n A R (Rel a :: W) a v 0); auto; try lia.
  - intros T b. rewrite TB. split; intros [X Y]; split; auto. destruct Y; auto; lia.
  - intros x N0. rewrite C, EA. pose proof (indeg_dying (a_h A) a v x E ltac:(lia)).
    change (rels (Rel a :: W)) with (a :: rels W). rewrite count_cons. destruct (a =? x) eqn:X; [lia|]. lia.
  - rewrite C, EA. pose proof (indeg_dying (a_h A) a v a E ltac:(lia)). lia.
  - rewrite FF. constructor.
    + destruct (i_fins _ _ _ I) as [_ F]. intros X. apply F in X as (w & X & Y). rewrite E in X. inversion X; subst. lia.
    + apply (i_fins _ _ _ I).
  - intros b. rewrite FF. cbn. intuition.
  - eapply empty_in; eauto.
Qed.

(** ulib_free *)
Lemma inv_free A R W a : Inv A R (Fin a :: W) -> exists v, lookup (a_h A) a = Some v /\ o_n v = 0 /\
  Inv (set_h A (drop (a_h A) a)) R W.
Proof.
  intros I. destruct (i_fins _ _ _ I) as [F1 F2].
  destruct (proj1 (F2 a)) as (v & E & Z); [cbn; auto|]. exists v. split; [auto|]. split; [auto|].
  pose proof (i_ref _ _ _ I a v E) as H. cbn [rels flat_map app] in H. fold (rels W) in H.
  assert (KZ : forall x, count x (kids v) = O) by (intros x; unfold kids; rewrite Z; reflexivity).
  assert (G : forall x, indeg x (drop (a_h A) a) = indeg x (a_h A)).
  { intros x. pose proof (indeg_drop (a_h A) a v x E). rewrite KZ in H0. lia. }
  assert (D := i_keys _ _ _ I).
  assert (LK : forall b w, lookup (drop (a_h A) a) b = Some w -> b <> a /\ lookup (a_h A) b = Some w).
  { intros b w F. rewrite lookup_drop in F by auto. destruct (a =? b) eqn:X; [discriminate|]. split; auto. lia. }
  assert (KL : forall b w, b <> a -> lookup (a_h A) b = Some w -> lookup (drop (a_h A) a) b = Some w).
  { intros b w X F. rewrite lookup_drop by auto. destruct (a =? b) eqn:Y; auto. lia. }
  assert (NK : forall b w, lookup (a_h A) b = Some w -> 0 < o_n w -> ~ In a (pointers_of (o_d w))).
  { intros b w F Q K. rewrite <- kids_live in K by auto. apply (indeg_pos _ _ _ _ F) in K. lia. }
  assert (TX : forall x, x <> a -> txt (drop (a_h A) a) x = txt (a_h A) x).
  { intros x X. unfold txt. rewrite lookup_drop by auto. destruct (a =? x) eqn:Y; auto. lia. }
  assert (ID : forall b w, lookup (a_h A) b = Some w -> 0 < o_n w -> ident (drop (a_h A) a) w = ident (a_h A) w).
  { intros b w F Q. apply ident_ext. intros x X. apply TX. intros ->. now apply (NK b w F Q). }
  assert (I' := I). destruct I as [I1 I2 I3 I4 I5 I6 I7 I8 I9 I10 I11 I12]. constructor; cbn [set_h a_h].
  - now apply drop_nodup.
  - intros b w F. apply LK in F as [_ F]. eauto.
  - intros b w F. apply LK in F as [_ F]. rewrite G. apply (I3 b w F).
  - intros b F. rewrite G. destruct (N.eq_dec b a) as [->|X]; [lia|]. apply (I4 b).
    destruct (lookup (a_h A) b) eqn:Y; auto. rewrite (KL _ _ X Y) in F. discriminate.
  - cbn [fins flat_map app] in F1, F2. fold (fins W) in F1, F2. inversion F1 as [|x l NI ND]; subst. split; auto.
    intros b. split.
    + intros B. destruct (proj1 (F2 b)) as (w & F & Q); [cbn; auto|]. exists w. split; auto. apply KL; auto. congruence.
    + intros (w & F & Q). apply LK in F as [X F]. destruct (proj2 (F2 b)) as [Y|Y]; eauto. congruence.
  - intros b w F Q. apply LK in F as [X F]. generalize (I6 b w F Q). apply kids_ok_ext.
    intros x u K L. exists u. repeat split; auto. apply KL; auto. intros ->. now apply (NK b w F Q).
  - intros T. rewrite atab_set_h. auto.
  - intros T b. rewrite atab_set_h, I8. split.
    + intros (w & k & F & Q & K). exists w, k. rewrite (ID b w F Q). repeat split; auto. apply KL; auto.
      intros ->. rewrite E in F. inversion F; subst. lia.
    + intros (w & k & F & Q & K). apply LK in F as [X F]. exists w, k. rewrite (ID b w F Q) in K. auto.
  - intros b c w u x L1 L2 Q1 Q2 K1 K2. apply LK in L1 as [X1 L1]. apply LK in L2 as [X2 L2].
    rewrite (ID b w L1 Q1) in K1. rewrite (ID c u L2 Q2) in K2. eauto.
  - intros b. apply (acc_sub (edge (a_h A))); auto. intros c d (w & F & K). apply LK in F as [_ F]. exists w. auto.
  - destruct I11 as (w & F & T1 & T2 & T3 & T4). exists w. repeat split; auto. apply KL; auto.
    intros Y. rewrite Y in *. apply count_in in T4. lia.
  - intros b w o F Q D'. apply LK in F as [X F]. apply (indexed_mono (a_h A)); [|eauto].
    intros n p y IY. apply pl_fuller. intros c C.
    destruct (kid_live _ _ _ _ _ _ I' F (axs_kid _ _ _ Q D' IY)) as (vy & EY & PY).
    assert (exists vc, lookup (a_h A) c = Some vc /\ 0 < o_n vc) as (vc & EC & PC).
    { rename I' into I. clear - C I EY PY. apply clos_rt_rtn1 in C. revert EY PY. remember y as z eqn:Z.
      apply clos_rtn1_rt, clos_rt_rt1n in C. revert vy.
      induction C as [z|c d z (u & U1 & U2) C IH]; intros vy EY PY; eauto.
      destruct (IH Z vy EY PY) as (vd & ED & PD). rewrite U1 in ED. inversion ED; subst.
      apply (kid_live _ _ _ _ _ c I U1). now rewrite kids_live. }
    intros u U. exists u. repeat split; auto. apply KL; auto. intros ->. rewrite E in U. inversion U; subst.
    rewrite EC in E. inversion E; subst. lia.
Qed.

(** ulib_alloc and the assignment of the new object, which takes over the references to its fields *)
Lemma inv_alloc A R R' W a v A' : Inv A R W -> lookup (a_h A) a = None -> o_n v = 1 ->
  a_h A' = (a, v) :: a_h A -> shape (o_t v) (o_b v) (o_d v) -> kids_ok (a_h A) v ->
  (forall x, count x R' + count x (pointers_of (o_d v)) = count x R + (if N.eqb a x then 1 else 0))%nat ->
  (forall T, NoDup (atab T A')) ->
  (forall T b, In b (atab T A') <-> In b (atab T A) \/ (b = a /\ exists k, ident (a_h A) v = Some (T, k))) ->
  (forall x b w, ident (a_h A) v = Some x -> lookup (a_h A) b = Some w -> 0 < o_n w -> ident (a_h A) w = Some x -> False) ->
  1 <= max_refs huge -> In a R' -> In (e_empty e) R' ->
  (forall o, o_d v = BOnto o -> n_refs o = []) ->
  Inv A' R' W.
Proof.
  intros I E Z EA SH KO CR ND TB UQ MX AR EM NR. apply count_in in AR.
  pose proof (i_dead _ _ _ I a E) as DA.
  assert (PL : kids v = pointers_of (o_d v)) by (apply kids_live; lia).
  assert (KR : forall x, In x (pointers_of (o_d v)) -> x <> a /\ exists w, lookup (a_h A) x = Some w).
  { intros x X. apply count_in in X. specialize (CR x).
    destruct (N.eqb a x) eqn:Y.
    - apply N.eqb_eq in Y. subst x. exfalso. lia.
    - split; [lia|]. assert (0 < count x R)%nat as Q by lia. apply count_in in Q.
      destruct (held_live _ _ _ _ I Q) as (w & F & _). eauto. }
  assert (KL : forall b w, lookup (a_h A) b = Some w -> lookup (a_h A') b = Some w).
  { intros b w F. rewrite EA. cbn. destruct (a =? b) eqn:X; auto. apply N.eqb_eq in X. congruence. }
  assert (LK : forall b w, lookup (a_h A') b = Some w -> (b = a /\ w = v) \/ (b <> a /\ lookup (a_h A) b = Some w)).
  { intros b w F. rewrite EA in F. cbn in F. destruct (a =? b) eqn:X.
    - left. apply N.eqb_eq in X. split; congruence.
    - right. split; auto. lia. }
  assert (TX : forall x, x <> a -> txt (a_h A') x = txt (a_h A) x).
  { intros x X. unfold txt. rewrite EA. cbn. destruct (a =? x) eqn:Y; auto. lia. }
  assert (ID : forall b w, lookup (a_h A) b = Some w -> 0 < o_n w -> ident (a_h A') w = ident (a_h A) w).
  { intros b w F Q. apply ident_ext. intros x X. apply TX. intros ->.
    rewrite <- kids_live in X by auto. destruct (kid_live _ _ _ _ _ _ I F X) as (u & U & _). congruence. }
  assert (IV : ident (a_h A') v = ident (a_h A) v).
  { apply ident_ext. intros x X. apply TX. now apply KR. }
  assert (KX : forall b w, lookup (a_h A) b = Some w -> kids_ok (a_h A) w -> kids_ok (a_h A') w).
  { intros b w F. apply kids_ok_ext. intros x u X U. exists u. auto. }
  destruct I as [I1 I2 I3 I4 I5 I6 I7 I8 I9 I10 I11 I12]. constructor; auto.
  - rewrite EA. cbn. constructor; auto. now apply lookup_none.
  - intros b w F. apply LK in F as [[-> ->]|[_ F]]; [|eauto]. split; auto. unfold fitv. lia.
  - intros b w F. rewrite EA, indeg_cons, PL. specialize (CR b). apply LK in F as [[-> ->]|[X F]].
    + rewrite N.eqb_refl in CR. lia.
    + destruct (a =? b) eqn:Y; [lia|]. rewrite (I3 b w F). lia.
  - intros b F. rewrite EA, indeg_cons, PL. specialize (CR b).
    assert (lookup (a_h A) b = None) as G. { destruct (lookup (a_h A) b) eqn:X; auto. apply KL in X. congruence. }
    pose proof (I4 b G). destruct (a =? b) eqn:Y; [|lia].
    apply N.eqb_eq in Y. subst b. rewrite EA in F. cbn in F. rewrite N.eqb_refl in F. discriminate.
  - destruct I5 as [F1 F2]. split; auto. intros b. rewrite F2. split; intros (w & F & Q).
    + eauto.
    + apply LK in F as [[-> ->]|[_ F]]; [lia|eauto].
  - intros b w F Q. apply LK in F as [[-> ->]|[_ F]]; [|eauto].
    revert KO. apply kids_ok_ext. intros x u X U. exists u. auto.
  - intros T b. rewrite TB, I8. split.
    + intros [(w & k & F & Q & K)|[-> (k & K)]].
      * exists w, k. rewrite (ID b w F Q). auto.
      * exists v, k. rewrite IV. rewrite EA. cbn. rewrite N.eqb_refl. repeat split; auto. lia.
    + intros (w & k & F & Q & K). apply LK in F as [[-> ->]|[_ F]].
      * right. rewrite IV in K. eauto.
      * left. rewrite (ID b w F Q) in K. eauto.
  - intros b c w u x L1 L2 Q1 Q2 K1 K2.
    apply LK in L1 as [[-> ->]|[X1 L1]]; apply LK in L2 as [[-> ->]|[X2 L2]]; auto.
    + rewrite IV in K1. rewrite (ID c u L2 Q2) in K2. exfalso. eauto.
    + rewrite IV in K2. rewrite (ID b w L1 Q1) in K1. exfalso. eauto.
    + rewrite (ID b w L1 Q1) in K1. rewrite (ID c u L2 Q2) in K2. eauto.
  - assert (AC : forall b, b <> a -> Acc (edge (a_h A')) b).
    { intros b. induction (I10 b) as [b _ IH]. intros X. constructor. intros c (w & F & K).
      apply LK in F as [[-> _]|[_ F]]; [easy|]. apply IH; [exists w; auto|].
      intros ->. pose proof (indeg_pos _ _ _ _ F K). lia. }
    intros b. destruct (N.eq_dec b a) as [->|X]; auto. constructor. intros c (w & F & K).
    apply AC. intros ->. apply LK in F as [[_ ->]|[? _]]; [|easy]. rewrite PL in K. now apply KR in K.
  - destruct I11 as (w & F & T1 & T2 & T3 & T4). exists w. repeat split; auto.
  - intros b w o F Q D. apply LK in F as [[-> ->]|[_ F]].
    + intros p l y H. rewrite (NR o D) in H. discriminate H.
    + apply (indexed_mono (a_h A)); [|eauto]. intros n p y _. apply pl_fuller. intros c _ u U.
      exists u. repeat split; auto.
Qed.

(** Setting the flag of an object, appending to a vector *)
Lemma inv_up A R W a v w R' A' : Inv A R W -> lookup (a_h A) a = Some v -> 0 < o_n v ->
  o_n w = o_n v -> o_t w = o_t v -> (o_b v = true -> o_b w = true) ->
  ((o_d w = o_d v /\ ((exists fs, o_d v = BComp fs) -> o_b w = o_b v)) \/
   (exists l m, o_d v = BVec l /\ o_d w = BVec (l ++ m)) \/
   (exists l m, o_d v = BVec l /\ o_d w = BVec m /\
      forall b u o y, lookup (a_h A) b = Some u -> 0 < o_n u -> o_d u = BOnto o -> In y (axs o) ->
        ~ clos_refl_trans _ (inner (a_h A)) a y) \/
   (exists o p, o_d v = BOnto o /\ o_d w = BOnto p /\ kids_ok (a_h A) w /\ indexed (a_h A) p)) ->
  shape (o_t w) (o_b w) (o_d w) -> (o_b w = true -> o_d w <> BStr []) ->
  a_h A' = store (a_h A) a w ->
  (forall T, NoDup (atab T A')) ->
  (forall T b, b <> a -> In b (atab T A') <-> In b (atab T A)) ->
  (forall T, In a (atab T A') <-> exists k, ident (a_h A) w = Some (T, k)) ->
  (forall x b u, b <> a -> ident (a_h A) w = Some x -> lookup (a_h A) b = Some u -> 0 < o_n u -> ident (a_h A) u = Some x -> False) ->
  (forall x, count x R' + indeg x (a_h A') = count x R + indeg x (a_h A))%nat ->
  (forall b, Acc (edge (a_h A')) b) ->
  (a = e_empty e -> o_b w = o_b v /\ o_d w = o_d v) -> In (e_empty e) R' ->
  Inv A' R' W.
Proof.
  intros I E P EN ET EB ED SH SB EA ND TB TA UQ CR AC EE EM.
  assert (KA : lookup (a_h A') a = Some w) by (rewrite EA, lookup_store, E, N.eqb_refl; auto).
  assert (KL : forall b u, b <> a -> lookup (a_h A) b = Some u -> lookup (a_h A') b = Some u).
  { intros b u X F. rewrite EA, lookup_store. destruct (a =? b) eqn:Y; auto. lia. }
  assert (LK : forall b u, lookup (a_h A') b = Some u -> (b = a /\ u = w) \/ (b <> a /\ lookup (a_h A) b = Some u)).
  { intros b u F. rewrite EA, lookup_store, E in F. destruct (a =? b) eqn:X.
    - left. apply N.eqb_eq in X. split; congruence.
    - right. split; auto. lia. }
  assert (TX : forall x, txt (a_h A') x = txt (a_h A) x).
  { intros x. unfold txt. destruct (N.eq_dec x a) as [->|X].
    - rewrite KA, E. destruct ED as [(-> & _)|[(l & l' & -> & ->)|[(l & l' & -> & -> & _)|(o & p & -> & -> & _)]]]; auto.
    - rewrite EA, lookup_store. destruct (a =? x) eqn:Y; auto. lia. }
  assert (ID : forall u, ident (a_h A') u = ident (a_h A) u).
  { intros u. apply ident_ext. auto. }
  assert (KX : forall u, kids_ok (a_h A) u -> kids_ok (a_h A') u).
  { intros u. apply kids_ok_ext. intros x y X Y. destruct (N.eq_dec x a) as [->|Z].
    - exists w. rewrite E in Y. inversion Y; subst. auto.
    - exists y. auto. }
  destruct I as [I1 I2 I3 I4 I5 I6 I7 I8 I9 I10 I11 I12]. constructor; auto.
  - now rewrite EA, store_keys.
  - intros b u F. apply LK in F as [[-> ->]|[_ F]]; [|eauto]. split; auto.
    destruct (I2 a v E) as [X _]. unfold fitv in *. lia.
  - intros b u F. specialize (CR b). apply LK in F as [[-> ->]|[_ F]].
    + rewrite EN, (I3 a v E). lia.
    + rewrite (I3 b u F). lia.
  - intros b F. specialize (CR b). assert (lookup (a_h A) b = None) as G.
    { destruct (lookup (a_h A) b) eqn:X; auto. destruct (N.eq_dec b a) as [->|Y]; [congruence|].
      apply KL in X; auto. congruence. }
    pose proof (I4 b G). lia.
  - destruct I5 as [F1 F2]. split; auto. intros b. rewrite F2. split; intros (u & F & Q).
    + destruct (N.eq_dec b a) as [->|X].
      * rewrite E in F. inversion F; subst. lia.
      * eauto.
    + apply LK in F as [[-> ->]|[_ F]]; [lia|eauto].
  - intros b u F Q. apply LK in F as [[-> ->]|[_ F]]; [|eauto]. apply KX.
    pose proof (I6 a v E P) as K. destruct ED as [(ED & _)|[(l & l' & ED1 & ED2)|[(l & l' & ED1 & ED2 & _)|(o & p & ED1 & ED2 & ED3 & _)]]]; auto.
    + unfold kids_ok in *. rewrite ED, ET in *. destruct (o_d v); auto. intros B ->. now apply SB.
    + unfold kids_ok. now rewrite ED2.
    + unfold kids_ok. now rewrite ED2.
  - intros T b. destruct (N.eq_dec b a) as [->|X].
    + rewrite TA. split.
      * intros (k & K). exists w, k. rewrite ID. repeat split; auto. lia.
      * intros (u & k & F & Q & K). rewrite ID in K. apply LK in F as [[_ ->]|[? _]]; [eauto|easy].
    + rewrite TB, I8 by auto. split; intros (u & k & F & Q & K).
      * exists u, k. rewrite ID. auto.
      * apply LK in F as [[? _]|[_ F]]; [easy|]. rewrite ID in K. eauto.
  - intros b c u y x L1 L2 Q1 Q2 K1 K2. rewrite ID in K1, K2.
    apply LK in L1 as [[-> ->]|[X1 L1]]; apply LK in L2 as [[-> ->]|[X2 L2]]; auto.
    + exfalso. eauto.
    + exfalso. eauto.
    + eauto.
  - destruct I11 as (u & F & T1 & T2 & T3 & T4). destruct (N.eq_dec (e_empty e) a) as [X|X].
    + destruct (EE (eq_sym X)) as [Y1 Y2]. rewrite X in *. exists w. rewrite E in F. inversion F; subst.
      repeat split; auto; congruence.
    + exists u. repeat split; auto.
  - assert (PF : forall y n p, (exists b u o, lookup (a_h A) b = Some u /\ 0 < o_n u /\ o_d u = BOnto o /\ In y (axs o)) \/ (exists o, o_d v = BOnto o) ->
                 (count p (pl n (a_h A) y) <= count p (pl n (a_h A') y))%nat).
    { intros y n p Y. apply pl_fuller. intros c C u U. destruct (N.eq_dec c a) as [->|X].
      - rewrite E in U. inversion U; subst u. exists w. repeat split; auto.
        destruct ED as [(ED & EB')|[(l & l' & ED1 & ED2)|[(l & l' & ED1 & ED2 & ED3)|(o & q & ED1 & ED2 & ED3 & _)]]]; auto.
        + left. eauto.
        + exfalso. destruct Y as [(b & u & o & Y1 & Y2 & Y3 & Y4)|(o & Y)]; [|congruence].
          now apply (ED3 b u o y).
        + right; left. eauto.
      - exists u. repeat split; auto. }
    intros b u o F Q D. apply LK in F as [[-> ->]|[X F]].
    + destruct ED as [(ED & EB')|[(l & l' & ED1 & ED2)|[(l & l' & ED1 & ED2 & ED3)|(o' & q & ED1 & ED2 & ED3 & ED4)]]]; try congruence.
      * apply (indexed_mono (a_h A)); [|apply (I12 a v); congruence].
        intros n p y IY. apply PF. right. exists o. congruence.
      * assert (o = q) by congruence. subst o. revert ED4. apply indexed_mono.
        intros n p y IY. apply PF. eauto.
    + apply (indexed_mono (a_h A)); [|eauto]. intros n p y IY. apply PF. left. exists b, u, o. auto.
Qed.

End Proofs.
