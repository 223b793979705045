(** Concrete cases that meet the hypotheses of PropertiesGet.v. *)

From Coq Require Import String.
From Coq Require Import NArith List Bool Arith Lia.
From Verif Require Import Bytes ModelTypes ModelObject ModelHeader SpecHeader ModelText ModelHeap SpecHeap ModelGet SpecGet.
From Verif Require Import ProofObject ExamplesHeap.
Import ListNotations.
Local Open Scope N_scope.

(** Starts the library, runs calls, then one more call, and tests the outcome. *)
Lemma last_ok ks (k : env -> list N -> call) (P : env -> list N -> state -> N -> state -> bool) :
  (match go_from (lib_init false next s_zero) ks with
   | Some (e, _, lib, s, own) =>
       check lib own s (k e own) && roomb (lib ++ own) s (k e own) &&
       match exec false next e (k e own) s with Ok (Some a) s' => P e own s a s' | _ => false end
   | None => false
   end) = true ->
  exists e vs lib s own a s', history false next e vs lib s own /\ allowed false e lib own s (k e own) /\
    SpecHeap.no_cycle s (k e own) /\ room false (lib ++ own) s (k e own) /\ exec false next e (k e own) s = Ok (Some a) s' /\ P e own s a s' = true.
Proof.
  unfold go_from. remember (lib_init false next s_zero) as i eqn:E. destruct i as [[e vs] s0|]; [|discriminate].
  destruct (go e (library e vs s0) ks s0 []) as [[s1 own1]|] eqn:G; [|discriminate].
  rewrite !andb_true_iff. intros [[H1 H2] H3]. apply (check_ok e) in H1 as [H1 H1']. apply roomb_ok in H2.
  destruct (exec false next e (k e own1) s1) as [[a|] s2|] eqn:X; try discriminate H3.
  exists e, vs, (library e vs s0), s1, own1, a, s2. split; [eapply go_ok; [|exact G]; constructor; [exact (eq_sym E)|reflexivity]|]. repeat split; assumption.
Qed.

Definition is_ok (r : res N) (x : N) : bool := match r with Ok y _ => y =? x | Err _ => false end.
Definition is_opt (r : res (option N)) (x : option N) : bool :=
  match r, x with Ok (Some y) _, Some z => y =? z | Ok None _, None => true | _, _ => false end.
Definition itemsb (s : state) (v : N) (l : list N) : bool :=
  match lookup (s_heap s) v with
  | Some (mkCell _ (BVec m)) => Nat.eqb (List.length m) (List.length l) && forallb (fun p => fst p =? snd p) (combine m l)
  | _ => false
  end.
Lemma itemsb_ok s v l : itemsb s v l = true -> has_items s v l.
Proof.
  unfold itemsb. destruct (lookup (s_heap s) v) as [[h [| m | | | | |]]|] eqn:E; try discriminate.
  rewrite andb_true_iff. intros [L F]. apply Nat.eqb_eq in L. exists (mkCell h (BVec m)). split; auto. cbn. f_equal.
  clear E. revert l L F. induction m as [|x m IH]; intros [|y l] L F; try discriminate; auto. cbn in F. apply andb_true_iff in F as [F1 F2].
  apply N.eqb_eq in F1. cbn in F1. subst. f_equal. apply IH; auto.
Qed.

(** Two classes, an annotation property, a literal, an annotation and a vector of annotations. *)
Definition parts : list (list N -> call) :=
  [ fun _ => KEntityText OT_CE_CLASS (bs "http://x.org/A");
    fun _ => KEntityText OT_CE_CLASS (bs "http://x.org/B");
    fun _ => KEntityText OT_ANNOT_PROP (bs "http://x.org/p");
    fun _ => KLitPlain (bs "text");
    fun w => KConstruct OT_ANNOTATION [Some (o w 1); Some (o w 0)] None 0;
    fun w => KVector [o w 0];
    fun w => KEntityText OT_OPE_OBJ_PROP (bs "http://x.org/r");
    fun w => KVector [] ].
Definition sub_args (w : list N) (p : string) : option N :=
  if String.eqb p "sub" then Some (o w 7) else if String.eqb p "super" then Some (o w 6) else None.

(** SubClassOf(Annotation(p "text") A B): the getters return A, B and the annotations. *)
Lemma sub_class : exists e vs lib s own a s' x y v,
  let k := KConstruct OT_A_SUB_CLASS (map (sub_args own) (passed OT_A_SUB_CLASS)) (Some v) 0 in
  history false next e vs lib s own /\ allowed false e lib own s k /\ room false (lib ++ own) s k /\
  exec false next e k s = Ok (Some a) s' /\ x <> y /\ sub_args own "sub" = Some x /\ sub_args own "super" = Some y /\
  has_items s v [o own 3] /\
  is_ok (run_getter OT_A_SUB_CLASS "get_sub" a s') x = true /\ is_ok (run_getter OT_A_SUB_CLASS "get_super" a s') y = true /\
  is_opt (get_annot false a s') (Some v) = true.
Proof.
  destruct (last_ok parts (fun e w => KConstruct OT_A_SUB_CLASS (map (sub_args w) (passed OT_A_SUB_CLASS)) (Some (o w 2)) 0)
    (fun e w s a s' => negb (o w 7 =? o w 6) && itemsb s (o w 2) [o w 3] && is_ok (run_getter OT_A_SUB_CLASS "get_sub" a s') (o w 7) &&
       is_ok (run_getter OT_A_SUB_CLASS "get_super" a s') (o w 6) && is_opt (get_annot false a s') (Some (o w 2))))
    as (e & vs & lib & s & own & a & s' & H & AL & NC & RM & EX & P); [vm_compute; reflexivity|].
  rewrite !andb_true_iff in P. destruct P as [[[[P1 P2] P3] P4] P5]. apply negb_true_iff, N.eqb_neq in P1.
  exists e, vs, lib, s, own, a, s', (o own 7), (o own 6), (o own 2). cbv zeta. split; [exact H|]. split; [exact AL|]. split; [exact RM|].
  split; [exact EX|]. split; [exact P1|]. split; [reflexivity|]. split; [reflexivity|]. split; [now apply itemsb_ok|]. auto.
Qed.

(** The same with an empty vector of annotations. *)
Lemma sub_class_bare : exists e vs lib s own a s' v,
  let k := KConstruct OT_A_SUB_CLASS (map (sub_args own) (passed OT_A_SUB_CLASS)) (Some v) 0 in
  history false next e vs lib s own /\ allowed false e lib own s k /\ room false (lib ++ own) s k /\
  exec false next e k s = Ok (Some a) s' /\ has_items s v [] /\ is_opt (get_annot false a s') None = true.
Proof.
  destruct (last_ok parts (fun e w => KConstruct OT_A_SUB_CLASS (map (sub_args w) (passed OT_A_SUB_CLASS)) (Some (o w 0)) 0)
    (fun e w s a s' => itemsb s (o w 0) [] && is_opt (get_annot false a s') None))
    as (e & vs & lib & s & own & a & s' & H & AL & NC & RM & EX & P); [vm_compute; reflexivity|].
  rewrite !andb_true_iff in P. destruct P as [P1 P2].
  exists e, vs, lib, s, own, a, s', (o own 0). cbv zeta. split; [exact H|]. split; [exact AL|]. split; [exact RM|].
  split; [exact EX|]. split; [now apply itemsb_ok|]. auto.
Qed.

(** HasKey with NULL object properties and a vector of data properties. *)
Definition key_args (w : list N) (p : string) : option N :=
  if String.eqb p "cls_exp" then Some (o w 7) else if String.eqb p "data_props" then Some (o w 0) else None.
Lemma has_key_case : exists e vs lib s own a s',
  let k := KConstruct OT_A_HAS_KEY (map (key_args own) (passed OT_A_HAS_KEY)) None 0 in
  history false next e vs lib s own /\ allowed false e lib own s k /\ room false (lib ++ own) s k /\
  exec false next e k s = Ok (Some a) s' /\ key_args own "obj_props" = None /\
  is_ok (run_getter OT_A_HAS_KEY "get_data_props" a s') (o own 0) = true.
Proof.
  destruct (last_ok parts (fun e w => KConstruct OT_A_HAS_KEY (map (key_args w) (passed OT_A_HAS_KEY)) None 0)
    (fun e w s a s' => is_ok (run_getter OT_A_HAS_KEY "get_data_props" a s') (o w 0)))
    as (e & vs & lib & s & own & a & s' & H & AL & NC & RM & EX & P); [vm_compute; reflexivity|].
  exists e, vs, lib, s, own, a, s'. cbv zeta. split; [exact H|]. split; [exact AL|]. split; [exact RM|]. auto.
Qed.

(** ObjectMinCardinality(3 r A) *)
Lemma card_case : exists e vs lib s own a s' f,
  let k := KConstruct OT_CE_OBJ_MIN_CARD [Some (o own 1)] (Some f) 3 in
  history false next e vs lib s own /\ allowed false e lib own s k /\ room false (lib ++ own) s k /\
  exec false next e k s = Ok (Some a) s' /\ is_ok (get_uint_field false a s') 3 = true /\ is_opt (get_opt_field false a s') (Some f) = true.
Proof.
  destruct (last_ok parts (fun e w => KConstruct OT_CE_OBJ_MIN_CARD [Some (o w 1)] (Some (o w 7)) 3)
    (fun e w s a s' => is_ok (get_uint_field false a s') 3 && is_opt (get_opt_field false a s') (Some (o w 7))))
    as (e & vs & lib & s & own & a & s' & H & AL & NC & RM & EX & P); [vm_compute; reflexivity|].
  apply andb_true_iff in P as [P1 P2].
  exists e, vs, lib, s, own, a, s', (o own 7). cbv zeta. split; [exact H|]. split; [exact AL|]. split; [exact RM|]. auto.
Qed.

(** ObjectSomeValuesFrom(r A) *)
Lemma quant_case : exists e vs lib s own a s' f,
  let k := KConstruct OT_CE_OBJ_SOME [Some (o own 1)] (Some f) 0 in
  history false next e vs lib s own /\ allowed false e lib own s k /\ room false (lib ++ own) s k /\
  exec false next e k s = Ok (Some a) s' /\ is_ok (obj_quant_filler false e a s') f = true /\ f <> e_thing e.
Proof.
  destruct (last_ok parts (fun e w => KConstruct OT_CE_OBJ_SOME [Some (o w 1)] (Some (o w 7)) 0)
    (fun e w s a s' => is_ok (obj_quant_filler false e a s') (o w 7) && negb (o w 7 =? e_thing e)))
    as (e & vs & lib & s & own & a & s' & H & AL & NC & RM & EX & P); [vm_compute; reflexivity|].
  apply andb_true_iff in P as [P1 P2]. apply negb_true_iff, N.eqb_neq in P2.
  exists e, vs, lib, s, own, a, s', (o own 7). cbv zeta. split; [exact H|]. split; [exact AL|]. split; [exact RM|]. auto.
Qed.

(** ObjectIntersectionOf(A B) *)
Lemma nary_case : exists e vs lib s own a s' x y,
  let k := KNary OT_CE_OBJ_INTERSECT [x; y] in
  history false next e vs lib s own /\ allowed false e lib own s k /\ room false (lib ++ own) s k /\
  exec false next e k s = Ok (Some a) s' /\ x <> y.
Proof.
  destruct (last_ok parts (fun e w => KNary OT_CE_OBJ_INTERSECT [o w 7; o w 6]) (fun e w s a s' => negb (o w 7 =? o w 6)))
    as (e & vs & lib & s & own & a & s' & H & AL & NC & RM & EX & P); [vm_compute; reflexivity|].
  apply negb_true_iff, N.eqb_neq in P.
  exists e, vs, lib, s, own, a, s', (o own 7), (o own 6). cbv zeta. split; [exact H|]. split; [exact AL|]. split; [exact RM|]. auto.
Qed.

(** SubObjectPropertyOf(ObjectPropertyChain(r r) r) *)
Lemma chain_case : exists e vs lib s own a s' v r,
  let k := KChain v r None in
  history false next e vs lib s own /\ allowed false e lib own s k /\ room false (lib ++ own) s k /\
  exec false next e k s = Ok (Some a) s' /\ has_items s v [r; r].
Proof.
  destruct (last_ok (parts ++ [fun w => KVector [o w 1; o w 1]]) (fun e w => KChain (o w 0) (o w 2) None) (fun e w s a s' => itemsb s (o w 0) [o w 2; o w 2]))
    as (e & vs & lib & s & own & a & s' & H & AL & NC & RM & EX & P); [vm_compute; reflexivity|].
  exists e, vs, lib, s, own, a, s', (o own 0), (o own 2). cbv zeta. split; [exact H|]. split; [exact AL|]. split; [exact RM|]. split; [exact EX|].
  now apply itemsb_ok.
Qed.

(** The axiom is kept while another object is made. *)
Lemma later_case : exists e vs lib s own a s' own', history false next e vs lib s own /\ later false next e lib a s own s' own' /\
  has_type false s a OT_A_SUB_CLASS /\ s_heap s <> s_heap s'.
Proof.
  destruct (last_ok (parts ++ [fun w => KConstruct OT_A_SUB_CLASS [Some (o w 7); Some (o w 6)] None 0])
    (fun e w => KVector [o w 0])
    (fun e w s a s' => typeb s (o w 0) OT_A_SUB_CLASS && mem (o w 0) w && (N.of_nat (List.length (s_heap s)) <? N.of_nat (List.length (s_heap s')))))
    as (e & vs & lib & s & own & a & s' & H & AL & NC & RM & EX & P); [vm_compute; reflexivity|].
  rewrite !andb_true_iff in P. destruct P as [[P1 P2] P3]. apply mem_in in P2. apply N.ltb_lt in P3.
  exists e, vs, lib, s, own, (o own 0), s', (a :: own). split; [exact H|]. split.
  - apply (later_call false next e lib (o own 0) s own s own (KVector [o own 0]) (Some a) s'); auto.
    + now constructor.
    + cbn. auto.
  - split; [now apply typeb_ok|]. intros X. rewrite X in P3. lia.
Qed.
