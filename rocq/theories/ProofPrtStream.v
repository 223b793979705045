(** The ProtocOWL stream writer against the reader: the two agree after every call. *)

From Coq Require Import String NArith ZArith List Bool Lia Permutation.
From Coq Require Import ZifyBool ZifyNat ZifyN.
From Verif Require Import Bytes ModelTypes ModelObject ModelText SpecObject SpecText ProofObject ProofIter ProofText
  ModelPrefixMap ModelOntology ProofOntology ModelChange ModelPrtValue ModelPrtEncoder ModelPrtDecoder ModelPrtWriter SpecPrt SpecPrtStream
  ProofPrtValue ProofPrtRead ProofPrtAxiom ProofPrtIndex ProofPrtFrames ProofPrtFlush.
Import ListNotations.
Local Open Scope N_scope.
Ltac Zify.zify_post_hook ::= Z.div_mod_to_equations.

Lemma occ_prims o : Forall isprim (occ o).
Proof.
  induction o as [i st|n r|e n r|i|v n r|v l|o l IH|t fs opt n IH IHo] using obj_ind'; cbn [occ];
    try (repeat constructor; eexists; reflexivity); auto.
  - induction IH; cbn; auto. apply Forall_app; auto.
  - apply Forall_app. split.
    + induction IH; cbn; auto. apply Forall_app; auto.
    + destruct opt; [now apply IHo|]. destruct t; repeat constructor; eexists; reflexivity.
Qed.
Lemma all_enabled l : Forall isprim l -> filter (enabled PF_ALL) l = l.
Proof.
  induction 1 as [|p l (k & K) F IH]; auto. cbn [filter].
  replace (enabled PF_ALL p) with true; [now f_equal|]. destruct p; try discriminate K; try reflexivity. now destruct e.
Qed.
Lemma iterate_all o s S (call : S -> obj -> S * ret) st : wt s o = true ->
  iterate_primitives call PF_ALL o st = as_ires (deliver call (occ o) st).
Proof. intros Wt. rewrite (iterate_deliver o s Wt). now rewrite all_enabled by apply occ_prims. Qed.

(** * Components *)

Lemma filter_concat_map {A B} (f : B -> bool) (g : A -> list B) l : filter f (flat_map g l) = flat_map (fun a => filter f (g a)) l.
Proof. induction l as [|a l IH]; cbn; auto. now rewrite filter_app, IH. Qed.
Lemma flat_map_one {A} (g : N -> list A) (t : N) l : NoDup l -> (forall u, u <> t -> g u = []) ->
  flat_map g l = if existsb (N.eqb t) l then g t else [].
Proof.
  intros Nd H. induction Nd as [|u l Nu Nd IH]; cbn; auto. rewrite IH. destruct (N.eqb_spec t u) as [->|Ne]; cbn.
  - replace (existsb (N.eqb u) l) with false; [apply app_nil_r|]. symmetry. apply not_true_is_false. intros E.
    apply existsb_exists in E as (x & Hx & Ex). apply N.eqb_eq in Ex. now subst.
  - rewrite (H u) by auto. reflexivity.
Qed.
Lemma types_nodup : NoDup all_axiom_types.
Proof. apply FinFun.Injective_map_NoDup; [intros x y H; lia|apply seq_NoDup]. Qed.
Lemma types_in t : existsb (N.eqb t) all_axiom_types = (t <? 37).
Proof.
  destruct (N.ltb_spec t 37) as [L|L].
  - apply existsb_exists. exists t. split; [|apply N.eqb_refl]. apply in_map_iff. exists (N.to_nat t). split; [lia|]. apply in_seq. lia.
  - apply not_true_is_false. intros E. apply existsb_exists in E as (x & Hx & Ex). apply N.eqb_eq in Ex. subst x.
    apply in_map_iff in Hx as (n & Hn & Hs). apply in_seq in Hs. lia.
Qed.

Definition typed (o : onto) : Prop := forall t a, In a (vec_data (tindex o t)) -> ax_type (r_obj a) = t.

Lemma filter_same {A} (f : A -> bool) l : (forall x, In x l -> f x = true) -> filter f l = l.
Proof. induction l as [|a l IH]; cbn; auto. intros H. rewrite (H a) by auto. f_equal. auto. Qed.
Lemma filter_none {A} (f : A -> bool) l : (forall x, In x l -> f x = false) -> filter f l = [].
Proof. induction l as [|a l IH]; cbn; auto. intros H. rewrite (H a) by auto. auto. Qed.
Lemma filter_map {A B} (f : B -> bool) (g : A -> B) l : filter f (map g l) = map g (filter (fun a => f (g a)) l).
Proof. induction l as [|a l IH]; cbn; auto. rewrite IH. now destruct (f (g a)). Qed.

Definition at_comp (k : component) (m : change_type) (o : onto) : list dchange :=
  match k with
  | CIri => map (fun i => (m, DIri (r_obj i))) (opt_list (o_iri o))
  | CVersion => map (fun i => (m, DVersion (r_obj i))) (opt_list (o_version o))
  | CImports => map (fun i => (m, DImport (r_obj i))) (vec_data (o_imports o))
  | CAnnots => map (fun i => (m, DAnnot (r_obj i))) (vec_data (o_annot o))
  | CAxioms t => if t <? 37 then map (fun i => (m, DAxiom (r_obj i))) (vec_data (tindex o t)) else []
  end.
Lemma filter_pend k m o : typed o -> filter (concerns k) (map (pair m) (pend o)) = at_comp k m o.
Proof.
  intros Ty. unfold pend. rewrite !map_app, !map_map, !filter_app.
  assert (Z : forall (f : ref -> dpart) l, (forall r, concerns k (m, f r) = false) -> filter (concerns k) (map (fun r => (m, f r)) l) = []).
  { intros f l H. apply filter_none. intros x Hx. apply in_map_iff in Hx as (r & <- & _). apply H. }
  assert (O : forall (f : ref -> dpart) l, (forall r, concerns k (m, f r) = true) -> filter (concerns k) (map (fun r => (m, f r)) l) = map (fun r => (m, f r)) l).
  { intros f l H. apply filter_same. intros x Hx. apply in_map_iff in Hx as (r & <- & _). apply H. }
  destruct k as [| | | |t]; cbn [at_comp].
  - rewrite (O (fun i => DIri (r_obj i))), !Z by reflexivity. apply app_nil_r.
  - rewrite (O (fun i => DVersion (r_obj i))), !Z by reflexivity. cbn. apply app_nil_r.
  - rewrite (O (fun i => DImport (r_obj i))), !Z by reflexivity. cbn. apply app_nil_r.
  - rewrite (O (fun i => DAnnot (r_obj i))), !Z by reflexivity. cbn. apply app_nil_r.
  - rewrite (Z (fun i => DIri (r_obj i))), (Z (fun i => DVersion (r_obj i))), (Z (fun i => DImport (r_obj i))), (Z (fun i => DAnnot (r_obj i))) by reflexivity.
    cbn [app]. unfold axioms_in_order. rewrite filter_map.
    change (map (fun a => (m, DAxiom (r_obj a))) (filter (fun a => ax_type (r_obj a) =? t) (flat_map (fun t => vec_data (tindex o t)) all_axiom_types)) =
      if t <? 37 then map (fun i => (m, DAxiom (r_obj i))) (vec_data (tindex o t)) else []).
    rewrite filter_concat_map, (flat_map_one _ t), types_in.
    + destruct (t <? 37); auto. rewrite filter_same; auto. intros a Ha. apply N.eqb_eq. now apply Ty.
    + apply types_nodup.
    + intros u Nu. apply filter_none. intros a Ha. apply N.eqb_neq. now rewrite (Ty u a Ha).
Qed.

(** [o'] is [o] with [d] added. *)
Definition adds (o o' : onto) (d : dpart) : Prop :=
  o_indexing o' = o_indexing o /\ (typed o -> typed o') /\ (o_version o' = o_version o) /\ (o_iri o' = o_iri o) /\
  (forall x, In x (pend o') -> In x (pend o) \/ x = d) /\
  (typed o -> forall k m, filter (concerns k) (map (pair m) (pend o')) = filter (concerns k) (map (pair m) (pend o)) ++ filter (concerns k) [(m, d)]).

Lemma in_pend o x : In x (pend o) <->
  (exists i, o_iri o = Some i /\ x = DIri (r_obj i)) \/ (exists i, o_version o = Some i /\ x = DVersion (r_obj i)) \/
  (exists i, In i (vec_data (o_imports o)) /\ x = DImport (r_obj i)) \/ (exists a, In a (vec_data (o_annot o)) /\ x = DAnnot (r_obj a)) \/
  (exists t a, t < 37 /\ In a (vec_data (tindex o t)) /\ x = DAxiom (r_obj a)).
Proof.
  unfold pend. rewrite !in_app_iff, !in_map_iff. unfold opt_list.
  assert (A : forall i (v : option ref), In i (match v with Some a => [a] | None => [] end) <-> v = Some i).
  { intros i [j|]; cbn; split; intros H; try discriminate; try tauto; [destruct H as [->|[]]; auto|inversion H; auto]. }
  assert (B : (exists a, DAxiom (r_obj a) = x /\ In a (axioms_in_order o)) <-> exists t a, t < 37 /\ In a (vec_data (tindex o t)) /\ x = DAxiom (r_obj a)).
  { split.
    - intros (a & <- & H). unfold axioms_in_order in H. apply in_flat_map in H as (t & Ht & Ha). exists t, a. split; auto.
      apply in_map_iff in Ht as (n & <- & Hn). apply in_seq in Hn. lia.
    - intros (t & a & L & Ha & ->). exists a. split; auto. apply in_flat_map. exists t. split; auto.
      apply in_map_iff. exists (N.to_nat t). split; [lia|]. apply in_seq. lia. }
  rewrite B. split.
  - intros [(i & <- & H)|[(i & <- & H)|[(i & <- & H)|[(i & <- & H)|H]]]]; try (apply A in H); eauto 10.
  - intros [(i & H & ->)|[(i & H & ->)|[(i & H & ->)|[(i & H & ->)|H]]]]; try (apply A in H); eauto 10.
Qed.

Lemma add_import w o x : exists o' l, o_step w o (EAddImport x) = Some (o', 0%nat, l) /\ adds o o' (DImport (r_obj x)).
Proof.
  do 2 eexists. split; [reflexivity|]. assert (Ty : typed o -> typed (mkOnto (o_iri o) (o_version o) (Some (vec_data (o_imports o) ++ [x])) (o_annot o) (o_types o) (o_refs o) (o_indexing o))) by (intros T; exact T).
  split; [reflexivity|]. split; [exact Ty|]. split; [reflexivity|]. split; [reflexivity|]. split.
  - intros y Hy. rewrite in_pend in *. cbn [o_iri o_version o_imports o_annot vec_data] in Hy.
    destruct Hy as [H|[H|[(i & H & ->)|[H|H]]]]; auto 10. apply in_app_or in H as [H|[<-|[]]]; eauto 10.
  - intros T k m. rewrite !filter_pend; auto. destruct k; cbn; rewrite ?app_nil_r; auto. now rewrite map_app.
Qed.
Lemma add_annots w o x : wt (SOne SAnnot) (r_obj x) = true -> exists o' l, o_step w o (EAddAnnot x) = Some (o', 0%nat, l) /\ adds o o' (DAnnot (r_obj x)).
Proof.
  intros Wt. cbn [o_step]. unfold add_annot. rewrite (iterate_all _ _ _ _ _ Wt). unfold as_ires.
  set (m' := fst _). do 2 eexists. split; [reflexivity|].
  assert (Ty : typed o -> typed (mkOnto (o_iri o) (o_version o) (o_imports o) (Some (vec_data (o_annot o) ++ [x])) (o_types o) m' (o_indexing o))) by (intros T; exact T).
  split; [reflexivity|]. split; [exact Ty|]. split; [reflexivity|]. split; [reflexivity|]. split.
  - intros y Hy. rewrite in_pend in *. cbn [o_iri o_version o_imports o_annot vec_data] in Hy.
    destruct Hy as [H|[H|[H|[(i & H & ->)|H]]]]; auto 10. apply in_app_or in H as [H|[<-|[]]]; eauto 10.
  - intros T k m. rewrite !filter_pend; auto. destruct k; cbn; rewrite ?app_nil_r; auto. now rewrite map_app.
Qed.
Lemma add_axioms w o x : is_axiom_object (r_obj x) -> o_indexing o = false ->
  exists o' l, o_step w o (EAddAxiom x) = Some (o', 0%nat, l) /\ adds o o' (DAxiom (r_obj x)).
Proof.
  intros Ax Ix. cbn [o_step]. unfold add_axiom. rewrite Ix. do 2 eexists. split; [reflexivity|].
  set (t0 := ax_type (r_obj x)). set (o' := mkOnto _ _ _ _ _ _ _).
  assert (Gt : forall t, vec_data (tindex o' t) = if N.eqb t0 t then vec_data (tindex o t0) ++ [x] else vec_data (tindex o t)).
  { intros t. unfold tindex, o'. cbn [o_types]. rewrite type_get_set. destruct (N.eqb t0 t); auto. }
  assert (Ty : typed o -> typed o').
  { intros T t a H. rewrite Gt in H. destruct (N.eqb_spec t0 t) as [<-|Ne]; [|now apply T].
    apply in_app_or in H as [H|[<-|[]]]; [now apply T|reflexivity]. }
  split; [now rewrite Ix|]. split; [exact Ty|]. split; [reflexivity|]. split; [reflexivity|]. split.
  - intros y Hy. rewrite in_pend in *. cbn [o' o_iri o_version o_imports o_annot] in Hy.
    destruct Hy as [H|[H|[H|[H|(t & a & L & H & ->)]]]]; auto 10. rewrite Gt in H.
    destruct (N.eqb_spec t0 t) as [<-|Ne]; [apply in_app_or in H as [H|[<-|[]]]|]; eauto 12.
  - intros T k m. rewrite !filter_pend; auto. destruct k; cbn [at_comp o' o_iri o_version o_imports o_annot filter concerns snd]; rewrite ?app_nil_r; auto.
    rewrite Gt. fold t0. pose proof (ax_type_bound _ Ax) as B. fold t0 in B. destruct (N.eqb_spec t0 t) as [<-|Ne].
    + rewrite (proj2 (N.ltb_lt _ _) B). now rewrite map_app.
    + now rewrite app_nil_r.
Qed.

(** * The two sides *)

Definition v_start : rview := mkV (map fst standard_prefixes) [] false [].

Lemma pend_empty : pend (o_empty false) = [].
Proof. reflexivity. Qed.
Opaque pend.

Section Stream.
  Variable w : N.
  Hypothesis W : width w.
  Variable visit : tbl -> tbl.
  Hypothesis visit_perm : forall t, Permutation (visit t) t.
  Variable anon_id : nat -> bytes.
  Variable handler : list dchange -> ret.
  Hypothesis handler_ok : forall l, (0 <= handler l)%Z.
  Variable ids_all : list obj.
  Variable nss_all : list bytes.
  Variable req : list (bytes * bytes).
  Hypothesis ids_room : N.of_nat (List.length ids_all) + 17 < 2 ^ w.
  Hypothesis nss_room : N.of_nat (List.length nss_all) < 2 ^ w.
  Hypothesis nss_std : incl standard_namespaces nss_all.
  Hypothesis req_ns : forall p ns, In (p, ns) req -> In ns nss_all.
  Hypothesis req_fits : forall p ns, In (p, ns) req -> fits w p /\ fits w ns.
  (** What was written before. *)
  Variable out0 : bytes.

  Notation eats := (eats w anon_id handler).
  Notation index_inv := (index_inv w ids_all nss_all req).
  Notation pend_ok := (pend_ok w).

  Definition std_list : list bytes := map fst standard_prefixes.
  Definition delivered (l : list dchange) (ns : bytes) : Prop := exists p, In (CHANGE_ADD, DPrefix p ns) l.
  Definition given (l : list dchange) (ns : bytes) : Prop := In ns standard_namespaces \/ delivered l ns.

  Lemma std_same ns : In ns std_list -> In ns standard_namespaces.
  Proof.
    intros H. vm_compute in H. destruct H as [<-|[<-|[<-|[<-|[<-|[]]]]]]; vm_compute; tauto.
  Qed.
  Lemma std_fits : Forall (fits w) std_list.
  Proof.
    apply Forall_forall. intros ns H. unfold fits. assert (N.of_nat (List.length ns) < 64).
    { vm_compute in H. destruct H as [<-|[<-|[<-|[<-|[<-|[]]]]]]; reflexivity. }
    assert (64 <= 2 ^ w); [|lia]. destruct W as [->| ->]; vm_compute; discriminate.
  Qed.

  Record sim (pre : bool) (ask : list dchange) (cov : bytes -> Prop) (e : enc) (v : rview)
             (V1 V2 : list bytes) (U1 U2 : list obj) (o : onto) : Prop := {
    si_anon : e_anon e = true;
    si_state : e_state e = COWL_OK;
    si_index : index_inv (e_index e) (v_ns v) V1 V2 (v_ids v) U1 U2;
    si_flush : e_flush e = Some o;
    si_indexing : o_indexing o = false;
    si_typed : typed o;
    si_pend : pend_ok o (v_ids v ++ U1 ++ U2);
    si_out : exists body, e_out e = out0 ++ 1 :: body /\ eats body v_start v;
    si_same : same_changes (v_log v ++ map (pair (mode (v_rm v))) (pend o)) ask;
    si_pre : forall t p ns, In (t, DPrefix p ns) (v_log v) -> t = CHANGE_ADD /\ In (p, ns) req;
    si_mode : V1 <> [] -> v_rm v = false;
    si_cov : forall ns, cov ns -> given (v_log v) ns \/ In ns V1;
    si_phase : pre = true -> V2 = [] /\ o = o_empty false /\ forall ns, In ns (v_ns v) -> given (v_log v) ns
  }.
  Definition Sim pre ask cov e v : Prop := exists V1 V2 U1 U2 o, sim pre ask cov e v V1 V2 U1 U2 o.

  Lemma std_init : index_inv x_init std_list [] [] [] [] [].
  Proof.
    unfold x_init. assert (T : table bytes_eqb (fun _ => True) (x_ns (x_init_prefixes m_empty)) std_list [] []).
    { unfold x_init_prefixes.
      assert (H : forall l x V, table bytes_eqb (fun _ => True) (x_ns x) [] V [] -> NoDup (V ++ map fst l) ->
        table bytes_eqb (fun _ => True) (x_ns (fold_left (fun x e => x_add_prefix x (fst e) (Some (snd e))) l x)) [] (V ++ map fst l) []).
      { induction l as [|[ns p] l IH]; intros x V Tb Nd; cbn [fold_left map fst snd]; [now rewrite app_nil_r|].
        cbn [map fst] in Nd.
        assert (Ni : ~ In ns ([] ++ V ++ [])).
        { cbn. rewrite app_nil_r. apply NoDup_remove_2 in Nd. intros I. apply Nd. apply in_or_app; auto. }
        unfold x_add_prefix at 2. rewrite (proj2 (t_missing _ _ _ _ _ _ Tb ns) Ni).
        destruct (m_add_first bytes_eqb (fun _ => True) bytes_eq _ ns [] V [] Tb Logic.I Ni) as (V2 & Pm & Tb').
        apply Permutation_nil in Pm. subst V2. replace (V ++ ns :: map fst l) with ((V ++ [ns]) ++ map fst l) by (now rewrite <- app_assoc).
        apply IH; [exact Tb'|]. now rewrite <- app_assoc. }
      specialize (H standard_prefixes (mkPrtIndex m_empty [] m_empty) [] (table_empty _ _)).
      cbn [app] in H. cbn [x_ns]. change std_list with ([] ++ std_list ++ []). apply (m_sync_table bytes_eqb (fun _ => True) bytes_eq).
      unfold std_list. apply H. vm_compute. repeat constructor; cbn; intros Hx; repeat (destruct Hx as [Hx|Hx]; [discriminate|]); exact Hx. }
    assert (I : x_id (x_init_prefixes m_empty) = m_empty) by (vm_compute; reflexivity).
    constructor; auto.
    - rewrite I. apply table_empty.
    - intros ns [].
    - constructor.
    - rewrite app_nil_r. pose proof std_fits as F. rewrite Forall_forall in *. intros ns H. split; [apply nss_std, std_same, H|now apply F].
    - intros ns rem [].
  Qed.

  Lemma filter_le {A} (f : A -> bool) l : (List.length (filter f l) <= List.length l)%nat.
  Proof. induction l as [|a l IH]; cbn; auto. destruct (f a); cbn; lia. Qed.
  Lemma pend_short k pre ask cov e v V1 V2 U1 U2 o : sim pre ask cov e v V1 V2 U1 U2 o ->
    (List.length (at_comp k (mode (v_rm v)) o) <= List.length ask)%nat.
  Proof.
    intros S0. rewrite <- filter_pend by apply S0. pose proof (si_same _ _ _ _ _ _ _ _ _ _ S0 k) as E. rewrite filter_app in E.
    apply (f_equal (@List.length _)) in E. rewrite app_length in E. pose proof (filter_le (concerns k) ask). lia.
  Qed.

  Lemma given_app l l' ns : given l ns -> given (l ++ l') ns.
  Proof. intros [H|(p & H)]; [now left|right]. exists p. apply in_or_app; auto. Qed.

  Lemma empty_pend ids : pend_ok (o_empty false) ids.
  Proof.
    pose proof pend_empty as P.
    constructor; [easy|rewrite P; constructor|rewrite P; intros d p []].
  Qed.
  Lemma empty_typed : typed (o_empty false).
  Proof. intros t a []. Qed.

  Lemma flush_ok pre ask cov e v V1 V2 U1 U2 o : sim pre ask cov e v V1 V2 U1 U2 o -> N.of_nat (List.length ask) < 2 ^ w ->
    exists e' v', stream_flush w e = Some (COWL_OK, e') /\ sim pre ask cov e' v' [] [] [] [] (o_empty false) /\
      v_ns v' = v_ns v ++ V1 ++ V2 /\ v_ids v' = v_ids v ++ U1 ++ U2 /\ v_rm v' = v_rm v.
  Proof.
    intros S0 La. unfold stream_flush. rewrite (si_flush _ _ _ _ _ _ _ _ _ _ S0).
    destruct (encode_data_ok w W anon_id handler handler_ok ids_all nss_all req ids_room nss_room req_fits e V1 V2 U1 U2 v o)
      as (b & x & ps & R & X & Es & Rq & Ea); try apply S0.
    { pose proof (pend_short CImports _ _ _ _ _ _ _ _ _ _ S0) as L. cbn [at_comp] in L. rewrite map_length in L. lia. }
    { pose proof (pend_short CAnnots _ _ _ _ _ _ _ _ _ _ S0) as L. cbn [at_comp] in L. rewrite map_length in L. lia. }
    rewrite (eseq_ok _ _ _ _ _ R). unfold flush_state_empty. unfold eseq at 1, ebind, upd, estate.
    set (v' := mkV _ _ _ _) in Ea.
    exists (with_cur 0 (with_flush (Some (o_empty false)) (e_to e x b))), v'.
    assert (Gv : forall ns, In ns V1 -> delivered (v_log v') ns).
    { intros ns H. pose proof H as H'. rewrite <- Es in H'. apply in_map_iff in H' as ([p n] & En & Hp). cbn in En. subst n. exists p. unfold v'. cbn [v_log].
      apply in_or_app. right. rewrite map_app. apply in_or_app. left. rewrite map_map. apply in_map_iff. exists (p, ns). split; auto. cbn.
      rewrite (si_mode _ _ _ _ _ _ _ _ _ _ S0); [reflexivity|]. intros ->. destruct H. }
    split; [|split].
    - cbn [e_state with_cur with_flush e_to]. rewrite (si_state _ _ _ _ _ _ _ _ _ _ S0). reflexivity.
    - constructor; cbn [e_anon e_state e_index e_flush e_out with_cur with_flush e_to].
      + apply S0.
      + apply S0.
      + exact X.
      + reflexivity.
      + reflexivity.
      + apply empty_typed.
      + apply empty_pend.
      + destruct (si_out _ _ _ _ _ _ _ _ _ _ S0) as (body & Eo & Eb). exists (body ++ b). split.
        * rewrite Eo, <- app_assoc. reflexivity.
        * eapply eats_app; eauto.
      + intros k. rewrite <- (si_same _ _ _ _ _ _ _ _ _ _ S0 k). unfold v'. cbn [v_log v_rm]. rewrite pend_empty.
        rewrite map_app. cbn [map]. rewrite app_nil_r, !filter_app. f_equal.
        match goal with |- ?a ++ ?b = _ => apply (eq_trans (y := [] ++ b)); [f_equal|reflexivity] end. apply filter_none.
        intros y Hy. rewrite map_map in Hy. apply in_map_iff in Hy as (r & <- & _). now destruct k.
      + intros t p ns H. unfold v' in H. cbn [v_log] in H. rewrite map_app in H. apply in_app_or in H as [H|H]; [now apply (si_pre _ _ _ _ _ _ _ _ _ _ S0 t)|].
        apply in_app_or in H as [H|H].
        * rewrite map_map in H. apply in_map_iff in H as ([p' n'] & En & Hp). inversion En; subst. split; [|now apply Rq].
          rewrite (si_mode _ _ _ _ _ _ _ _ _ _ S0); [reflexivity|]. intros Ev. apply (in_map snd) in Hp. rewrite Ev in Hp. destruct Hp.
        * apply in_map_iff in H as (d & Ed & Hd). inversion Ed; subst d. pose proof (pk_ok _ _ _ (si_pend _ _ _ _ _ _ _ _ _ _ S0)) as F.
          rewrite Forall_forall in F. now destruct (F _ Hd).
      + easy.
      + intros ns H. left. destruct (si_cov _ _ _ _ _ _ _ _ _ _ S0 ns H) as [G|G]; [now apply given_app|]. right. now apply Gv.
      + intros Hp. destruct (si_phase _ _ _ _ _ _ _ _ _ _ S0 Hp) as (-> & _ & Hn). split; auto. split; auto. intros ns H. unfold v' in H. cbn [v_ns] in H.
        rewrite app_nil_r in H. apply in_app_or in H as [H|H]; [apply given_app; now apply Hn|]. right. now apply Gv.
    - cbn. auto.
  Qed.

  Lemma std_given l ns : In ns std_list -> given l ns.
  Proof. intros H. left. now apply std_same. Qed.

  Lemma reset_ok pre ask cov e v (p : bool) : sim pre ask cov e v [] [] [] [] (o_empty false) ->
    exists e', eseq (write_reset_frame p true) (encoder_reset p) e = Some (COWL_OK, e') /\
      sim pre ask cov e' (mkV (if p then std_list else v_ns v) [] (v_rm v) (v_log v)) [] [] [] [] (o_empty false) /\
      x_ns (e_index e') = (if p then x_ns x_init else x_ns (e_index e)).
  Proof.
    intros S0. unfold write_reset_frame, write_ctrl_frame.
    rewrite (eseq_ok _ _ tt e (e_to e (e_index e) [2 + (if p then 64 else 0) + 128])) by (now apply emit_ok).
    set (v' := mkV _ _ _ _).
    assert (Fr : eats [2 + (if p then 64 else 0) + 128] v v').
    { apply eats_one. apply frame_reset. }
    unfold encoder_reset, flush_state_empty, upd, eseq, ebind, estate, eret.
    set (b := [2 + (if p then 64 else 0) + 128]) in *.
    set (x' := if p then x_reset_prefixes (x_reset_ids (e_index e)) else x_reset_ids (e_index e)).
    exists (mkEnc x' (Some (o_empty false)) 0 (e_size e) (e_anon e) (e_store e) COWL_OK (e_out e ++ b)). split; [|split].
    - unfold x'. destruct p; reflexivity.
    - constructor; cbn [e_anon e_state e_index e_flush e_out]; try reflexivity.
      + apply S0.
      + unfold x', v'. cbn [v_ns v_ids]. destruct p.
        * exact std_init.
        * pose proof (si_index _ _ _ _ _ _ _ _ _ _ S0) as X. constructor; cbn [x_ns x_prefix x_id].
          -- apply X.
          -- apply table_empty.
          -- intros ns [].
          -- constructor.
          -- constructor.
          -- constructor.
          -- apply X.
          -- intros ns rem [].
      + apply empty_typed.
      + apply empty_pend.
      + destruct (si_out _ _ _ _ _ _ _ _ _ _ S0) as (body & Eo & Eb). exists (body ++ b). split.
        * rewrite Eo, <- app_assoc. reflexivity.
        * eapply eats_app; eauto.
      + exact (si_same _ _ _ _ _ _ _ _ _ _ S0).
      + exact (si_pre _ _ _ _ _ _ _ _ _ _ S0).
      + easy.
      + exact (si_cov _ _ _ _ _ _ _ _ _ _ S0).
      + intros Hp. destruct (si_phase _ _ _ _ _ _ _ _ _ _ S0 Hp) as (_ & _ & Hn). split; auto. split; auto. intros ns H. unfold v' in H. cbn [v_ns] in H.
        destruct p; [now apply std_given|]. now apply Hn.
    - cbn [e_index]. unfold x'. destruct p; reflexivity.
  Qed.

  Lemma flush_if_needed_ok pre ask cov e v : Sim pre ask cov e v -> N.of_nat (List.length ask) < 2 ^ w ->
    exists e' v', flush_if_needed w e = Some (COWL_OK, e') /\ Sim pre ask cov e' v' /\ v_rm v' = v_rm v.
  Proof.
    intros (V1 & V2 & U1 & U2 & o & S0) La. unfold flush_if_needed.
    destruct (should_flush w e) as [[[|] rs] p].
    - destruct (flush_ok _ _ _ _ _ _ _ _ _ _ S0 La) as (e1 & v1 & R1 & S1 & _ & _ & Rm1). destruct rs.
      + destruct (reset_ok _ _ _ _ _ p S1) as (e2 & R2 & S2 & _).
        exists e2. eexists. split; [|split].
        * erewrite eseq_ok; [unfold estate; rewrite (si_state _ _ _ _ _ _ _ _ _ _ S2); reflexivity|].
          erewrite eseq_ok; [exact R2|exact R1].
        * unfold Sim. eauto 8.
        * exact Rm1.
      + exists e1, v1. split; [|split].
        * erewrite eseq_ok; [unfold estate; rewrite (si_state _ _ _ _ _ _ _ _ _ _ S1); reflexivity|].
          erewrite eseq_ok; [reflexivity|exact R1].
        * unfold Sim. eauto 8.
        * exact Rm1.
    - exists e, v. split; [|split; [unfold Sim; eauto 8|auto]].
      erewrite eseq_ok; [unfold estate; rewrite (si_state _ _ _ _ _ _ _ _ _ _ S0); reflexivity|reflexivity].
  Qed.

  (** * Calls *)

  Definition objok (o : obj) : Prop :=
    forall p, mentions p o -> idok w ids_all (ident p) /\ (forall ns rem, ident p = OIri ns rem -> nsok w nss_all ns).

  Lemma add_prim_state e p : e_state e = COWL_OK ->
    with_state COWL_OK (with_index (x_add_primitive (e_index e) p) e) = e_to e (x_add_primitive (e_index e) p) [].
  Proof. intros St. unfold with_state, with_index, e_to. cbn. now rewrite St, app_nil_r. Qed.

  Lemma deliver_prims l : forall e E1 V1 V2 E2 U1 U2, index_inv (e_index e) E1 V1 V2 E2 U1 U2 -> e_state e = COWL_OK ->
    Forall (fun p => isprim p /\ idok w ids_all (ident p) /\ (forall ns rem, ident p = OIri ns rem -> nsok w nss_all ns)) l ->
    exists x V2' U1' U2', deliver for_each_primitive l e = (e_to e x [], COWL_OK) /\ index_inv x E1 V1 V2' E2 U1' U2' /\
      incl (E2 ++ U1 ++ U2) (E2 ++ U1' ++ U2') /\ (forall p, In p l -> In (ident p) (E2 ++ U1' ++ U2')).
  Proof.
    induction l as [|p l IH]; intros e E1 V1 V2 E2 U1 U2 X St F.
    - exists (e_index e), V2, U1, U2. rewrite e_to_self. split; [reflexivity|]. split; auto. split; [apply incl_refl|intros ? []].
    - inversion F as [|? ? (Pp & Ip & Np) F']; subst.
      destruct (x_add_primitive_inv w ids_all nss_all req _ _ _ _ _ _ _ p X Pp Ip Np) as (V2a & U1a & U2a & Xa & Ia & Inca & _).
      cbn [deliver]. unfold for_each_primitive at 1. cbn. rewrite add_prim_state by auto.
      destruct (IH (e_to e (x_add_primitive (e_index e) p) []) E1 V1 V2a E2 U1a U2a Xa St F') as (x & V2' & U1' & U2' & Ed & Xb & Incb & Kb).
      exists x, V2', U1', U2'. rewrite Ed, e_to_to. split; [reflexivity|]. split; auto. split; [eauto using incl_tran|].
      intros q [<-|Hq]; [now apply Incb|auto].
  Qed.
  Lemma objok_occ o : objok o -> Forall (fun p => isprim p /\ idok w ids_all (ident p) /\ (forall ns rem, ident p = OIri ns rem -> nsok w nss_all ns)) (occ o).
  Proof.
    intros Ok. pose proof (occ_prims o) as F. rewrite Forall_forall in *. intros p H. split; [auto|]. apply Ok. apply mentions_occ. split; [now apply F|auto].
  Qed.

  Lemma Sim_cov pre ask (cov cov' : bytes -> Prop) e v : (forall n, cov' n -> cov n) -> Sim pre ask cov e v -> Sim pre ask cov' e v.
  Proof.
    intros H (V1 & V2 & U1 & U2 & o & S0). exists V1, V2, U1, U2, o. destruct S0. constructor; auto.
  Qed.
  Lemma Sim_ask pre ask ask' cov e v : same_changes ask ask' -> Sim pre ask cov e v -> Sim pre ask' cov e v.
  Proof.
    intros H (V1 & V2 & U1 & U2 & o & S0). exists V1, V2, U1, U2, o. destruct S0. constructor; auto. intros k. now rewrite si_same0.
  Qed.
  Lemma Sim_phase ask cov e v : Sim true ask cov e v -> Sim false ask cov e v.
  Proof.
    intros (V1 & V2 & U1 & U2 & o & S0). exists V1, V2, U1, U2, o. destruct S0. constructor; auto.
  Qed.

  Lemma stream_add_ok mk x d s ask cov e v : Sim false ask cov e v -> objok (r_obj x) -> wt s (r_obj x) = true -> part_ok w d -> part_obj d = r_obj x ->
    (forall o, o_indexing o = false -> exists o' l, o_step w o (mk x) = Some (o', 0%nat, l) /\ adds o o' d) ->
    N.of_nat (List.length (ask ++ [(mode (v_rm v), d)])) < 2 ^ w ->
    exists e' v', stream_add w mk x e = Some (COWL_OK, e') /\ Sim false (ask ++ [(mode (v_rm v), d)]) cov e' v' /\ v_rm v' = v_rm v.
  Proof.
    intros (V1 & V2 & U1 & U2 & o & S0) Ok Wt Pd Ed Hs La. unfold stream_add.
    destruct (deliver_prims (occ (r_obj x)) e _ _ _ _ _ _ (si_index _ _ _ _ _ _ _ _ _ _ S0) (si_state _ _ _ _ _ _ _ _ _ _ S0) (objok_occ _ Ok))
      as (x' & V2' & U1' & U2' & Dl & X' & Inc & Kn).
    erewrite ecall_ok; [|rewrite (iterate_all _ _ _ _ _ Wt), Dl; reflexivity].
    destruct (Hs o (si_indexing _ _ _ _ _ _ _ _ _ _ S0)) as (o' & l & Eo & Ix & Ty & Ev & Ei & Hp & Hf).
    erewrite ecall_ok.
    2:{ erewrite ebind_ok.
        2:{ unfold adder. cbn [e_flush e_to fst]. rewrite (si_flush _ _ _ _ _ _ _ _ _ _ S0), Eo. reflexivity. }
        reflexivity. }
    erewrite eseq_ok; [|reflexivity].
    apply flush_if_needed_ok; auto. exists V1, V2', U1', U2', o'.
    constructor; cbn [e_anon e_state e_index e_flush e_out e_to with_flush with_cur with_state fst].
    - apply S0.
    - reflexivity.
    - exact X'.
    - reflexivity.
    - rewrite Ix. apply S0.
    - apply Ty, S0.
    - pose proof (si_pend _ _ _ _ _ _ _ _ _ _ S0) as Pk. constructor.
      + rewrite Ev, Ei. apply (pk_version _ _ _ Pk).
      + rewrite Forall_forall. intros y Hy. pose proof (pk_ok _ _ _ Pk) as F. rewrite Forall_forall in F.
        destruct (Hp y Hy) as [H| ->]; auto.
      + intros y p Hy M. destruct (Hp y Hy) as [H| ->]; [apply Inc; now apply (pk_known _ _ _ Pk y)|].
        apply Kn. rewrite Ed in M. now apply mentions_occ in M.
    - rewrite app_nil_r. apply S0.
    - intros k. pose proof (si_same _ _ _ _ _ _ _ _ _ _ S0 k) as Sk. rewrite filter_app in Sk. rewrite !filter_app, Hf by apply S0.
      rewrite app_assoc. exact (f_equal (fun z => z ++ filter (concerns k) [(mode (v_rm v), d)]) Sk).
    - apply S0.
    - apply S0.
    - apply S0.
    - discriminate.
  Qed.

  Lemma prefix_loop_ok ask l : N.of_nat (List.length ask) < 2 ^ w -> forall cov e v, Sim true ask cov e v -> v_rm v = false ->
    (forall p ns, In (p, ns) l -> In (stx p, stx ns) req) ->
    exists e' v', stream_prefix_loop w l e = Some (COWL_OK, e') /\
      Sim true ask (fun n => cov n \/ exists p ns, In (p, ns) l /\ n = stx ns) e' v' /\ v_rm v' = false.
  Proof.
    intros La. induction l as [|[p ns] l IH]; intros cov e v S0 Rm Rq.
    - exists e, v. split; [reflexivity|]. split; auto. eapply Sim_cov; [|exact S0]. intros n [H|(? & ? & [] & _)]; auto.
    - destruct S0 as (V1 & V2 & U1 & U2 & o & S0). destruct (si_phase _ _ _ _ _ _ _ _ _ _ S0 eq_refl) as (Ev & Eo & Hn). subst V2.
      pose proof (Rq p ns (or_introl eq_refl)) as Rp.
      destruct (x_add_prefix_inv w ids_all nss_all req _ _ _ _ _ _ (stx p) (stx ns) (si_index _ _ _ _ _ _ _ _ _ _ S0)) as (V1' & X' & In' & Inc & Back).
      { split; [now apply (req_ns (stx p))|]. now apply (req_fits (stx p)). }
      { exact Rp. }
      cbn [stream_prefix_loop]. unfold encoder_add_prefix at 1. erewrite ecall_ok; [|reflexivity].
      set (e1 := with_state _ _).
      assert (S1 : Sim true ask (fun n => cov n \/ n = stx ns) e1 v).
      { exists V1', [], U1, U2, o. unfold e1. destruct S0. constructor; cbn [e_anon e_state e_index e_flush e_out with_index with_state]; auto.
        intros n [H| ->].
        - destruct (si_cov0 n H); auto.
        - apply in_app_or in In' as [H|H]; auto. }
      destruct (flush_if_needed_ok _ _ _ _ _ S1 La) as (e2 & v2 & R2 & S2 & Rm2). rewrite (ecall_ok _ _ _ _ R2).
      destruct (IH _ e2 v2 S2) as (e3 & v3 & R3 & S3 & Rm3); [congruence|intros; apply Rq; now right|].
      exists e3, v3. split; auto. split; auto. eapply Sim_cov; [|exact S3]. intros n [H|(p' & ns' & [H|H] & ->)]; auto.
      + inversion H; subst; auto.
      + right. eauto.
  Qed.

  Lemma header_start e : e_anon e = true -> e_out e = out0 ->
    exists e', (forall k, ecall (encoder_reset true) (ecall encode_protocol_version k) e = k e') /\ Sim true [] (fun _ => False) e' v_start.
  Proof.
    intros An Eo. exists (mkEnc x_init (Some (o_empty false)) 0 (e_size e) (e_anon e) (e_store e) COWL_OK (e_out e ++ [1])). split.
    - intros k. erewrite ecall_ok; [|reflexivity]. erewrite ecall_ok; [|reflexivity]. reflexivity.
    - exists [], [], [], [], (o_empty false). constructor; cbn [e_anon e_state e_index e_flush e_out]; auto.
      + exact std_init.
      + apply empty_typed.
      + apply empty_pend.
      + exists []. split; [now rewrite Eo|constructor].
      + intros k. rewrite pend_empty. reflexivity.
      + intros t p ns [].
      + intros _. split; auto. split; auto. intros ns H. now apply std_given.
  Qed.

  Lemma objok_iri x : an_iri (r_obj x) -> objok (r_obj x) -> isprim (r_obj x) /\ idok w ids_all (ident (r_obj x)) /\
    (forall ns rem, ident (r_obj x) = OIri ns rem -> nsok w nss_all ns).
  Proof.
    intros (ns & rem & E) Ok. split; [rewrite E; eexists; reflexivity|]. apply Ok. rewrite E. apply mentions_iri.
  Qed.

  Definition add_all (l : list dpart) : list dchange := map (pair CHANGE_ADD) l.
  Lemma iri_version_ok i j cov e v : Sim true [] cov e v -> v_rm v = false -> (j <> None -> i <> None) ->
    (forall x, In x (opt_list i ++ opt_list j) -> an_iri (r_obj x) /\ objok (r_obj x)) ->
    exists e' v', stream_iri_version w i j e = Some (COWL_OK, e') /\
      Sim false (add_all (map (fun i => DIri (r_obj i)) (opt_list i) ++ map (fun i => DVersion (r_obj i)) (opt_list j))) cov e' v' /\ v_rm v' = false.
  Proof.
    intros S0 Rm Hj Hx.
    assert (L2 : forall l : list dchange, (List.length l <= 2)%nat -> N.of_nat (List.length l) < 2 ^ w).
    { intros l H. assert (64 <= 2 ^ w); [|lia]. destruct W as [->| ->]; vm_compute; discriminate. }
    unfold stream_iri_version. destruct i as [i|].
    - destruct S0 as (V1 & V2 & U1 & U2 & o & S0). destruct (si_phase _ _ _ _ _ _ _ _ _ _ S0 eq_refl) as (Ev & Eo & Hn). subst V2 o.
      destruct (Hx i (or_introl eq_refl)) as (Ii & Oi). destruct (objok_iri i Ii Oi) as (Pi & Ki & Ni).
      destruct (x_add_primitive_inv w ids_all nss_all req _ _ _ _ _ _ _ (r_obj i) (si_index _ _ _ _ _ _ _ _ _ _ S0) Pi Ki Ni) as (V2a & U1a & U2a & Xa & Ia & Inca & _).
      assert (Idi : ident (r_obj i) = r_obj i) by (destruct Ii as (n & r & E); now rewrite E).
      destruct j as [j|].
      + destruct (Hx j (or_intror (or_introl eq_refl))) as (Ij & Oj). destruct (objok_iri j Ij Oj) as (Pj & Kj & Nj).
        destruct (x_add_primitive_inv w ids_all nss_all req _ _ _ _ _ _ _ (r_obj j) Xa Pj Kj Nj) as (V2b & U1b & U2b & Xb & Ib & Incb & _).
        assert (Idj : ident (r_obj j) = r_obj j) by (destruct Ij as (n & r & E); now rewrite E).
        set (o' := mkOnto (Some i) (Some j) None None [] [] false).
        set (e1 := mkEnc (x_add_primitive (x_add_primitive (e_index e) (r_obj i)) (r_obj j)) (Some o') (e_cur e) (e_size e) (e_anon e) (e_store e) COWL_OK (e_out e)).
        erewrite eseq_ok.
        2:{ erewrite eseq_ok.
            2:{ unfold adder. rewrite (si_flush _ _ _ _ _ _ _ _ _ _ S0). reflexivity. }
            erewrite ecall_ok; [|reflexivity]. erewrite eseq_ok; [|reflexivity]. reflexivity. }
        destruct (flush_if_needed_ok false (add_all [DIri (r_obj i); DVersion (r_obj j)]) cov e1 v) as (e2 & v2 & R2 & S2 & Rm2).
        * exists V1, V2b, U1b, U2b, o'. pose proof (si_out _ _ _ _ _ _ _ _ _ _ S0). destruct S0. constructor; cbn [e_anon e_state e_index e_flush e_out e1]; auto.
          -- assert (Ep : pend o' = [DIri (r_obj i); DVersion (r_obj j)]) by reflexivity. constructor; rewrite ?Ep.
             ++ discriminate.
             ++ repeat constructor; auto.
             ++ intros d p [<-|[<-|[]]] M; cbn [part_obj] in M.
                ** apply Incb. destruct Ii as (n & r & E). rewrite E in *. apply mentions_occ in M as (_ & [<-|[]]). exact Ia.
                ** destruct Ij as (n & r & E). rewrite E in *. apply mentions_occ in M as (_ & [<-|[]]). exact Ib.
          -- intros k. specialize (si_same0 k). rewrite pend_empty in si_same0. rewrite filter_app in *. unfold dchange in *. cbn [map filter] in si_same0. rewrite app_nil_r in si_same0.
             rewrite si_same0, Rm. reflexivity.
          -- discriminate.
        * apply L2. cbn. lia.
        * exists e2, v2. split; [exact R2|]. split; [exact S2|congruence].
      + set (o' := mkOnto (Some i) None None None [] [] false).
        set (e1 := mkEnc (x_add_primitive (e_index e) (r_obj i)) (Some o') (e_cur e) (e_size e) (e_anon e) (e_store e) COWL_OK (e_out e)).
        erewrite eseq_ok.
        2:{ erewrite eseq_ok.
            2:{ unfold adder. rewrite (si_flush _ _ _ _ _ _ _ _ _ _ S0). reflexivity. }
            erewrite ecall_ok; [|reflexivity]. reflexivity. }
        destruct (flush_if_needed_ok false (add_all [DIri (r_obj i)]) cov e1 v) as (e2 & v2 & R2 & S2 & Rm2).
        * exists V1, V2a, U1a, U2a, o'. pose proof (si_out _ _ _ _ _ _ _ _ _ _ S0). destruct S0. constructor; cbn [e_anon e_state e_index e_flush e_out e1]; auto.
          -- assert (Ep : pend o' = [DIri (r_obj i)]) by reflexivity. constructor; rewrite ?Ep.
             ++ easy.
             ++ repeat constructor; auto.
             ++ intros d p [<-|[]] M; cbn [part_obj] in M.
                destruct Ii as (n & r & E). rewrite E in *. apply mentions_occ in M as (_ & [<-|[]]). exact Ia.
          -- intros k. specialize (si_same0 k). rewrite pend_empty in si_same0. rewrite filter_app in *. unfold dchange in *. cbn [map filter] in si_same0. rewrite app_nil_r in si_same0.
             rewrite si_same0, Rm. reflexivity.
          -- discriminate.
        * apply L2. cbn. lia.
        * exists e2, v2. split; [exact R2|]. split; [exact S2|congruence].
    - destruct j as [j|]; [exfalso; now apply Hj|]. cbn [opt_list map app].
      erewrite eseq_ok; [|reflexivity]. destruct (flush_if_needed_ok _ _ _ _ _ S0 (L2 [] (Nat.le_0_l 2))) as (e2 & v2 & R2 & S2 & Rm2).
      exists e2, v2. split; [exact R2|]. split; [now apply Sim_phase|congruence].
  Qed.

  Lemma stream_adds_ok mk mkd s l : (forall x, In x l -> objok (r_obj x) /\ wt s (r_obj x) = true /\ part_ok w (mkd x) /\ part_obj (mkd x) = r_obj x /\
      (forall o, o_indexing o = false -> exists o' l', o_step w o (mk x) = Some (o', 0%nat, l') /\ adds o o' (mkd x))) ->
    forall ask cov e v, Sim false ask cov e v -> v_rm v = false -> N.of_nat (List.length (ask ++ add_all (map mkd l))) < 2 ^ w ->
    exists e' v', stream_adds w mk l e = Some (COWL_OK, e') /\ Sim false (ask ++ add_all (map mkd l)) cov e' v' /\ v_rm v' = false.
  Proof.
    induction l as [|x l IH]; intros H ask cov e v S0 Rm La.
    - exists e, v. unfold add_all. cbn. rewrite app_nil_r. auto.
    - destruct (H x (or_introl eq_refl)) as (Ok & Wt & Pd & Ed & Hs).
      unfold add_all in La. cbn [map] in La. rewrite app_length in La. cbn [List.length] in La.
      destruct (stream_add_ok mk x (mkd x) s ask cov e v S0 Ok Wt Pd Ed Hs) as (e1 & v1 & R1 & S1 & Rm1).
      { rewrite app_length. cbn [List.length]. lia. }
      cbn [stream_adds]. rewrite (ecall_ok _ _ _ _ R1). rewrite Rm in S1. cbn [mode] in S1.
      destruct (IH (fun y Hy => H y (or_intror Hy)) _ _ e1 v1 S1) as (e2 & v2 & R2 & S2 & Rm2); [congruence| |].
      { rewrite !app_length. cbn [List.length]. unfold add_all. lia. }
      exists e2, v2. split; auto. split; auto. unfold add_all in *. cbn [map]. rewrite <- app_assoc in S2. exact S2.
  Qed.

  Lemma header_ok_run h e : e_anon e = true -> e_out e = out0 -> req = header_prefixes h -> header_ok w h ->
    (forall x, In x (passed_header h) -> objok x) -> N.of_nat (List.length (asked_header h)) < 2 ^ w ->
    exists e' v', write_header visit w h e = Some (COWL_OK, e') /\ Sim false (asked_header h) (fun n => exists p, In (p, n) req) e' v' /\ v_rm v' = false.
  Proof.
    intros An Eo Er Ho Ok La. unfold write_header. destruct (header_start e An Eo) as (e0 & R0 & S0).
    assert (Okr : forall x, In x (opt_list (h_iri h) ++ opt_list (h_version h) ++ h_imports h ++ h_annot h) -> objok (r_obj x)).
    { intros x Hx. apply Ok. unfold passed_header. now apply in_map. }
    (* prefixes *)
    assert (P1 : exists e1 v1, stream_prefixes visit w (h_pm h) e0 = Some (COWL_OK, e1) /\ Sim true [] (fun n => exists p, In (p, n) req) e1 v1 /\ v_rm v1 = false).
    { unfold header_prefixes in Er. destruct (h_pm h) as [t|] eqn:Et; cbn [stream_prefixes].
      - destruct (prefix_loop_ok [] (visit t)) with (cov := fun _ : bytes => False) (e := e0) (v := v_start) as (e1 & v1 & R1 & S1 & Rm1); auto.
        + assert (64 <= 2 ^ w); [|cbn; lia]. destruct W as [->| ->]; vm_compute; discriminate.
        + intros p ns H. rewrite Er. apply in_map_iff. exists (p, ns). split; auto. eapply Permutation_in; [apply visit_perm|exact H].
        + exists e1, v1. split; [|split; auto].
          * erewrite eseq_ok; [|exact R1]. unfold estate. destruct S1 as (? & ? & ? & ? & ? & S1). now rewrite (si_state _ _ _ _ _ _ _ _ _ _ S1).
          * eapply Sim_cov; [|exact S1]. intros n (p & H). rewrite Er in H. apply in_map_iff in H as ([p' n'] & En & H). inversion En; subst. right.
            exists p', n'. split; auto. eapply Permutation_in; [apply Permutation_sym, visit_perm|exact H].
      - exists e0, v_start. split; [reflexivity|]. split; auto. eapply Sim_cov; [|exact S0]. intros n (p & H). now rewrite Er in H. }
    destruct P1 as (e1 & v1 & R1 & S1 & Rm1).
    destruct (iri_version_ok (h_iri h) (h_version h) _ e1 v1 S1 Rm1) as (e2 & v2 & R2 & S2 & Rm2).
    { apply (ho_version _ _ Ho). }
    { intros x Hx. split; [apply (ho_iri _ _ Ho)|apply Okr]; rewrite !in_app_iff in *; tauto. }
    unfold asked_header in La. rewrite map_length, !app_length, !map_length in La.
    destruct (stream_adds_ok EAddImport (fun i => DImport (r_obj i)) (SOne SIri) (h_imports h)) with (2 := S2) as (e3 & v3 & R3 & S3 & Rm3); auto.
    { intros x Hx. assert (Hi : an_iri (r_obj x)) by (apply (ho_iri _ _ Ho); rewrite !in_app_iff; tauto).
      split; [apply Okr; rewrite !in_app_iff; tauto|]. split; [destruct Hi as (n & r & E); now rewrite E|]. split; [exact Hi|]. split; auto.
      intros o _. apply add_import. }
    { unfold add_all. rewrite app_length, !map_length, app_length, !map_length. lia. }
    destruct (stream_adds_ok EAddAnnot (fun i => DAnnot (r_obj i)) (SOne SAnnot) (h_annot h)) with (2 := S3) as (e4 & v4 & R4 & S4 & Rm4); auto.
    { intros x Hx. destruct (ho_annot _ _ Ho x Hx) as (Wt & St). split; [apply Okr; rewrite !in_app_iff; tauto|]. split; [exact Wt|]. split; [split; auto|]. split; auto.
      intros o _. now apply add_annots. }
    { unfold add_all. rewrite !app_length, !map_length, app_length, !map_length. lia. }
    exists e4, v4. split; [|split; auto].
    - erewrite eseq_ok.
      2:{ rewrite R0. rewrite (ecall_ok _ _ _ _ R1), (ecall_ok _ _ _ _ R2), (ecall_ok _ _ _ _ R3). exact R4. }
      unfold estate. destruct S4 as (? & ? & ? & ? & ? & S4). now rewrite (si_state _ _ _ _ _ _ _ _ _ _ S4).
    - eapply Sim_ask; [|exact S4]. intros k. unfold asked_header, add_all. rewrite !map_app, !filter_app, <- !app_assoc.
      match goal with |- _ = ?a ++ ?b => apply (eq_trans (y := [] ++ b)); [reflexivity|f_equal; symmetry; apply filter_none] end.
      intros y Hy. rewrite map_map in Hy. apply in_map_iff in Hy as (r & <- & _). now destruct k.
  Qed.

  (** * The calls after the header *)

  Variable visit_refs : list (obj * option (list ref)) -> list (obj * option (list ref)).
  Variable alive : obj -> bool.
  Notation w_step := (w_step visit visit_refs alive w).
  Notation w_run := (w_run visit visit_refs alive w).

  Lemma index_lists e v V1 V2 U1 U2 : index_inv (e_index e) (v_ns v) V1 V2 (v_ids v) U1 U2 ->
    ns_list e = v_ns v ++ V1 ++ V2 /\ id_list e = v_ids v ++ U1 ++ U2.
  Proof. intros X. split; [apply (t_list _ _ _ _ _ _ (xi_ns _ _ _ _ _ _ _ _ _ _ _ X))|apply (t_list _ _ _ _ _ _ (xi_id _ _ _ _ _ _ _ _ _ _ _ X))]. Qed.

  Lemma change_frame_ok t ask cov e v : Sim false ask cov e v -> N.of_nat (List.length ask) < 2 ^ w ->
    exists e' v', w_step (WChange t) e = Some (COWL_OK, e') /\ Sim false ask cov e' v' /\ mode (v_rm v') = t /\
      v_ns v' = ns_list e /\ v_ids v' = id_list e /\ ns_list e' = ns_list e /\ id_list e' = id_list e.
  Proof.
    intros (V1 & V2 & U1 & U2 & o & S0) La. destruct (flush_ok _ _ _ _ _ _ _ _ _ _ S0 La) as (e1 & v1 & R1 & S1 & En & Ei & Rm1).
    set (b := [match t with CHANGE_ADD => 0 | CHANGE_REMOVE => 1 end]).
    set (rm := match t with CHANGE_ADD => false | CHANGE_REMOVE => true end).
    set (e2 := e_to e1 (e_index e1) b). set (v2 := mkV (v_ns v1) (v_ids v1) rm (v_log v1)).
    assert (S2 : sim false ask cov e2 v2 [] [] [] [] (o_empty false)).
    { destruct S1. constructor; auto.
      - destruct si_out0 as (body & Eo & Eb). exists (body ++ b). split.
        + cbn [e2 e_to e_out]. rewrite Eo, <- app_assoc. reflexivity.
        + eapply eats_app; [exact Eb|]. apply eats_one. replace b with [if rm then 1 else 0] by (unfold b, rm; now destruct t). apply frame_mode.
      - easy. }
    destruct (index_lists _ _ _ _ _ _ (si_index _ _ _ _ _ _ _ _ _ _ S0)) as (A1 & A2).
    destruct (index_lists _ _ _ _ _ _ (si_index _ _ _ _ _ _ _ _ _ _ S2)) as (B1 & B2). cbn [v_ns v_ids v2] in B1, B2. rewrite !app_nil_r in B1, B2.
    exists e2, v2. split; [|split; [unfold Sim; eauto 8|split; [unfold v2, rm; cbn; now destruct t|]]].
    - cbn [ModelPrtWriter.w_step]. unfold write_change_frame. erewrite eseq_ok; [|exact R1]. unfold write_ctrl_frame.
      erewrite eseq_ok; [|now apply (emit_ok _ _ b)]. unfold estate. fold e2. now rewrite (si_state _ _ _ _ _ _ _ _ _ _ S2).
    - cbn [v_ns v_ids v2]. rewrite B1, B2, A1, A2, En, Ei. auto.
  Qed.

  Lemma reset_frame_ok p ask cov e v : Sim false ask cov e v -> N.of_nat (List.length ask) < 2 ^ w ->
    exists e' v', w_step (WReset p) e = Some (COWL_OK, e') /\ Sim false ask cov e' v' /\ v_rm v' = v_rm v /\
      v_ns v' = (if p then std_list else ns_list e) /\ v_ids v' = [] /\ ns_list e' = v_ns v' /\ id_list e' = [].
  Proof.
    intros (V1 & V2 & U1 & U2 & o & S0) La. destruct (flush_ok _ _ _ _ _ _ _ _ _ _ S0 La) as (e1 & v1 & R1 & S1 & En & Ei & Rm1).
    destruct (reset_ok _ _ _ _ _ p S1) as (e2 & R2 & S2 & _).
    destruct (index_lists _ _ _ _ _ _ (si_index _ _ _ _ _ _ _ _ _ _ S0)) as (A1 & A2).
    destruct (index_lists _ _ _ _ _ _ (si_index _ _ _ _ _ _ _ _ _ _ S2)) as (B1 & B2). cbn [v_ns v_ids] in B1, B2. rewrite !app_nil_r in B1, B2.
    exists e2. eexists. split; [|split; [unfold Sim; eauto 8|]].
    - cbn [ModelPrtWriter.w_step]. unfold write_reset. erewrite eseq_ok; [|exact R1].
      unfold eseq, ebind in *. destruct (write_reset_frame p true e1) as [[u e3]|]; [|discriminate]. rewrite R2. unfold estate.
      now rewrite (si_state _ _ _ _ _ _ _ _ _ _ S2).
    - cbn [v_rm v_ns v_ids]. split; [exact Rm1|]. rewrite A1, <- En. auto.
  Qed.

  Lemma step_ok c t ask cov e v : call_ok w c -> (forall o, In o (passed_body [c]) -> objok o) -> Sim false ask cov e v -> mode (v_rm v) = t ->
    N.of_nat (List.length (ask ++ asked_body t [c])) < 2 ^ w ->
    exists e' v', w_step c e = Some (COWL_OK, e') /\ Sim false (ask ++ asked_body t [c]) cov e' v' /\ mode (v_rm v') = mode_after t [c].
  Proof.
    intros Ck Ok S0 Em La. destruct c; cbn [call_ok] in Ck; try contradiction; cbn [asked_body mode_after] in *; rewrite ?app_nil_r in *.
    - destruct Ck as (Ax & St).
      destruct (stream_add_ok EAddAxiom a (DAxiom (r_obj a)) (SOne SAxiom) ask cov e v S0) as (e1 & v1 & R1 & S1 & Rm1); auto.
      + apply Ok. cbn. auto.
      + split; auto.
      + intros o Ix. now apply add_axioms.
      + now rewrite Em.
      + exists e1, v1. split; [exact R1|]. rewrite Em in S1. split; auto. congruence.
    - destruct (change_frame_ok t0 ask cov e v S0 La) as (e1 & v1 & R1 & S1 & Rm1 & _). eauto 8.
    - destruct (reset_frame_ok prefixes ask cov e v S0 La) as (e1 & v1 & R1 & S1 & Rm1 & _). exists e1, v1. split; auto. split; auto. congruence.
    - eexists. exists v. split; [reflexivity|]. split; [|auto]. destruct S0 as (V1 & V2 & U1 & U2 & o & S0). exists V1, V2, U1, U2, o.
      destruct S0. constructor; auto.
  Qed.

  Lemma run_ok body : forall t ask cov e v, Forall (call_ok w) body -> (forall o, In o (passed_body body) -> objok o) -> Sim false ask cov e v ->
    mode (v_rm v) = t -> N.of_nat (List.length (ask ++ asked_body t body)) < 2 ^ w ->
    exists rs e' v', w_run body e = Some (rs, e') /\ Forall (eq COWL_OK) rs /\ Sim false (ask ++ asked_body t body) cov e' v' /\ mode (v_rm v') = mode_after t body.
  Proof.
    induction body as [|c body IH]; intros t ask cov e v F Ok S0 Em La.
    - exists [], e, v. cbn [asked_body mode_after]. rewrite app_nil_r. split; [reflexivity|]. auto.
    - inversion F as [|? ? Fc F']; subst.
      assert (Ea : asked_body (mode (v_rm v)) (c :: body) = asked_body (mode (v_rm v)) [c] ++ asked_body (mode_after (mode (v_rm v)) [c]) body) by (destruct c; reflexivity).
      assert (Ed : mode_after (mode (v_rm v)) (c :: body) = mode_after (mode_after (mode (v_rm v)) [c]) body) by (destruct c; reflexivity).
      rewrite Ea, app_assoc in La |- *. rewrite Ed.
      destruct (step_ok c (mode (v_rm v)) ask cov e v Fc) as (e1 & v1 & R1 & S1 & Rm1); auto.
      { intros o H. apply Ok. unfold passed_body in *. cbn [flat_map] in *. rewrite app_nil_r in H. apply in_or_app; auto. }
      { rewrite app_length in La. lia. }
      destruct (IH (mode_after (mode (v_rm v)) [c]) (ask ++ asked_body (mode (v_rm v)) [c]) cov e1 v1 F') as (rs & e2 & v2 & R2 & Fr & S2 & Rm2); auto.
      { intros o H. apply Ok. unfold passed_body in *. cbn [flat_map]. apply in_or_app; auto. }
      exists (COWL_OK :: rs), e2, v2. split; [|split; [constructor; auto|auto]].
      cbn [ModelPrtWriter.w_run]. erewrite ebind_ok; [|exact R1]. erewrite ebind_ok; [|exact R2]. reflexivity.
  Qed.

  Lemma footer_ok ask cov e v : Sim false ask cov e v -> N.of_nat (List.length ask) < 2 ^ w ->
    exists e' v' body, w_step WFooter e = Some (COWL_OK, e') /\ e_out e' = out0 ++ 1 :: body ++ [3] /\ eats body v_start v' /\
      v_rm v' = v_rm v /\ same_changes (v_log v') ask /\ (forall t p ns, In (t, DPrefix p ns) (v_log v') -> t = CHANGE_ADD /\ In (p, ns) req) /\
      (forall ns, cov ns -> given (v_log v') ns).
  Proof.
    intros (V1 & V2 & U1 & U2 & o & S0) La. destruct (flush_ok _ _ _ _ _ _ _ _ _ _ S0 La) as (e1 & v1 & R1 & S1 & _ & _ & Rm1).
    destruct (si_out _ _ _ _ _ _ _ _ _ _ S1) as (body & Eo & Eb). eexists. exists v1, body. split; [|split; [|split; [|split; [|split; [|split]]]]].
    - cbn [ModelPrtWriter.w_step]. unfold write_footer. erewrite eseq_ok; [|exact R1]. unfold write_ctrl_frame.
      erewrite eseq_ok; [|now apply (emit_ok _ _ [3])]. reflexivity.
    - cbn [e_to e_out with_flush with_cur with_state with_index]. rewrite Eo, <- app_assoc. reflexivity.
    - exact Eb.
    - exact Rm1.
    - intros k. rewrite <- (si_same _ _ _ _ _ _ _ _ _ _ S1 k), pend_empty. cbn [map]. now rewrite app_nil_r.
    - apply S1.
    - intros ns H. destruct (si_cov _ _ _ _ _ _ _ _ _ _ S1 ns H) as [G|[]]. exact G.
  Qed.

  (** What reading the output of a session gives at any point. *)
  Lemma Sim_read ask cov e v : Sim false ask cov e v -> exists b s, e_out e = out0 ++ b /\ read_ontology w anon_id handler b = DRet tt s /\ sees s v.
  Proof.
    intros (V1 & V2 & U1 & U2 & o & S0). destruct (si_out _ _ _ _ _ _ _ _ _ _ S0) as (body & Eo & Eb).
    destruct (eats_read w anon_id handler body v [] Eb (or_introl eq_refl)) as (s & R & Sv). rewrite app_nil_r in R.
    exists (1 :: body), s. auto.
  Qed.
  Lemma Sim_tables ask cov e v : Sim false ask cov e v ->
    (forall p i, id_of e p = IAt i <-> nth_error (v_ids v) (N.to_nat i) = Some p) /\
    (forall n i, ns_of e n = IAt i <-> nth_error (v_ns v) (N.to_nat i) = Some n).
  Proof.
    intros (V1 & V2 & U1 & U2 & o & S0). pose proof (si_index _ _ _ _ _ _ _ _ _ _ S0) as X. split; intros.
    - apply (t_at _ _ _ _ _ _ (xi_id _ _ _ _ _ _ _ _ _ _ _ X)).
    - apply (t_at _ _ _ _ _ _ (xi_ns _ _ _ _ _ _ _ _ _ _ _ X)).
  Qed.
End Stream.
