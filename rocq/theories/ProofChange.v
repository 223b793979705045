(** Proofs about change handlers. *)

From Coq Require Import NArith ZArith List Bool Arith Lia Permutation.
From Verif Require Import Bytes ModelTypes ModelObject SpecObject ModelPrefixMap SpecPrefixMap ModelOntology SpecOntology.
From Verif Require Import ProofObject ProofIter ProofAxiom ProofOntology ProofOntologyQuery ProofOntologyHistory ProofOntologyTop.
From Verif Require Import ProofPrefixMap ProofPrefixRev ProofPrefixSafe ModelChange SpecChange.
Import ListNotations.

(** * The sequence of calls *)

Section Parts.
Context {S : Type}.
Variable h : part -> S -> option (S * ret).

Fixpoint run_parts (l : list part) (s : S) : option (S * ret) :=
  match l with
  | [] => Some (s, COWL_OK)
  | p :: l' => match h p s with
               | None => None
               | Some (s', r) => if should_stop r then Some (s', r) else run_parts l' s'
               end
  end.

Lemma run_parts_app l m s : run_parts (l ++ m) s = then_ (run_parts l s) (run_parts m).
Proof.
  revert s. induction l as [|p l IH]; intros s; simpl; auto.
  destruct (h p s) as [[s' r]|]; auto. destruct (should_stop r) eqn:E; auto. simpl. now rewrite E.
Qed.

Lemma run_parts_receives l s : receives h l s (run_parts l s).
Proof.
  revert s. induction l as [|p l IH]; intros s; simpl; [constructor|].
  destruct (h p s) as [[s' r]|] eqn:E; [|now constructor].
  destruct (should_stop r) eqn:Q.
  - eapply rcv_stop; eauto. intros ->. discriminate.
  - apply should_stop_false in Q. subst r. eapply rcv_next; eauto.
Qed.
End Parts.

Lemma handled_iter {S} (h : change_type -> part -> S -> option (S * ret)) t mk l (s : S) :
  handled (as_ires (deliver (handle_change h t mk) l (Some s))) = run_parts (h t) (map mk l) s.
Proof.
  revert s. induction l as [|a l IH]; intros s; [reflexivity|].
  cbn [map run_parts]. cbn [deliver].
  assert (Q : handle_change h t mk (Some s) a =
    match h t (mk a) s with None => (None, COWL_STOP) | Some (s', r) => (Some s', r) end) by reflexivity.
  rewrite Q. destruct (h t (mk a) s) as [[s' r]|]; [|reflexivity].
  destruct (should_stop r); [reflexivity|apply IH].
Qed.

Lemma handle_prefixes_parts {S} (h : change_type -> part -> S -> option (S * ret)) t es (s : S) :
  handle_prefixes h t es s = run_parts (h t) (map (fun e => PPrefix (fst e) (snd e)) es) s.
Proof.
  revert s. induction es as [|[k v] es IH]; intros s; simpl; auto.
  destruct (h t (PPrefix k v) s) as [[s' r]|]; auto. now rewrite IH.
Qed.

Lemma then_ext {S} (r : option (S * ret)) k k' : (forall s, k s = k' s) -> then_ r k = then_ r k'.
Proof. intros H. destruct r as [[s c]|]; simpl; auto. now rewrite H. Qed.

Lemma handle_field_parts {S} (h : change_type -> part -> S -> option (S * ret)) t mk i (s : S) k :
  then_ (handle_field h t mk i s) k =
  then_ (run_parts (h t) (match i with Some i => [mk i] | None => [] end) s) k.
Proof.
  destruct i as [i|]; simpl; auto. destruct (h t (mk i) s) as [[s' r]|]; simpl; auto.
  destruct (should_stop r) eqn:E; simpl; auto. now rewrite E.
Qed.

Lemma handle_ontology_parts visit {S} (h : change_type -> part -> S -> option (S * ret)) src t (s : S) :
  handle_ontology visit h src t s =
  run_parts (h t) (parts_of src (visit (fwd (x_pm src))) (all_ax (x_onto src))) s.
Proof.
  unfold handle_ontology, parts_of. rewrite run_parts_app, handle_prefixes_parts. apply then_ext. intros s1.
  rewrite run_parts_app, handle_field_parts.
  assert (E1 : match o_iri (x_onto src) with Some i => [PIri i] | None => [] end =
               match o_iri (x_onto src) with Some i => [PIri i] | None => [] end) by auto.
  apply then_ext. intros s2. rewrite run_parts_app, handle_field_parts. apply then_ext. intros s3.
  rewrite run_parts_app. unfold iterate_annot, iterate_imports.
  rewrite ref_loop, handled_iter. apply then_ext. intros s4.
  rewrite run_parts_app, ref_loop, handled_iter. apply then_ext. intros s5.
  now rewrite iterate_axioms_deliver, handled_iter.
Qed.

Theorem handler_receives visit {S} (h : change_type -> part -> S -> option (S * ret)) src t (s : S) :
  (forall l, Permutation (visit l) l) ->
  exists prefixes axioms, Permutation prefixes (fwd (x_pm src)) /\ contains (x_onto src) axioms /\
    receives (h t) (parts_of src prefixes axioms) s (handle_ontology visit h src t s).
Proof.
  intros V. exists (visit (fwd (x_pm src))), (all_ax (x_onto src)).
  split; [apply V|]. split; [apply contains_all|]. rewrite handle_ontology_parts. apply run_parts_receives.
Qed.

(** * Adding *)

Lemma o_run_app w es : forall o o1 rs1 l1 es' o2 rs2 l2, o_run w o es = Some (o1, rs1, l1) ->
  o_run w o1 es' = Some (o2, rs2, l2) -> o_run w o (es ++ es') = Some (o2, rs1 ++ rs2, l1 ++ l2).
Proof.
  induction es as [|e es IH]; intros o o1 rs1 l1 es' o2 rs2 l2 E1 E2; cbn [o_run app] in *.
  - injection E1 as <- <- <-. exact E2.
  - destruct (o_step w o e) as [[[o3 r3] l3]|]; [|discriminate].
    destruct (o_run w o3 es) as [[[o4 r4] l4]|] eqn:E; [|discriminate]. injection E1 as <- <- <-.
    erewrite IH by eassumption. simpl. now rewrite app_assoc.
Qed.

Lemma reached_step heap w o e o' r log : reached heap w o -> typed e -> in_heap heap e ->
  o_step w o e = Some (o', r, log) -> reached heap w o'.
Proof.
  intros (es & rs & lg & H & E) T I St. exists (es ++ [e]), (rs ++ [r]), (lg ++ log). split.
  - intros x Hx. apply in_app_iff in Hx as [Hx|[<-|[]]]; auto.
  - apply (o_run_app w es _ _ _ _ _ _ _ _ E). simpl. rewrite St. now rewrite app_nil_r.
Qed.

(** Objects an ontology holds have the right types. *)
Record held_ok (heap : N -> obj) (o : onto) : Prop := {
  ho_annots : forall a, In a (vec_data (o_annot o)) -> wt (SOne SAnnot) (r_obj a) = true /\ r_obj a = heap (r_id a);
  ho_imports : forall a, In a (vec_data (o_imports o)) -> wt (SOne SIri) (r_obj a) = true /\ r_obj a = heap (r_id a);
  ho_iri : forall a, o_iri o = Some a -> wt (SOne SIri) (r_obj a) = true /\ r_obj a = heap (r_id a);
  ho_version : forall a, o_version o = Some a -> wt (SOne SIri) (r_obj a) = true /\ r_obj a = heap (r_id a) }.

Lemma list_edit_in l e m y : list_edit l e m -> In y m -> In y l \/ e = Some (true, y).
Proof.
  intros L Hy. inversion L as [E|x E|x l1 z l2 E1 E2 E3 E|x E1 E]; subst; auto.
  - apply in_app_iff in Hy as [Hy|[->|[]]]; auto.
  - left. apply in_app_iff in Hy as [Hy|Hy]; apply in_app_iff; simpl; auto.
Qed.

Lemma held_ok_run heap w es : forall o o' rs log, Inv heap o -> o_indexing o = true -> history heap es -> held_ok heap o ->
  o_run w o es = Some (o', rs, log) -> held_ok heap o'.
Proof.
  induction es as [|e es IH]; intros o o' rs log I Ind H K E; cbn [o_run] in E.
  - now injection E as <- <- <-.
  - destruct (o_step w o e) as [[[o1 r1] l1]|] eqn:E1; [|discriminate].
    destruct (o_run w o1 es) as [[[o2 rs2] l2]|] eqn:E2; [|discriminate]. injection E as <- <- <-.
    apply history_cons in H as [[T H] Hs].
    destruct (step_spec heap w o e o1 r1 l1 I Ind T H E1) as [I1 D1 _ A1 M1 Ii Iv _ _ _].
    apply (IH o1 o2 rs2 l2 I1 D1 Hs); auto. destruct K as [Ka Km Ki Kv]. constructor.
    + intros a Ha. destruct (list_edit_in _ _ _ _ A1 Ha) as [Ha'|Q]; auto.
      destruct e; try discriminate; injection Q as Q; subst; simpl in T; split; auto; apply H; simpl; auto.
    + intros a Ha. destruct (list_edit_in _ _ _ _ M1 Ha) as [Ha'|Q]; auto.
      destruct e; try discriminate; injection Q as Q; subst; simpl in T; split; auto; apply H; simpl; auto.
    + intros a Ha. rewrite Ii in Ha. destruct e; auto. clear Ii. subst i. split; [exact T|]. apply H. simpl. auto.
    + intros a Ha. rewrite Iv in Ha. destruct e; auto. clear Iv. subst i. split; [exact T|]. apply H. simpl. auto.
Qed.

Lemma reached_held heap w o : reached heap w o -> held_ok heap o.
Proof.
  intros (es & rs & lg & H & E). refine (held_ok_run heap w es _ _ _ _ (inv_empty heap true) eq_refl H _ E).
  constructor; simpl; intros a Ha; [destruct Ha|destruct Ha|discriminate|discriminate].
Qed.

Section Add.
Variable heap : N -> obj.
Variable visit : tbl -> tbl.
Variable w : N.

(** An adding edit. *)
Lemma add_step x e : reached heap w (x_onto x) -> typed e -> in_heap heap e ->
  match e with EAddAxiom _ | EAddAnnot _ | EAddImport _ | ESetIri _ | ESetVersion _ => True | _ => False end ->
  exists x', on_ontology w x e = Some (x', COWL_OK) /\ reached heap w (x_onto x') /\ x_pm x' = x_pm x /\
    (exists r log, Step heap (x_onto x) e (x_onto x') r log).
Proof.
  intros R T H A. pose proof (reached_inv _ _ _ R) as [I Ind].
  destruct (step_total heap w (x_onto x) e I Ind T H) as (o' & r & log & E).
  { intros f ->. destruct A. }
  pose proof (step_spec heap w _ e o' r log I Ind T H E) as St.
  unfold on_ontology. rewrite E. exists (mkFull o' (x_pm x) (x_log x ++ log)). split; [|split; [|split]].
  - destruct St as [_ _ _ _ _ _ _ _ Res _]. destruct e; try (now destruct A); rewrite Res; reflexivity.
  - now apply (reached_step heap w (x_onto x) e o' r log).
  - reflexivity.
  - simpl. eauto.
Qed.

Definition same_but (x x' : full) (ax an im : list ref) (iri ver : option ref) : Prop :=
  reached heap w (x_onto x') /\ x_pm x' = x_pm x /\
  Permutation (all_ax (x_onto x')) (all_ax (x_onto x) ++ ax) /\
  vec_data (o_annot (x_onto x')) = vec_data (o_annot (x_onto x)) ++ an /\
  vec_data (o_imports (x_onto x')) = vec_data (o_imports (x_onto x)) ++ im /\
  o_iri (x_onto x') = (match iri with Some i => Some i | None => o_iri (x_onto x) end) /\
  o_version (x_onto x') = (match ver with Some i => Some i | None => o_version (x_onto x) end).

Lemma same_but_refl x : reached heap w (x_onto x) -> same_but x x [] [] [] None None.
Proof.
  intros R. split; [exact R|]. split; [reflexivity|]. rewrite !app_nil_r.
  split; [apply Permutation_refl|]. repeat split; reflexivity.
Qed.

Lemma same_but_trans x y z a1 n1 m1 i1 v1 a2 n2 m2 i2 v2 :
  same_but x y a1 n1 m1 i1 v1 -> same_but y z a2 n2 m2 i2 v2 ->
  same_but x z (a1 ++ a2) (n1 ++ n2) (m1 ++ m2) (match i2 with Some i => Some i | None => i1 end)
    (match v2 with Some i => Some i | None => v1 end).
Proof.
  intros (R1 & P1 & A1 & N1 & M1 & I1 & V1) (R2 & P2 & A2 & N2 & M2 & I2 & V2).
  split; [exact R2|]. split; [congruence|]. split; [|split; [|split; [|split]]].
  - rewrite A2, A1. now rewrite app_assoc.
  - rewrite N2, N1. now rewrite app_assoc.
  - rewrite M2, M1. now rewrite app_assoc.
  - rewrite I2, I1. destruct i2; auto.
  - rewrite V2, V1. destruct v2; auto.
Qed.

Lemma list_edit_none l m : list_edit l None m -> m = l.
Proof. intros L. inversion L; auto. Qed.
Lemma list_edit_add l x m : list_edit l (Some (true, x)) m -> m = l ++ [x].
Proof. intros L. inversion L; auto. Qed.

Ltac from_step St :=
  let K := fresh in let D := fresh in
  destruct St as (? & ? & [_ _ _ A1 M1 Ii Iv X1 _ _]); cbn [on_annots on_imports] in A1, M1; cbn beta iota in X1.

Lemma add_one x p : reached heap w (x_onto x) ->
  match p with
  | PPrefix _ _ => False
  | PAxiom a => is_axiom_object (r_obj a) /\ r_obj a = heap (r_id a)
  | PAnnot a => wt (SOne SAnnot) (r_obj a) = true /\ r_obj a = heap (r_id a)
  | PImport a | PIri a | PVersion a => wt (SOne SIri) (r_obj a) = true /\ r_obj a = heap (r_id a)
  end ->
  exists x', change_apply visit w CHANGE_ADD p x = Some (x', COWL_OK) /\
   same_but x x' (match p with PAxiom a => [a] | _ => [] end) (match p with PAnnot a => [a] | _ => [] end)
     (match p with PImport a => [a] | _ => [] end) (match p with PIri a => Some a | _ => None end)
     (match p with PVersion a => Some a | _ => None end).
Proof.
  intros R H. destruct p as [k v|i|i|i|a|a]; [destruct H| | | | |]; destruct H as [T C]; cbn [change_apply add_to_ontology].
  - destruct (add_step x (ESetIri (Some i)) R T) as (x' & E & R' & P & St); auto.
    { intros b [<-|[]]. exact C. }
    exists x'. split; auto. from_step St. apply list_edit_none in A1. apply list_edit_none in M1.
    split; auto. split; auto. rewrite X1, A1, M1, !app_nil_r. auto.
  - destruct (add_step x (ESetVersion (Some i)) R T) as (x' & E & R' & P & St); auto.
    { intros b [<-|[]]. exact C. }
    exists x'. split; auto. from_step St. apply list_edit_none in A1. apply list_edit_none in M1.
    split; auto. split; auto. rewrite X1, A1, M1, !app_nil_r. auto.
  - destruct (add_step x (EAddImport i) R T) as (x' & E & R' & P & St); auto.
    { intros b [<-|[]]. exact C. }
    exists x'. split; auto. from_step St. apply list_edit_none in A1. apply list_edit_add in M1.
    split; auto. split; auto. rewrite X1, A1, M1, !app_nil_r. auto.
  - destruct (add_step x (EAddAnnot a) R T) as (x' & E & R' & P & St); auto.
    { intros b [<-|[]]. exact C. }
    exists x'. split; auto. from_step St. apply list_edit_add in A1. apply list_edit_none in M1.
    split; auto. split; auto. rewrite X1, A1, M1, !app_nil_r. auto.
  - destruct (add_step x (EAddAxiom a) R T) as (x' & E & R' & P & St); auto.
    { intros b [<-|[]]. exact C. }
    exists x'. split; auto. from_step St. apply list_edit_none in A1. apply list_edit_none in M1.
    destruct X1 as [X1 _]. split; auto. split; auto. rewrite A1, M1, !app_nil_r. split; [|auto].
    rewrite X1. apply Permutation_cons_append.
Qed.

Lemma run_one h (p : part) x (x' : full) : h p x = Some (x', COWL_OK) -> run_parts h [p] x = Some (x', COWL_OK).
Proof. intros E. simpl. now rewrite E. Qed.

Lemma add_axioms l : forall x, reached heap w (x_onto x) ->
  (forall a, In a l -> is_axiom_object (r_obj a) /\ r_obj a = heap (r_id a)) ->
  exists x', run_parts (change_apply visit w CHANGE_ADD) (map PAxiom l) x = Some (x', COWL_OK) /\ same_but x x' l [] [] None None.
Proof.
  induction l as [|a l IH]; intros x R H.
  - exists x. split; [reflexivity|]. now apply same_but_refl.
  - destruct (add_one x (PAxiom a) R) as (x1 & E1 & B1); [apply H; simpl; auto|].
    destruct (IH x1) as (x2 & E2 & B2); [apply B1|intros b Hb; apply H; simpl; auto|].
    exists x2. split; [cbn [map run_parts]; rewrite E1; exact E2|exact (same_but_trans _ _ _ _ _ _ _ _ _ _ _ _ _ B1 B2)].
Qed.
Lemma add_annots l : forall x, reached heap w (x_onto x) ->
  (forall a, In a l -> wt (SOne SAnnot) (r_obj a) = true /\ r_obj a = heap (r_id a)) ->
  exists x', run_parts (change_apply visit w CHANGE_ADD) (map PAnnot l) x = Some (x', COWL_OK) /\ same_but x x' [] l [] None None.
Proof.
  induction l as [|a l IH]; intros x R H.
  - exists x. split; [reflexivity|]. now apply same_but_refl.
  - destruct (add_one x (PAnnot a) R) as (x1 & E1 & B1); [apply H; simpl; auto|].
    destruct (IH x1) as (x2 & E2 & B2); [apply B1|intros b Hb; apply H; simpl; auto|].
    exists x2. split; [cbn [map run_parts]; rewrite E1; exact E2|exact (same_but_trans _ _ _ _ _ _ _ _ _ _ _ _ _ B1 B2)].
Qed.
Lemma add_imports l : forall x, reached heap w (x_onto x) ->
  (forall a, In a l -> wt (SOne SIri) (r_obj a) = true /\ r_obj a = heap (r_id a)) ->
  exists x', run_parts (change_apply visit w CHANGE_ADD) (map PImport l) x = Some (x', COWL_OK) /\ same_but x x' [] [] l None None.
Proof.
  induction l as [|a l IH]; intros x R H.
  - exists x. split; [reflexivity|]. now apply same_but_refl.
  - destruct (add_one x (PImport a) R) as (x1 & E1 & B1); [apply H; simpl; auto|].
    destruct (IH x1) as (x2 & E2 & B2); [apply B1|intros b Hb; apply H; simpl; auto|].
    exists x2. split; [cbn [map run_parts]; rewrite E1; exact E2|exact (same_but_trans _ _ _ _ _ _ _ _ _ _ _ _ _ B1 B2)].
Qed.

(** The prefixes. *)
Lemma add_prefixes es : forall x, good (x_pm x) -> exists x' s r,
  run_parts (change_apply visit w CHANGE_ADD) (map (fun e => PPrefix (fst e) (snd e)) es) x = Some (x', COWL_OK) /\
  x_onto x' = x_onto x /\ x_pm x' = s /\ forall r0, exists r1, merge_loop (x_pm x) es true r0 = Some (s, r1) /\ (es = [] \/ r1 = r).
Proof.
  induction es as [|[k v] es IH]; intros x G.
  - exists x, (x_pm x), COWL_OK. split; [reflexivity|]. split; auto. split; auto. intros r0. exists r0. auto.
  - cbn [map fst snd run_parts change_apply add_to_ontology]. unfold add_prefix.
    destruct (add_good (x_pm x) k v true G) as (s1 & c & E & G1 & b & (Ho & Hm) & ->).
    assert (b = true) as -> by (destruct (fm (fwd (x_pm x)) (stx k)); tauto).
    destruct (IH (mkFull (x_onto x) s1 (x_log x)) G1) as (x' & s & r & E2 & O & P & M).
    destruct (M COWL_OK) as (r1 & M1 & _).
    exists x', s, r1. rewrite E. cbn [should_stop COWL_OK Z.eqb negb]. split; [exact E2|]. split; auto. split; auto.
    intros r0. exists r1. cbn [merge_loop]. rewrite E. cbn [Z.eqb COWL_OK]. auto.
Qed.
End Add.

Lemma pm_run_app visit ops : forall s s1 rs1 ops' s2 rs2, pm_run visit s ops = Some (s1, rs1) ->
  pm_run visit s1 ops' = Some (s2, rs2) -> pm_run visit s (ops ++ ops') = Some (s2, rs1 ++ rs2).
Proof.
  induction ops as [|o ops IH]; intros s s1 rs1 ops' s2 rs2 E1 E2; cbn [pm_run app] in *.
  - injection E1 as <- <-. exact E2.
  - destruct (pm_step visit s o) as [[s3 r3]|]; [|discriminate].
    destruct (pm_run visit s3 ops) as [[s4 r4]|] eqn:E; [|discriminate]. injection E1 as <- <-.
    erewrite IH by eassumption. reflexivity.
Qed.

Section Maps.
Variable visit : tbl -> tbl.
Hypothesis V : forall t, Permutation (visit t) t.

Lemma map_reached_good s : map_reached visit s -> good s /\ pinned_ok (fm (fwd s)).
Proof.
  intros (r & ops & s0 & c & rs & R & K & E0 & E). destruct (init_good r R) as (s0' & c' & E0' & G0 & M0).
  rewrite E0' in E0. injection E0 as -> ->. destruct (run_good visit V ops s0 K G0) as (s' & rs' & E' & G & A).
  rewrite E' in E. injection E as -> ->. split; auto. apply (a_run_pinned _ _ _ _ A).
  intros p n n' I Q. rewrite M0 in Q. exact (a_init_pinned p n n' I Q).
Qed.

Lemma map_reached_step s o s' r : map_reached visit s -> keeps o -> pm_step visit s o = Some (s', r) -> map_reached visit s'.
Proof.
  intros (r0 & ops & s0 & c & rs & R & K & E0 & E) Ko St. exists r0, (ops ++ [o]), s0, c, (rs ++ [r]).
  split; auto. split; [apply Forall_app; auto|]. split; auto.
  apply (pm_run_app visit ops _ _ _ _ _ _ E). simpl. now rewrite St.
Qed.

Lemma map_reached_merge s es s' r r0 : map_reached visit s -> distinct_keys es ->
  merge_loop s es true r0 = Some (s', r) -> map_reached visit s'.
Proof.
  revert s r0. induction es as [|[k v] es IH]; intros s r0 R D E; cbn [merge_loop] in E.
  - now injection E as <- <-.
  - destruct (pm_add s k v true) as [[s1 c]|] eqn:E1; [|discriminate].
    apply distinct_cons in D as [_ D]. refine (IH s1 _ _ D E).
    exact (map_reached_step s (PAdd k v true) s1 c R I E1).
Qed.

(** Every string with a reserved prefix is pinned. *)
Lemma ns_text_fm x p n : good (x_pm x) -> (ns_text x p n <-> fm (fwd (x_pm x)) p = n).
Proof.
  intros G. pose proof (answers_fm (x_pm x) (good_alive _ G)) as A. split.
  - intros (v & E & Q). destruct (A p) as (v' & E' & Q'). congruence.
  - intros <-. destruct (A p) as (v' & E' & Q'). exists v'. auto.
Qed.
End Maps.

Lemma deliver_annot o : delivers (fun S call s => iterate_annot call o s) (vec_data (o_annot o)).
Proof. apply delivers_intro. intros. apply ref_loop. Qed.
Lemma deliver_imports o : delivers (fun S call s => iterate_imports call o s) (vec_data (o_imports o)).
Proof. apply delivers_intro. intros. apply ref_loop. Qed.

Theorem feed_add heap visit w src dst : (forall t, Permutation (visit t) t) ->
  full_reached heap visit w src -> full_reached heap visit w dst ->
  exists dst', feed visit w src CHANGE_ADD dst = Some (dst', COWL_OK) /\ added src dst dst' /\ full_reached heap visit w dst'.
Proof.
  intros V [Rs Ms] [Rd Md]. unfold feed. rewrite handle_ontology_parts.
  destruct (map_reached_good visit V _ Ms) as [Gs Ps]. destruct (map_reached_good visit V _ Md) as [Gd _].
  pose proof (reached_held _ _ _ Rs) as [Ha Hm Hi Hv]. pose proof (reached_inv _ _ _ Rs) as [Is _].
  set (es := visit (fwd (x_pm src))).
  assert (De : distinct_keys es) by (apply visit_distinct; auto; apply Gs).
  destruct (add_prefixes heap visit w es dst Gd) as (x1 & s1 & c1 & E1 & O1 & P1 & M1).
  destruct (M1 COWL_NO) as (c2 & ML & _).
  destruct (merge_loop_good es true De _ COWL_NO Gd) as (s1' & c3 & ML' & G1 & b & (Mo & Mi & _) & _).
  rewrite ML in ML'. injection ML' as <- <-.
  assert (R1 : reached heap w (x_onto x1)) by now rewrite O1.
  unfold parts_of. rewrite run_parts_app, E1. cbn [then_ should_stop COWL_OK Z.eqb negb].
  rewrite run_parts_app.
  assert (X2 : exists x2, run_parts (change_apply visit w CHANGE_ADD) (match o_iri (x_onto src) with Some i => [PIri i] | None => [] end) x1 = Some (x2, COWL_OK) /\
    same_but heap w x1 x2 [] [] [] (o_iri (x_onto src)) None).
  { destruct (o_iri (x_onto src)) as [i|].
    - destruct (add_one heap visit w x1 (PIri i) R1 (Hi i eq_refl)) as (x2 & E2 & B2). exists x2. split; [now apply run_one|exact B2].
    - exists x1. split; [reflexivity|now apply same_but_refl]. }
  destruct X2 as (x2 & -> & B2). cbn [then_ should_stop COWL_OK Z.eqb negb]. rewrite run_parts_app.
  assert (X3 : exists x3, run_parts (change_apply visit w CHANGE_ADD) (match o_version (x_onto src) with Some i => [PVersion i] | None => [] end) x2 = Some (x3, COWL_OK) /\
    same_but heap w x2 x3 [] [] [] None (o_version (x_onto src))).
  { destruct (o_version (x_onto src)) as [i|].
    - destruct (add_one heap visit w x2 (PVersion i) (proj1 B2) (Hv i eq_refl)) as (x3 & E3 & B3). exists x3. split; [now apply run_one|exact B3].
    - exists x2. split; [reflexivity|apply same_but_refl; apply B2]. }
  destruct X3 as (x3 & -> & B3). cbn [then_ should_stop COWL_OK Z.eqb negb]. rewrite run_parts_app.
  destruct (add_annots heap visit w _ x3 (proj1 B3) Ha) as (x4 & -> & B4).
  cbn [then_ should_stop COWL_OK Z.eqb negb]. rewrite run_parts_app.
  destruct (add_imports heap visit w _ x4 (proj1 B4) Hm) as (x5 & -> & B5).
  cbn [then_ should_stop COWL_OK Z.eqb negb].
  destruct (add_axioms heap visit w (all_ax (x_onto src)) x5 (proj1 B5)) as (x6 & -> & B6).
  { intros a Hin. apply (all_ax_in _ heap a Is Hin). }
  pose proof (same_but_trans _ _ _ _ _ _ _ _ _ _ _ _ _ _ _ B2 B3) as C.
  pose proof (same_but_trans _ _ _ _ _ _ _ _ _ _ _ _ _ _ _ C B4) as C4.
  pose proof (same_but_trans _ _ _ _ _ _ _ _ _ _ _ _ _ _ _ C4 B5) as C5.
  pose proof (same_but_trans _ _ _ _ _ _ _ _ _ _ _ _ _ _ _ C5 B6) as C6.
  clear C C4 C5 B2 B3 B4 B5 B6. destruct C6 as (R6 & P6 & A6 & N6 & M6 & I6 & V6).
  rewrite O1 in A6, N6, M6, I6, V6. rewrite P1 in P6. simpl in A6, N6, M6, I6, V6. rewrite !app_nil_r in N6. rewrite !app_nil_r in M6.
  exists x6. split; [reflexivity|].
  assert (G6 : good (x_pm x6)) by now rewrite P6.
  split; [constructor|].
  - intros l m Cl Cm. apply contains_eq in Cl as ->. apply contains_eq in Cm as ->.
    exists (all_ax (x_onto x6)). split; [apply contains_all|exact A6].
  - intros l m Dl Dm. rewrite (delivers_unique _ _ _ Dl (deliver_annot _)), (delivers_unique _ _ _ Dm (deliver_annot _)).
    rewrite <- N6. apply deliver_annot.
  - intros l m Dl Dm. rewrite (delivers_unique _ _ _ Dl (deliver_imports _)), (delivers_unique _ _ _ Dm (deliver_imports _)).
    rewrite <- M6. apply deliver_imports.
  - rewrite I6. destruct (o_iri (x_onto src)); auto.
  - rewrite V6. destruct (o_version (x_onto src)); auto.
  - intros p a c Ta Tc. apply ns_text_fm in Ta; auto. apply ns_text_fm in Tc; auto. apply ns_text_fm; auto.
    rewrite P6. destruct a as [n|].
    + apply fm_some in Ta as (k & v & Ikv & <- & <-); [|apply Gs].
      assert (Ie : In (stx k, stx v) (map (fun e => (stx (fst e), stx (snd e))) es)).
      { apply in_map_iff. exists (k, v). split; auto. now apply visit_in. }
      destruct (Mi _ _ Ie) as (n' & Pn & ->). f_equal.
      destruct Pn as [Pn|[_ ->]]; auto. symmetry. apply (Ps (stx k) n' (stx v)); auto.
      apply fm_some; [apply Gs|]. eauto.
    + rewrite <- Tc. apply Mo. intros n Q. apply in_map_iff in Q as ([k v] & Q & Iq). injection Q as <- <-.
      apply (proj1 (visit_in visit V _ _)) in Iq. assert (Z : fm (fwd (x_pm src)) (stx k) = Some (stx v)) by (apply fm_some; [apply Gs|eauto]).
      simpl in Ta. congruence.
  - split; auto. rewrite P6. eapply map_reached_merge; eauto.
Qed.

(** * Removing *)

Theorem feed_remove_stops visit w src dst : (forall t, Permutation (visit t) t) ->
  map_reached visit (x_pm src) -> map_reached visit (x_pm dst) ->
  (exists p n, ns_text src p (Some n)) ->
  (forall p q n, ns_text src p (Some n) -> ns_text dst q (Some n) -> q = p) ->
  exists dst', feed visit w src CHANGE_REMOVE dst = Some (dst', COWL_NO) /\ x_onto dst' = x_onto dst.
Proof.
  intros V Ms Md (p0 & n0 & Ex) Inj. unfold feed. rewrite handle_ontology_parts.
  destruct (map_reached_good visit V _ Ms) as [Gs _]. destruct (map_reached_good visit V _ Md) as [Gd _].
  assert (NE : fwd (x_pm src) <> []).
  { apply ns_text_fm in Ex; auto. intros Q. rewrite Q in Ex. discriminate. }
  destruct (visit (fwd (x_pm src))) as [|[k v] es] eqn:E.
  { destruct NE. apply Permutation_nil. rewrite <- E. symmetry. apply Permutation_sym, V. }
  assert (Ik : In (k, v) (fwd (x_pm src))) by (apply (visit_in visit V); rewrite E; simpl; auto).
  assert (Tk : ns_text src (stx k) (Some (stx v))) by (apply ns_text_fm; auto; apply fm_some; [apply Gs|eauto]).
  unfold parts_of. cbn [map app run_parts fst snd change_apply remove_from_ontology]. unfold remove_prefix.
  destruct (remove_prefix_good visit (x_pm dst) (stx k) Gd) as (s1 & c1 & -> & G1 & S1a & S1b & S1c).
  destruct (remove_ns_good visit V s1 v G1) as (s2 & c2 & -> & G2 & _ & _ & S2c).
  assert (c2 = COWL_NO) as ->.
  { destruct S2c as [(_ & q & Q)|(-> & _)]; auto. exfalso.
    destruct (list_eq_dec N.eq_dec q (stx k)) as [->|Nq]; [congruence|].
    rewrite S1b in Q by auto. apply Nq, (Inj _ _ _ Tk). now apply ns_text_fm. }
  assert (Z.ltb c1 0 = false) as -> by (destruct S1c as [[-> _]|[-> _]]; reflexivity).
  cbn [should_stop COWL_NO Z.eqb negb]. eexists. split; reflexivity.
Qed.

Lemma bin_answer (l : list ref) a r : (r = 1 /\ (exists y, In y l /\ cowl_equals (r_obj a) (r_obj y) = true)) \/
  (r = 0 /\ (forall y, In y l -> cowl_equals (r_obj a) (r_obj y) = false)) ->
  (as_ret r = COWL_OK \/ as_ret r = COWL_NO) /\
  (as_ret r = COWL_NO <-> exists y, In y l /\ cowl_equals (r_obj a) (r_obj y) = true).
Proof.
  intros [[-> H]|[-> H]]; (split; [cbv; auto|]).
  - split; auto.
  - split; [discriminate|]. intros (y & J & E). rewrite H in E by auto. discriminate.
Qed.

Theorem single_remove heap visit w dst p : (forall t, Permutation (visit t) t) ->
  full_reached heap visit w dst -> part_ok heap p ->
  exists dst' r, change_apply visit w CHANGE_REMOVE p dst = Some (dst', r) /\ one_removed p dst dst' /\ removal_answer p dst r /\
    full_reached heap visit w dst'.
Proof.
  intros V [R M] OK. pose proof (reached_inv _ _ _ R) as [In0 Ind]. destruct (map_reached_good visit V _ M) as [G _].
  assert (D : forall e, (forall f, e <> ERemoveMatching f) -> typed e -> in_heap heap e -> exists x' r, on_ontology w dst e = Some (x', as_ret r) /\
    reached heap w (x_onto x') /\ x_pm x' = x_pm dst /\ exists log, Step heap (x_onto dst) e (x_onto x') r log).
  { intros e NM T H. destruct (step_total heap w (x_onto dst) e In0 Ind T H) as (o' & r & log & E); [intros f Q; now destruct (NM f)|].
    unfold on_ontology. rewrite E. eexists _, r. split; [reflexivity|]. split; [eapply reached_step; eauto|]. split; auto.
    exists log. eapply step_spec; eauto. }
  assert (AA : forall l, delivers (fun S call s => iterate_annot call (x_onto dst) s) l -> l = vec_data (o_annot (x_onto dst))).
  { intros l Q. exact (delivers_unique _ _ _ Q (deliver_annot _)). }
  assert (MM : forall l, delivers (fun S call s => iterate_imports call (x_onto dst) s) l -> l = vec_data (o_imports (x_onto dst))).
  { intros l Q. exact (delivers_unique _ _ _ Q (deliver_imports _)). }
  assert (PP : forall x' q a, x_pm x' = x_pm dst -> ns_text dst q a -> ns_text x' q a).
  { intros x' q a E (v & Q). exists v. now rewrite E. }
  assert (KK : forall e x' r, match e with ERemoveAxiom _ | ERemoveMatching _ | EAddAxiom _ => False | _ => True end ->
    (exists log, Step heap (x_onto dst) e (x_onto x') r log) -> forall l, contains (x_onto dst) l -> contains (x_onto x') l).
  { intros e x' r Q (log & [_ _ _ _ _ _ _ X1 _ _]) l C. apply contains_eq in C as ->. destruct e; try destruct Q; rewrite <- X1; apply contains_all. }
  destruct p as [k v|i|i|i|a|a]; cbn [change_apply remove_from_ontology].
  - unfold remove_prefix.
    destruct (remove_prefix_good visit (x_pm dst) (stx k) G) as (s1 & c1 & E1 & G1 & S1a & S1b & S1c).
    destruct (remove_ns_good visit V s1 v G1) as (s2 & c2 & E2 & G2 & S2a & S2b & S2c). rewrite E1, E2.
    eexists _, _. split; [reflexivity|]. split; [|split].
    + constructor; cbn [x_onto x_pm]; auto.
      * intros l C. exists l. split; auto. constructor.
      * intros l C. exists l. split; auto. constructor.
      * intros l C. exists l. auto.
      * intros q b Q. apply ns_text_fm in Q; auto. apply ns_text_fm; cbn [x_pm]; auto.
        destruct (bytes_eqb q (stx k)) eqn:EQ.
        { apply bytes_eqb_eq in EQ as ->. rewrite S2b; auto. rewrite S1a. discriminate. }
        assert (q <> stx k) by (intros ->; rewrite (proj2 (bytes_eqb_eq _ _) eq_refl) in EQ; discriminate).
        rewrite <- S1b in Q by auto. destruct b as [n|]; [|rewrite S2b; auto; congruence].
        destruct (bytes_eqb n (stx v)) eqn:EN.
        { apply bytes_eqb_eq in EN as ->. auto. }
        rewrite S2b; auto. intros Z. rewrite Z in Q. injection Q as <-. rewrite (proj2 (bytes_eqb_eq _ _) eq_refl) in EN. discriminate.
    + cbn. destruct S1c as [[-> _]|[-> _]]; cbn [Z.ltb COWL_OK COWL_NO]; cbn; destruct S2c as [[-> _]|[-> _]]; auto.
    + split; auto. cbn [x_pm]. eapply (map_reached_step visit s1 (PRemoveNs v)); [|exact I|exact E2].
      eapply (map_reached_step visit (x_pm dst) (PRemovePrefix (stx k))); [exact M|exact I|exact E1].
  - destruct (D (ESetIri None)) as (x' & r & E & R' & P & St); [discriminate|exact I|intros b []|].
    exists x', (as_ret r). split; auto. pose proof (KK (ESetIri None) x' r I St) as CC. destruct St as (log & [_ _ _ A1 M1 Ii Iv X1 X2 _]). cbn in A1, M1, X2. subst r.
    apply list_edit_none in A1. apply list_edit_none in M1. split; [|split; [reflexivity|split; auto; now rewrite P]].
    constructor; auto; intros l Q.
    + rewrite (AA _ Q), <- A1. eexists. split; [apply deliver_annot|constructor].
    + rewrite (MM _ Q), <- M1. eexists. split; [apply deliver_imports|constructor].
    + exists l. auto.
  - destruct (D (ESetVersion None)) as (x' & r & E & R' & P & St); [discriminate|exact I|intros b []|].
    exists x', (as_ret r). split; auto. pose proof (KK (ESetVersion None) x' r I St) as CC. destruct St as (log & [_ _ _ A1 M1 Ii Iv X1 X2 _]). cbn in A1, M1, X2. subst r.
    apply list_edit_none in A1. apply list_edit_none in M1. split; [|split; [reflexivity|split; auto; now rewrite P]].
    constructor; auto; intros l Q.
    + rewrite (AA _ Q), <- A1. eexists. split; [apply deliver_annot|constructor].
    + rewrite (MM _ Q), <- M1. eexists. split; [apply deliver_imports|constructor].
    + exists l. auto.
  - destruct OK as [T C]. destruct (D (ERemoveImport i)) as (x' & r & E & R' & P & St); [discriminate|exact T|intros b [<-|[]]; exact C|].
    exists x', (as_ret r). split; auto. pose proof (KK (ERemoveImport i) x' r I St) as CC. destruct St as (log & [_ _ _ A1 M1 Ii Iv X1 X2 _]). cbn in A1, M1, X2.
    apply list_edit_none in A1. apply bin_answer in X2. split; [|split; [|split; auto; now rewrite P]].
    + constructor; auto; intros l Q.
      * rewrite (AA _ Q), <- A1. eexists. split; [apply deliver_annot|constructor].
      * rewrite (MM _ Q). eexists. split; [apply deliver_imports|exact M1].
      * exists l. auto.
    + split; [apply X2|]. intros l Q. rewrite (MM _ Q). apply X2.
  - destruct OK as [T C]. destruct (D (ERemoveAnnot a)) as (x' & r & E & R' & P & St); [discriminate|exact T|intros b [<-|[]]; exact C|].
    exists x', (as_ret r). split; auto. pose proof (KK (ERemoveAnnot a) x' r I St) as CC. destruct St as (log & [_ _ _ A1 M1 Ii Iv X1 X2 _]). cbn in A1, M1, X2.
    apply list_edit_none in M1. apply bin_answer in X2. split; [|split; [|split; auto; now rewrite P]].
    + constructor; auto; intros l Q.
      * rewrite (AA _ Q). eexists. split; [apply deliver_annot|exact A1].
      * rewrite (MM _ Q), <- M1. eexists. split; [apply deliver_imports|constructor].
      * exists l. auto.
    + split; [apply X2|]. intros l Q. rewrite (AA _ Q). apply X2.
  - destruct OK as [T C]. destruct (D (ERemoveAxiom a)) as (x' & r & E & R' & P & St); [discriminate|exact T|intros b [<-|[]]; exact C|].
    exists x', (as_ret r). split; auto. destruct St as (log & [_ _ _ A1 M1 Ii Iv X1 X2 _]). cbn in A1, M1, X1.
    apply list_edit_none in A1. apply list_edit_none in M1. split; [|split; [|split; auto; now rewrite P]].
    + constructor; auto; intros l Q.
      * rewrite (AA _ Q), <- A1. eexists. split; [apply deliver_annot|constructor].
      * rewrite (MM _ Q), <- M1. eexists. split; [apply deliver_imports|constructor].
      * apply contains_eq in Q as ->. exists (all_ax (x_onto x')). split; [apply contains_all|].
        destruct X1 as [[X1 _]|[(N1 & _ & X1 & _)|(N1 & X1 & _)]].
        { split; auto. intros Z. destruct Z. eapply Permutation_in; [symmetry; exact X1|]. now left. }
        { split; auto. now intros Z. }
        { split; auto. intros Z. specialize (N1 a Z). rewrite equals_refl in N1. discriminate. }
    + assert (B : (r = 1 /\ (exists y, In y (all_ax (x_onto dst)) /\ cowl_equals (r_obj a) (r_obj y) = true)) \/
        (r = 0 /\ (forall y, In y (all_ax (x_onto dst)) -> cowl_equals (r_obj a) (r_obj y) = false))).
      { destruct X1 as [[X1 ->]|[(_ & Y & _ & ->)|(N1 & _ & ->)]]; auto. left. split; auto. exists a.
        split; [eapply Permutation_in; [symmetry; exact X1|now left]|apply equals_refl]. }
      apply bin_answer in B. split; [apply B|]. intros l Q. apply contains_eq in Q as ->. apply B.
Qed.
