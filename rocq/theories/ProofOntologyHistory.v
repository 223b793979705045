(** Whole histories of edits. *)

From Coq Require Import NArith ZArith List Bool Arith Lia Permutation Sorted.
From Verif Require Import Bytes ModelTypes ModelObject ModelHeader SpecObject SpecHeader.
From Verif Require Import ProofObject ProofIter ProofAxiom ProofHeader ModelOntology SpecOntology.
From Verif Require Import ProofOntology ProofOntologyQuery ProofOntologyEdit.
Import ListNotations.
Local Open Scope nat_scope.

(** * References *)

Lemma net_app id l m : net id (l ++ m) = (net id l + net id m)%Z.
Proof. induction l as [|[i|i] l IH]; simpl; lia. Qed.

Lemma copies_app id l m : copies id (l ++ m) = (copies id l + copies id m)%Z.
Proof. unfold copies. rewrite filter_app, app_length. lia. Qed.

Lemma copies_cons id a l : copies id (a :: l) = ((if N.eqb (r_id a) id then 1 else 0) + copies id l)%Z.
Proof. unfold copies. cbn [filter]. destruct (N.eqb (r_id a) id); cbn [length]; lia. Qed.

Lemma copies_nil id : copies id [] = 0%Z. Proof. reflexivity. Qed.

Lemma copies_perm id l m : Permutation l m -> copies id l = copies id m.
Proof. intros P. unfold copies. now rewrite (Permutation_length (filter_ext_perm _ _ _ P)). Qed.

Lemma net_releases id l : net id (map (fun a => Release (r_id a)) l) = (- copies id l)%Z.
Proof. induction l as [|a l IH]; auto. cbn [map net]. rewrite copies_cons, IH. destruct (N.eqb (r_id a) id); lia. Qed.

(** * Ordered lists *)

Lemma first_equal_spec l x :
  match first_equal l x with
  | Some i => exists l1 y l2, l = l1 ++ y :: l2 /\ i = length l1 /\ cowl_equals x (r_obj y) = true /\
      (forall z, In z l1 -> cowl_equals x (r_obj z) = false)
  | None => forall z, In z l -> cowl_equals x (r_obj z) = false
  end.
Proof.
  induction l as [|y l IH]; simpl; [now intros z []|]. destruct (cowl_equals x (r_obj y)) eqn:E.
  - exists [], y, l. repeat split; auto. now intros z [].
  - destruct (first_equal l x) as [i|]; simpl.
    + destruct IH as (l1 & z & l2 & -> & -> & E' & N). exists (y :: l1), z, l2. repeat split; auto. intros w [<-|Hw]; auto.
    + intros z [<-|Hz]; auto.
Qed.

Lemma remove_at_app l1 y l2 : remove_at (l1 ++ y :: l2) (length l1) = l1 ++ l2.
Proof.
  unfold remove_at. rewrite firstn_app, Nat.sub_diag, firstn_all, firstn_O, app_nil_r. f_equal.
  change (y :: l2) with ([y] ++ l2). rewrite app_assoc, skipn_app, skipn_all2; rewrite app_length; simpl; [|lia].
  now replace (length l1 + 1) with (S (length l1)) by lia; rewrite Nat.sub_diag.
Qed.

Lemma vector_ptr_remove_spec v x : exists v' b log, vector_ptr_remove v x = (v', b, log) /\
  list_edit (vec_data v) (Some (false, x)) (vec_data v') /\
  (b = true <-> exists y, In y (vec_data v) /\ cowl_equals (r_obj x) (r_obj y) = true) /\
  ((forall y, In y (vec_data v) -> cowl_equals (r_obj x) (r_obj y) = true -> x = y) ->
   forall id, net id log = (copies id (vec_data v') - copies id (vec_data v))%Z).
Proof.
  unfold vector_ptr_remove. destruct v as [l|].
  2:{ eexists _, _, _. split; [reflexivity|]. split; [apply le_absent; now intros z []|]. split.
      - split; [discriminate|]. now intros (y & [] & _).
      - intros _ id. simpl. lia. }
  unfold vector_remove. pose proof (first_equal_spec l (r_obj x)) as R. destruct (first_equal l (r_obj x)) as [i|].
  - destruct R as (l1 & y & l2 & -> & -> & E & N). eexists _, _, _. split; [reflexivity|].
    rewrite remove_at_app.
    assert (V : vec_data (if true && Nat.eqb (length (l1 ++ l2)) 0 then None else Some (l1 ++ l2)) = l1 ++ l2).
    { destruct (l1 ++ l2); reflexivity. }
    rewrite V. simpl vec_data. split; [|split].
    + now apply (le_remove _ x l1 y l2).
    + split; auto. intros _. exists y. split; auto. apply in_app_iff. simpl. auto.
    + intros U id. assert (x = y) as -> by (apply U; auto; apply in_app_iff; simpl; auto).
      simpl. rewrite !copies_app, copies_cons. destruct (N.eqb (r_id y) id); lia.
  - eexists _, _, _. split; [reflexivity|]. split; [now apply le_absent|]. split.
    + split; [discriminate|]. intros (y & Hy & E). rewrite R in E by auto. discriminate.
    + intros _ id. simpl. lia.
Qed.

(** * One step *)

Definition balanced (o o' : onto) (log : list ev) : Prop :=
  forall id, net id log = (copies id (stored o' (all_ax o')) - copies id (stored o (all_ax o)))%Z.

Record Step (heap : N -> obj) (o : onto) (e : edit) (o' : onto) (r : nat) (log : list ev) : Prop := {
  st_inv : Inv heap o';
  st_ind : o_indexing o' = true;
  st_keys : forall p, In p (keys (o_refs o')) <-> In p (keys (o_refs o)) \/
              exists a, (e = EAddAxiom a \/ e = EAddAnnot a) /\ In p (occ (r_obj a));
  st_annots : list_edit (vec_data (o_annot o)) (on_annots e) (vec_data (o_annot o'));
  st_imports : list_edit (vec_data (o_imports o)) (on_imports e) (vec_data (o_imports o'));
  st_iri : o_iri o' = match e with ESetIri i => i | _ => o_iri o end;
  st_version : o_version o' = match e with ESetVersion i => i | _ => o_version o end;
  st_axioms : match e with
    | EAddAxiom a => Permutation (all_ax o') (a :: all_ax o) /\ r = 0
    | ERemoveAxiom a =>
        (Permutation (all_ax o) (a :: all_ax o') /\ r = 1) \/
        (~ In a (all_ax o) /\ (exists b, In b (all_ax o) /\ cowl_equals (r_obj a) (r_obj b) = true) /\
         all_ax o' = all_ax o /\ r = 1) \/
        ((forall b, In b (all_ax o) -> cowl_equals (r_obj a) (r_obj b) = false) /\ all_ax o' = all_ax o /\ r = 0)
    | ERemoveMatching f => exists gone, Permutation (all_ax o) (gone ++ all_ax o') /\
        (forall a, In a gone -> satisfies f a) /\ r = length gone /\ (f_prims f = [] -> gone = [])
    | _ => all_ax o' = all_ax o
    end;
  st_result : match e with
    | ERemoveAnnot x => r = 1 /\ (exists y, In y (vec_data (o_annot o)) /\ cowl_equals (r_obj x) (r_obj y) = true) \/
                        r = 0 /\ (forall y, In y (vec_data (o_annot o)) -> cowl_equals (r_obj x) (r_obj y) = false)
    | ERemoveImport x => r = 1 /\ (exists y, In y (vec_data (o_imports o)) /\ cowl_equals (r_obj x) (r_obj y) = true) \/
                        r = 0 /\ (forall y, In y (vec_data (o_imports o)) -> cowl_equals (r_obj x) (r_obj y) = false)
    | EAddAxiom _ | EAddAnnot _ | EAddImport _ | ESetIri _ | ESetVersion _ => r = 0
    | ERemoveAxiom _ | ERemoveMatching _ => True
    end;
  st_log : match e with
    | ERemoveAxiom a => In a (all_ax o) \/ (forall b, In b (all_ax o) -> cowl_equals (r_obj a) (r_obj b) = false)
    | ERemoveAnnot x => forall y, In y (vec_data (o_annot o)) -> cowl_equals (r_obj x) (r_obj y) = true -> x = y
    | ERemoveImport x => forall y, In y (vec_data (o_imports o)) -> cowl_equals (r_obj x) (r_obj y) = true -> x = y
    | _ => True
    end -> balanced o o' log
}.

Lemma result_of (b : bool) (l : list ref) x :
  (b = true <-> exists y, In y l /\ cowl_equals x (r_obj y) = true) ->
  (if b then 1 else 0) = 1 /\ (exists y, In y l /\ cowl_equals x (r_obj y) = true) \/
  (if b then 1 else 0) = 0 /\ (forall y, In y l -> cowl_equals x (r_obj y) = false).
Proof.
  intros H. destruct b; [left; split; auto; now apply H|]. right. split; auto. intros y Hy.
  destruct (cowl_equals x (r_obj y)) eqn:E; auto. destruct H as [_ H]. exfalso. assert (false = true); [|discriminate]. apply H. eauto.
Qed.

Lemma same_keys (e : edit) (m m' : list obj) : m' = m ->
  (forall a, e <> EAddAxiom a /\ e <> EAddAnnot a) ->
  forall p, In p m' <-> In p m \/ exists a, (e = EAddAxiom a \/ e = EAddAnnot a) /\ In p (occ (r_obj a)).
Proof.
  intros -> N p. split; auto. intros [H|(a & [E|E] & _)]; auto; exfalso; destruct (N a) as [N1 N2]; [now apply N1|now apply N2].
Qed.

Lemma copies_opt id (i : option ref) : copies id (match i with Some x => [x] | None => [] end) =
  match i with Some x => if N.eqb (r_id x) id then 1%Z else 0%Z | None => 0%Z end.
Proof. destruct i; auto. rewrite copies_cons, copies_nil. now destruct (N.eqb (r_id r) id). Qed.

Lemma set_field_net old new id : net id (snd (set_field old new)) =
  (copies id (match new with Some x => [x] | None => [] end) - copies id (match old with Some x => [x] | None => [] end))%Z.
Proof.
  rewrite !copies_opt. unfold set_field. simpl. rewrite net_app.
  destruct old as [x|], new as [y|]; simpl; try destruct (N.eqb (r_id x) id); try destruct (N.eqb (r_id y) id); lia.
Qed.

Ltac frame :=
  cbn [o_annot o_imports o_iri o_version on_annots on_imports];
  first [ assumption | reflexivity | congruence | apply le_none
        | match goal with H : ?x = ?y |- list_edit (vec_data ?y) None (vec_data ?x) => rewrite H; apply le_none end
        | match goal with H : ?x = ?y |- list_edit (vec_data ?y) _ (vec_data ?x) => rewrite H; apply le_none end ].

Lemma step_spec heap w o e o' r log : Inv heap o -> o_indexing o = true -> typed e -> in_heap heap e ->
  o_step w o e = Some (o', r, log) -> Step heap o e o' r log.
Proof.
  intros I Ind T H E. destruct e as [a|a|f|a|a|i|i|i|i]; simpl in T; unfold o_step in E.
  - (* add axiom *)
    destruct (add_axiom_spec heap o a I T (H a (or_introl eq_refl))) as (o1 & E1 & I1 & P1 & D1 & A1 & M1 & N1 & V1 & K1).
    rewrite E1 in E. injection E as <- <- <-. specialize (K1 Ind).
    constructor; try frame; auto.
    + intros p. rewrite K1. split.
      * intros [X|X]; auto. right. eauto.
      * intros [X|(b & [[= <-]|[=]] & X)]; auto.
    + intros _ id. unfold stored. rewrite A1, M1, N1, V1, !copies_app, (copies_perm id _ _ P1), copies_cons. simpl net. lia.
  - (* remove axiom *)
    destruct (remove_axiom_spec heap o a I T (H a (or_introl eq_refl))) as [(Ha & o1 & E1 & R1)|[(Na & Eq & o1 & v & E1 & R1 & Tv & NI)|(Ne & E1)]].
    + rewrite E1 in E. injection E as <- <- <-.
      destruct (remove_and_unindex_in heap o a I Ha) as (o2 & R2 & I2 & P2 & D2 & A2 & M2 & N2 & V2 & K2 & _).
      rewrite R1 in R2. injection R2 as ->. constructor; try frame; auto.
      * apply same_keys; auto. intros b. split; discriminate.
      * intros _ id. unfold stored. rewrite A2, M2, N2, V2, !copies_app, (copies_perm id _ _ P2), copies_cons. simpl net.
        destruct (N.eqb (r_id a) id); lia.
    + rewrite E1 in E. injection E as <- <- <-.
      destruct (remove_and_unindex_out heap o a v I T Tv NI) as (o2 & R2 & I2 & P2 & D2 & A2 & M2 & N2 & V2 & K2 & _).
      rewrite R1 in R2. injection R2 as ->. constructor; try frame; auto.
      * apply same_keys; auto. intros b. split; discriminate.
      * right. left. auto.
      * intros [X|X]; [now apply Na in X|]. destruct Eq as (b & Hb & Eb). rewrite X in Eb by auto. discriminate.
    + rewrite E1 in E. injection E as <- <- <-. constructor; try frame; auto.
      * apply same_keys; auto. intros b. split; discriminate.
      * intros _ id. simpl net. lia.
  - (* bulk *)
    destruct (remove_axioms_matching_sound heap w o f o' r log I Ind T E)
      as (gone & I1 & D1 & P1 & S1 & -> & -> & A1 & M1 & N1 & V1 & K1 & Z1).
    constructor; try frame; auto.
    + apply same_keys; auto. intros b. split; discriminate.
    + exists gone. auto.
    + intros _ id. unfold stored. rewrite A1, M1, N1, V1, !copies_app, (copies_perm id _ _ P1), copies_app, net_releases. lia.
  - (* add annotation *)
    destruct (add_annot_spec heap o a I T) as (o1 & E1 & I1 & P1 & D1 & A1 & M1 & N1 & V1 & K1).
    rewrite E1 in E. injection E as <- <- <-. constructor; try frame; auto.
    + intros p. rewrite K1. split.
      * intros [X|X]; auto. right. eauto.
      * intros [X|(b & [[=]|[= <-]] & X)]; auto.
    + rewrite A1. apply le_add.
    + intros _ id. unfold stored. rewrite A1, M1, N1, V1, P1, !copies_app. simpl vec_data.
      rewrite copies_app, copies_cons, copies_nil. simpl net. destruct (N.eqb (r_id a) id); lia.
  - (* remove annotation *)
    destruct (vector_ptr_remove_spec (o_annot o) a) as (v & b & lg & Ev & LE & Rb & Nb). rewrite Ev in E.
    injection E as <- <- <-. destruct (inv_other heap o (o_iri o) (o_version o) (o_imports o) v I) as [I1 A1].
    constructor; try frame; auto.
    + apply same_keys; auto. intros c. split; discriminate.
    + now apply result_of.
    + intros U id. unfold stored. cbn [o_annot o_imports o_iri o_version]. rewrite A1, !copies_app, (Nb U id). lia.
  - (* add import *)
    cbn [vector_ptr_add] in E. injection E as <- <- <-.
    destruct (inv_other heap o (o_iri o) (o_version o) (Some (vec_data (o_imports o) ++ [i])) (o_annot o) I) as [I1 A1].
    constructor; try frame; auto.
    + apply same_keys; auto. intros c. split; discriminate.
    + cbn [o_imports vec_data]. apply le_add.
    + intros _ id. unfold stored. cbn [o_annot o_imports o_iri o_version vec_data].
      rewrite A1, !copies_app, copies_cons, copies_nil. simpl net. destruct (N.eqb (r_id i) id); lia.
  - (* remove import *)
    destruct (vector_ptr_remove_spec (o_imports o) i) as (v & b & lg & Ev & LE & Rb & Nb). rewrite Ev in E.
    injection E as <- <- <-. destruct (inv_other heap o (o_iri o) (o_version o) v (o_annot o) I) as [I1 A1].
    constructor; try frame; auto.
    + apply same_keys; auto. intros c. split; discriminate.
    + now apply result_of.
    + intros U id. unfold stored. cbn [o_annot o_imports o_iri o_version]. rewrite A1, !copies_app, (Nb U id). lia.
  - (* set IRI *)
    pose proof (fun id => set_field_net (o_iri o) i id) as SF. destruct (set_field (o_iri o) i) as [v lg] eqn:F.
    assert (v = i) as -> by (unfold set_field in F; congruence). injection E as <- <- <-.
    destruct (inv_other heap o i (o_version o) (o_imports o) (o_annot o) I) as [I1 A1].
    constructor; try frame; auto.
    + apply same_keys; auto. intros c. split; discriminate.
    + intros _ id. unfold stored. cbn [o_annot o_imports o_iri o_version]. specialize (SF id). simpl in SF.
      rewrite A1, !copies_app, SF. lia.
  - (* set version *)
    pose proof (fun id => set_field_net (o_version o) i id) as SF. destruct (set_field (o_version o) i) as [v lg] eqn:F.
    assert (v = i) as -> by (unfold set_field in F; congruence). injection E as <- <- <-.
    destruct (inv_other heap o (o_iri o) i (o_imports o) (o_annot o) I) as [I1 A1].
    constructor; try frame; auto.
    + apply same_keys; auto. intros c. split; discriminate.
    + intros _ id. unfold stored. cbn [o_annot o_imports o_iri o_version]. specialize (SF id). simpl in SF.
      rewrite A1, !copies_app, SF. lia.
Qed.

(** Only bulk removal can go wrong. *)
Lemma step_total heap w o e : Inv heap o -> o_indexing o = true -> typed e -> in_heap heap e ->
  (forall f, e = ERemoveMatching f -> supported (all_ax o) e) ->
  exists o' r log, o_step w o e = Some (o', r, log).
Proof.
  intros I Ind T H S. destruct e as [a|a|f|a|a|i|i|i|i]; simpl in T; unfold o_step.
  - destruct (add_axiom_spec heap o a I T (H a (or_introl eq_refl))) as (o1 & -> & _). eauto.
  - destruct (remove_axiom_spec heap o a I T (H a (or_introl eq_refl))) as [(_ & o1 & -> & _)|[(_ & _ & o1 & v & -> & _)|(_ & ->)]]; eauto.
  - destruct (S f eq_refl) as [NE One].
    destruct (remove_axioms_matching_complete heap w o f I Ind T NE One) as (o1 & c & l & -> & _). eauto.
  - destruct (add_annot_spec heap o a I T) as (o1 & -> & _). eauto.
  - destruct (vector_ptr_remove_spec (o_annot o) a) as (v & b & lg & -> & _). eauto.
  - simpl. eauto.
  - destruct (vector_ptr_remove_spec (o_imports o) i) as (v & b & lg & -> & _). eauto.
  - destruct (set_field (o_iri o) i). eauto.
  - destruct (set_field (o_version o) i). eauto.
Qed.

Lemma history_cons heap e es : history heap (e :: es) -> (typed e /\ in_heap heap e) /\ history heap es.
Proof. intros H. split; [apply H; simpl; auto|]. intros x Hx. apply H. simpl. auto. Qed.

(** * Runs *)

Lemma run_inv heap w es : forall o o' rs log, Inv heap o -> o_indexing o = true -> history heap es ->
  o_run w o es = Some (o', rs, log) ->
  Inv heap o' /\ o_indexing o' = true /\
  (forall p, In p (keys (o_refs o')) <-> In p (keys (o_refs o)) \/ exists x, ever_added es x /\ In p (occ x)) /\
  list_edits on_annots (vec_data (o_annot o)) es (vec_data (o_annot o')) /\
  list_edits on_imports (vec_data (o_imports o)) es (vec_data (o_imports o')).
Proof.
  induction es as [|e es IH]; intros o o' rs log I Ind H E; cbn [o_run] in E.
  - injection E as <- <- <-. split; auto. split; auto. split; [|split; constructor].
    intros p. split; auto. intros [X|(x & (e & [] & _) & _)]; auto.
  - destruct (o_step w o e) as [[[o1 r1] l1]|] eqn:E1; [|discriminate].
    destruct (o_run w o1 es) as [[[o2 rs2] l2]|] eqn:E2; [|discriminate]. injection E as <- <- <-.
    apply history_cons in H as [[T H] Hs].
    destruct (step_spec heap w o e o1 r1 l1 I Ind T H E1) as [I1 D1 K1 A1 M1 _ _ _ _ _].
    destruct (IH o1 o2 rs2 l2 I1 D1 Hs E2) as (I2 & D2 & K2 & A2 & M2).
    split; auto. split; auto. split; [|split; econstructor; eauto].
    intros p. rewrite K2, K1. split.
    + intros [[X|(a & Ea & X)]|(x & (e' & He & Ea) & X)]; auto.
      * right. exists (r_obj a). split; auto. exists e. split; [simpl; auto|]. destruct Ea; subst e; auto.
      * right. exists x. split; auto. exists e'. split; [simpl; auto|auto].
    + intros [X|(x & (e' & [<-|He] & Ea) & X)]; auto.
      * left. right. destruct e; try easy; subst x; eauto.
      * right. exists x. split; auto. exists e'. auto.
Qed.

Lemma matchb_dec heap o f : Inv heap o -> prims (f_prims f) ->
  forall a, In a (all_ax o) -> (matchb f a = true <-> satisfies f a).
Proof. intros I H a Ha. destruct (all_ax_in o heap a I Ha) as (_ & W & _). now apply filter_matches_spec. Qed.

Lemma filter_none {A} (f : A -> bool) l : (forall x, In x l -> f x = false) -> filter f l = [].
Proof. induction l as [|x l IH]; simpl; intros H; auto. rewrite H by auto. apply IH. auto. Qed.

Lemma split_unique (P : ref -> Prop) (b : ref -> bool) l g m g' m' :
  (forall a, In a l -> (b a = true <-> P a)) ->
  Permutation l (g ++ m) -> (forall a, In a g -> P a) -> (forall a, In a m -> ~ P a) ->
  Permutation l (g' ++ m') -> (forall a, In a g' -> P a) -> (forall a, In a m' -> ~ P a) ->
  Permutation m m' /\ length g = length g'.
Proof.
  intros D P1 G1 M1 P2 G2 M2.
  assert (X : forall g m, Permutation l (g ++ m) -> (forall a, In a g -> P a) -> (forall a, In a m -> ~ P a) ->
    Permutation (filter b l) g /\ Permutation (filter (fun a => negb (b a)) l) m).
  { intros h k PP G M.
    assert (In1 : forall a, In a (h ++ k) -> In a l) by (intros a; apply Permutation_in; symmetry; exact PP).
    assert (B1 : forall a, In a h -> b a = true).
    { intros a Ha. apply D; auto. apply In1, in_app_iff. auto. }
    assert (B2 : forall a, In a k -> b a = false).
    { intros a Ha. destruct (b a) eqn:E; auto. exfalso. apply (M a Ha), D; auto. apply In1, in_app_iff. auto. }
    rewrite (filter_ext_perm b _ _ PP), (filter_ext_perm (fun a => negb (b a)) _ _ PP), !filter_app.
    rewrite (filter_id b h), (filter_none b k) by auto.
    rewrite (filter_none (fun a => negb (b a)) h), (filter_id (fun a => negb (b a)) k).
    - rewrite app_nil_r. split; reflexivity.
    - intros a Ha. now rewrite B2.
    - intros a Ha. now rewrite B1. }
  destruct (X g m P1 G1 M1) as [Y1 Y2]. destruct (X g' m' P2 G2 M2) as [Z1 Z2]. split.
  - now rewrite <- Y2, <- Z2.
  - rewrite <- (Permutation_length Y1), <- (Permutation_length Z1). reflexivity.
Qed.

Lemma supported_perm l m e : Permutation l m -> supported l e -> supported m e.
Proof.
  intros P. assert (Q : forall a, In a l <-> In a m).
  { intros a. split; apply Permutation_in; [|symmetry]; exact P. }
  destruct e; simpl; auto.
  - intros [H|H]; [left; now apply Q|right; intros b Hb; apply H; now apply Q].
  - intros [NE H]. split; auto. intros a Ha. apply H. now apply Q.
Qed.

Lemma run_supported heap w es : forall o l l' os, Inv heap o -> o_indexing o = true -> history heap es ->
  Permutation (all_ax o) l -> supported_effects l es l' os ->
  exists o' rs log, o_run w o es = Some (o', rs, log) /\ Permutation (all_ax o') l' /\ as_documented rs os.
Proof.
  induction es as [|e es IH]; intros o l l' os I Ind H P S; inversion S as [|l0 e0 m r es0 l0' rs Sup Eff Rest]; subst.
  - exists o, [], []. split; auto. split; auto. constructor.
  - apply history_cons in H as [[T Hh] Hs].
    assert (Sup' : supported (all_ax o) e) by (eapply supported_perm; [symmetry; exact P|exact Sup]).
    destruct (step_total heap w o e I Ind T Hh (fun _ _ => Sup')) as (o1 & r1 & l1 & E1).
    pose proof (step_spec heap w o e o1 r1 l1 I Ind T Hh E1) as St.
    assert (G : Permutation (all_ax o1) m /\ match r with Some n => r1 = n | None => True end).
    { pose proof (st_axioms _ _ _ _ _ _ St) as Ax.
      assert (InP : forall a, In a l -> In a (all_ax o)) by (intros a; apply Permutation_in; symmetry; exact P).
      assert (InP' : forall a, In a (all_ax o) -> In a l) by (intros a; apply Permutation_in; exact P).
      destruct Eff as [a|a m Pm|a b m Na Pm Eb|a Nb|f gone m Pm Gs Ms|a|a|a|a|a|a]; cbn beta iota in Ax.
      - destruct Ax as [Ax ->]. split; auto. rewrite Ax. now apply perm_skip.
      - destruct Ax as [[Ax ->]|[(Na & _)|(Nb & _)]].
        + split; auto. apply (Permutation_cons_inv (a := a)). rewrite <- Ax, <- Pm. exact P.
        + exfalso. apply Na, InP. eapply Permutation_in; [symmetry; exact Pm|simpl; auto].
        + exfalso. assert (Ha : In a (all_ax o)) by (apply InP; eapply Permutation_in; [symmetry; exact Pm|simpl; auto]).
          specialize (Nb a Ha). rewrite equals_refl in Nb. discriminate.
      - exfalso. destruct Sup as [Ha|Nb]; [auto|].
        rewrite (Nb b) in Eb; [discriminate|]. eapply Permutation_in; [symmetry; exact Pm|simpl; auto].
      - destruct Ax as [[Ax ->]|[(_ & (b & Hb & Eb) & _)|(_ & -> & ->)]]; auto.
        + exfalso. assert (Ha : In a l) by (apply InP'; eapply Permutation_in; [symmetry; exact Ax|simpl; auto]).
          specialize (Nb a Ha). rewrite equals_refl in Nb. discriminate.
        + exfalso. rewrite Nb in Eb by auto. discriminate.
      - destruct Ax as (gone' & P' & Gs' & -> & _).
        destruct (split_unique (satisfies f) (matchb f) (all_ax o) gone' (all_ax o1) gone m) as [Q1 Q2]; auto.
        + apply (matchb_dec heap); auto.
        + simpl in Sup'. destruct Sup' as [NE One].
          destruct (remove_axioms_matching_complete heap w o f I Ind T NE One) as (o2 & c2 & l2 & E2 & N2).
          cbn [o_step] in E1. rewrite E2 in E1. injection E1 as -> _ _. exact N2.
        + now rewrite P.
      - rewrite Ax. auto.
      - rewrite Ax. auto.
      - rewrite Ax. auto.
      - rewrite Ax. auto.
      - rewrite Ax. auto.
      - rewrite Ax. auto. }
    destruct G as [G1 G2].
    destruct (IH o1 m l' rs (st_inv _ _ _ _ _ _ St) (st_ind _ _ _ _ _ _ St) Hs G1 Rest) as (o' & rs' & log' & E2 & P2 & D2).
    cbn [o_run]. rewrite E1, E2. eexists _, _, _. split; [reflexivity|]. split; auto. constructor; auto.
Qed.

(** * References of a whole run *)

Definition from (es : list edit) (l : list ref) : Prop := forall y, In y l -> exists e, In e es /\ In y (passed e).

Lemma list_edit_from' es e l m on : In e es -> from es l -> (forall b x, on e = Some (b, x) -> In x (passed e)) ->
  list_edit l (on e) m -> from es m.
Proof.
  intros He F Hp L y Hy. inversion L as [E|x E|x l1 z l2 E1 E2 E3 E|x E1 E]; subst; auto.
  - apply in_app_iff in Hy as [Hy|[<-|[]]]; auto. exists e. split; auto. apply (Hp true). auto.
  - apply F. apply in_app_iff in Hy. apply in_app_iff. simpl. tauto.
Qed.

Lemma run_balanced heap w all es : forall o o' rs log, Inv heap o -> o_indexing o = true -> history heap es ->
  same_pointers all -> incl es all ->
  from all (all_ax o) -> from all (vec_data (o_annot o)) -> from all (vec_data (o_imports o)) ->
  o_run w o es = Some (o', rs, log) -> balanced o o' log.
Proof.
  induction es as [|e es IH]; intros o o' rs log I Ind H SP Inc F1 F2 F3 E; cbn [o_run] in E.
  - injection E as <- <- <-. intros id. simpl. lia.
  - destruct (o_step w o e) as [[[o1 r1] l1]|] eqn:E1; [|discriminate].
    destruct (o_run w o1 es) as [[[o2 rs2] l2]|] eqn:E2; [|discriminate]. injection E as <- <- <-.
    apply history_cons in H as [[T H] Hs].
    assert (He : In e all) by (apply Inc; simpl; auto).
    pose proof (step_spec heap w o e o1 r1 l1 I Ind T H E1) as St.
    assert (Q : balanced o o1 l1).
    { apply (st_log _ _ _ _ _ _ St). destruct e as [a|a|f|a|a|i|i|i|i]; auto.
      - destruct (st_axioms _ _ _ _ _ _ St) as [[P _]|[(Na & (b & Hb & Eb) & _)|(Nb & _)]]; auto.
        + left. eapply Permutation_in; [symmetry; exact P|simpl; auto].
        + destruct (F1 b Hb) as (e' & He' & Hp). assert (a = b) as <-; [|now apply Na in Hb].
          exact (SP (ERemoveAxiom a) e' a b He He' eq_refl Hp Eb).
      - intros y Hy Ey. destruct (F2 y Hy) as (e' & He' & Hp). exact (SP (ERemoveAnnot a) e' a y He He' eq_refl Hp Ey).
      - intros y Hy Ey. destruct (F3 y Hy) as (e' & He' & Hp). exact (SP (ERemoveImport i) e' i y He He' eq_refl Hp Ey). }
    assert (G1 : from all (all_ax o1)).
    { intros y Hy. pose proof (st_axioms _ _ _ _ _ _ St) as Ax. destruct e as [a|a|f|a|a|i|i|i|i]; try (rewrite Ax in Hy; auto; fail).
      - destruct Ax as [P _]. eapply Permutation_in in Hy; [|exact P]. destruct Hy as [<-|Hy]; auto.
        exists (EAddAxiom a). simpl. auto.
      - destruct Ax as [[P _]|[(_ & _ & X & _)|(_ & X & _)]].
        + apply F1. eapply Permutation_in; [symmetry; exact P|simpl; auto].
        + rewrite X in Hy. auto.
        + rewrite X in Hy. auto.
      - destruct Ax as (gone & P & _). apply F1. eapply Permutation_in; [symmetry; exact P|]. apply in_app_iff. auto. }
    assert (G2 : from all (vec_data (o_annot o1))).
    { refine (list_edit_from' all e _ _ on_annots He F2 _ (st_annots _ _ _ _ _ _ St)).
      intros b x. destruct e; simpl; intros [= <- <-]; auto. }
    assert (G3 : from all (vec_data (o_imports o1))).
    { refine (list_edit_from' all e _ _ on_imports He F3 _ (st_imports _ _ _ _ _ _ St)).
      intros b x. destruct e; simpl; intros [= <- <-]; auto. }
    assert (Q2 : balanced o1 o2 l2).
    { refine (IH o1 o2 rs2 l2 (st_inv _ _ _ _ _ _ St) (st_ind _ _ _ _ _ _ St) Hs SP _ G1 G2 G3 E2).
      intros x Hx. apply Inc. simpl. auto. }
    intros id. rewrite net_app, (Q id), (Q2 id). lia.
Qed.

Lemma free_net o id : net id (o_free o) = (- copies id (stored o (all_ax o)))%Z.
Proof.
  unfold o_free, stored, all_ax. rewrite !net_app, !copies_app, !net_releases.
  assert (X : net id (flat_map (fun t => map (fun a => Release (r_id a)) (vec_data (tindex o t))) all_axiom_types) =
              (- copies id (flat_map (fun t => vec_data (tindex o t)) all_axiom_types))%Z).
  { induction all_axiom_types as [|t l IH]; auto. simpl flat_map. rewrite net_app, copies_app, net_releases, IH. lia. }
  rewrite X. lia.
Qed.
