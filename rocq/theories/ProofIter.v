(** Proofs about iteration over primitives and operands. *)

From Coq Require Import NArith ZArith List Bool String Lia.
From Verif Require Import Bytes ModelTypes ModelObject SpecObject ProofObject.
Import ListNotations.
Local Open Scope N_scope.

(** Stop-aware fold. *)
Fixpoint deliver {S A} (call : S -> A -> S * ret) (l : list A) (s : S) : S * ret :=
  match l with
  | [] => (s, 0%Z)
  | x :: l' => let (s', r) := call s x in if should_stop r then (s', r) else deliver call l' s'
  end.

Definition as_ires {S} (p : S * ret) : ires S := IRet (fst p) (snd p).

Lemma should_stop_false r : should_stop r = false <-> r = 0%Z.
Proof. unfold should_stop. rewrite negb_false_iff. apply Z.eqb_eq. Qed.

Lemma should_stop_true r : should_stop r = true <-> r <> 0%Z.
Proof. unfold should_stop. rewrite negb_true_iff. apply Z.eqb_neq. Qed.

Lemma deliver_app {S A} (call : S -> A -> S * ret) l m s :
  deliver call (l ++ m) s =
  let (s', r) := deliver call l s in if should_stop r then (s', r) else deliver call m s'.
Proof.
  revert s; induction l as [|x l IH]; intros s; simpl; auto.
  destruct (call s x) as [s1 r1]. destruct (should_stop r1) eqn:E; [now rewrite E|apply IH].
Qed.

Lemma deliver_called {S A} (call : S -> A -> S * ret) l s :
  exists done rest, l = done ++ rest /\
    called call s done (fst (deliver call l s)) (snd (deliver call l s)) /\
    (snd (deliver call l s) = 0%Z -> rest = []).
Proof.
  revert s; induction l as [|x l IH]; intros s; simpl.
  - exists [], []. repeat split; auto. constructor.
  - destruct (call s x) as [s1 r1] eqn:E. destruct (should_stop r1) eqn:Es.
    + exists [x], l. apply should_stop_true in Es. repeat split; auto.
      * now constructor.
      * simpl. tauto.
    + apply should_stop_false in Es. subst r1.
      destruct (IH s1) as (d & rest & -> & Hc & Hr).
      exists (x :: d), rest. repeat split; auto. econstructor; eauto.
Qed.

Lemma delivers_intro {A} (run : forall S, (S -> A -> S * ret) -> S -> ires S) l :
  (forall S call (s : S), run S call s = as_ires (deliver call l s)) -> delivers run l.
Proof.
  intros H S call s. destruct (deliver_called call l s) as (d & r & -> & Hc & Hr).
  do 4 eexists. split; [reflexivity|]. split; [exact Hc|]. split; [|exact Hr]. rewrite H. reflexivity.
Qed.

Lemma iter_loop_deliver {S A B} (call : S -> B -> S * ret) (step : A -> S -> ires S) (sel : A -> list B) l :
  (forall x s, In x l -> step x s = as_ires (deliver call (sel x) s)) ->
  forall s, iter_loop step l s = as_ires (deliver call (flat_map sel l) s).
Proof.
  induction l as [|x l IH]; intros H s; simpl; auto.
  rewrite H by (simpl; auto). unfold as_ires at 1. rewrite deliver_app.
  destruct (deliver call (sel x) s) as [s' r]; simpl.
  destruct (should_stop r); auto. apply IH. intros; apply H; simpl; auto.
Qed.

(** Computable occurrence sequence. *)
Fixpoint occ (o : obj) : list obj :=
  match o with
  | OStr _ _ => []
  | OIri _ _ | OEnt _ _ _ | OAnon _ => [o]
  | OLit _ ns rem => [OEnt ET_DATATYPE ns rem]
  | OLang _ _ => [OEnt ET_DATATYPE rdf_ns (bs "langString")]
  | OVec _ l => flat_map occ l
  | OComp t fs opt _ =>
      flat_map occ fs ++
      match opt, t with
      | Some p, _ => occ p
      | None, (OT_CE_OBJ_SOME | OT_CE_OBJ_ALL) => [OEnt ET_CLASS owl_ns (bs "Thing")]
      | None, (OT_CE_DATA_SOME | OT_CE_DATA_ALL) => [OEnt ET_DATATYPE rdfs_ns (bs "Literal")]
      | None, _ => []
      end
  end.

Lemma Forall2_map_flat (R : obj -> list obj -> Prop) l :
  Forall (fun x => R x (occ x)) l -> Forall2 R l (map occ l).
Proof. induction 1; simpl; constructor; auto. Qed.

Lemma occ_occurrences o : occurrences o (occ o).
Proof.
  induction o as [i st|n r|e n r|i|v n r|v l|o l IH|t fs opt n IH IHo] using obj_ind'.
  - apply (occ_node _ []); simpl; auto.
  - apply (occ_prim (OIri n r) PT_IRI); reflexivity.
  - apply (occ_prim (OEnt e n r) (PT_ENT e)); reflexivity.
  - apply (occ_prim (OAnon i) PT_ANON_IND); reflexivity.
  - apply (occ_node _ [[_]]); simpl; auto. constructor; auto. eapply occ_prim; reflexivity.
  - apply (occ_node _ [[_]]); simpl; auto. constructor; auto. eapply occ_prim; reflexivity.
  - simpl. rewrite flat_map_concat_map. apply occ_node; simpl; auto. now apply Forall2_map_flat.
  - set (tl := match opt, t with
      | Some p, _ => [occ p]
      | None, (OT_CE_OBJ_SOME | OT_CE_OBJ_ALL) => [[OEnt ET_CLASS owl_ns (bs "Thing")]]
      | None, (OT_CE_DATA_SOME | OT_CE_DATA_ALL) => [[OEnt ET_DATATYPE rdfs_ns (bs "Literal")]]
      | None, _ => [] end).
    assert (E : occ (OComp t fs opt n) = List.concat (map occ fs ++ tl)).
    { rewrite concat_app, <- flat_map_concat_map. simpl. f_equal. unfold tl.
      destruct opt as [p|]; simpl; [now rewrite app_nil_r|]. destruct t; reflexivity. }
    rewrite E. apply occ_node; auto. apply Forall2_app; [now apply Forall2_map_flat|].
    unfold tl. destruct opt as [p|]; simpl.
    + constructor; auto.
    + destruct t; simpl; repeat constructor; eapply occ_prim; reflexivity.
Qed.

Lemma Forall2_det {A B} (R : A -> B -> Prop) l :
  Forall (fun x => forall y z, R x y -> R x z -> y = z) l -> forall m k, Forall2 R l m -> Forall2 R l k -> m = k.
Proof.
  induction 1; intros m k H1 H2; inversion H1; inversion H2; subst; auto. f_equal; auto.
Qed.

Lemma occurrences_prim_inv o k l : kind o = Some k -> occurrences o l -> l = [o].
Proof. intros K H; inversion H; subst; auto. congruence. Qed.

Lemma occurrences_node_inv o l : kind o = None -> occurrences o l ->
  exists ls, l = List.concat ls /\ Forall2 occurrences (components o) ls.
Proof. intros K H; inversion H; subst; [congruence|eauto]. Qed.

Lemma occurrences_node_det o l : kind o = None ->
  Forall (fun x => forall m, occurrences x m -> m = occ x) (components o) -> occurrences o l -> l = occ o.
Proof.
  intros K HF H. apply occurrences_node_inv in H as (ls & -> & H2); auto.
  destruct (occurrences_node_inv o _ K (occ_occurrences o)) as (ls' & -> & H2'). f_equal.
  apply (Forall2_det occurrences (components o)); auto.
  rewrite Forall_forall in *. intros x Hx y z Hy Hz. rewrite (HF x Hx y Hy), (HF x Hx z Hz). auto.
Qed.

Lemma occurrences_det o l : occurrences o l -> l = occ o.
Proof.
  revert l. induction o as [i st|n r|e n r|i|v n r|v l|o l IH|t fs opt n IH IHo] using obj_ind';
    intros m H.
  - eapply occurrences_node_det; eauto; simpl; auto.
  - now apply (occurrences_prim_inv _ PT_IRI) in H.
  - now apply (occurrences_prim_inv _ (PT_ENT e)) in H.
  - now apply (occurrences_prim_inv _ PT_ANON_IND) in H.
  - eapply occurrences_node_det; eauto; simpl; repeat constructor.
    intros k Hk. now apply (occurrences_prim_inv _ (PT_ENT ET_DATATYPE)) in Hk.
  - eapply occurrences_node_det; eauto; simpl; repeat constructor.
    intros k Hk. now apply (occurrences_prim_inv _ (PT_ENT ET_DATATYPE)) in Hk.
  - eapply occurrences_node_det; eauto.
  - eapply occurrences_node_det; eauto. simpl. apply Forall_app. split; auto.
    destruct opt as [p|]; [repeat constructor; eauto|].
    destruct t; repeat constructor; intros k Hk;
      first [now apply (occurrences_prim_inv _ (PT_ENT ET_DATATYPE)) in Hk|now apply (occurrences_prim_inv _ (PT_ENT ET_CLASS)) in Hk].
Qed.

(** * Iteration over primitives *)

Lemma enabled_pf flags o k : kind o = Some k -> enabled flags o = pf_has flags k.
Proof. unfold enabled, pf_has. intros ->. destruct k as [[]| |]; reflexivity. Qed.

Lemma iterate_pf_deliver {S} (call : S -> obj -> S * ret) flags k o s :
  kind o = Some k -> iterate_pf call k o flags s = as_ires (deliver call (filter (enabled flags) [o]) s).
Proof.
  intros K. unfold iterate_pf, iterator_call. simpl. rewrite (enabled_pf _ _ _ K).
  destruct (pf_has flags k); simpl; auto.
  destruct (call s o) as [s' r]. unfold as_ires. simpl. destruct (should_stop r) eqn:E; simpl; auto.
  apply should_stop_false in E. now subst.
Qed.

Lemma flat_map_filter {A B} (p : B -> bool) (f : A -> list B) l :
  flat_map (fun x => filter p (f x)) l = filter p (flat_map f l).
Proof. induction l; simpl; auto. rewrite filter_app. now f_equal. Qed.

Theorem iterate_deliver o : forall s, wt s o = true ->
  forall S (call : S -> obj -> S * ret) flags st,
  iterate_primitives call flags o st = as_ires (deliver call (filter (enabled flags) (occ o)) st).
Proof.
  induction o as [i st|n r|e n r|i|v n r|v l|o l IH|t fs opt n IH IHo] using obj_ind';
    intros s W S call flags st0.
  - discriminate.
  - now apply (iterate_pf_deliver call flags PT_IRI (OIri n r)).
  - now apply (iterate_pf_deliver call flags (PT_ENT e) (OEnt e n r)).
  - now apply (iterate_pf_deliver call flags PT_ANON_IND (OAnon i)).
  - now apply (iterate_pf_deliver call flags (PT_ENT ET_DATATYPE) (OEnt ET_DATATYPE n r)).
  - now apply (iterate_pf_deliver call flags (PT_ENT ET_DATATYPE) rdf_lang_string).
  - simpl. rewrite <- flat_map_filter. apply iter_loop_deliver.
    intros x s1 Hx. rewrite Forall_forall in IH.
    simpl in W. destruct s; try discriminate; apply andb_true_iff in W as [_ W];
      rewrite forallb_forall in W; eapply IH; eauto.
  - apply wt_comp_inv in W as (so & os & Hsig & Wfs & Wo & _).
    assert (Hfs : forall x, In x fs -> forall S (call : S -> obj -> S * ret) flags st,
      iterate_primitives call flags x st = as_ires (deliver call (filter (enabled flags) (occ x)) st)).
    { intros x Hx. rewrite Forall_forall in IH. destruct (Forall2_in_l _ _ _ _ Wfs Hx) as (sx & _ & Wx).
      eapply IH; eauto. }
    assert (Hopt : forall p, opt = Some p -> forall S (call : S -> obj -> S * ret) flags st,
      iterate_primitives call flags p st = as_ires (deliver call (filter (enabled flags) (occ p)) st)).
    { intros p E. specialize (Wo p E). destruct os; try (now destruct Wo); eapply IHo; eauto. }
    assert (Hloop : forall s, iter_loop (fun x s => iterate_primitives call flags x s) fs s =
       as_ires (deliver call (filter (enabled flags) (flat_map occ fs)) s)).
    { intros s1. rewrite <- flat_map_filter. apply iter_loop_deliver. intros; auto. }
    assert (Hgen : forall tl, (match opt with Some p => occ p | None => [] end) = tl ->
      match iter_loop (fun x s => iterate_primitives call flags x s) fs st0 with
      | IUB => IUB
      | IRet s' r => if should_stop r then IRet s' r else
          match opt with None => IRet s' COWL_CONTINUE | Some p => iterate_primitives call flags p s' end
      end = as_ires (deliver call (filter (enabled flags) (flat_map occ fs ++ tl)) st0)).
    { intros tl <-. rewrite Hloop, filter_app, deliver_app. unfold as_ires at 1.
      destruct (deliver call (filter (enabled flags) (flat_map occ fs)) st0) as [s1 r1]; simpl.
      destruct (should_stop r1); auto. destruct opt as [p|]; [now rewrite Hopt|reflexivity]. }
    assert (Hq : forall pt dflt, kind dflt = Some pt -> List.length fs = 1%nat ->
      match fs with
      | [] => IUB
      | p :: _ =>
          match iterate_primitives call flags p st0 with
          | IUB => IUB
          | IRet s' r => if should_stop r then IRet s' r else
              match opt with Some f => iterate_primitives call flags f s' | None => iterate_pf call pt dflt flags s' end
          end
      end = as_ires (deliver call (filter (enabled flags) (flat_map occ fs ++ match opt with Some p => occ p | None => [dflt] end)) st0)).
    { intros pt dflt K Hl. destruct fs as [|p [|? ?]]; try discriminate.
      rewrite (Hfs p (or_introl eq_refl)). simpl flat_map. rewrite app_nil_r, filter_app, deliver_app.
      unfold as_ires at 1.
      destruct (deliver call (filter (enabled flags) (occ p)) st0) as [s1 r1]; simpl.
      destruct (should_stop r1); auto. destruct opt as [q|]; [now apply Hopt|].
      now apply iterate_pf_deliver. }
    apply Forall2_len in Wfs.
    destruct t; simpl; try (destruct opt; apply Hgen; reflexivity);
      simpl in Hsig; inversion Hsig; subst so; simpl in Wfs;
      (destruct opt; [rewrite (Hq _ _ (eq_refl : kind owl_thing = Some (PT_ENT ET_CLASS)) Wfs) ||
                      rewrite (Hq _ _ (eq_refl : kind rdfs_literal = Some (PT_ENT ET_DATATYPE)) Wfs)
                     |rewrite (Hq _ _ (eq_refl : kind owl_thing = Some (PT_ENT ET_CLASS)) Wfs) ||
                      rewrite (Hq _ _ (eq_refl : kind rdfs_literal = Some (PT_ENT ET_DATATYPE)) Wfs)]; reflexivity).
Qed.

Theorem iterate_delivers o l : well_formed o -> occurrences o l -> forall flags,
  delivers (fun S call s => iterate_primitives call flags o s) (filter (enabled flags) l).
Proof.
  intros [s W] Ho flags. apply occurrences_det in Ho. subst l.
  apply delivers_intro. intros. eapply iterate_deliver; eauto.
Qed.

(** * has_primitive *)

Lemma mentions_occ p o : mentions p o <-> (exists k, kind p = Some k) /\ In p (occ o).
Proof.
  split.
  - induction 1 as [k K|o c Hc H IH].
    + split; eauto. destruct p; simpl in *; try discriminate; auto.
    + destruct IH as [HK Hin]. split; auto.
      destruct o as [i st|n r|e n r|i|v n r|v l|ord l|t fs opt n]; simpl in *; try tauto.
      * destruct Hc as [<-|[]]; auto.
      * destruct Hc as [<-|[]]; auto.
      * apply in_flat_map. eauto.
      * apply in_app_iff. apply in_app_iff in Hc as [Hc|Hc].
        -- left. apply in_flat_map. eauto.
        -- right. destruct opt as [q|]; [destruct Hc as [<-|[]]; auto|].
           destruct t; simpl in *; try tauto; destruct Hc as [<-|[]]; auto.
  - intros [[k K] Hin]. revert Hin.
    induction o as [i st|n r|e n r|i|v n r|v l|o l IH|t fs opt n IH IHo] using obj_ind';
      simpl; intros Hin; try tauto.
    + destruct Hin as [<-|[]]. eapply mentions_here; eauto.
    + destruct Hin as [<-|[]]. eapply mentions_here; eauto.
    + destruct Hin as [<-|[]]. eapply mentions_here; eauto.
    + destruct Hin as [<-|[]]. eapply mentions_in; [simpl; eauto|]. eapply mentions_here; eauto.
    + destruct Hin as [<-|[]]. eapply mentions_in; [simpl; eauto|]. eapply mentions_here; eauto.
    + apply in_flat_map in Hin as (x & Hx & Hin). rewrite Forall_forall in IH.
      eapply mentions_in; [simpl; eauto|]. auto.
    + apply in_app_iff in Hin as [Hin|Hin].
      * apply in_flat_map in Hin as (x & Hx & Hin). rewrite Forall_forall in IH.
        eapply mentions_in; [simpl; apply in_app_iff; eauto|]. auto.
      * destruct opt as [q|].
        -- eapply mentions_in; [simpl; apply in_app_iff; right; simpl; eauto|]. eapply IHo; eauto.
        -- destruct t; simpl in Hin; try tauto; destruct Hin as [<-|[]];
             (eapply mentions_in; [simpl; apply in_app_iff; right; simpl; eauto|eapply mentions_here; eauto]).
Qed.

Lemma deliver_contains target l :
  snd (deliver (iterator_contains target) l tt) =
  if existsb (fun o => if is_primitive target then prim_eqb o target else cowl_equals o target) l then 1%Z else 0%Z.
Proof.
  induction l as [|x l IH]; simpl; auto.
  destruct (if is_primitive target then prim_eqb x target else cowl_equals x target); simpl; auto.
Qed.

Lemma is_primitive_kind p k : kind p = Some k -> is_primitive p = true.
Proof. destruct p as [| |e ? ?| | | | |]; try discriminate; simpl; intros; auto. destruct e; reflexivity. Qed.

Lemma kind_primitive_type p k : kind p = Some k -> primitive_get_type (get_type p) = k.
Proof.
  destruct p as [| |e ? ?| | | | |]; simpl; intros H; inversion H; subst; auto. destruct e; reflexivity.
Qed.

Lemma pf_of_has k : pf_has (pf_of k) k = true.
Proof. destruct k as [[]| |]; reflexivity. Qed.

Theorem has_primitive_mentions o p k : well_formed o -> kind p = Some k ->
  (mentions p o /\ has_primitive o p = Some true) \/ (~ mentions p o /\ has_primitive o p = Some false).
Proof.
  intros [s W] K. unfold has_primitive.
  rewrite (iterate_deliver o s W). unfold as_ires. rewrite deliver_contains.
  rewrite (is_primitive_kind p k K), (kind_primitive_type p k K).
  assert (E : existsb (fun o => prim_eqb o p) (filter (enabled (pf_of k)) (occ o)) = true <-> mentions p o).
  { rewrite existsb_exists, mentions_occ. split.
    - intros (x & Hx & Hp). apply filter_In in Hx as [Hx _].
      rewrite prim_eqb_sym in Hp. apply (prim_eqb_eq p x k K) in Hp. subst. split; eauto.
    - intros [_ Hin]. exists p. split; [apply filter_In; split; auto|].
      + rewrite (enabled_pf _ _ _ K). apply pf_of_has.
      + eapply prim_eqb_refl; eauto. }
  destruct (existsb (fun o => prim_eqb o p) (filter (enabled (pf_of k)) (occ o))).
  - left. split; [now apply E|reflexivity].
  - right. split; [|reflexivity]. intros H. apply E in H. discriminate.
Qed.

(** * Operands *)

Lemma index_allowed_spec n i m position : position_of n i m ->
  index_allowed n i position = Some (negb (N.land position m =? 0)).
Proof. destruct 1; reflexivity. Qed.

(** The operands at the given positions, in order. *)
Definition slots (n : nat) : list N :=
  match n with 1%nat => [7] | 2%nat => [1; 2] | 3%nat => [1; 4; 2] | _ => [] end.

Definition operands_at (fs : list obj) (position : N) : list obj :=
  flat_map (fun p : obj * N => if N.land position (snd p) =? 0 then [] else flatten_operand (fst p))
    (combine fs (slots (List.length fs))).

Lemma iterate_operands_from_deliver {S} (call : S -> obj -> S * ret) n position fs : forall i s,
  (n <= 3)%nat -> (n = i + List.length fs)%nat ->
  iterate_operands_from call n i position fs s =
  as_ires (deliver call (flat_map (fun p : obj * N => if N.land position (snd p) =? 0 then [] else flatten_operand (fst p))
    (combine fs (skipn i (slots n)))) s).
Proof.
  induction fs as [|op fs IH]; intros i s Hn Hi; simpl.
  - reflexivity.
  - assert (Hex : exists m, index_allowed n i position = Some (negb (N.land position m =? 0)) /\
      skipn i (slots n) = m :: skipn (1 + i) (slots n)).
    { simpl in Hi.
      destruct n as [|[|[|[|n]]]]; try lia; destruct i as [|[|[|i]]]; try lia; simpl;
        eexists; (split; [reflexivity|reflexivity]). }
    destruct Hex as (m & Ha & Hs). rewrite Ha, Hs. simpl combine. simpl flat_map.
    destruct (N.land position m =? 0) eqn:E; simpl negb; cbv iota beta.
    + simpl. rewrite IH; auto. simpl in Hi. lia.
    + assert (Hop : match op with
                    | OVec _ l => iter_loop (iterator_call call) l s
                    | _ => iterator_call call op s end = as_ires (deliver call (flatten_operand op) s)).
      { assert (Hc : forall x s, iterator_call call x s = as_ires (deliver call [x] s)).
        { intros x s0. unfold iterator_call, as_ires. simpl. destruct (call s0 x) as [s1 r1].
          destruct (should_stop r1) eqn:E1; simpl; auto. apply should_stop_false in E1. now subst. }
        destruct op; try apply Hc. simpl.
        rewrite (iter_loop_deliver call (iterator_call call) (fun x => [x])); [|intros; apply Hc].
        f_equal. f_equal. clear. induction items; simpl; congruence. }
      rewrite Hop. rewrite deliver_app. unfold as_ires at 1. simpl fst.
      destruct (deliver call (flatten_operand op) s) as [s1 r1]; simpl.
      destruct (should_stop r1); auto. rewrite IH; auto. simpl in Hi. lia.
Qed.

Lemma axiom_arity t fs opt n s : wt s (OComp t fs opt n) = true ->
  List.length fs = type_field_count t /\ (1 <= List.length fs <= 3)%nat.
Proof.
  intros W. apply wt_comp_inv in W as (so & os & Hsig & Wfs & _ & _).
  apply Forall2_len in Wfs. destruct t; simpl in Hsig; inversion Hsig; subst; simpl in Wfs; rewrite Wfs; split; try reflexivity; lia.
Qed.

Lemma get_fields_wt s t fs opt n : wt s (OComp t fs opt n) = true ->
  get_fields (OComp t fs opt n) false = fs /\
  get_fields (OComp t fs opt n) true = fs ++ match opt with Some p => [p] | None => [] end.
Proof.
  intros W. apply axiom_arity in W as [E _]. simpl. rewrite <- E, firstn_all, app_nil_r. auto.
Qed.

Lemma iterate_operands_deliver s t fs opt n : wt s (OComp t fs opt n) = true ->
  forall S (call : S -> obj -> S * ret) position st,
  iterate_operands call (OComp t fs opt n) position st = as_ires (deliver call (operands_at fs position) st).
Proof.
  intros W S call position st. unfold iterate_operands.
  destruct (get_fields_wt _ _ _ _ _ W) as [-> _]. apply axiom_arity in W as [_ Hl].
  rewrite iterate_operands_from_deliver; [reflexivity|lia|lia].
Qed.

Lemma nth_combine_slots (fs : list obj) i f : (1 <= List.length fs <= 3)%nat -> nth_error fs i = Some f ->
  exists m, position_of (List.length fs) i m /\ In (f, m) (combine fs (slots (List.length fs))).
Proof.
  intros Hl Hn.
  destruct fs as [|a [|b [|c [|d fs]]]]; simpl in *; try lia;
    destruct i as [|[|[|i]]]; simpl in Hn; inversion Hn; subst; try (destruct i; discriminate);
    eexists; (split; [constructor|simpl; auto]).
Qed.

Lemma in_combine_slots (fs : list obj) f m : (1 <= List.length fs <= 3)%nat ->
  In (f, m) (combine fs (slots (List.length fs))) ->
  exists i, nth_error fs i = Some f /\ position_of (List.length fs) i m.
Proof.
  intros Hl Hin.
  destruct fs as [|a [|b [|c [|d fs]]]]; simpl in *; try lia;
    repeat destruct Hin as [Hin|Hin]; try tauto; inversion Hin; subst;
    first [exists 0%nat; split; [reflexivity|constructor; fail]|exists 1%nat; split; [reflexivity|constructor; fail]|exists 2%nat; split; [reflexivity|constructor; fail]].
Qed.

Lemma position_of_det n i m m' : position_of n i m -> position_of n i m' -> m = m'.
Proof. destruct 1; intros H; inversion H; auto. Qed.

Lemma operands_at_spec s t fs opt n position op : wt s (OComp t fs opt n) = true ->
  (In op (operands_at fs position) <-> operand_at (OComp t fs opt n) op position).
Proof.
  intros W. apply axiom_arity in W as [_ Hl]. unfold operands_at. rewrite in_flat_map. simpl. split.
  - intros ([f m] & Hin & Hop). simpl in Hop. destruct (N.land position m =? 0) eqn:E; [destruct Hop|].
    apply in_combine_slots in Hin as (i & Hi & Hp); auto. exists i, f, m. repeat split; auto.
    now apply N.eqb_neq.
  - intros (i & f & m & Hi & Hop & Hp & Hm).
    destruct (nth_combine_slots fs i f Hl Hi) as (m' & Hp' & Hin).
    rewrite (position_of_det _ _ _ _ Hp Hp') in Hm. exists (f, m'). split; auto. simpl.
    apply N.eqb_neq in Hm. now rewrite Hm.
Qed.
