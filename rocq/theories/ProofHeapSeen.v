(** Functions that only read: equality and the primitives in an object. *)

From Coq Require Import NArith List Bool Arith Lia Relations.
From Coq Require Import ZifyBool ZifyNat ZifyN.
From Verif Require Import Bytes ModelTypes ModelObject ModelHeader SpecHeader ModelText ModelHeap SpecHeap.
From Verif Require Import ProofObject ProofHeader ProofHeap ProofHeapRun ProofHeapFun.
Import ListNotations.
Local Open Scope N_scope.

(** * Depth *)

(** No path from [a] has [n] edges. *)
Fixpoint dp (n : nat) (h : obs) (a : N) : Prop :=
  match n with
  | O => False
  | S n' => forall b, edge h b a -> dp n' h b
  end.

Lemma depth h a : (forall a, Acc (edge h) a) -> dp (S (List.length h)) h a.
Proof.
  intros AC.
  assert (forall n p l, NoDup (p :: l) -> incl l (map fst h) ->
    (forall y, In y l -> exists c, edge h c y /\ rch h c p) ->
    (List.length h < n + List.length l)%nat -> dp n h p) as C.
  { induction n as [|n IH]; intros p l D I RR L; cbn [dp].
    - inversion D; subst. apply NoDup_incl_length in I; auto. rewrite map_length in I. lia.
    - intros b E. apply (IH b (p :: l)).
      + constructor; auto. intros [->|J].
        * exact (no_cycle h AC b b E (rch_refl _ b)).
        * destruct (RR b J) as (c & F & G). apply (no_cycle h AC b c F). eapply rch_end; eauto.
      + intros y [<-|J]; auto. destruct E as (v & F & _). apply lookup_in in F.
        change p with (fst (p, v)). now apply in_map.
      + intros y [<-|J].
        * exists b. split; auto. constructor.
        * destruct (RR y J) as (c & F & G). exists c. split; auto. eapply rch_end; eauto.
      + cbn. lia. }
  apply (C (S (List.length h)) a []).
  - constructor; auto. constructor.
  - easy.
  - easy.
  - cbn. lia.
Qed.

Section Seen.
Variable huge : bool.
Variable e : env.

Local Notation Inv := (ProofHeap.Inv huge e).
Local Notation cs := (ProofHeap.cs huge).
Local Notation cell_of := (ProofHeap.cell_of huge).
Local Notation pl := (ProofHeap.pl e).

Section State.
Variables (A : ast) (R : list N).
Hypothesis I : Inv A R [].

Lemma fit_at a v : lookup (a_h A) a = Some v -> ProofHeap.fitv huge v.
Proof. intros E. apply (i_fit _ _ _ _ _ I a v E). Qed.
Lemma kid_edge a v x : lookup (a_h A) a = Some v -> In x (pointers_of (o_d v)) -> edge (a_h A) x a /\ live (a_h A) x.
Proof.
  intros E J. rewrite <- kids_live in J by (apply (live_all _ _ _ _ _ _ I E)). split; [exists v; auto|].
  destruct (kid_live _ _ _ _ _ _ _ _ I E J) as (w & F & _). exists w. auto.
Qed.
Lemma cell_lookup a v : lookup (a_h A) a = Some v -> lookup (s_heap (cs A)) a = Some (cell_of v).
Proof. intros E. rewrite lookup_cs, E. reflexivity. Qed.

(** * Primitives *)

Definition parts_ob (v : ob) : list N :=
  match o_d v with
  | BVec l => l
  | BComp fs => if otype_eqb (o_t v) OT_LITERAL then if o_b v then [] else skipn 1 (pointers_of (BComp fs))
                else pointers_of (BComp fs)
  | _ => []
  end.
Lemma parts_cell a v : lookup (a_h A) a = Some v -> parts huge (cell_of v) = parts_ob v.
Proof.
  intros E. unfold parts, parts_ob. cbn [ProofHeap.cell_of c_body]. destruct (o_d v) eqn:D; auto.
  rewrite (type_cell huge v (fit_at a v E)), (bit_cell huge v (fit_at a v E)).
  destruct (i_fit _ _ _ _ _ I a v E) as [_ SH]. rewrite D in SH.
  inversion SH as [| | | |b x y HT HB HD| |t b ks us CT LN LC HT HB HD|].
  - cbn. destruct (o_b v); reflexivity.
  - destruct (o_t v); try (exfalso; now apply CT); reflexivity.
Qed.
Lemma parts_kid v x : In x (parts_ob v) -> In x (pointers_of (o_d v)).
Proof.
  unfold parts_ob. destruct (o_d v) eqn:D; try easy. destruct (otype_eqb (o_t v) OT_LITERAL); auto.
  destruct (o_b v); [easy|]. apply skipn_in.
Qed.
Lemma clean_part a v x : lookup (a_h A) a = Some v -> In x (parts_ob v) -> clean huge (cs A) a -> clean huge (cs A) x.
Proof.
  intros E J C b B. apply C. eapply in_part; [apply (cell_lookup a v E)| |exact B]. now rewrite (parts_cell a v E).
Qed.
Lemma clean_here a v : lookup (a_h A) a = Some v -> clean huge (cs A) a -> o_t v <> OT_STRING /\ o_t v <> OT_ONTOLOGY.
Proof.
  intros E C. destruct (C a (in_here _ _ a)) as [C1 C2].
  split; intros T; [apply C1|apply C2]; exists (cell_of v); (split; [now apply cell_lookup|]);
    rewrite (type_cell huge v (fit_at a v E)); congruence.
Qed.

Lemma mapm_cs {X Y} (f : X -> act Y) g (l : list X) s : (forall x, In x l -> f x s = Ok (g x) s) -> mapm f l s = Ok (map g l) s.
Proof.
  induction l as [|x l IH]; intros H; cbn [mapm map]; [reflexivity|].
  rewrite (bind_ok _ _ _ _ _ (H x (or_introl eq_refl))). rewrite (bind_ok _ _ _ _ _ (IH (fun y J => H y (or_intror J)))). reflexivity.
Qed.

Hypothesis thing : exists v i, lookup (a_h A) (e_thing e) = Some v /\ o_d v = BEnt i.
Hypothesis literal : exists v i, lookup (a_h A) (e_literal e) = Some v /\ o_d v = BEnt i.
Hypothesis lang_string : exists v i, lookup (a_h A) (e_lang_string e) = Some v /\ o_d v = BEnt i.

Lemma prims_ent n a : (exists v i, lookup (a_h A) a = Some v /\ o_d v = BEnt i) -> prims_in huge e (S n) a (cs A) = Ok [a] (cs A).
Proof.
  intros (v & i & E & D). cbn [prims_in]. rewrite (bind_ok _ _ _ _ _ (type_cs huge A a v E (fit_at a v E))).
  destruct (i_fit _ _ _ _ _ I a v E) as [_ SH]. rewrite D in SH. inversion SH as [| | | | |t b j TE HT HB HD| |].
  destruct (o_t v); try discriminate TE; reflexivity.
Qed.

Lemma prims_pl : forall n a, dp n (a_h A) a -> live (a_h A) a -> clean huge (cs A) a -> prims_in huge e n a (cs A) = Ok (pl n (a_h A) a) (cs A).
Proof.
  induction n as [|n IH]; intros a DP (v & E) CL; [destruct DP|]. cbn [dp] in DP.
  destruct (clean_here a v E CL) as [C1 C2].
  assert (K : forall x, In x (parts_ob v) -> prims_in huge e n x (cs A) = Ok (pl n (a_h A) x) (cs A)).
  { intros x X. destruct (kid_edge a v x E (parts_kid v x X)) as [X1 X2]. apply IH; auto. eapply clean_part; eauto. }
  assert (N1 : pointers_of (o_d v) <> [] -> exists m, n = S m).
  { intros X. destruct (pointers_of (o_d v)) as [|x l] eqn:P; [easy|].
    destruct (kid_edge a v x E) as [X1 _]; [rewrite P; now left|]. apply DP in X1. destruct n; [destruct X1|eauto]. }
  cbn [prims_in ProofHeap.pl]. rewrite E. rewrite (bind_ok _ _ _ _ _ (type_cs huge A a v E (fit_at a v E))).
  assert (BC := bit_cs huge A a v E (fit_at a v E)).
  destruct (i_fit _ _ _ _ _ I a v E) as [_ SH].
  inversion SH as [b t HT HB HD|b l HT HB HD|b ns rem HT HB HD|b i HT HB HD|b x y HT HB HD|t b i TE HT HB HD|t b ks us CT LN LC HT HB HD|b o HT HB HD].
  - congruence.
  - rewrite (bind_ok _ _ _ _ _ (items_cs huge A a v l E (eq_sym HD))).
    rewrite (bind_ok _ _ _ _ _ (mapm_cs _ (pl n (a_h A)) l (cs A) ltac:(intros x X; apply K; unfold parts_ob; now rewrite <- HD))).
    unfold ret. now rewrite flat_map_concat_map.
  - reflexivity.
  - reflexivity.
  - rewrite (bind_ok _ _ _ _ _ BC). cbn [otype_eqb]. replace (otype_eqb OT_LITERAL OT_LITERAL) with true by reflexivity.
    destruct (N1 ltac:(rewrite <- HD; discriminate)) as (m & ->).
    destruct (o_b v) eqn:B.
    + now apply prims_ent.
    + rewrite (bind_ok _ _ _ _ _ (fields_cs huge A a v _ E (eq_sym HD))). unfold bind, ret. cbn [pointers]. unfold bind, ret.
      cbn [nth pointers_of flat_map app skipn]. rewrite app_nil_r. apply K. unfold parts_ob. rewrite <- HD, <- HT, B. now left.
  - destruct (o_t v); try discriminate TE; reflexivity.
  - rewrite pointers_of_comp.
    assert (OL : otype_eqb (o_t v) OT_LITERAL = false) by (destruct (o_t v); try reflexivity; exfalso; now apply CT).
    assert (PK : forall x, In x ks -> In x (parts_ob v)).
    { intros x X. unfold parts_ob. rewrite <- HD, OL. now rewrite pointers_of_comp. }
    rewrite OL.
    assert (NK : exists m, n = S m).
    { apply N1. rewrite <- HD, pointers_of_comp. intros ->. subst t. cbn in LN. destruct (o_t v); try (now elim CT); cbn in LN; lia. }
    destruct NK as (m & ->).
    set (d := if o_b v then [] else if type_between OT_CE_OBJ_SOME OT_CE_OBJ_ALL (o_t v) then [e_thing e]
                else if type_between OT_CE_DATA_SOME OT_CE_DATA_ALL (o_t v) then [e_literal e] else []).
    assert (Z : (b <- get_bit huge a ;;
          f <- fields_at a ;;
          p <- pointers (type_field_count (o_t v) + if b then 1 else 0) f ;;
          r <- mapm (prims_in huge e (S m)) p ;;
          d <- (if b then ret [] else
                if type_between OT_CE_OBJ_SOME OT_CE_OBJ_ALL (o_t v) then prims_in huge e (S m) (e_thing e)
                else if type_between OT_CE_DATA_SOME OT_CE_DATA_ALL (o_t v) then prims_in huge e (S m) (e_literal e)
                else ret []) ;;
          ret (List.concat r ++ d))%act (cs A) = Ok (flat_map (pl (S m) (a_h A)) ks ++ d) (cs A)).
    { rewrite (bind_ok _ _ _ _ _ BC), (bind_ok _ _ _ _ _ (fields_cs huge A a v _ E (eq_sym HD))).
      rewrite (bind_ok _ _ _ _ _ (pointers_obj _ ks us _ ltac:(subst; exact LN))).
      rewrite (bind_ok _ _ _ _ _ (mapm_cs _ (pl (S m) (a_h A)) ks (cs A) ltac:(intros x X; apply K; auto))).
      assert (Y : (if o_b v then ret [] else
                if type_between OT_CE_OBJ_SOME OT_CE_OBJ_ALL (o_t v) then prims_in huge e (S m) (e_thing e)
                else if type_between OT_CE_DATA_SOME OT_CE_DATA_ALL (o_t v) then prims_in huge e (S m) (e_literal e)
                else ret [])%act (cs A) = Ok d (cs A)).
      { unfold d. destruct (o_b v); [reflexivity|].
        destruct (type_between OT_CE_OBJ_SOME OT_CE_OBJ_ALL (o_t v)); [now apply prims_ent|].
        destruct (type_between OT_CE_DATA_SOME OT_CE_DATA_ALL (o_t v)); [now apply prims_ent|reflexivity]. }
      rewrite (bind_ok _ _ _ _ _ Y). unfold ret. now rewrite flat_map_concat_map. }
    subst t. fold d. rewrite <- Z. clear - CT. destruct (o_t v); try (exfalso; now apply CT); reflexivity.
  - congruence.
Qed.

Lemma prims_ok a : live (a_h A) a -> clean huge (cs A) a -> prims huge e a (cs A) = Ok (pl (S (List.length (a_h A))) (a_h A) a) (cs A).
Proof.
  intros L C. unfold prims. change (s_heap (cs A)) with (amap cell_of (a_h A)). unfold amap. rewrite map_length.
  apply prims_pl; auto. apply depth, (i_acyclic _ _ _ _ _ I).
Qed.

End State.

(** More depth than there is changes nothing. *)
Lemma pl_more h : forall n m a p, (n <= m)%nat -> (count p (pl n h a) <= count p (pl m h a))%nat.
Proof.
  induction n as [|n IH]; intros m a p L; [cbn; rewrite count_nil; lia|]. destruct m as [|m]; [lia|]. cbn [ProofHeap.pl].
  destruct (lookup h a) as [v|]; auto. destruct (o_d v); auto.
  - apply flat_map_le. intros x _. apply IH. lia.
  - destruct (otype_eqb (o_t v) OT_LITERAL).
    + destruct (o_b v); auto. apply flat_map_le. intros x _. apply IH. lia.
    + rewrite !count_app. assert (count p (flat_map (pl n h) (pointers_of (BComp fields))) <= count p (flat_map (pl m h) (pointers_of (BComp fields))))%nat.
      { apply flat_map_le. intros x _. apply IH. lia. }
      lia.
Qed.
Lemma flat_map_ext_in {X Y} (f g : X -> list Y) l : (forall x, In x l -> f x = g x) -> flat_map f l = flat_map g l.
Proof. induction l as [|x l IH]; cbn; intros H; auto. rewrite H, IH; auto. Qed.
Lemma pl_deep A R : Inv A R [] -> forall n m a, dp n (a_h A) a -> (n <= m)%nat -> live (a_h A) a -> pl m (a_h A) a = pl n (a_h A) a.
Proof.
  intros I. induction n as [|n IH]; intros m a D L (v & E); [destruct D|]. destruct m as [|m]; [lia|]. cbn [ProofHeap.pl dp] in *.
  rewrite E.
  assert (K : forall x, In x (pointers_of (o_d v)) -> pl m (a_h A) x = pl n (a_h A) x).
  { intros x X. destruct (kid_edge A R I a v x E X) as [X1 X2]. apply IH; auto. lia. }
  destruct (o_d v); auto.
  - now apply flat_map_ext_in.
  - destruct (otype_eqb (o_t v) OT_LITERAL).
    + destruct (o_b v); auto. apply flat_map_ext_in. intros x X. apply K. eapply skipn_in; eauto.
    + f_equal. now apply flat_map_ext_in.
Qed.
(** The primitives found, at any depth. *)
Lemma pl_all A R a n p : Inv A R [] -> live (a_h A) a -> (count p (pl n (a_h A) a) <= count p (pl (S (List.length (a_h A))) (a_h A) a))%nat.
Proof.
  intros I L. set (m := S (List.length (a_h A))). destruct (Nat.le_gt_cases n m) as [H|H]; [now apply pl_more|].
  rewrite (pl_deep A R I m n a); auto; [apply depth, (i_acyclic _ _ _ _ _ I)|lia].
Qed.

(** * Equality *)

Section State.
Variables (A : ast) (R : list N).
Hypothesis I : Inv A R [].

Lemma all_eq_cs (f : N -> N -> act bool) : forall l m,
  (forall x y, In x l -> In y m -> exists r, f x y (cs A) = Ok r (cs A) /\ (r = true -> twins huge (cs A) x y)) ->
  exists r, all_eq f l m (cs A) = Ok r (cs A) /\ (r = true -> Forall2 (twins huge (cs A)) l m).
Proof.
  induction l as [|x l IH]; intros [|y m] H; cbn [all_eq]; try (eexists; split; [reflexivity|]; try discriminate; auto).
  destruct (H x y (or_introl eq_refl) (or_introl eq_refl)) as (r & E & T). rewrite (bind_ok _ _ _ _ _ E). destruct r.
  - destruct (IH m) as (q & F & U). { intros a b J K. apply H; now right. }
    exists q. split; auto. 
  - exists false. split; [reflexivity|discriminate].
Qed.
Lemma some_eq_cs (f : N -> act bool) x : forall m,
  (forall y, In y m -> exists r, f y (cs A) = Ok r (cs A) /\ (r = true -> twins huge (cs A) x y)) ->
  exists r, some_eq f m (cs A) = Ok r (cs A) /\ (r = true -> exists y, In y m /\ twins huge (cs A) x y).
Proof.
  induction m as [|y m IH]; intros H; cbn [some_eq].
  - exists false. split; [reflexivity|discriminate].
  - destruct (H y (or_introl eq_refl)) as (r & E & T). rewrite (bind_ok _ _ _ _ _ E). destruct r.
    + exists true. split; [reflexivity|]. intros _. exists y. split; [now left|auto].
    + destruct IH as (q & F & U). { intros b J. apply H. now right. }
      exists q. split; auto. intros Q. destruct (U Q) as (z & Z1 & Z2). exists z. split; [now right|auto].
Qed.
Lemma all_in_cs (f : N -> N -> act bool) m : forall l,
  (forall x y, In x l -> In y m -> exists r, f x y (cs A) = Ok r (cs A) /\ (r = true -> twins huge (cs A) x y)) ->
  exists r, all_in f l m (cs A) = Ok r (cs A) /\ (r = true -> forall x, In x l -> exists y, In y m /\ twins huge (cs A) x y).
Proof.
  induction l as [|x l IH]; intros H; cbn [all_in].
  - exists true. split; [reflexivity|]. easy.
  - destruct (some_eq_cs (f x) x m) as (r & E & T). { intros y J. apply H; auto. now left. }
    rewrite (bind_ok _ _ _ _ _ E). destruct r.
    + destruct IH as (q & F & U). { intros a b J K. apply H; auto. now right. }
      exists q. split; auto. intros Q z [<-|J]; auto.
    + exists false. split; [reflexivity|discriminate].
Qed.

Lemma slots_twin ks qs us : Forall2 (twins huge (cs A)) ks qs ->
  twin_slots huge (cs A) (map Obj ks ++ map UInt us) (map Obj qs ++ map UInt us).
Proof.
  induction 1; cbn; [|now constructor]. induction us; cbn; constructor; auto.
Qed.

Lemma equals_in_ok : forall n a b, dp n (a_h A) a -> live (a_h A) a -> live (a_h A) b ->
  exists r, equals_in huge n a b (cs A) = Ok r (cs A) /\ (r = true -> twins huge (cs A) a b).
Proof.
  induction n as [|n IH]; intros a b DP (v & E) (w & F); [destruct DP|]. cbn [dp] in DP.
  assert (K : forall x y, In x (pointers_of (o_d v)) -> In y (pointers_of (o_d w)) ->
            exists r, equals_in huge n x y (cs A) = Ok r (cs A) /\ (r = true -> twins huge (cs A) x y)).
  { intros x y X Y. destruct (kid_edge A R I a v x E X) as [X1 X2]. destruct (kid_edge A R I b w y F Y) as [Y1 Y2].
    apply IH; auto. }
  cbn [equals_in]. assert (FV := fit_at A R I a v E). assert (FW := fit_at A R I b w F).
  rewrite (bind_ok _ _ _ _ _ (type_cs huge A a v E FV)), (bind_ok _ _ _ _ _ (type_cs huge A b w F FW)).
  destruct (otype_eqb (o_t v) (o_t w)) eqn:TT; cbn [negb]; [|exists false; split; [reflexivity|discriminate]].
  apply otype_eqb_eq in TT.
  assert (TC : type_of huge (cell_of v) = type_of huge (cell_of w)).
  { rewrite (type_cell huge v FV), (type_cell huge w FW). congruence. }
  assert (SM : exists r, @ret bool (a =? b) (cs A) = Ok r (cs A) /\ (r = true -> twins huge (cs A) a b)).
  { eexists. split; [reflexivity|]. intros Q. apply N.eqb_eq in Q. subst. constructor. }
  assert (BV := bit_cs huge A a v E FV). assert (BW := bit_cs huge A b w F FW).
  assert (LV := cell_lookup A a v E). assert (LW := cell_lookup A b w F).
  destruct (i_fit _ _ _ _ _ I a v E) as [_ SH]. destruct (i_fit _ _ _ _ _ I b w F) as [_ SH'].
  inversion SH as [b1 t HT HB HD|b1 l HT HB HD|b1 ns rem HT HB HD|b1 i HT HB HD|b1 x y HT HB HD|t b1 i TE HT HB HD|t b1 ks us CT LN LC HT HB HD|b1 o HT HB HD];
  rewrite <- TT in SH'; inversion SH' as [b2 t2 HT2 HB2 HD2|b2 l2 HT2 HB2 HD2|b2 ns2 rem2 HT2 HB2 HD2|b2 i2 HT2 HB2 HD2|b2 x2 y2 HT2 HB2 HD2|t2 b2 i2 TE2 HT2 HB2 HD2|t2 b2 ks2 us2 CT2 LN2 LC2 HT2 HB2 HD2|b2 o2 HT2 HB2 HD2];
  try (rewrite <- HT in HT2; discriminate HT2);
  try (exfalso; rewrite <- HT in TE2; discriminate TE2);
  try (exfalso; rewrite <- HT in CT2; now apply CT2);
  try (exfalso; rewrite <- HT2 in TE; discriminate TE);
  try (exfalso; rewrite <- HT2 in CT; now apply CT);
  try (exfalso; clear - CT TE2; destruct (o_t v); try discriminate TE2; now apply CT);
  try (exfalso; clear - CT2 TE; destruct (o_t v); try discriminate TE; now apply CT2).
  - rewrite (bind_ok _ _ _ _ _ (text_cs huge A a v t E (eq_sym HD))), (bind_ok _ _ _ _ _ (text_cs huge A b w t2 F (eq_sym HD2))).
    eexists. split; [reflexivity|]. intros Q. apply bytes_eqb_eq in Q. subst t2. apply (tw_text huge (cs A) a b t).
    + exists (cell_of v). split; auto.
    + exists (cell_of w). split; auto.
  - rewrite (bind_ok _ _ _ _ _ (items_cs huge A a v l E (eq_sym HD))), (bind_ok _ _ _ _ _ (items_cs huge A b w l2 F (eq_sym HD2))).
    rewrite (bind_ok _ _ _ _ _ BV). rewrite <- HD in K. rewrite <- HD2 in K. cbn [pointers_of] in K. destruct (o_b v).
    + destruct (all_eq_cs (equals_in huge n) l l2 K) as (r & X & T). exists r. split; auto. intros Q.
      specialize (T Q). apply (tw_items huge (cs A) a b l l2).
      * exists (cell_of v). auto.
      * exists (cell_of w). auto.
      * clear - T. induction T; cbn; auto.
      * clear - T. induction T as [|x y l m H T IH]; [easy|]. intros z [<-|J]; [exists y; split; [now left|auto]|].
        destruct (IH z J) as (q & Q1 & Q2). exists q. split; [now right|auto].
    + destruct (a =? b) eqn:AB.
      { exists true. split; [reflexivity|]. intros _. apply N.eqb_eq in AB. subst. constructor. }
      destruct (Nat.eqb (List.length l) (List.length l2)) eqn:LL; [|exists false; split; [reflexivity|discriminate]].
      destruct (all_in_cs (equals_in huge n) l2 l K) as (r & X & T). exists r. split; auto. intros Q.
      apply (tw_items huge (cs A) a b l l2); auto.
      * exists (cell_of v). auto.
      * exists (cell_of w). auto.
      * now apply Nat.eqb_eq.
  - exact SM.
  - exact SM.
  - rewrite (bind_ok _ _ _ _ _ (fields_cs huge A a v _ E (eq_sym HD))), (bind_ok _ _ _ _ _ (fields_cs huge A b w _ F (eq_sym HD2))).
    unfold bind at 1 2. cbn [pointers]. unfold bind at 1 2 3 4, ret at 1 2 3 4 5 6.
    destruct (y =? y2) eqn:YY; [|exists false; split; [reflexivity|discriminate]].
    assert (PX : exists t, txt (a_h A) x = Some t).
    { pose proof (i_kids _ _ _ _ _ I a v E (live_all _ _ _ _ _ _ I E)) as KO. unfold kids_ok in KO. rewrite <- HD in KO.
      apply (str_of_type _ _ _ _ _ _ I). apply KO. auto. }
    assert (PX2 : exists t, txt (a_h A) x2 = Some t).
    { pose proof (i_kids _ _ _ _ _ I b w F (live_all _ _ _ _ _ _ I F)) as KO. unfold kids_ok in KO. rewrite <- HD2 in KO.
      apply (str_of_type _ _ _ _ _ _ I). apply KO. congruence. }
    destruct PX as (t & PX), PX2 as (t2 & PX2).
    rewrite (bind_ok _ _ _ _ _ (txt_cs huge A x t PX)), (bind_ok _ _ _ _ _ (txt_cs huge A x2 t2 PX2)).
    eexists. split; [reflexivity|]. intros Q. apply bytes_eqb_eq in Q. subst t2. apply N.eqb_eq in YY. subst y2.
    assert (HX : forall z, txt (a_h A) z = Some t -> has_text (cs A) z t).
    { intros z. unfold txt, has_text. rewrite lookup_cs. destruct (lookup (a_h A) z) as [u|]; [|discriminate].
      destruct (o_d u) eqn:DU; try discriminate. intros Z. inversion Z; subst. exists (cell_of u). split; auto. }
    apply (tw_fields huge (cs A) a b (cell_of v) (cell_of w) [Obj x; Obj y] [Obj x2; Obj y]); auto.
    constructor; [apply (tw_text _ _ x x2 t); auto|]. constructor; [apply tw_same|constructor].
  - subst t t2. destruct (o_t v); try discriminate TE; exact SM.
  - rewrite <- HD in K. rewrite <- HD2 in K. rewrite !pointers_of_comp in K.
    destruct (all_eq_cs (equals_in huge n) ks ks2 K) as (r & X & T).
    set (N0 := (type_field_count (o_t v) + if o_b v then 1 else 0)%nat).
    assert (Z : exists r, (x <- get_bit huge a ;;
              y <- get_bit huge b ;;
              if negb (Bool.eqb x y) then ret false else
              f <- fields_at a ;; g <- fields_at b ;;
              p <- pointers (type_field_count (o_t v) + if x then 1 else 0) f ;;
              q <- pointers (type_field_count (o_t v) + if x then 1 else 0) g ;;
              r <- all_eq (equals_in huge n) p q ;;
              if negb r then ret false
              else if type_is_card (o_t v) then v0 <- uint_at (type_field_count (o_t v) + if x then 1 else 0) f ;;
                   w0 <- uint_at (type_field_count (o_t v) + if x then 1 else 0) g ;; ret (v0 =? w0)
              else ret true)%act (cs A) = Ok r (cs A) /\ (r = true -> twins huge (cs A) a b)).
    { rewrite (bind_ok _ _ _ _ _ BV), (bind_ok _ _ _ _ _ BW).
      destruct (Bool.eqb (o_b v) (o_b w)) eqn:BB; cbn [negb]; [|exists false; split; [reflexivity|discriminate]].
      apply Bool.eqb_prop in BB. subst t t2 b1 b2. rewrite <- BB in LN2. 
      rewrite (bind_ok _ _ _ _ _ (fields_cs huge A a v _ E (eq_sym HD))), (bind_ok _ _ _ _ _ (fields_cs huge A b w _ F (eq_sym HD2))).
      rewrite (bind_ok _ _ _ _ _ (pointers_obj _ ks us _ LN)), (bind_ok _ _ _ _ _ (pointers_obj _ ks2 us2 _ LN2)).
      rewrite (bind_ok _ _ _ _ _ X). destruct r; cbn [negb]; [|exists false; split; [reflexivity|discriminate]].
      specialize (T eq_refl). fold N0. fold N0 in LN, LN2. destruct (type_is_card (o_t v)).
      - destruct us as [|c [|? ?]]; try discriminate LC. destruct us2 as [|c2 [|? ?]]; try discriminate LC2.
        assert (UA : forall k c0, List.length k = N0 -> uint_at N0 (map Obj k ++ map UInt [c0]) (cs A) = Ok c0 (cs A)).
        { intros k c0 Q. unfold uint_at. rewrite nth_error_app2; rewrite map_length, Q; auto. now rewrite Nat.sub_diag. }
        rewrite (bind_ok _ _ _ _ _ (UA ks c LN)), (bind_ok _ _ _ _ _ (UA ks2 c2 LN2)).
        eexists. split; [reflexivity|]. intros Q. apply N.eqb_eq in Q. subst c2.
        eapply tw_fields; eauto. now apply slots_twin.
      - destruct us; [|discriminate LC]. destruct us2; [|discriminate LC2].
        exists true. split; [reflexivity|]. intros _.
        eapply tw_fields; eauto. now apply slots_twin. }
    subst t t2. clear - Z CT. destruct Z as (r & Z & T). exists r. split; auto. rewrite <- Z. clear Z T.
    destruct (o_t v); try (exfalso; now apply CT); reflexivity.
  - exact SM.
Qed.

Lemma equals_ok a b : live (a_h A) a -> live (a_h A) b ->
  exists r, equals huge a b (cs A) = Ok r (cs A) /\ (r = true -> twins huge (cs A) a b).
Proof.
  intros LA LB. unfold equals. change (s_heap (cs A)) with (amap cell_of (a_h A)). unfold amap. rewrite map_length.
  apply equals_in_ok; auto. apply depth, (i_acyclic _ _ _ _ _ I).
Qed.

Lemma find_at_ok x : live (a_h A) x -> forall l, Forall (live (a_h A)) l ->
  exists r, find_at (equals huge x) l (cs A) = Ok r (cs A) /\
    match r with Some i => exists y, nth_error l i = Some y /\ twins huge (cs A) x y | None => True end.
Proof.
  intros LX. induction l as [|y l IH]; intros F; cbn [find_at].
  - exists None. split; [reflexivity|auto].
  - inversion F; subst. destruct (equals_ok x y LX H1) as (r & E & T). rewrite (bind_ok _ _ _ _ _ E). destruct r.
    + exists (Some O). split; [reflexivity|]. exists y. auto.
    + destruct (IH H2) as (q & E' & T'). rewrite (bind_ok _ _ _ _ _ E'). exists (option_map S q). split; [reflexivity|].
      destruct q; auto.
Qed.

End State.
End Seen.
