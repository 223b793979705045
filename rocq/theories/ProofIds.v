(** Proofs about ModelIds.v. *)

From Coq Require Import Arith NArith List Bool Lia.
From Verif Require Import ModelTypes ProofObject ModelIds SpecIds.
Import ListNotations.
Local Open Scope N_scope.

Notation cnt := (count_occ N.eq_dec).

(** Counts [r a], table [t], map [m]. *)
Record inv (s : ids) (own : list N) : Prop := {
  v_map : forall n a, nth_error (i_map s) n = Some a -> exists x, entity_at (i_heap s) a = Some x /\ en_id x = N.of_nat n;
  v_live : forall a x, entity_at (i_heap s) a = Some x -> nth_error (i_map s) (N.to_nat (en_id x)) = Some a;
  v_ref : forall a x, entity_at (i_heap s) a = Some x -> en_ref x = N.of_nat (S (cnt own a));
  v_tbl : forall a, In a (i_tbl s) <-> In a (i_map s);
  v_key : forall a b x y, entity_at (i_heap s) a = Some x -> entity_at (i_heap s) b = Some y ->
    en_type x = en_type y -> en_iri x = en_iri y -> a = b;
  v_own : forall a, In a own -> In a (i_map s);
  v_nodup : NoDup (map fst (i_heap s))
}.

Lemma at_set : forall h a x b, entity_at (entity_set h a x) b =
  if b =? a then option_map (fun _ => x) (entity_at h a) else entity_at h b.
Proof.
  induction h as [ | [c y] h IH]; intros a x b; simpl.
  - destruct (b =? a); reflexivity.
  - destruct (N.eqb_spec c a) as [-> | J]; simpl.
    + destruct (N.eqb_spec b a) as [-> | K]; [rewrite N.eqb_refl; reflexivity | ].
      destruct (N.eqb_spec a b); [subst; congruence | reflexivity].
    + rewrite IH. destruct (N.eqb_spec c b) as [-> | K].
      * destruct (N.eqb_spec b a); [congruence | reflexivity].
      * destruct (N.eqb_spec b a); reflexivity.
Qed.

Lemma fst_set : forall h a x, map fst (entity_set h a x) = map fst h.
Proof. induction h as [ | [c y] h IH]; intros a x; simpl; [reflexivity | ]. destruct (c =? a); simpl; [ | rewrite IH]; reflexivity. Qed.
Lemma at_none : forall h a, entity_at h a = None <-> ~ In a (map fst h).
Proof.
  induction h as [ | [c y] h IH]; intros a; simpl; [tauto | ]. destruct (N.eqb_spec c a) as [-> | J].
  - split; [discriminate | tauto].
  - rewrite IH. tauto.
Qed.

Lemma find_ok : forall h l t iri, (forall a, In a l -> exists x, entity_at h a = Some x) ->
  (exists a x, tbl_find h l t iri = Some (Some a) /\ In a l /\ entity_at h a = Some x /\ en_type x = t /\ en_iri x = iri) \/
  (tbl_find h l t iri = Some None /\ forall a x, In a l -> entity_at h a = Some x -> en_type x = t -> en_iri x = iri -> False).
Proof.
  intros h l t iri. induction l as [ | a l IH]; intros H; simpl; [right; split; [reflexivity | intros ? ? []] | ].
  destruct (H a (or_introl eq_refl)) as [x X]. rewrite X.
  destruct ((en_iri x =? iri) && otype_eqb (en_type x) t) eqn:E.
  - apply andb_true_iff in E. destruct E as [E F]. apply N.eqb_eq in E. apply otype_eqb_eq in F.
    left. exists a, x. repeat split; auto.
  - destruct IH as [(b & y & A & B & C) | (A & B)]; [intros b J; apply H; right; exact J | | ].
    + left. exists b, y. split; [exact A | ]. split; [right; exact B | exact C].
    + right. split; [exact A | ]. intros b y [<- | J] Y T I; [ | exact (B b y J Y T I)].
      rewrite X in Y. inversion Y; subst. rewrite N.eqb_refl in E. simpl in E.
      rewrite (proj2 (otype_eqb_eq (en_type y) (en_type y)) eq_refl) in E. discriminate E.
Qed.

Lemma inv_start : inv ids_init [].
Proof. split; simpl; try discriminate; try tauto; [intros n a; destruct n; discriminate | constructor]. Qed.

Lemma map_live : forall s own a, inv s own -> In a (i_map s) -> exists x, entity_at (i_heap s) a = Some x.
Proof. intros s own a I H. apply In_nth_error in H. destruct H as [n H]. destruct (v_map s own I n a H) as (x & X & _). eauto. Qed.
Lemma live_map : forall s own a x, inv s own -> entity_at (i_heap s) a = Some x -> In a (i_map s).
Proof. intros s own a x I H. exact (nth_error_In _ _ (v_live s own I a x H)). Qed.

(** Another count of one entity. *)
Lemma inv_count : forall s own own' a x r, inv s own -> entity_at (i_heap s) a = Some x ->
  r = N.of_nat (S (cnt own' a)) -> (forall b, b <> a -> cnt own' b = cnt own b) -> (forall b, In b own' -> In b (i_map s)) ->
  inv (mkIds (entity_set (i_heap s) a (mkEntity (en_type x) (en_iri x) (en_id x) r)) (i_tbl s) (i_map s)) own'.
Proof.
  intros s own own' a x r I X R O W.
  assert (G : forall b y, entity_at (entity_set (i_heap s) a (mkEntity (en_type x) (en_iri x) (en_id x) r)) b = Some y ->
    exists y', entity_at (i_heap s) b = Some y' /\ en_type y = en_type y' /\ en_iri y = en_iri y' /\ en_id y = en_id y' /\
      en_ref y = if b =? a then r else en_ref y').
  { intros b y Y. rewrite at_set in Y. destruct (N.eqb_spec b a) as [-> | J].
    - rewrite X in Y. simpl in Y. inversion Y; subst. exists x. simpl. auto.
    - exists y. auto. }
  split; simpl.
  - intros n b H. destruct (v_map s own I n b H) as (y & Y & E). rewrite at_set.
    destruct (N.eqb_spec b a) as [-> | J]; [rewrite X; simpl; eexists; split; [reflexivity | ] | eauto].
    simpl. congruence.
  - intros b y Y. destruct (G b y Y) as (y' & Y' & _ & _ & E & _). rewrite E. exact (v_live s own I b y' Y').
  - intros b y Y. destruct (G b y Y) as (y' & Y' & _ & _ & _ & E). rewrite E.
    destruct (N.eqb_spec b a) as [-> | J]; [exact R | ]. rewrite (O b J). exact (v_ref s own I b y' Y').
  - exact (v_tbl s own I).
  - intros b c y z Y Z T J. destruct (G b y Y) as (y' & Y' & A1 & A2 & _). destruct (G c z Z) as (z' & Z' & B1 & B2 & _).
    apply (v_key s own I b c y' z' Y' Z'); congruence.
  - exact W.
  - rewrite fst_set. exact (v_nodup s own I).
Qed.

Lemma inv_get : forall s own t iri put fresh pushed, inv s own -> (forall a, fresh = Some a -> entity_at (i_heap s) a = None) ->
  exists r s', entity_get put fresh pushed s t iri = Some (r, s') /\ inv s' (match r with Some a => a :: own | None => own end) /\
    (forall a x, entity_at (i_heap s) a = Some x -> exists y, entity_at (i_heap s') a = Some y /\ en_type y = en_type x /\
       en_iri y = en_iri x /\ en_id y = en_id x) /\
    (forall a, r = Some a -> exists x, entity_at (i_heap s') a = Some x /\ en_type x = t /\ en_iri x = iri /\
       (entity_at (i_heap s) a = None -> en_id x = N.of_nat (List.length (i_map s)))) /\
    (forall a x, entity_at (i_heap s) a = Some x -> en_type x = t -> en_iri x = iri -> r = Some a) /\
    (r = None -> s' = s).
Proof.
  intros s own t iri put fresh pushed I F. unfold entity_get.
  destruct (find_ok (i_heap s) (i_tbl s) t iri) as [(a & x & E & J & X & T & R) | (E & J)].
  - intros a J. apply (map_live s own); [exact I | ]. apply (v_tbl s own I). exact J.
  - rewrite E. unfold incr_ref. rewrite X. exists (Some a). eexists. split; [reflexivity | ].
    split; [ | split; [ | split; [ | split]]].
    + apply (inv_count s own); auto.
      * rewrite (v_ref s own I a x X). simpl. destruct (N.eq_dec a a); [lia | congruence].
      * intros b K. simpl. destruct (N.eq_dec a b); [congruence | reflexivity].
      * intros b [<- | K]; [exact (live_map s own a x I X) | exact (v_own s own I b K)].
    + intros b y Y. simpl. rewrite at_set. destruct (N.eqb_spec b a) as [-> | K]; [ | eauto].
      rewrite X. simpl. eexists. split; [reflexivity | ]. rewrite X in Y. inversion Y; subst. auto.
    + intros b K. inversion K; subst b. simpl. rewrite at_set, N.eqb_refl, X. simpl. eexists. split; [reflexivity | ].
      simpl. split; [exact T | ]. split; [exact R | ]. congruence.
    + intros b y Y U V. f_equal. apply (v_key s own I a b x y X Y); congruence.
    + discriminate.
  - rewrite E.
    assert (NO : exists (r : option N) s', Some (None, s) = Some (r, s') /\ inv s' (match r with Some a => a :: own | None => own end) /\
      (forall a x, entity_at (i_heap s) a = Some x -> exists y, entity_at (i_heap s') a = Some y /\ en_type y = en_type x /\
         en_iri y = en_iri x /\ en_id y = en_id x) /\
      (forall a, r = Some a -> exists x, entity_at (i_heap s') a = Some x /\ en_type x = t /\ en_iri x = iri /\
         (entity_at (i_heap s) a = None -> en_id x = N.of_nat (List.length (i_map s)))) /\
      (forall a x, entity_at (i_heap s) a = Some x -> en_type x = t -> en_iri x = iri -> r = Some a) /\
      (r = None -> s' = s)).
    { exists None, s. split; [reflexivity | ]. split; [exact I | ]. split; [eauto | ]. split; [discriminate | ].
      split; [ | auto]. intros a x X T R. exfalso. apply (J a x); auto. apply (v_tbl s own I). exact (live_map s own a x I X). }
    destruct put; [ | exact NO]. unfold entity_alloc. destruct fresh as [a|]; [ | exact NO].
    destruct pushed; [ | exact NO]. simpl. clear NO. specialize (F a eq_refl).
    assert (NI : ~ In a (i_map s)). { intros K. destruct (map_live s own a I K) as [x X]. congruence. }
    assert (NO : cnt own a = 0%nat). { apply count_occ_not_In. intros K. apply NI. exact (v_own s own I a K). }
    eexists. eexists. split; [reflexivity | ]. split; [ | split; [ | split; [ | split]]].
    + split; simpl.
      * intros n b H. destruct (Nat.lt_trichotomy n (List.length (i_map s))) as [L | [L | L]].
        -- rewrite nth_error_app1 in H by exact L. destruct (v_map s own I n b H) as (x & X & N0).
           destruct (N.eqb_spec a b) as [<- | K]; [congruence | eauto].
        -- rewrite nth_error_app2 in H by lia. subst n. rewrite Nat.sub_diag in H. simpl in H. inversion H; subst b.
           rewrite N.eqb_refl. eauto.
        -- rewrite nth_error_app2 in H by lia. destruct (n - List.length (i_map s))%nat eqn:D; [lia | ].
           simpl in H. destruct n0; discriminate H.
      * intros b x. destruct (N.eqb_spec a b) as [<- | K]; intros X.
        -- inversion X; subst. simpl. rewrite Nnat.Nat2N.id. rewrite nth_error_app2 by lia. rewrite Nat.sub_diag. reflexivity.
        -- rewrite nth_error_app1; [exact (v_live s own I b x X) | ]. apply nth_error_Some. rewrite (v_live s own I b x X). discriminate.
      * intros b x. destruct (N.eqb_spec a b) as [<- | K]; intros X.
        -- inversion X; subst. simpl. destruct (N.eq_dec a a); [ | congruence]. rewrite NO. reflexivity.
        -- destruct (N.eq_dec a b); [congruence | ]. exact (v_ref s own I b x X).
      * intros b. rewrite in_app_iff. simpl. rewrite (v_tbl s own I b). tauto.
      * intros b c x y. destruct (N.eqb_spec a b) as [<- | K]; destruct (N.eqb_spec a c) as [<- | L]; intros X Y T R.
        -- reflexivity.
        -- inversion X; subst. simpl in *. exfalso. apply (J c y); auto.
           apply (v_tbl s own I). exact (live_map s own c y I Y).
        -- inversion Y; subst. simpl in *. exfalso. apply (J b x); auto.
           apply (v_tbl s own I). exact (live_map s own b x I X).
        -- exact (v_key s own I b c x y X Y T R).
      * intros b [<- | K]; apply in_app_iff; [right; left; reflexivity | left; exact (v_own s own I b K)].
      * constructor; [apply at_none; exact F | exact (v_nodup s own I)].
    + intros b x X. simpl. destruct (N.eqb_spec a b) as [<- | K]; [congruence | eauto].
    + intros b K. inversion K; subst b. simpl. rewrite N.eqb_refl. eexists. split; [reflexivity | ]. simpl. auto.
    + intros b x X T R. exfalso. apply (J b x); auto. apply (v_tbl s own I). exact (live_map s own b x I X).
    + discriminate.
Qed.

Lemma cnt_give : forall own a b, cnt (give_back a own) b = if N.eqb b a then pred (cnt own a) else cnt own b.
Proof.
  induction own as [ | c own IH]; intros a b; simpl; [destruct (b =? a); reflexivity | ].
  destruct (N.eqb_spec c a) as [-> | J].
  - destruct (N.eqb_spec b a) as [-> | K].
    + destruct (N.eq_dec a a); [reflexivity | congruence].
    + destruct (N.eq_dec a b); [congruence | reflexivity].
  - simpl. rewrite IH. destruct (N.eqb_spec b a) as [-> | K].
    + destruct (N.eq_dec c a); [congruence | ]. reflexivity.
    + reflexivity.
Qed.
Lemma in_give : forall own a b, In b (give_back a own) -> In b own.
Proof.
  induction own as [ | c own IH]; intros a b H; simpl in *; [exact H | ].
  destruct (c =? a); [right; exact H | ]. destruct H as [-> | H]; [left; reflexivity | right; exact (IH a b H)].
Qed.

(** What a step keeps. *)
Definition kept (s s' : ids) : Prop := forall a x, entity_at (i_heap s) a = Some x ->
  exists y, entity_at (i_heap s') a = Some y /\ en_type y = en_type x /\ en_iri y = en_iri x /\ en_id y = en_id x.

Lemma inv_step : forall s own op, inv s own -> may s own op ->
  exists r s', ids_step s op = Some (r, s') /\ inv s' (holds own op r) /\ kept s s'.
Proof.
  intros s own op I M. destruct op as [t iri put fresh pushed | a | a]; simpl in M.
  - destruct M as [_ F]. destruct (inv_get s own t iri put fresh pushed I F) as (r & s' & E & I' & K & _).
    exists r, s'. simpl. split; [exact E | ]. split; [exact I' | exact K].
  - destruct (map_live s own a I (v_own s own I a M)) as [x X]. simpl. unfold incr_ref. rewrite X. simpl.
    eexists. eexists. split; [reflexivity | ]. simpl. split.
    + apply (inv_count s own); auto.
      * rewrite (v_ref s own I a x X). simpl. destruct (N.eq_dec a a); [lia | congruence].
      * intros b J. simpl. destruct (N.eq_dec a b); [congruence | reflexivity].
      * intros b [<- | J]; [exact (live_map s own a x I X) | exact (v_own s own I b J)].
    + intros b y Y. simpl. rewrite at_set. destruct (N.eqb_spec b a) as [-> | J]; [ | eauto].
      rewrite X. simpl. eexists. split; [reflexivity | ]. rewrite X in Y. inversion Y; subst. auto.
  - destruct (map_live s own a I (v_own s own I a M)) as [x X]. simpl. unfold entity_release. rewrite X.
    pose proof (v_ref s own I a x X) as R.
    assert (P : (0 < cnt own a)%nat) by (apply count_occ_In; exact M).
    destruct (N.eqb_spec (en_ref x) 1) as [E | E]; [lia | ].
    eexists. eexists. split; [reflexivity | ]. simpl. split.
    + apply (inv_count s own); auto.
      * rewrite R, cnt_give, N.eqb_refl. lia.
      * intros b J. rewrite cnt_give. destruct (N.eqb_spec b a); [congruence | reflexivity].
      * intros b J. exact (v_own s own I b (in_give own a b J)).
    + intros b y Y. simpl. rewrite at_set. destruct (N.eqb_spec b a) as [-> | J]; [ | eauto].
      rewrite X. simpl. eexists. split; [reflexivity | ]. rewrite X in Y. inversion Y; subst. auto.
Qed.

Lemma history_inv : forall l s own, history l s own -> inv s own.
Proof.
  intros l s own H. induction H as [ | l s own op r s' _ IH M E]; [exact inv_start | ].
  destruct (inv_step s own op IH M) as (r1 & s1 & E1 & I1 & _). rewrite E in E1. inversion E1; subst. exact I1.
Qed.

Lemma kept_trans : forall s s1 s2, kept s s1 -> kept s1 s2 -> kept s s2.
Proof.
  intros s s1 s2 A B a x X. destruct (A a x X) as (y & Y & ? & ? & ?). destruct (B a y Y) as (z & Z & ? & ? & ?).
  exists z. repeat split; congruence.
Qed.
Lemma later_kept : forall s own s' own', later s own s' own' -> inv s own -> inv s' own' /\ kept s s'.
Proof.
  intros s own s' own' H. induction H as [s own | s own s1 own1 op r s2 _ IH M E]; intros I.
  - split; [exact I | ]. intros a x X. eauto.
  - destruct (IH I) as [I1 K1]. destruct (inv_step s1 own1 op I1 M) as (r2 & s3 & E1 & I2 & K2).
    rewrite E in E1. inversion E1; subst. split; [exact I2 | exact (kept_trans _ _ _ K1 K2)].
Qed.

Lemma given_entity : forall l s own t iri a, history l s own -> was_given l t iri a -> is_entity s a t iri.
Proof.
  intros l s own t iri a H. revert t iri a. induction H as [ | l s own op r s' H IH M E]; intros t iri a (p & f & q & J).
  - destruct J.
  - pose proof (history_inv l s own H) as I.
    apply in_app_iff in J. destruct J as [J | [J | []]].
    + destruct (IH t iri a) as (x & X & T & R); [exists p, f, q; exact J | ].
      destruct (inv_step s own op I M) as (r1 & s1 & E1 & _ & K). rewrite E in E1. inversion E1; subst.
      destruct (K a x X) as (y & Y & ? & ? & ?). exists y. repeat split; congruence.
    + inversion J; subst. simpl in M, E. destruct M as [_ F].
      destruct (inv_get s own t iri p f q I F) as (r & s1 & E1 & _ & _ & G & _). rewrite E in E1. inversion E1; subst.
      destruct (G a eq_refl) as (x & X & T & R & _). exists x. auto.
Qed.

(** * The results *)

Lemma with_id_iff : forall s own id a, inv s own -> entity_with_id s id = Some a <-> entity_get_id s a = Some id.
Proof.
  intros s own id a I. unfold entity_with_id, entity_get_id. split.
  - destruct (id <? N.of_nat (List.length (i_map s))); [ | discriminate]. intros H.
    destruct (v_map s own I _ _ H) as (x & X & E). rewrite X. simpl. rewrite E, Nnat.N2Nat.id. reflexivity.
  - destruct (entity_at (i_heap s) a) as [x|] eqn:X; [ | discriminate]. simpl. intros H. inversion H; subst.
    pose proof (v_live s own I a x X) as L.
    assert (K : (N.to_nat (en_id x) < List.length (i_map s))%nat) by (apply nth_error_Some; rewrite L; discriminate).
    destruct (N.ltb_spec (en_id x) (N.of_nat (List.length (i_map s)))) as [_ | J]; [exact L | lia].
Qed.

Lemma ids_safe : forall l s own op, history l s own -> may s own op -> exists r s', ids_step s op = Some (r, s').
Proof. intros l s own op H M. destruct (inv_step s own op (history_inv l s own H) M) as (r & s' & E & _). eauto. Qed.

Lemma ids_resolve : forall l s own t iri a, history l s own -> is_entity s a t iri ->
  exists id, entity_get_id s a = Some id /\ forall b, entity_with_id s id = Some b <-> b = a.
Proof.
  intros l s own t iri a H (x & X & _ & _). pose proof (history_inv l s own H) as I.
  exists (en_id x). assert (G : entity_get_id s a = Some (en_id x)) by (unfold entity_get_id; rewrite X; reflexivity).
  split; [exact G | ]. intros b. apply (with_id_iff s own _ a I) in G. split; intros J; congruence.
Qed.

Lemma ids_found : forall l s own id a, history l s own -> entity_with_id s id = Some a ->
  entity_get_id s a = Some id /\ exists t iri, is_entity s a t iri.
Proof.
  intros l s own id a H E. pose proof (history_inv l s own H) as I. apply (with_id_iff s own id a I) in E.
  split; [exact E | ]. unfold entity_get_id in E. destruct (entity_at (i_heap s) a) as [x|] eqn:X; [ | discriminate E].
  exists (en_type x), (en_iri x), x. auto.
Qed.

Lemma ids_lasting : forall l s own s' own' t iri a id, history l s own -> later s own s' own' ->
  was_given l t iri a -> entity_get_id s a = Some id -> is_entity s' a t iri /\ entity_get_id s' a = Some id.
Proof.
  intros l s own s' own' t iri a id H L G E. pose proof (history_inv l s own H) as I.
  destruct (later_kept s own s' own' L I) as [_ K].
  destruct (given_entity l s own t iri a H G) as (x & X & T & R).
  destruct (K a x X) as (y & Y & ? & ? & D). split; [exists y; repeat split; congruence | ].
  unfold entity_get_id in *. rewrite X in E. rewrite Y. simpl in *. congruence.
Qed.

Lemma ids_same : forall l s own t iri a put fresh pushed, history l s own -> was_given l t iri a ->
  may s own (IGet t iri put fresh pushed) -> exists s', ids_step s (IGet t iri put fresh pushed) = Some (Some a, s').
Proof.
  intros l s own t iri a put fresh pushed H G [_ F]. pose proof (history_inv l s own H) as I.
  destruct (given_entity l s own t iri a H G) as (x & X & T & R).
  destruct (inv_get s own t iri put fresh pushed I F) as (r & s' & E & _ & _ & _ & D & _).
  rewrite (D a x X T R) in E. exists s'. exact E.
Qed.

Lemma ids_increasing : forall l s own t iri put fresh pushed a s', history l s own -> may s own (IGet t iri put fresh pushed) ->
  ids_step s (IGet t iri put fresh pushed) = Some (Some a, s') -> (forall u, ~ is_entity s a t u) ->
  exists id, entity_get_id s' a = Some id /\ (forall b i, entity_get_id s b = Some i -> i < id) /\
    (forall i, i < id -> exists b, entity_get_id s b = Some i).
Proof.
  intros l s own t iri put fresh pushed a s' H [_ F] E J. pose proof (history_inv l s own H) as I. simpl in E.
  destruct (inv_get s own t iri put fresh pushed I F) as (r & s1 & E1 & _ & K & G & _). rewrite E in E1. inversion E1; subst.
  destruct (G a eq_refl) as (x & X & T & R & D).
  assert (Z : entity_at (i_heap s) a = None).
  { destruct (entity_at (i_heap s) a) as [y|] eqn:Y; [ | reflexivity]. exfalso. destruct (K a y Y) as (z & Z & T' & _).
    apply (J (en_iri y)). exists y. repeat split; auto. congruence. }
  specialize (D Z). exists (en_id x). unfold entity_get_id. rewrite X. split; [reflexivity | ]. rewrite D. split.
  - intros b i B. destruct (entity_at (i_heap s) b) as [y|] eqn:Y; [ | discriminate B]. simpl in B. inversion B; subst.
    pose proof (v_live s own I b y Y) as L.
    assert (N.to_nat (en_id y) < List.length (i_map s))%nat by (apply nth_error_Some; rewrite L; discriminate). lia.
  - intros i L. destruct (nth_error (i_map s) (N.to_nat i)) as [b|] eqn:B; [ | apply nth_error_None in B; lia].
    destruct (v_map s own I _ _ B) as (y & Y & N0). exists b. rewrite Y. simpl. rewrite N0, Nnat.N2Nat.id. reflexivity.
Qed.

(** * Shutting down *)

Lemma at_drop : forall h a b, NoDup (map fst h) -> entity_at (entity_drop h a) b = if b =? a then None else entity_at h b.
Proof.
  induction h as [ | [c y] h IH]; intros a b D; simpl; [destruct (b =? a); reflexivity | ].
  simpl in D. inversion D as [ | ? ? D1 D2]; subst. destruct (N.eqb_spec c a) as [-> | J].
  - destruct (N.eqb_spec b a) as [-> | K].
    + clear - D1. induction h as [ | [c z] h IH]; simpl in *; [reflexivity | ].
      destruct (N.eqb_spec c a); [subst; tauto | apply IH; tauto].
    + destruct (N.eqb_spec a b); [congruence | reflexivity].
  - simpl. rewrite IH by exact D2. destruct (N.eqb_spec c b) as [-> | K].
    + destruct (N.eqb_spec b a); [congruence | reflexivity].
    + reflexivity.
Qed.

(** Only references are left: [R] has one entry for each. *)
Record rest (s : ids) (R : list N) : Prop := {
  t_nodup : NoDup (map fst (i_heap s));
  t_tbl : i_tbl s = [];
  t_ref : forall a x, entity_at (i_heap s) a = Some x -> en_ref x = N.of_nat (cnt R a);
  t_live : forall a, In a R <-> exists x, entity_at (i_heap s) a = Some x
}.

Lemma nodup_drop : forall h a, NoDup (map fst h) -> NoDup (map fst (entity_drop h a)).
Proof.
  induction h as [ | [c y] h IH]; intros a D; simpl in *; [exact D | ]. inversion D as [ | ? ? D1 D2]; subst.
  destruct (c =? a); [exact D2 | ]. simpl. constructor; [ | exact (IH a D2)].
  intros J. apply D1. clear - J. induction h as [ | [b z] h IH]; simpl in *; [exact J | ].
  destruct (b =? a); [right; exact J | ]. destruct J as [J | J]; [left; exact J | right; exact (IH J)].
Qed.

Lemma in_give_iff : forall R a b, In b (give_back a R) <-> (0 < cnt (give_back a R) b)%nat.
Proof. intros R a b. apply (count_occ_In N.eq_dec). Qed.

Lemma rest_release : forall s R a, rest s R -> In a R -> exists s', entity_release s a = Some s' /\ rest s' (give_back a R) /\ i_map s' = i_map s.
Proof.
  intros s R a H J. pose proof (proj1 (t_live s R H a) J) as [x X]. unfold entity_release. rewrite X.
  pose proof (t_ref s R H a x X) as E. pose proof (proj1 (count_occ_In N.eq_dec R a) J) as P.
  destruct (N.eqb_spec (en_ref x) 1) as [F | F].
  - unfold entity_free. rewrite X, (t_tbl s R H). simpl. eexists. split; [reflexivity | ]. split; [ | reflexivity].
    assert (C : cnt R a = 1%nat) by lia. split; simpl.
    + apply nodup_drop. exact (t_nodup s R H).
    + reflexivity.
    + intros b y. rewrite at_drop by exact (t_nodup s R H). rewrite cnt_give. destruct (N.eqb_spec b a); [discriminate | ].
      exact (t_ref s R H b y).
    + intros b. rewrite at_drop by exact (t_nodup s R H). rewrite in_give_iff, cnt_give.
      destruct (N.eqb_spec b a) as [-> | K].
      * rewrite C. simpl. split; [lia | intros [y Y]; discriminate Y].
      * rewrite <- (t_live s R H b). symmetry. apply (count_occ_In N.eq_dec).
  - eexists. split; [reflexivity | ]. split; [ | reflexivity]. split; simpl.
    + rewrite fst_set. exact (t_nodup s R H).
    + exact (t_tbl s R H).
    + intros b y. rewrite at_set, cnt_give. destruct (N.eqb_spec b a) as [-> | K].
      * rewrite X. simpl. intros Y. inversion Y; subst. simpl. lia.
      * exact (t_ref s R H b y).
    + intros b. rewrite at_set, in_give_iff, cnt_give. destruct (N.eqb_spec b a) as [-> | K].
      * rewrite X. simpl. split; [eauto | lia].
      * rewrite <- (t_live s R H b). symmetry. apply (count_occ_In N.eq_dec).
Qed.

(** Gives back several. *)
Definition give_all (l R : list N) : list N := fold_left (fun R a => give_back a R) l R.

Lemma cnt_give_all : forall l R a, cnt (give_all l R) a = (cnt R a - cnt l a)%nat.
Proof.
  induction l as [ | b l IH]; intros R a; simpl; [lia | ]. rewrite IH, cnt_give.
  destruct (N.eqb_spec a b) as [-> | K].
  - destruct (N.eq_dec b b); [lia | congruence].
  - destruct (N.eq_dec b a); [congruence | lia].
Qed.

Lemma rest_releases : forall l s R, rest s R -> (forall a, (cnt l a <= cnt R a)%nat) ->
  exists s', releases l s = Some s' /\ rest s' (give_all l R) /\ i_map s' = i_map s.
Proof.
  induction l as [ | a l IH]; intros s R H L; simpl; [eauto | ].
  assert (J : In a R). { apply (count_occ_In N.eq_dec). specialize (L a). simpl in L. destruct (N.eq_dec a a); [lia | congruence]. }
  destruct (rest_release s R a H J) as (s1 & E & H1 & M). rewrite E.
  destruct (IH s1 (give_back a R) H1) as (s' & E' & H' & M').
  - intros b. rewrite cnt_give. specialize (L b). simpl in L. destruct (N.eqb_spec b a) as [-> | K].
    + destruct (N.eq_dec a a); [lia | congruence].
    + destruct (N.eq_dec a b); [congruence | lia].
  - exists s'. split; [exact E' | ]. split; [exact H' | congruence].
Qed.

Lemma fold_releases : forall l s, fold_left (fun r a => match r with None => None | Some s => entity_release s a end) l (Some s) = releases l s.
Proof.
  induction l as [ | a l IH]; intros s; simpl; [reflexivity | ]. destruct (entity_release s a) as [s'|]; [exact (IH s') | ].
  clear. induction l as [ | b l IH]; simpl; [reflexivity | exact IH].
Qed.

Lemma rest_map : forall s R m, rest s R -> rest (mkIds (i_heap s) (i_tbl s) m) R.
Proof. intros s R m H. split; simpl; [exact (t_nodup s R H) | exact (t_tbl s R H) | exact (t_ref s R H) | exact (t_live s R H)]. Qed.

Lemma ids_end : forall l s own, history l s own -> exists s' s'', ids_deinit s = Some s' /\
  (forall a, In a own <-> exists t iri, is_entity s' a t iri) /\ releases own s' = Some s'' /\ i_heap s'' = [].
Proof.
  intros l s own H. pose proof (history_inv l s own H) as I.
  assert (U : forall a, In a (i_map s) -> cnt (i_map s) a = 1%nat).
  { intros a J. apply NoDup_count_occ'; [ | exact J]. apply NoDup_nth_error. intros n m L E.
    destruct (nth_error (i_map s) n) as [b|] eqn:B; [ | apply nth_error_None in B; lia].
    destruct (v_map s own I n b B) as (x & X & E1). symmetry in E. destruct (v_map s own I m b E) as (y & Y & E2).
    rewrite X in Y. inversion Y; subst. lia. }
  assert (T : rest (mkIds (i_heap s) [] (i_map s)) (own ++ i_map s)).
  { split; simpl.
    - exact (v_nodup s own I).
    - reflexivity.
    - intros a x X. rewrite count_occ_app, (U a (live_map s own a x I X)), (v_ref s own I a x X). lia.
    - intros a. rewrite in_app_iff. split.
      + intros [J | J]; apply (map_live s own a I); [exact (v_own s own I a J) | exact J].
      + intros [x X]. right. exact (live_map s own a x I X). }
  destruct (rest_releases (i_map s) _ _ T) as (s1 & E1 & R1 & _); [intros a; rewrite count_occ_app; lia | ].
  unfold ids_deinit. rewrite fold_releases, E1. eexists.
  destruct (rest_releases own (mkIds (i_heap s1) (i_tbl s1) []) _ (rest_map s1 _ [] R1)) as (s2 & E2 & R2 & _).
  { intros a. rewrite cnt_give_all, count_occ_app. lia. }
  exists s2. split; [reflexivity | ]. split; [ | split; [exact E2 | ]].
  - intros a. assert (Z : In a own <-> In a (give_all (i_map s) (own ++ i_map s))).
    { rewrite !(count_occ_In N.eq_dec), cnt_give_all, count_occ_app. lia. }
    rewrite Z, (t_live _ _ R1 a). split.
    + intros [x X]. exists (en_type x), (en_iri x), x. auto.
    + intros (t & iri & x & X & _). exists x. exact X.
  - destruct (i_heap s2) as [ | [a x] h] eqn:D; [reflexivity | ]. exfalso.
    assert (J : In a (give_all own (give_all (i_map s) (own ++ i_map s)))).
    { apply (t_live _ _ R2 a). exists x. rewrite D. simpl. rewrite N.eqb_refl. reflexivity. }
    apply (count_occ_In N.eq_dec) in J. rewrite !cnt_give_all, count_occ_app in J. lia.
Qed.
