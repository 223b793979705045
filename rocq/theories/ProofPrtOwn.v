(** The ProtocOWL reader and memory: the decoding functions. *)

From Coq Require Import NArith ZArith List Bool Arith Lia Permutation.
From Verif Require Import Bytes ModelTypes ModelObject ModelHeader SpecHeader ModelText ModelHeap SpecHeap SpecGet SpecIsolate.
From Verif Require ProofHeap ProofHeapFun ProofHeapName ProofHeapSame ProofHeapLib ProofHeapEnd ProofHeapTop.
From Verif Require Import ModelReadOwn SpecRead ProofReadCalls ProofReadMake ProofReadLogic ProofReadRule.
From Verif Require Import ModelPrtEncoder ModelPrtOwn SpecPrtOwn.
From Verif Require ModelPrtDecoder.
Import ListNotations.
Local Open Scope N_scope.

Section Own.
Variable huge : bool.
Variable fresh : N -> heap -> N.
Hypothesis fresh_ok : allocator fresh.
Variables (e : env) (vs : list vocab) (lib : list N).
Variable random : nat -> list bytes.
Local Notation Hist := (ProofReadCalls.Hist huge fresh e vs lib).
Local Notation Good := (ProofReadRule.Good huge fresh e vs lib).
Local Notation vok := (ProofReadRule.vok huge).
Local Notation okay := (ProofReadRule.okay huge).
Local Notation holds := (ProofReadLogic.holds huge fresh e (foreseen huge e) (client huge fresh e lib)).
Local Notation exec := (ModelHeap.exec huge fresh e).
Local Notation read_varint := (ModelPrtOwn.read_varint huge).
Local Notation read_svarint := (ModelPrtOwn.read_svarint huge).
Local Notation decode_string := (ModelPrtOwn.decode_string huge).
Local Notation get_id := (ModelPrtOwn.get_id random).
Local Notation get_id_iri := (ModelPrtOwn.get_id_iri huge random).

(** * Calls *)

Lemma h_bind {A B} (m : D A) (k : A -> D B) d s out Q :
  holds (m d) s out (fun x s' out' => holds (k (fst x) (snd x)) s' out' Q) -> holds (dbind m k d) s out Q.
Proof. apply h_then. Qed.

Lemma anon_typed s own id ids : Hist s own -> allowed huge e lib own s (KAnon id ids) -> expected huge e s (KAnon id ids) ->
  exists r s', exec (KAnon id ids) s = Ok r s' /\ forall a, r = Some a -> has_type huge s' a OT_I_ANONYMOUS.
Proof.
  intros H AL X. destruct (plain huge fresh fresh_ok e vs lib s own H _ X) as (o & HH & P & RM & AP). specialize (AP AL). pose proof AP as AP'.
  destruct (ProofHeapSame.run huge fresh fresh_ok e vs lib o s HH (KAnon id ids) 2
    (fun r A' => match r with Some a => ProofHeap.Inv huge e A' (a :: lib ++ o) [] /\ exists t, ProofHeapName.anon_is (ProofHeap.a_h A') a t | None => True end)
    AP Logic.I RM ltac:(cbn; lia)) as (A & A' & r & ES & I & EX & _ & _ & _ & Q).
  - intros A ES I. cbn [ModelHeap.exec]. eapply ProofHeapFun.ok_post; [apply (ProofHeapName.anon_ind_ok huge fresh fresh_ok e A (lib ++ o) id ids I)|].
    + destruct id as [i|]; [|exact Logic.I]. destruct AP' as [_ T]. rewrite ES in T. apply (ProofHeapTop.type_iff huge e A (lib ++ o) []) in T; auto.
    + intros [a|] A' HA _; [|exact Logic.I]. destruct HA as (I' & t & AI & _). eauto.
  - exists r, (ProofHeap.cs huge A'). split; [exact EX|]. intros a ->. destruct Q as (I' & t & v & i & E & BD & _).
    apply (ProofHeapTop.type_iff huge e A' (a :: lib ++ o) []); [exact I'|]. destruct (ProofHeap.i_fit _ _ _ _ _ I' a v E) as [_ SH].
    exists v. split; [exact E|]. destruct v as [t0 b n bd]. cbn in *. subst bd. now inversion SH.
Qed.

(** * Entries *)

Definition idx (d : dec) : list (kind * value) :=
  map (fun a => (TStr, VObj (Some a))) (i_ns d) ++ map (fun a => (TId, VObj (Some a))) (i_ids d).
Fixpoint pk (k : kind) : bool :=
  match k with TAny | TStr | TIri | TNew | TVec | TId | TList | TUsed => true | TMay k' => pk k' | _ => false end.

Lemma pk_obj s k v : pk k = true -> vok s k v -> exists p, v = VObj p.
Proof.
  induction k; cbn; try discriminate; intros Q V; try (destruct V as (a & V); try destruct V as (V & _); subst; eauto; fail).
  destruct V as [->|V]; eauto.
Qed.
Lemma pk_gone k : pk k = true -> k <> TGone.
Proof. intros Q ->. discriminate Q. Qed.
Lemma pk_own k v : pk k = true -> own (k, v) = refs v.
Proof. intros Q. unfold own. cbn. destruct k; try discriminate Q; reflexivity. Qed.
Lemma good_loose s out P Q : forallb (fun x => pk (fst x)) P = true -> Good s out (P ++ Q) ->
  Good s out (map (fun x => (TMay TAny, snd x)) P ++ Q).
Proof.
  intros F (H & O). split.
  - revert H. rewrite !owns_app. assert (owns (map (fun x => (TMay TAny, snd x)) P) = owns P) as ->; [|auto].
    clear O. induction P as [|[k v] P IH]; [reflexivity|]. cbn [map forallb] in *. apply andb_true_iff in F. destruct F as [F1 F2].
    cbn [owns flat_map]. rewrite (pk_own k v F1). f_equal. exact (IH F2).
  - apply Forall_app in O. destruct O as [O1 O2]. apply Forall_app. split; [|exact O2]. rewrite forallb_forall in F.
    rewrite Forall_forall in *. intros x J. apply in_map_iff in J as ([k v] & <- & J). unfold ProofReadRule.okay. cbn.
    destruct (pk_obj s k v (F _ J) (O1 _ J)) as ([a|] & ->); eauto.
Qed.
Lemma front_apart s out P Q x kd w : Good s out (P ++ Q) -> In x (owns P) -> In (kd, w) Q -> is_priv kd = true -> ~ In x (refs w).
Proof.
  intros G J I PR. unfold owns in J. apply in_flat_map in J as ((k, v) & J & O). apply in_split in J as (a & b & ->).
  apply (head_apart huge fresh fresh_ok e vs lib s out k v (a ++ b ++ Q) x kd w); auto.
  - revert G. apply good_perm. rewrite <- app_assoc. cbn. apply Permutation_sym, Permutation_middle.
  - apply in_or_app. right. apply in_or_app. now right.
Qed.
Lemma type_free k s out L : Good s out L -> (forall x, In x (arguments k) -> exists t, has_type huge s x t /\ t <> OT_VECTOR) -> free k L.
Proof.
  intros (_ & F) T x kd w J I P. rewrite Forall_forall in F. destruct (T x J) as (t & TY & N).
  apply (type_apart huge s kd w x t); auto. exact (F (kd, w) I).
Qed.
Lemma alive_type s a t : has_type huge s a t -> alive s a.
Proof. intros (c & E & _). exists c. exact E. Qed.
Lemma good_usable s out L a : Good s out L -> alive s a -> usable (lib ++ owns L ++ out) s a.
Proof. intros (H & _). apply (any_usable huge fresh fresh_ok e vs lib s _ H). Qed.
Lemma owned_usable s out L a : Good s out L -> In a (owns L) -> usable (lib ++ owns L ++ out) s a.
Proof. intros (H & _) J. apply (held_usable huge fresh fresh_ok e vs lib s _ H). apply in_or_app. right. apply in_or_app. now left. Qed.

Lemma drop_ok p k s out l d : pk k = true -> Good s out ((k, VObj p) :: l) ->
  holds (drop p d) s out (fun x s' out' => out' = out /\ snd x = d /\ Good s' out l).
Proof.
  intros PK G. destruct p as [a|]; cbn [drop].
  - apply h_do. intros [X _]. destruct (release_entry huge fresh fresh_ok e vs lib s out k a l G (pk_gone k PK) X) as (s' & E & G').
    exists None, s'. split; [exact E|]. apply h_ret. auto.
  - apply h_ret. cbn. split; [reflexivity|]. split; [reflexivity|]. eapply good_none; eauto.
Qed.
Lemma drops_ok ps : forall P s out l d, map snd P = map VObj ps -> forallb (fun x => pk (fst x)) P = true -> Good s out (P ++ l) ->
  holds (drops ps d) s out (fun x s' out' => out' = out /\ snd x = d /\ Good s' out l).
Proof.
  induction ps as [|p ps IH]; intros [|[k v] P] s out l d E F G; try discriminate E; cbn [drops].
  - apply h_ret. auto.
  - cbn [map snd] in E. injection E as -> E. cbn [forallb fst] in F. apply andb_true_iff in F. destruct F as [F1 F2].
    apply h_bind. eapply h_post; [apply (drop_ok p k s out (P ++ l) d F1 G)|]. intros (u, d1) s1 o1 (-> & Z & G1). cbn [fst snd] in *. subst d1.
    exact (IH P s1 out l d E F2 G1).
Qed.
Lemma idx_ids d a : Permutation (idx (with_ids (i_ids d ++ [a]) d)) ((TId, VObj (Some a)) :: idx d).
Proof.
  unfold idx, with_ids. cbn [i_ns i_ids]. rewrite map_app. cbn [map]. rewrite app_assoc. apply Permutation_sym, Permutation_cons_append.
Qed.
Lemma idx_ns d a : Permutation (idx (with_ns (i_ns d ++ [a]) d)) ((TStr, VObj (Some a)) :: idx d).
Proof.
  unfold idx, with_ns. cbn [i_ns i_ids]. rewrite map_app. cbn [map]. rewrite <- app_assoc. apply Permutation_sym, Permutation_middle.
Qed.
Lemma into_ids s out l d a : Good s out ((TId, VObj (Some a)) :: l ++ idx d) -> Good s out (l ++ idx (with_ids (i_ids d ++ [a]) d)).
Proof. apply good_perm. eapply Permutation_trans; [apply Permutation_middle|]. apply Permutation_app_head. apply Permutation_sym, idx_ids. Qed.
Lemma into_ns s out l d a : Good s out ((TStr, VObj (Some a)) :: l ++ idx d) -> Good s out (l ++ idx (with_ns (i_ns d ++ [a]) d)).
Proof. apply good_perm. eapply Permutation_trans; [apply Permutation_middle|]. apply Permutation_app_head. apply Permutation_sym, idx_ns. Qed.
Lemma good_in s out L kd v : Good s out L -> In (kd, v) L -> vok s kd v.
Proof. intros (_ & F) J. rewrite Forall_forall in F. exact (F _ J). Qed.
Lemma id_type s out l d a : Good s out (l ++ idx d) -> In a (i_ids d) -> has_type huge s a OT_IRI \/ has_type huge s a OT_I_ANONYMOUS.
Proof.
  intros G J. assert (V := good_in s out _ TId (VObj (Some a)) G). destruct V as (b & E & T).
  - apply in_or_app. right. unfold idx. apply in_or_app. right. apply in_map_iff. eauto.
  - injection E as <-. exact T.
Qed.
Lemma ns_type s out l d a : Good s out (l ++ idx d) -> In a (i_ns d) -> has_type huge s a OT_STRING.
Proof.
  intros G J. assert (V := good_in s out _ TStr (VObj (Some a)) G). destruct V as (b & E & T).
  - apply in_or_app. right. unfold idx. apply in_or_app. left. apply in_map_iff. eauto.
  - injection E as <-. exact T.
Qed.
Lemma retain_ok s out L a : Good s out L -> alive s a -> free (KRetain a) L -> expected huge e s (KRetain a) ->
  exists s', exec (KRetain a) s = Ok (Some a) s' /\ Good s' out ((TAny, VObj (Some a)) :: L) /\
    (forall b t, has_type huge s b t -> has_type huge s' b t).
Proof.
  intros G AV FR X. assert (U := good_usable s out L a G AV).
  destruct (produce huge fresh fresh_ok e vs lib s out L (KRetain a) G U Logic.I X eq_refl FR) as (r & s' & E & G').
  assert (K : forall b t, has_type huge s b t -> has_type huge s' b t).
  { intros b t. exact (types_kept huge fresh fresh_ok e vs lib s _ (KRetain a) r s' b t (proj1 G) U Logic.I X eq_refl eq_refl E). }
  assert (r = Some a) as ->.
  { cbn [ModelHeap.exec] in E. revert E. clear. unfold some, retain, bind, ret. cbn [nonnull ret]. unfold ret.
    destruct (incr_ref huge a s); intros E; [now injection E|discriminate E]. }
  exists s'. split; [exact E|]. split; [|exact K]. eapply good_as; [exact G'| |reflexivity]. cbn. eauto.
Qed.
Lemma simple_free a t : t <> OT_VECTOR -> forall s out L, Good s out L -> has_type huge s a t -> free (KRetain a) L.
Proof. intros N s out L G T. apply (type_free _ s out); [exact G|]. intros x [<-|[]]. eauto. Qed.

(** * Reading *)

(** What the functions that read bytes do. *)
Definition quiet {A} (m : D (option A)) : Prop := forall s out d,
  holds (m d) s out (fun x s' out' => s' = s /\ out' = out /\ i_ns (snd x) = i_ns d /\ i_ids (snd x) = i_ids d /\
    (i_ok (snd x) = true -> i_ok d = true /\ fst x <> None)).
Lemma read_ok {A} (f : bytes -> option (A * bytes)) : quiet (ModelPrtOwn.read f).
Proof.
  intros s out d. unfold ModelPrtOwn.read. destruct (i_ok d) eqn:K; cbn [negb].
  - apply h_choose; [apply h_ret; cbn; repeat split; auto; discriminate|]. destruct (f (i_in d)) as [[x r]|].
    + apply h_ret. cbn. repeat split; auto; discriminate.
    + apply h_ret. cbn. repeat split; auto; discriminate.
  - apply h_ret. cbn. repeat split; auto; congruence.
Qed.
Lemma idx_eq d d' : i_ns d' = i_ns d -> i_ids d' = i_ids d -> idx d' = idx d.
Proof. unfold idx. now intros -> ->. Qed.

(** A function that gives the caller a reference of this kind, or NULL; if [strict], NULL only with an error.
    [V]: what the caller must hold. *)
Definition gives (V : list (kind * value)) (K : kind) (strict : bool) (m : D (option N)) : Prop :=
  forall s out l d, incl V l -> Good s out (l ++ idx d) ->
  holds (m d) s out (fun x s' out' => out' = out /\ Good s' out ((TMay K, VObj (fst x)) :: l ++ idx (snd x)) /\
    (i_ok (snd x) = true -> i_ok d = true /\ (strict = true -> fst x <> None))).
(** A function that returns a pointer the index holds. *)
Definition finds (T : list otype) (m : D (option N)) : Prop :=
  forall s out l d, Good s out (l ++ idx d) ->
  holds (m d) s out (fun x s' out' => out' = out /\ Good s' out (l ++ idx (snd x)) /\
    (i_ok (snd x) = true -> i_ok d = true /\ fst x <> None) /\
    forall a, fst x = Some a -> In a (i_ids (snd x)) /\ exists t, In t T /\ has_type huge s' a t).

Lemma gives_more V W K b m : incl V W -> gives V K b m -> gives W K b m.
Proof. intros I H s out l d IL G. apply H; [|exact G]. intros x J. apply IL, I, J. Qed.
Lemma good_none_in s out k l : Good s out l -> Good s out ((TMay k, VObj None) :: l).
Proof. intros (H & F). split; [exact H|]. constructor; [left; reflexivity|exact F]. Qed.
Lemma gives_as V K K' b m : (forall s v, vok s K v -> vok s K' v) -> pk K = true -> pk K' = true -> gives V K b m -> gives V K' b m.
Proof.
  intros I P1 P2 H s out l d IL G. eapply h_post; [apply (H s out l d IL G)|]. intros (x, d1) s1 o1 (-> & G1 & M). cbn [fst snd] in *.
  split; [reflexivity|]. split; [|exact M]. eapply good_as; [exact G1| |].
  - destruct G1 as (_ & F). inversion_clear F as [|? ? F1 _]. destruct F1 as [F1|F1]; [now left|right; now apply I].
  - unfold own. reflexivity.
Qed.
Lemma gives_any V K b m : pk K = true -> gives V K b m -> gives V TAny b m.
Proof.
  intros P H s out l d IL G. eapply h_post; [apply (H s out l d IL G)|]. intros (x, d1) s1 o1 (-> & G1 & M). cbn [fst snd] in *.
  split; [reflexivity|]. split; [|exact M]. eapply good_as; [exact G1| |reflexivity]. destruct x; cbn; eauto.
Qed.
Lemma gives_null V K m : (forall d, m d = dret None d) -> gives V K false m.
Proof. intros E s out l d _ G. rewrite E. apply h_ret. cbn. split; [reflexivity|]. split; [now apply good_none_in|]. intros O. split; [exact O|discriminate]. Qed.
Lemma gives_fail V K b : gives V K b dfail.
Proof. intros s out l d _ G. apply h_ret. cbn. split; [reflexivity|]. split; [now apply good_none_in|]. discriminate. Qed.
Lemma gives_never V K b : gives V K b (fun _ => Never).
Proof. intros s out l d _ G. apply h_never. Qed.
Lemma gives_weak V K m b : gives V K true m -> gives V K b m.
Proof.
  intros H s out l d IL G. eapply h_post; [apply (H s out l d IL G)|]. intros (x, d1) s1 o1 (-> & G1 & M). cbn [fst snd] in *.
  split; [reflexivity|]. split; [exact G1|]. intros O. destruct (M O). auto.
Qed.
(** A read followed by something; without a value there is an error. *)
Lemma gives_read {A} V K b (m : D (option A)) (f : A -> D (option N)) : quiet m -> (forall x, gives V K b (f x)) ->
  gives V K b (dbind m (fun v => match v with None => dret None | Some x => f x end)).
Proof.
  intros Q H s out l d IL G. apply h_bind. eapply h_post; [apply (Q s out d)|]. intros (v, d1) s1 o1 (-> & -> & E1 & E2 & M). cbn [fst snd] in *.
  rewrite <- (idx_eq d d1 E1 E2) in G. destruct v as [x|].
  - eapply h_post; [apply (H x s out l d1 IL G)|]. intros (y, d2) s2 o2 (-> & G2 & M2). cbn [fst snd] in *. split; [reflexivity|]. split; [exact G2|].
    intros O. destruct (M2 O) as [O1 S1]. split; [|exact S1]. now apply M.
  - apply h_ret. cbn. split; [reflexivity|]. split; [now apply good_none_in|]. intros O. destruct (M O) as [_ []]. reflexivity.
Qed.
Lemma gives_find T V K b m (f : N -> D (option N)) : finds T m ->
  (forall a s out l d, incl V l -> Good s out (l ++ idx d) -> In a (i_ids d) -> (exists t, In t T /\ has_type huge s a t) ->
     holds (f a d) s out (fun x s' out' => out' = out /\ Good s' out ((TMay K, VObj (fst x)) :: l ++ idx (snd x)) /\
       (i_ok (snd x) = true -> i_ok d = true /\ (b = true -> fst x <> None)))) ->
  gives V K b (dbind m (fun v => match v with None => dret None | Some a => f a end)).
Proof.
  intros Q H s out l d IL G. apply h_bind. eapply h_post; [apply (Q s out l d G)|]. intros (v, d1) s1 o1 (-> & G1 & M & FA). cbn [fst snd] in *.
  destruct v as [a|].
  - destruct (FA a eq_refl) as [J T1]. eapply h_post; [apply (H a s1 out l d1 IL G1 J T1)|]. intros (y, d2) s2 o2 (-> & G2 & M2). cbn [fst snd] in *.
    split; [reflexivity|]. split; [exact G2|]. intros O. destruct (M2 O) as [O1 S1]. split; [|exact S1]. now apply M.
  - apply h_ret. cbn. split; [reflexivity|]. split; [now apply good_none_in|]. intros O. destruct (M O) as [_ []]. reflexivity.
Qed.
(** A call that makes a reference. *)
Lemma call_gives k s out L d K :
  Good s out L -> (expected huge e s k -> foreseen huge e s k -> exists r s', exec k s = Ok r s' /\ Good s' out ((TMay K, VObj r) :: L)) ->
  holds (call_lib k d) s out (fun x s' out' => out' = out /\ snd x = d /\ Good s' out ((TMay K, VObj (fst x)) :: L)).
Proof.
  intros G H. unfold call_lib. apply h_do. intros X. destruct (H (proj1 X) X) as (r & s' & E & G'). exists r, s'. split; [exact E|]. apply h_ret. auto.
Qed.
Lemma null_ok p s out L d K : Good s out ((TMay K, VObj p) :: L ++ idx d) ->
  holds (handle_null p d) s out (fun x s' out' => out' = out /\ fst x = p /\ Good s' out ((TMay K, VObj (fst x)) :: L ++ idx (snd x)) /\ idx (snd x) = idx d /\
    (i_ok (snd x) = true -> i_ok d = true /\ fst x <> None)).
Proof.
  intros G. destruct p as [a|]; apply h_ret; cbn; (split; [reflexivity|]); (split; [reflexivity|]); (split; [exact G|]); (split; [reflexivity|]);
    [intros O; split; [exact O|discriminate]|discriminate].
Qed.
Lemma checked_gives k s out l d K b :
  Good s out (l ++ idx d) -> (expected huge e s k -> foreseen huge e s k -> exists r s', exec k s = Ok r s' /\ Good s' out ((TMay K, VObj r) :: l ++ idx d)) ->
  holds (checked k d) s out (fun x s' out' => out' = out /\ Good s' out ((TMay K, VObj (fst x)) :: l ++ idx (snd x)) /\
    (i_ok (snd x) = true -> i_ok d = true /\ (b = true -> fst x <> None))).
Proof.
  intros G H. unfold checked. apply h_bind. eapply h_post; [apply (call_gives k s out _ d K G H)|]. intros (r, d1) s1 o1 (-> & Z & G1). cbn [fst snd] in *. subst d1.
  eapply h_post; [apply (null_ok r s1 out l d K G1)|]. intros (x, d2) s2 o2 (-> & _ & G2 & _ & M). cbn [fst snd] in *. split; [reflexivity|]. split; [exact G2|].
  intros O. destruct (M O). auto.
Qed.
Lemma string_call t b s out L : Good s out L -> expected huge e s (KString t b) ->
  exists r s', exec (KString t b) s = Ok r s' /\ Good s' out ((TMay TStr, VObj r) :: L).
Proof.
  intros G X. destruct (produce huge fresh fresh_ok e vs lib s out L (KString t b) G Logic.I Logic.I X eq_refl) as (r & s' & E & G').
  { intros x kd w []. }
  destruct (make_string huge fresh fresh_ok e vs lib s _ (proj1 G) t b X) as (a & s1 & E1 & T). rewrite E in E1. injection E1 as -> <-.
  exists (Some a), s'. split; [exact E|]. eapply good_as; [exact G'| |reflexivity]. cbn. right. eauto.
Qed.
Lemma string_gives b : gives [] TStr true (decode_string b).
Proof.
  unfold ModelPrtOwn.decode_string. apply gives_read; [apply read_ok|]. intros n. apply gives_read; [apply read_ok|]. intros t s out l d _ G.
  apply checked_gives; [exact G|]. intros X _. exact (string_call t b s out _ G X).
Qed.
Lemma text_gives t : gives [] TStr true (call_lib (KString t false)).
Proof.
  intros s out l d _ G. unfold call_lib. apply h_do. intros [X _].
  destruct (produce huge fresh fresh_ok e vs lib s out _ (KString t false) G Logic.I Logic.I X eq_refl) as (r & s' & E & G').
  { intros x kd w []. }
  destruct (make_string huge fresh fresh_ok e vs lib s _ (proj1 G) t false X) as (a & s1 & E1 & T). rewrite E in E1. injection E1 as -> <-.
  exists (Some a), s'. split; [exact E|]. apply h_ret. cbn. split; [reflexivity|]. split.
  - eapply good_as; [exact G'| |reflexivity]. cbn. right. eauto.
  - intros O. split; [exact O|discriminate].
Qed.

(** * Identifiers *)

Lemma add_id_ok s out l d a : Good s out (l ++ idx d) -> has_type huge s a OT_IRI \/ has_type huge s a OT_I_ANONYMOUS ->
  holds (add_id a d) s out (fun x s' out' => out' = out /\ snd x = with_ids (i_ids d ++ [a]) d /\ Good s' out (l ++ idx (snd x)) /\
    forall b t, has_type huge s b t -> has_type huge s' b t).
Proof.
  intros G T. unfold add_id. apply h_do. intros [X _].
  destruct (retain_ok s out _ a G) as (s' & E & G' & K).
  - destruct T as [T|T]; eapply alive_type; eauto.
  - destruct T as [T|T]; eapply simple_free; eauto; discriminate.
  - exact X.
  - exists (Some a), s'. split; [exact E|]. apply h_ret. cbn [fst snd]. split; [reflexivity|]. split; [reflexivity|]. split; [|exact K].
    apply into_ids. eapply good_as; [exact G'| |reflexivity]. cbn. exists a. split; [reflexivity|]. destruct T as [T|T]; [left|right]; now apply K.
Qed.
Lemma get_id_ok i : finds [OT_IRI; OT_I_ANONYMOUS] (get_id i).
Proof.
  intros s out l d G. unfold ModelPrtOwn.get_id. destruct (i <? _) eqn:L.
  - apply h_ret. cbn [fst snd]. apply N.ltb_lt in L. split; [reflexivity|]. split; [exact G|]. split.
    + intros O. split; [exact O|]. apply nth_error_Some. lia.
    + intros a E. apply nth_error_In in E. split; [exact E|]. destruct (id_type s out l d a G E) as [T|T]; eexists; (split; [|exact T]); cbn; auto.
  - destruct (_ <? i).
    + apply h_ret. cbn. split; [reflexivity|]. split; [exact G|]. split; [discriminate|]. discriminate.
    + apply h_bind. unfold count_fresh. apply h_ret. cbn [fst snd]. set (d0 := mkDec _ _ _ _ _). change (idx d) with (idx d0) in G.
      change (i_ok d) with (i_ok d0). apply h_bind. unfold call_lib. apply h_do. intros [X _].
      destruct (produce huge fresh fresh_ok e vs lib s out _ (KAnon None (random (i_fresh d))) G Logic.I Logic.I X eq_refl) as (r & s' & E & G').
      { intros x kd w []. }
      destruct (anon_typed s _ None _ (proj1 G) Logic.I X) as (r1 & s1 & E1 & T). rewrite E in E1. injection E1 as <- <-.
      exists r, s'. split; [exact E|]. apply h_ret. cbn [fst snd]. destruct r as [a|].
      * specialize (T a eq_refl). apply h_bind. eapply h_post; [apply (add_id_ok s' out ((TMay TAny, VObj (Some a)) :: l) d0 a G'); now right|].
        intros (u, d1) s1 o1 (-> & -> & G1 & K1). cbn [fst snd] in *. apply h_bind.
        eapply h_post; [apply (drop_ok (Some a) (TMay TAny) s1 out (l ++ idx (with_ids (i_ids d0 ++ [a]) d0)) _ eq_refl G1)|].
        intros (u2, d2) s2 o2 (-> & -> & G2). apply h_ret. cbn [fst snd]. split; [reflexivity|]. split; [exact G2|]. split.
        { cbn. intros O. split; [exact O|discriminate]. }
        intros b Z. injection Z as <-. split; [cbn; apply in_or_app; right; now left|].
        destruct (id_type s2 out l _ a G2) as [T2|T2]; [cbn; apply in_or_app; right; now left| |]; eexists; (split; [|exact T2]); cbn; auto.
      * apply h_ret. cbn [fst snd]. split; [reflexivity|]. split; [exact (good_none _ _ _ _ _ _ _ _ _ G')|]. split; [discriminate|]. discriminate.
Qed.
Lemma type_at_ok a t s out d : has_type huge s a t ->
  holds (type_at huge a d) s out (fun x s' out' => s' = s /\ out' = out /\ x = (t, d)).
Proof. intros (c & E & T). unfold type_at. apply h_look. rewrite E, T. apply h_ret. auto. Qed.
Lemma get_id_iri_ok i : finds [OT_IRI] (get_id_iri i).
Proof.
  intros s out l d G. unfold ModelPrtOwn.get_id_iri. apply h_bind. eapply h_post; [apply (get_id_ok i s out l d G)|].
  intros (v, d1) s1 o1 (-> & G1 & M & FA). cbn [fst snd] in *. destruct v as [a|].
  - destruct (FA a eq_refl) as (J & t & TI & T). apply h_bind. eapply h_post; [apply (type_at_ok a t s1 out d1 T)|].
    intros x s2 o2 (-> & -> & ->). cbn [fst snd].
    assert (BAD : holds (dfail (A := N) d1) s1 out (fun x s' out' => out' = out /\ Good s' out (l ++ idx (snd x)) /\
      (i_ok (snd x) = true -> i_ok d = true /\ fst x <> None) /\
      forall a, fst x = Some a -> In a (i_ids (snd x)) /\ exists t, In t [OT_IRI] /\ has_type huge s' a t)).
    { apply h_ret. cbn. split; [reflexivity|]. split; [exact G1|]. split; discriminate. }
    destruct TI as [<-|[<-|[]]]; [|exact BAD]. apply h_ret. cbn [fst snd]. split; [reflexivity|]. split; [exact G1|]. split; [exact M|].
    intros b Z. injection Z as <-. split; [exact J|]. exists OT_IRI. split; [now left|exact T].
  - apply h_ret. cbn. split; [reflexivity|]. split; [exact G1|]. split; [exact M|]. discriminate.
Qed.
Lemma retain_gives V T a s out l d K : incl V l -> Good s out (l ++ idx d) -> (exists t, In t T /\ has_type huge s a t) -> ~ In OT_VECTOR T ->
  (forall s' t, In t T -> has_type huge s' a t -> vok s' K (VObj (Some a))) ->
  holds (call_lib (KRetain a) d) s out (fun x s' out' => out' = out /\ Good s' out ((TMay K, VObj (fst x)) :: l ++ idx (snd x)) /\
       (i_ok (snd x) = true -> i_ok d = true /\ (true = true -> fst x <> None))).
Proof.
  intros IL G (t & J & T1) NV KK. unfold call_lib. apply h_do. intros [X _].
  destruct (retain_ok s out _ a G (alive_type _ _ _ T1)) as (s' & E & G' & K1); [|exact X|].
  - eapply simple_free; eauto. intros ->. auto.
  - exists (Some a), s'. split; [exact E|]. apply h_ret. cbn [fst snd]. split; [reflexivity|]. split.
    + eapply good_as; [exact G'| |reflexivity]. right. apply (KK s' t J). now apply K1.
    + intros O. split; [exact O|discriminate].
Qed.
Lemma no_vec1 : ~ In OT_VECTOR [OT_IRI; OT_I_ANONYMOUS].
Proof. intros [Z|[Z|[]]]; discriminate Z. Qed.
Lemma no_vec2 : ~ In OT_VECTOR [OT_IRI].
Proof. intros [Z|[]]; discriminate Z. Qed.
Lemma iri_or_anon_gives i : gives [] TAny true (ModelPrtOwn.get_iri_or_anon random i).
Proof.
  unfold ModelPrtOwn.get_iri_or_anon. apply gives_find with [OT_IRI; OT_I_ANONYMOUS]; [apply get_id_ok|].
  intros a s out l d IL G J T. apply (retain_gives [] _ a s out l d TAny IL G T no_vec1). intros s' t _ _. cbn. eauto.
Qed.
Lemma iri_gives i : gives [] TIri true (ModelPrtOwn.get_iri huge random i).
Proof.
  unfold ModelPrtOwn.get_iri. apply gives_find with [OT_IRI]; [apply get_id_iri_ok|].
  intros a s out l d IL G J T. apply (retain_gives [] _ a s out l d TIri IL G T no_vec2). intros s' t [<-|[]] T'. cbn. eauto.
Qed.
Lemma entity_call t a s out L : type_is_entity t = true -> Good s out L -> has_type huge s a OT_IRI -> expected huge e s (KEntity t a) ->
  exists r s', exec (KEntity t a) s = Ok r s' /\ Good s' out ((TMay TAny, VObj r) :: L).
Proof.
  intros TE G T X. apply (produce huge fresh fresh_ok e vs lib s out L (KEntity t a) G); [|exact Logic.I|exact X|reflexivity|].
  - split; [exact TE|]. split; [apply good_usable; [exact G|eapply alive_type; eauto]|exact T].
  - apply (type_free _ s out); [exact G|]. intros x [<-|[]]. exists OT_IRI. split; [exact T|discriminate].
Qed.
Lemma entity_gives t i : type_is_entity t = true -> gives [] TAny true (ModelPrtOwn.get_entity huge random t i).
Proof.
  intros TE. unfold ModelPrtOwn.get_entity. apply gives_find with [OT_IRI]; [apply get_id_iri_ok|].
  intros a s out l d IL G J (u & [<-|[]] & T). apply checked_gives; [exact G|]. intros X _. exact (entity_call t a s out _ TE G T X).
Qed.
Lemma individual_gives i : gives [] TAny true (ModelPrtOwn.get_individual huge random i).
Proof.
  unfold ModelPrtOwn.get_individual. apply gives_find with [OT_IRI; OT_I_ANONYMOUS]; [apply get_id_ok|].
  intros a s out l d IL G J T. pose proof T as (t & TI & T1). apply h_bind. eapply h_post; [apply (type_at_ok a t s out d T1)|].
  intros x s2 o2 (-> & -> & ->). cbn [fst snd]. destruct TI as [<-|[<-|[]]].
  - apply checked_gives; [exact G|]. intros X _. exact (entity_call OT_I_NAMED a s out _ eq_refl G T1 X).
  - apply (retain_gives [] _ a s out l d TAny IL G T no_vec1). intros s' t _ _. cbn. eauto.
Qed.
Lemma with_gives V K b f : (forall n, gives V K b (f n)) -> gives V K b (ModelPrtOwn.decode_with huge f).
Proof. intros H. unfold ModelPrtOwn.decode_with. apply gives_read; [apply read_ok|exact H]. Qed.
Lemma decode_iri_gives : gives [] TIri true (ModelPrtOwn.decode_iri huge random).
Proof. apply with_gives. exact iri_gives. Qed.
Lemma decode_entity_gives t : type_is_entity t = true -> gives [] TAny true (ModelPrtOwn.decode_entity huge random t).
Proof. intros TE. apply with_gives. intros n. now apply entity_gives. Qed.
Lemma decode_individual_gives : gives [] TAny true (ModelPrtOwn.decode_individual huge random).
Proof. apply with_gives. exact individual_gives. Qed.

(** * Calls with operands *)

Lemma front_call s out P Q k : Good s out (P ++ Q) -> allowed huge e lib (owns (P ++ Q) ++ out) s k -> SpecHeap.no_cycle s k -> expected huge e s k ->
  consumes k = false -> forallb (fun x => negb (is_priv (fst x))) P = true ->
  (forall x, In x (arguments k) -> In x (owns P) \/ exists t, has_type huge s x t /\ t <> OT_VECTOR) ->
  exists r s', exec k s = Ok r s' /\ Good s' out ((TMay TAny, VObj r) :: P ++ Q).
Proof.
  intros G AL NC X C NP IN. apply (produce huge fresh fresh_ok e vs lib s out (P ++ Q) k G AL NC X C).
  intros x kd w J I PR R. destruct (IN x J) as [O|(t & T & N)].
  - apply in_app_iff in I as [I|I].
    + rewrite forallb_forall in NP. specialize (NP _ I). cbn in NP. rewrite PR in NP. discriminate NP.
    + exact (front_apart s out P Q x kd w G O I PR R).
  - apply (type_apart huge s kd w x t); auto. exact (good_in _ _ _ _ _ G I).
Qed.
Lemma may_str s out L v : Good s out L -> In (TMay TStr, VObj (Some v)) L -> has_type huge s v OT_STRING.
Proof. intros G J. destruct (good_in _ _ _ _ _ G J) as [Z|(a & Z & T)]; [discriminate Z|]. injection Z as ->. exact T. Qed.
Lemma may_iri s out L v : Good s out L -> In (TMay TIri, VObj (Some v)) L -> has_type huge s v OT_IRI.
Proof. intros G J. destruct (good_in _ _ _ _ _ G J) as [Z|(a & Z & T)]; [discriminate Z|]. injection Z as ->. exact T. Qed.
Lemma may_list s out L v : Good s out L -> In (TMay TList, VObj (Some v)) L -> has_type huge s v OT_VECTOR.
Proof. intros G J. destruct (good_in _ _ _ _ _ G J) as [Z|(a & Z & T)]; [discriminate Z|]. injection Z as ->. exact T. Qed.
Lemma in_owns k a L : pk k = true -> In (k, VObj (Some a)) L -> In a (owns L).
Proof. intros P J. unfold owns. apply in_flat_map. exists (k, VObj (Some a)). split; [exact J|]. rewrite (pk_own k _ P). now left. Qed.

Lemma finish r K P ps s out l d : Good s out ((TMay K, VObj r) :: P ++ l ++ idx d) -> map snd P = map VObj ps -> forallb (fun x => pk (fst x)) P = true ->
  holds ((let* _ := drops ps in dret r) d) s out (fun x s' out' => out' = out /\ fst x = r /\ snd x = d /\ Good s' out ((TMay K, VObj r) :: l ++ idx d)).
Proof.
  intros G E F. apply h_bind. eapply h_post; [apply (drops_ok ps P s out ((TMay K, VObj r) :: l ++ idx d) d E F)|].
  - revert G. apply good_perm. apply Permutation_middle.
  - intros (u, d1) s1 o1 (-> & Z & G1). cbn [fst snd] in *. subst d1. apply h_ret. auto.
Qed.
Lemma finish1 r K k p s out l d : Good s out ((TMay K, VObj r) :: (k, VObj p) :: l ++ idx d) -> pk k = true ->
  holds ((let* _ := drop p in dret r) d) s out (fun x s' out' => out' = out /\ fst x = r /\ snd x = d /\ Good s' out ((TMay K, VObj r) :: l ++ idx d)).
Proof.
  intros G F. apply h_bind. eapply h_post; [apply (drop_ok p k s out ((TMay K, VObj r) :: l ++ idx d) d F)|].
  - revert G. apply good_swap.
  - intros (u, d1) s1 o1 (-> & Z & G1). cbn [fst snd] in *. subst d1. apply h_ret. auto.
Qed.

(** * Literals *)

Lemma literal_ok value dt K s out L d : pk K = true -> is_priv K = false -> Good s out ((K, VObj dt) :: L) -> In (TMay TStr, VObj value) L ->
  holds (literal value dt d) s out (fun x s' out' => out' = out /\ snd x = d /\ Good s' out ((TMay TAny, VObj (fst x)) :: (K, VObj dt) :: L)).
Proof.
  intros PK NP G J. destruct value as [v|]; cbn [literal].
  2:{ apply h_ret. cbn [fst snd]. split; [reflexivity|]. split; [reflexivity|]. apply good_none_in. exact G. }
  assert (T : has_type huge s v OT_STRING) by (apply (may_str s out _ v G); now right).
  apply call_gives; [exact G|]. intros X _.
  apply (front_call s out [(K, VObj dt)] L (KLiteral v dt) G); auto.
  - split; [split; [apply good_usable; [exact G|eapply alive_type; exact T]|exact T]|]. destruct dt as [a|]; [|exact Logic.I]. split.
    + apply (owned_usable s out _ a G). apply (in_owns K); [exact PK|now left].
    + destruct X as (_ & X). exact X.
  - exact Logic.I.
  - cbn. rewrite NP. reflexivity.
  - intros x [<-|I].
    + right. exists OT_STRING. split; [exact T|discriminate].
    + left. destruct dt as [a|]; [|destruct I]. destruct I as [<-|[]]. apply (in_owns K); [exact PK|now left].
Qed.
Definition with_value (p : option N) : list (kind * value) := [(TMay TStr, VObj p)].
Lemma literal_string_gives value : gives (with_value value) TAny false (decode_literal_string value).
Proof.
  intros s out l d IL G. unfold decode_literal_string. apply h_bind.
  assert (J : In (TMay TStr, VObj value) (l ++ idx d)) by (apply in_or_app; left; apply IL; now left).
  eapply h_post; [apply (literal_ok value None (TMay TAny) s out (l ++ idx d) d eq_refl eq_refl (good_none_in _ _ _ _ G) J)|].
  intros (r, d1) s1 o1 (-> & Z & G1). cbn [fst snd] in *. subst d1. apply good_swap, good_none in G1.
  eapply h_post; [apply (null_ok r s1 out l d TAny G1)|]. intros (x, d2) s2 o2 (-> & _ & G2 & _ & M). cbn [fst snd] in *. split; [reflexivity|]. split; [exact G2|].
  intros O. split; [now apply M|discriminate].
Qed.
Lemma literal_lang_gives value : gives (with_value value) TAny false (ModelPrtOwn.decode_literal_lang huge value).
Proof.
  intros s out l d IL G. unfold ModelPrtOwn.decode_literal_lang. apply h_bind.
  eapply h_post; [apply (string_gives false s out l d (fun x Z => match Z with end) G)|]. intros (g, d1) s1 o1 (-> & G1 & M). cbn [fst snd] in *.
  destruct g as [g|].
  - assert (J : In (TMay TStr, VObj value) (l ++ idx d1)) by (apply in_or_app; left; apply IL; now left).
    apply h_bind. eapply h_post; [apply (literal_ok value (Some g) (TMay TStr) s1 out (l ++ idx d1) d1 eq_refl eq_refl G1 J)|].
    intros (r, d2) s2 o2 (-> & Z & G2). cbn [fst snd] in *. subst d2. apply h_bind.
    eapply h_post; [apply (null_ok r s2 out ((TMay TStr, VObj (Some g)) :: l) d1 TAny G2)|]. intros (x, d3) s3 o3 (-> & _ & G3 & _ & M3). cbn [fst snd] in *.
    eapply h_post; [apply (finish1 x TAny (TMay TStr) (Some g) s3 out l d3 G3 eq_refl)|]. intros (y, d4) s4 o4 (-> & E1 & E2 & G4). cbn [fst snd] in *. subst y d4.
    split; [reflexivity|]. split; [exact G4|]. intros O. split; [|discriminate]. now apply M, M3.
  - apply h_ret. cbn [fst snd]. split; [reflexivity|]. split; [apply good_none_in; eapply good_none; exact G1|]. intros O. split; [now apply M|discriminate].
Qed.
Lemma literal_typed_gives value : gives (with_value value) TAny false (ModelPrtOwn.decode_literal_typed huge random value).
Proof.
  intros s out l d IL G. unfold ModelPrtOwn.decode_literal_typed. apply h_bind.
  eapply h_post; [apply (decode_iri_gives s out l d (fun x Z => match Z with end) G)|]. intros (g, d1) s1 o1 (-> & G1 & M). cbn [fst snd] in *.
  destruct g as [i|].
  - assert (J : In (TMay TStr, VObj value) ((TMay TIri, VObj (Some i)) :: l ++ idx d1)) by (right; apply in_or_app; left; apply IL; now left).
    assert (T : has_type huge s1 i OT_IRI) by (apply (may_iri s1 out _ i G1); now left).
    apply h_bind. eapply h_post; [apply (call_gives (KEntity OT_DR_DATATYPE i) s1 out _ d1 TAny G1)|].
    { intros X _. exact (entity_call OT_DR_DATATYPE i s1 out _ eq_refl G1 T X). }
    intros (dt, d2) s2 o2 (-> & Z & G2). cbn [fst snd] in *. subst d2. apply h_bind.
    eapply h_post with (P := fun x s' out' => out' = out /\ Good s' out ((TMay TAny, VObj (fst x)) :: [(TMay TIri, VObj (Some i)); (TMay TAny, VObj dt)] ++ l ++ idx (snd x)) /\
      (i_ok (snd x) = true -> i_ok d1 = true)).
    + destruct dt as [a|].
      * apply h_bind. eapply h_post; [apply (literal_ok value (Some a) (TMay TAny) s2 out _ d1 eq_refl eq_refl G2 J)|].
        intros (r, d2) s3 o3 (-> & Z & G3). cbn [fst snd] in *. subst d2.
        eapply h_post; [apply (null_ok r s3 out ((TMay TAny, VObj (Some a)) :: (TMay TIri, VObj (Some i)) :: l) d1 TAny G3)|].
        intros (x, d3) s4 o4 (-> & _ & G4 & _ & M4). cbn [fst snd] in *. split; [reflexivity|]. split; [|intros O; now apply M4].
        revert G4. apply good_perm. apply perm_skip. apply perm_swap.
      * apply h_ret. cbn [fst snd]. split; [reflexivity|]. split; [|auto]. apply good_none_in. revert G2. apply good_swap.
    + intros (x, d3) s4 o4 (-> & G4 & M4). cbn [fst snd] in *.
      eapply h_post; [apply (finish x TAny [(TMay TIri, VObj (Some i)); (TMay TAny, VObj dt)] [Some i; dt] s4 out l d3 G4 eq_refl eq_refl)|].
      intros (y, d4) s5 o5 (-> & E1 & E2 & G5). cbn [fst snd] in *. subst y d4. split; [reflexivity|]. split; [exact G5|].
      intros O. split; [|discriminate]. now apply M, M4.
  - apply h_ret. cbn [fst snd]. split; [reflexivity|]. split; [apply good_none_in; eapply good_none; exact G1|]. intros O. split; [now apply M|discriminate].
Qed.
Lemma value_gives f : gives [] TStr false (ModelPrtOwn.decode_literal_value huge f).
Proof.
  assert (N : gives [] TStr false (dret None)) by (apply gives_null; reflexivity).
  assert (T : forall t, gives [] TStr false (call_lib (KString t false))) by (intros t; apply gives_weak, text_gives).
  assert (R : forall A (m : D (option A)) f, quiet m -> (forall x, gives [] TStr false (f x)) ->
    gives [] TStr false (dbind m (fun v => match v with Some x => f x | None => dret None end))).
  { intros A m f0 Q H. exact (gives_read [] TStr false m f0 Q H). }
  assert (B : gives [] TStr false (decode_literal_bool)).
  { apply R; [apply read_ok|]. intros b. destruct b as [|[q|q|]]; try exact N; apply T. }
  assert (G : forall A (m : D (option A)) f, quiet m -> (forall x, gives [] TStr false (f x)) ->
    gives [] TStr false (dbind m (fun v => match v with None => dret None | Some x => f x end))).
  { intros A m f0 Q H. exact (gives_read [] TStr false m f0 Q H). }
  unfold ModelPrtOwn.decode_literal_value. destruct f as [|p]; [apply gives_weak, string_gives|].
  destruct p as [[[]|[]|]|[[]|[]|]|]; try exact N; try exact B;
    unfold ModelPrtOwn.decode_literal_int, ModelPrtOwn.decode_literal_uint, ModelPrtOwn.decode_literal_fixed_point, ModelPrtOwn.decode_literal_e_notation;
    repeat first [apply T | apply R; [apply read_ok|intros] | apply G; [apply read_ok|intros]].
Qed.
Lemma literal_gives : gives [] TAny false (ModelPrtOwn.decode_literal huge random).
Proof.
  unfold ModelPrtOwn.decode_literal. apply gives_read; [apply read_ok|]. intros h s out l d IL G. apply h_bind.
  eapply h_post; [apply (value_gives _ s out l d IL G)|]. intros (v, d1) s1 o1 (-> & G1 & M1). cbn [fst snd] in *. apply h_bind.
  eapply h_post; [apply (null_ok v s1 out l d1 TStr G1)|]. intros (x, d2) s2 o2 (-> & EX & G2 & _ & M2). cbn [fst snd] in *. subst x. apply h_bind.
  assert (B : gives (with_value v) TAny false
    match h mod 4 with 0 => decode_literal_string v | 1 => ModelPrtOwn.decode_literal_lang huge v | 2 => ModelPrtOwn.decode_literal_typed huge random v | _ => dret None end).
  { destruct (h mod 4) as [|[p|[p|p|]|]]; try (apply gives_null; reflexivity).
    - apply literal_string_gives.
    - apply literal_typed_gives.
    - apply literal_lang_gives. }
  eapply h_post; [apply (B s2 out ((TMay TStr, VObj v) :: l) d2)|].
  - intros y [<-|[]]. now left.
  - exact G2.
  - intros (r, d3) s3 o3 (-> & G3 & M3). cbn [fst snd] in *.
    eapply h_post; [apply (finish1 r TAny (TMay TStr) v s3 out l d3 G3 eq_refl)|]. intros (y, d4) s4 o4 (-> & E1 & E2 & G4). cbn [fst snd] in *. subst y d4.
    split; [reflexivity|]. split; [exact G4|]. intros O. split; [|discriminate]. now apply M1, M2, M3.
Qed.

(** * Vectors *)

Lemma push_ok v k x s out L : Good s out ((TNew, VObj (Some v)) :: (k, VObj (Some x)) :: L) -> pk k = true -> expected huge e s (KVectorPush v x) ->
  exists s', exec (KVectorPush v x) s = Ok None s' /\ Good s' out ((TNew, VObj (Some v)) :: L).
Proof.
  intros G PK X. pose proof G as (H & F).
  assert (PV : private huge s v) by (inversion_clear F as [|? ? F1 _]; destruct F1 as (a & Z & T); injection Z as <-; exact T).
  assert (OWN : owns ((TNew, VObj (Some v)) :: (k, VObj (Some x)) :: L) = v :: x :: owns L).
  { cbn [owns flat_map]. rewrite (pk_own k _ PK). reflexivity. }
  rewrite OWN in H. cbn [app] in H. destruct (private_alone huge fresh fresh_ok e vs lib s _ v H PV) as (P0 & NL & NO).
  assert (NX : x <> v) by (intros ->; apply NO; now left).
  assert (NC : SpecHeap.no_cycle s (KVectorPush v x)) by (cbn; intros R; now apply (reach_none s x v P0) in R).
  assert (AL : allowed huge e lib (owns ((TNew, VObj (Some v)) :: (k, VObj (Some x)) :: L) ++ out) s (KVectorPush v x)).
  { rewrite OWN. split; [split|cbn; auto].
    - apply (held_usable huge fresh fresh_ok e vs lib s _ H). apply in_or_app. right. now left.
    - destruct PV as (c & E & T & _). exists c. auto. }
  destruct (good_call huge fresh fresh_ok e vs lib s out _ _ G AL NC X) as (r0 & s' & E & G3).
  destruct (push_private huge fresh fresh_ok e vs lib s _ H v x PV) as (c & m & s1 & LK & BD & E1 & HP).
  rewrite E in E1. injection E1 as -> <-. exists s'. split; [exact E|].
  assert (G4 : Good s' out ((TMay TAny, VObj None) :: (TAny, VObj (Some v)) :: L)).
  { apply G3.
    - rewrite OWN. cbn [after app give_up]. destruct (N.eqb_spec v x); [congruence|]. rewrite N.eqb_refl. apply Permutation_refl.
    - inversion_clear F as [|? ? F1 F2]. inversion_clear F2 as [|? ? F3 F4]. constructor; [cbn; eauto|exact F4].
    - intros kd w a [Z|I] P R A; [injection Z as <- _; discriminate P|]. destruct A as [<-|[<-|[]]].
      + apply (head_apart huge fresh fresh_ok e vs lib s out TNew (VObj (Some v)) _ v kd w G); auto; [now left|now right].
      + pose proof (good_swap _ _ _ _ _ _ _ _ _ _ G) as G'.
        apply (head_apart huge fresh fresh_ok e vs lib s out _ (VObj (Some x)) _ x kd w G'); auto; [rewrite (pk_own k _ PK); now left|now right]. }
  apply good_none in G4. eapply good_as; [exact G4| |reflexivity].
  assert (L' : lookup (s_heap s') v = Some (mkCell (c_hdr c) (BVec (m ++ [x])))) by (rewrite HP, ProofHeap.lookup_store, N.eqb_refl, LK; reflexivity).
  destruct PV as (c' & L2 & T2 & R2). rewrite LK in L2. injection L2 as <-. cbn. exists v. split; [reflexivity|]. eexists. split; [exact L'|]. auto.
Qed.
Lemma vec_loop_ok item v b : gives [] TAny b item -> forall fuel n s out l d, Good s out ((TNew, VObj (Some v)) :: l ++ idx d) ->
  holds (vec_loop fuel item v n d) s out (fun x s' out' => out' = out /\ Good s' out ((TMay TList, VObj (fst x)) :: l ++ idx (snd x)) /\
    (i_ok (snd x) = true -> i_ok d = true /\ (true = true -> fst x <> None))).
Proof.
  intros H. induction fuel as [|fuel IH]; intros n s out l d G; cbn [vec_loop]; destruct (n =? 0) eqn:Z.
  1,3: apply h_ret; cbn [fst snd]; split; [reflexivity|]; split; [|intros O; split; [exact O|discriminate]];
    eapply good_as; [exact G| |reflexivity]; right; destruct G as (_ & F); inversion_clear F as [|? ? F1 _]; destruct F1 as (a & E & (c & LK & T & _)); injection E as <-; cbn; exists v; split; [reflexivity|]; exists c; auto.
  - apply h_never.
  - apply h_bind. eapply h_post; [apply (H s out ((TNew, VObj (Some v)) :: l) d (fun x Z => match Z with end) G)|].
    intros (x, d1) s1 o1 (-> & G1 & M). cbn [fst snd] in *. destruct x as [o|].
    + apply h_bind. unfold call_lib. apply h_do. intros [X _]. destruct (push_ok v (TMay TAny) o s1 out (l ++ idx d1)) as (s2 & E & G2); [revert G1; apply good_swap|reflexivity|exact X|].
      exists None, s2. split; [exact E|]. apply h_ret. cbn [fst snd]. eapply h_post; [apply (IH (n - 1) s2 out l d1 G2)|].
      intros (y, d2) s3 o3 (-> & G3 & M3). cbn [fst snd] in *. split; [reflexivity|]. split; [exact G3|]. intros O. destruct (M3 O) as [O1 S1]. split; [now apply M|exact S1].
    + apply h_do. intros [X _]. apply good_none in G1. destruct (release_entry huge fresh fresh_ok e vs lib s1 out TNew v _ G1 ltac:(discriminate) X) as (s2 & E & G2).
      exists None, s2. split; [exact E|]. apply h_ret. cbn. split; [reflexivity|]. split; [now apply good_none_in|]. discriminate.
Qed.
Lemma vector_gives item b fuel : gives [] TAny b item -> gives [] TList true (ModelPrtOwn.decode_vector huge fuel item).
Proof.
  intros H. unfold ModelPrtOwn.decode_vector. apply gives_read; [apply read_ok|]. intros n s out l d IL G. apply h_bind. unfold call_lib. apply h_do. intros [X _].
  destruct (produce huge fresh fresh_ok e vs lib s out _ (KVector []) G (Forall_nil _) Logic.I X eq_refl) as (r & s' & E & G').
  { intros x kd w []. }
  destruct (make_vector huge fresh e vs lib s _ (proj1 G)) as (v & s1 & E1 & T). rewrite E in E1. injection E1 as -> <-.
  exists (Some v), s'. split; [exact E|]. apply h_ret. cbn [fst snd]. apply (vec_loop_ok item v b H).
  eapply good_as; [exact G'| |reflexivity]. cbn. eauto.
Qed.

(** * Constructs *)

Definition ents (args : list (option N)) : list (kind * value) := map (fun p => (TMay TAny, VObj p)) args.
Lemma ents_snd args : map snd (ents args) = map VObj args.
Proof. unfold ents. rewrite map_map. reflexivity. Qed.
Lemma ents_pk args : forallb (fun x => pk (fst x)) (ents args) = true.
Proof. induction args; cbn; auto. Qed.
Lemma ents_priv args : forallb (fun x => negb (is_priv (fst x))) (ents args) = true.
Proof. induction args; cbn; auto. Qed.
Lemma ents_in x args : In (Some x) args -> In (TMay TAny, VObj (Some x)) (ents args).
Proof. intros J. unfold ents. apply in_map_iff. eauto. Qed.

Lemma dec_args_ok b ms : Forall (gives [] TAny b) ms -> forall s out l d, Good s out (l ++ idx d) ->
  holds (dec_args ms d) s out (fun x s' out' => out' = out /\ List.length (fst x) = List.length ms /\ Good s' out (ents (fst x) ++ l ++ idx (snd x)) /\
    (i_ok (snd x) = true -> i_ok d = true /\ (b = true -> ~ In None (fst x)))).
Proof.
  induction 1 as [|m ms H _ IH]; intros s out l d G; cbn [dec_args].
  - apply h_ret. cbn [fst snd]. split; [reflexivity|]. split; [reflexivity|]. split; [exact G|]. intros O. split; [exact O|]. intros _ [].
  - apply h_bind. eapply h_post; [apply (H s out l d (fun x Z => match Z with end) G)|]. intros (x, d1) s1 o1 (-> & G1 & M1). cbn [fst snd] in *. apply h_bind.
    eapply h_post; [apply (IH s1 out ((TMay TAny, VObj x) :: l) d1 G1)|]. intros (r, d2) s2 o2 (-> & LN & G2 & M2). cbn [fst snd] in *. apply h_ret. cbn [fst snd].
    split; [reflexivity|]. split; [cbn; now rewrite LN|]. split.
    + revert G2. apply good_perm. apply Permutation_sym. cbn. apply Permutation_middle.
    + intros O. destruct (M2 O) as [O2 S2]. destruct (M1 O2) as [O1 S1]. split; [exact O1|]. intros B [Z|Z]; [exact (S1 B Z)|exact (S2 B Z)].
Qed.
Definition fits_ctor (t : otype) (n : nat) (KO : kind) : bool :=
  match ctor_of t with
  | Some (CPlain m) => Nat.eqb n m
  | Some (CAnnot m) => Nat.eqb n m && match KO with TList => true | _ => false end
  | Some (CUInt m) | Some (CQuant m) => Nat.eqb n m
  | Some CHasKey => Nat.eqb n 3 && match KO with TList => true | _ => false end
  | None => false
  end.
Lemma construct_call t args opt val KO s out L : Good s out (ents args ++ (TMay KO, VObj opt) :: L) -> pk KO = true -> is_priv KO = false ->
  fits_ctor t (List.length args) KO = true -> ~ In None args -> expected huge e s (KConstruct t args opt val) ->
  exists r s', exec (KConstruct t args opt val) s = Ok r s' /\ Good s' out ((TMay TAny, VObj r) :: ents args ++ (TMay KO, VObj opt) :: L).
Proof.
  intros G PK NP FC NN X.
  assert (REQ : Forall (required (usable (lib ++ owns (ents args ++ (TMay KO, VObj opt) :: L) ++ out) s)) args).
  { apply Forall_forall. intros [a|] J; [|contradiction]. cbn. apply (owned_usable s out _ a G). apply (in_owns (TMay TAny)); [reflexivity|].
    apply in_or_app. left. now apply ents_in. }
  assert (OPT : forall a, opt = Some a -> usable (lib ++ owns (ents args ++ (TMay KO, VObj opt) :: L) ++ out) s a).
  { intros a ->. apply (owned_usable s out _ a G). apply (in_owns (TMay KO)); [exact PK|]. apply in_or_app. right. now left. }
  assert (VEC : KO = TList -> forall a, opt = Some a -> has_type huge s a OT_VECTOR).
  { intros -> a ->. apply (may_list s out _ a G). apply in_or_app. right. now left. }
  assert (EQ : ents args ++ (TMay KO, VObj opt) :: L = (ents args ++ [(TMay KO, VObj opt)]) ++ L) by (rewrite <- app_assoc; reflexivity).
  rewrite EQ in *.
  apply (front_call s out (ents args ++ [(TMay KO, VObj opt)]) L); auto.
  - unfold allowed. unfold fits_ctor in FC. destruct (ctor_of t) as [[m|m|m|m|]|]; try discriminate FC.
    + apply Nat.eqb_eq in FC. split; [exact FC|exact REQ].
    + apply andb_true_iff in FC. destruct FC as [FC K]. apply Nat.eqb_eq in FC. destruct KO; try discriminate K. split; [exact FC|]. split; [exact REQ|].
      destruct opt as [a|]; [|exact Logic.I]. split; [exact (OPT a eq_refl)|exact (VEC eq_refl a eq_refl)].
    + apply Nat.eqb_eq in FC. split; [exact FC|]. split; [exact REQ|]. destruct opt as [a|]; [|exact Logic.I]. exact (OPT a eq_refl).
    + apply Nat.eqb_eq in FC. split; [exact FC|]. split; [exact REQ|]. destruct opt as [a|]; [|exact Logic.I]. exact (OPT a eq_refl).
    + apply andb_true_iff in FC. destruct FC as [FC K]. apply Nat.eqb_eq in FC. destruct KO; try discriminate K.
      destruct args as [|c [|o [|f [|]]]]; try discriminate FC. inversion_clear REQ as [|? ? R1 R2]. inversion_clear R2 as [|? ? R3 R4]. inversion_clear R4 as [|? ? R5 _].
      destruct c as [c|], o as [o|], f as [f|]; try (exfalso; apply NN; cbn; auto; fail). exists c, (Some o), (Some f). split; [reflexivity|]. split; [exact R1|]. split; [exact R3|]. split; [exact R5|].
      destruct opt as [a|]; [|exact Logic.I]. split; [exact (OPT a eq_refl)|exact (VEC eq_refl a eq_refl)].
  - exact Logic.I.
  - rewrite forallb_app, ents_priv. cbn. now rewrite NP.
  - intros x J. left. cbn [arguments] in J. apply in_app_iff in J as [J|J].
    + apply in_flat_map in J as ([a|] & J & I); [|destruct I]. destruct I as [<-|[]]. apply (in_owns (TMay TAny)); [reflexivity|]. apply in_or_app. left. now apply ents_in.
    + assert (opt = Some x) as ->.
      { unfold optional_argument in J. destruct (ctor_of t) as [[]|]; destruct opt as [a|]; cbn in J; try (destruct J as [<-|[]]; reflexivity); destruct J. }
      apply (in_owns (TMay KO)); [exact PK|]. apply in_or_app. right. now left.
Qed.
Lemma build_ok t args opt val KO s out l d : Good s out (ents args ++ (TMay KO, VObj opt) :: l ++ idx d) -> pk KO = true -> is_priv KO = false ->
  fits_ctor t (List.length args) KO = true -> (i_ok d = true -> ~ In None args \/ In t null_given) ->
  holds (build t args opt val d) s out (fun x s' out' => out' = out /\ Good s' out ((TMay TAny, VObj (fst x)) :: l ++ idx (snd x)) /\
    (i_ok (snd x) = true -> i_ok d = true /\ fst x <> None)).
Proof.
  intros G PK NP FC NN. unfold build. apply h_bind.
  eapply h_post with (P := fun x s' out' => out' = out /\ Good s' out ((TMay TAny, VObj (fst x)) :: (ents args ++ (TMay KO, VObj opt) :: l) ++ idx (snd x)) /\
    (i_ok (snd x) = true -> i_ok d = true /\ (true = true -> fst x <> None))).
  - assert (G0 : Good s out ((ents args ++ (TMay KO, VObj opt) :: l) ++ idx d)) by (rewrite <- app_assoc; exact G).
    destruct (i_ok d) eqn:O.
    + eapply h_post; [apply (checked_gives _ s out (ents args ++ (TMay KO, VObj opt) :: l) d TAny true); [exact G0|]|rewrite O; auto].
      intros X [_ FS]. rewrite <- app_assoc. apply construct_call; auto. destruct (NN eq_refl) as [Z|Z]; [exact Z|exact (FS Z)].
    + apply h_ret. cbn [fst snd]. split; [reflexivity|]. split; [now apply good_none_in|]. congruence.
  - intros (r, d1) s1 o1 (-> & G1 & M). cbn [fst snd] in *.
    eapply h_post; [apply (finish r TAny (ents args ++ [(TMay KO, VObj opt)]) (args ++ [opt]) s1 out l d1)|].
    + revert G1. apply good_perm. apply perm_skip. rewrite <- !app_assoc. apply Permutation_refl.
    + rewrite !map_app, ents_snd. reflexivity.
    + rewrite forallb_app, ents_pk. cbn. now rewrite PK.
    + intros (y, d2) s2 o2 (-> & E1 & E2 & G2). cbn [fst snd] in *. subst y d2. split; [reflexivity|]. split; [exact G2|]. intros O. destruct (M O). auto.
Qed.

Lemma none_at P k s out L : Good s out (P ++ L) -> Good s out (P ++ (TMay k, VObj None) :: L).
Proof. intros G. apply (good_none_in _ _ k) in G. revert G. apply good_perm. apply Permutation_middle. Qed.
Lemma none_out P k s out L : Good s out (P ++ (k, VObj None) :: L) -> Good s out (P ++ L).
Proof. intros G. apply (good_none huge fresh e vs lib s out k). revert G. apply good_perm. apply Permutation_sym, Permutation_middle. Qed.
Lemma construct0_call t args val s out L : Good s out (ents args ++ L) -> fits_ctor t (List.length args) TList = true -> ~ In None args ->
  expected huge e s (KConstruct t args None val) ->
  exists r s', exec (KConstruct t args None val) s = Ok r s' /\ Good s' out ((TMay TAny, VObj r) :: ents args ++ L).
Proof.
  intros G FC NN X. apply (none_at (ents args) TList) in G.
  destruct (construct_call t args None val TList s out L G eq_refl eq_refl FC NN X) as (r & s' & E & G'). exists r, s'. split; [exact E|].
  exact (none_out ((TMay TAny, VObj r) :: ents args) (TMay TList) s' out L G').
Qed.
Lemma construct_gives t ms b : Forall (gives [] TAny b) ms -> fits_ctor t (List.length ms) TList = true -> b = true \/ In t null_given ->
  gives [] TAny true (construct t ms).
Proof.
  intros F FC B s out l d IL G. unfold construct. apply h_bind. eapply h_post; [apply (dec_args_ok b ms F s out l d G)|].
  intros (args, d1) s1 o1 (-> & LN & G1 & M). cbn [fst snd] in *. apply (none_at (ents args) TList) in G1. rewrite <- LN in FC.
  eapply h_post; [apply (build_ok t args None 0 TList s1 out l d1 G1 eq_refl eq_refl FC)|].
  - intros O. destruct B as [->|B]; [left; now apply M|now right].
  - intros (r, d2) s2 o2 (-> & G2 & M2). cbn [fst snd] in *. split; [reflexivity|]. split; [exact G2|]. intros O. destruct (M2 O) as [O1 S1]. split; [now apply M|auto].
Qed.
Lemma any_iri : gives [] TAny true (ModelPrtOwn.decode_iri huge random).
Proof. apply (gives_any [] TIri); [reflexivity|exact decode_iri_gives]. Qed.
Lemma inv_gives : gives [] TAny true (ModelPrtOwn.decode_inv_obj_prop huge random).
Proof.
  intros s out l d IL G. unfold ModelPrtOwn.decode_inv_obj_prop. apply h_bind. eapply h_post; [apply (decode_entity_gives OT_OPE_OBJ_PROP eq_refl s out l d IL G)|].
  intros (p, d1) s1 o1 (-> & G1 & M). cbn [fst snd] in *. destruct p as [p|].
  - apply h_bind. eapply h_post; [apply (checked_gives (KConstruct OT_OPE_INV_OBJ_PROP [Some p] None 0) s1 out ((TMay TAny, VObj (Some p)) :: l) d1 TAny true G1)|].
    { intros X _. apply (construct0_call OT_OPE_INV_OBJ_PROP [Some p] 0 s1 out (l ++ idx d1) G1 eq_refl); [intros [Z|[]]; discriminate Z|exact X]. }
    intros (r, d2) s2 o2 (-> & G2 & M2). cbn [fst snd] in *.
    eapply h_post; [apply (finish1 r TAny (TMay TAny) (Some p) s2 out l d2 G2 eq_refl)|]. intros (y, d4) s4 o4 (-> & E1 & E2 & G4). cbn [fst snd] in *. subst y d4.
    split; [reflexivity|]. split; [exact G4|]. intros O. destruct (M2 O) as [O2 S2]. split; [now apply M|exact S2].
  - apply h_ret. cbn [fst snd]. split; [reflexivity|]. split; [exact G1|]. intros O. exact (M O).
Qed.
Lemma prop_gives : gives [] TAny true (ModelPrtOwn.decode_obj_prop_exp huge random).
Proof. apply with_gives. intros n. destruct (n =? 0); [exact inv_gives|now apply entity_gives]. Qed.
Lemma annot_value_gives : gives [] TAny false (ModelPrtOwn.decode_annot_value huge random).
Proof. apply with_gives. intros n. destruct (n =? 0); [exact literal_gives|apply gives_weak, iri_or_anon_gives]. Qed.
Lemma facet_gives : gives [] TAny false (ModelPrtOwn.decode_facet_restr huge random).
Proof.
  intros s out l d IL G. unfold ModelPrtOwn.decode_facet_restr. apply h_bind. eapply h_post; [apply (any_iri s out l d IL G)|].
  intros (i, d1) s1 o1 (-> & G1 & M1). cbn [fst snd] in *. apply h_bind. eapply h_post; [apply (literal_gives s1 out ((TMay TAny, VObj i) :: l) d1 (fun x Z => match Z with end) G1)|].
  intros (v, d2) s2 o2 (-> & G2 & M2). cbn [fst snd] in *. apply good_swap in G2. apply h_bind.
  eapply h_post with (P := fun x s' out' => out' = out /\ Good s' out ((TMay TAny, VObj (fst x)) :: [(TMay TAny, VObj i); (TMay TAny, VObj v)] ++ l ++ idx (snd x)) /\
      (i_ok (snd x) = true -> i_ok d2 = true)).
  - destruct i as [i|], v as [v|]; cbn [is_some andb];
      try (apply h_ret; cbn [fst snd]; split; [reflexivity|]; split; [apply good_none_in; exact G2|auto]).
    eapply h_post; [apply (checked_gives (KConstruct OT_FACET_RESTR [Some i; Some v] None 0) s2 out ((TMay TAny, VObj (Some i)) :: (TMay TAny, VObj (Some v)) :: l) d2 TAny true G2)|].
    + intros X _. apply (construct0_call OT_FACET_RESTR [Some i; Some v] 0 s2 out (l ++ idx d2) G2 eq_refl); [intros [Z|[Z|[]]]; discriminate Z|exact X].
    + intros (x, d3) s3 o3 (-> & G3 & M3). cbn [fst snd] in *. split; [reflexivity|]. split; [exact G3|]. intros O. now apply M3.
  - intros (x, d3) s3 o3 (-> & G3 & M3). cbn [fst snd] in *.
    eapply h_post; [apply (finish x TAny [(TMay TAny, VObj i); (TMay TAny, VObj v)] [i; v] s3 out l d3 G3 eq_refl eq_refl)|].
    intros (y, d4) s5 o5 (-> & E1 & E2 & G5). cbn [fst snd] in *. subst y d4. split; [reflexivity|]. split; [exact G5|].
    intros O. split; [|discriminate]. now apply M1, M2, M3.
Qed.

(** * Annotations *)

Lemma past1 {A} (x a : A) l m : Permutation l (x :: m) -> Permutation (a :: l) (x :: a :: m).
Proof. intros P. exact (Permutation_cons_app [x] m a P). Qed.
Lemma past2 {A} (x y a : A) l m : Permutation l (x :: y :: m) -> Permutation (a :: l) (x :: y :: a :: m).
Proof. intros P. exact (Permutation_cons_app [x; y] m a P). Qed.
Lemma past3 {A} (x y z a : A) l m : Permutation l (x :: y :: z :: m) -> Permutation (a :: l) (x :: y :: z :: a :: m).
Proof. intros P. exact (Permutation_cons_app [x; y; z] m a P). Qed.
Lemma past4 {A} (x y z w a : A) l m : Permutation l (x :: y :: z :: w :: m) -> Permutation (a :: l) (x :: y :: z :: w :: a :: m).
Proof. intros P. exact (Permutation_cons_app [x; y; z; w] m a P). Qed.
Ltac perm := repeat first [apply Permutation_refl | apply perm_skip | apply past1 | apply past2 | apply past3 | apply past4].
Lemma annotation_end_ok P iri prop value annots annot s out l d : Good s out ((TMay TAny, VObj annot) :: P ++ l ++ idx d) ->
  map snd P = map VObj [iri; prop; value; annots] -> forallb (fun x => pk (fst x)) P = true ->
  holds (annotation_end iri prop value annots annot d) s out (fun x s' out' => out' = out /\ Good s' out ((TMay TAny, VObj (fst x)) :: l ++ idx (snd x)) /\
    (i_ok (snd x) = true -> i_ok d = true /\ (true = true -> fst x <> None))).
Proof.
  intros G E F. unfold annotation_end. apply h_bind. eapply h_post; [apply (drops_ok _ P s out ((TMay TAny, VObj annot) :: l ++ idx d) d E F)|].
  - revert G. apply good_perm. apply Permutation_middle.
  - intros (u, d1) s1 o1 (-> & Z & G1). cbn [fst snd] in *. subst d1. eapply h_post; [apply (null_ok annot s1 out l d TAny G1)|].
    intros (x, d2) s2 o2 (-> & _ & G2 & _ & M). cbn [fst snd] in *. split; [reflexivity|]. split; [exact G2|]. intros O. destruct (M O). auto.
Qed.
Lemma annotation_gives fuel : gives [] TAny true (ModelPrtOwn.decode_annotation huge random fuel).
Proof.
  induction fuel as [|f IH]; [apply gives_never|]. cbn [ModelPrtOwn.decode_annotation]. apply gives_read; [apply read_ok|]. intros n s out l d IL G.
  apply h_bind. assert (I : gives [] TIri true (if n =? 0 then ModelPrtOwn.decode_iri huge random else ModelPrtOwn.get_iri huge random (n - 1))).
  { destruct (n =? 0); [apply decode_iri_gives|apply iri_gives]. }
  eapply h_post; [apply (I s out l d IL G)|]. intros (i, d1) s1 o1 (-> & G1 & M1). cbn [fst snd] in *.
  set (i' := i) in G1. destruct i as [i|].
  2:{ eapply h_post; [apply (annotation_end_ok [(TMay TIri, VObj None); (TMay TAny, VObj None); (TMay TAny, VObj None); (TMay TAny, VObj None)] _ _ _ _ _ s1 out l d1); try reflexivity|].
      - apply good_none_in. apply (none_at [_]), (none_at [_]), (none_at [_]). exact G1.
      - intros (x, d2) s2 o2 (-> & G2 & M2). cbn [fst snd] in *. split; [reflexivity|]. split; [exact G2|]. intros O. destruct (M2 O) as [O2 S2]. split; [now apply M1|exact S2]. }
  assert (T : has_type huge s1 i OT_IRI) by (apply (may_iri s1 out _ i G1); now left).
  apply h_bind. eapply h_post; [apply (call_gives (KEntity OT_ANNOT_PROP i) s1 out _ d1 TAny G1)|].
  { intros X _. exact (entity_call OT_ANNOT_PROP i s1 out _ eq_refl G1 T X). }
  intros (p, d2) s2 o2 (-> & Z & G2). cbn [fst snd] in *. subst d2. subst i'. destruct p as [p|].
  2:{ eapply h_post; [apply (annotation_end_ok [(TMay TIri, VObj (Some i)); (TMay TAny, VObj None); (TMay TAny, VObj None); (TMay TAny, VObj None)] _ _ _ _ _ s2 out l d1); try reflexivity|].
      - apply (none_at [_;_]), (none_at [_;_]), (none_at [_;_]). exact G2.
      - intros (x, d2) s3 o3 (-> & G3 & M3). cbn [fst snd] in *. split; [reflexivity|]. split; [exact G3|]. intros O. destruct (M3 O) as [O2 S2]. split; [now apply M1|exact S2]. }
  apply h_bind. eapply h_post; [apply (annot_value_gives s2 out ((TMay TAny, VObj (Some p)) :: (TMay TIri, VObj (Some i)) :: l) d1 (fun x Z => match Z with end) G2)|].
  intros (v, d2) s3 o3 (-> & G3 & M3). cbn [fst snd] in *. destruct v as [v|].
  2:{ eapply h_post; [apply (annotation_end_ok [(TMay TIri, VObj (Some i)); (TMay TAny, VObj (Some p)); (TMay TAny, VObj None); (TMay TAny, VObj None)] _ _ _ _ _ s3 out l d2); try reflexivity|].
      - apply (none_at [_;_;_]), (none_at [_;_;_]). revert G3. apply good_perm. cbn [app]. perm.
      - intros (x, d3) s4 o4 (-> & G4 & M4). cbn [fst snd] in *. split; [reflexivity|]. split; [exact G4|]. intros O. destruct (M4 O) as [O2 S2]. split; [now apply M1, M3|exact S2]. }
  assert (NN : ~ In None [Some p; Some v]) by (intros [Z|[Z|[]]]; discriminate Z).
  assert (MK : forall opt s4 d4, Good s4 out ((TMay TList, VObj opt) :: (TMay TAny, VObj (Some v)) :: (TMay TAny, VObj (Some p)) :: (TMay TIri, VObj (Some i)) :: l ++ idx d4) ->
    (i_ok d4 = true -> i_ok d2 = true) ->
    holds ((let* annot := call_lib (KConstruct OT_ANNOTATION [Some p; Some v] opt 0) in annotation_end (Some i) (Some p) (Some v) opt annot) d4) s4 out
     (fun x s' out' => out' = out /\ Good s' out ((TMay TAny, VObj (fst x)) :: l ++ idx (snd x)) /\
      (i_ok (snd x) = true -> i_ok d = true /\ (true = true -> fst x <> None)))).
  { intros opt s4 d4 G4 M4. apply h_bind.
    assert (G5 : Good s4 out (ents [Some p; Some v] ++ (TMay TList, VObj opt) :: (TMay TIri, VObj (Some i)) :: l ++ idx d4)).
    { revert G4. apply good_perm. cbn [ents map app]. perm. }
    eapply h_post; [apply (call_gives _ s4 out _ d4 TAny G5)|].
    { intros X _. exact (construct_call OT_ANNOTATION [Some p; Some v] opt 0 TList s4 out _ G5 eq_refl eq_refl eq_refl NN X). }
    intros (a, d5) s5 o5 (-> & Z & G6). cbn [fst snd] in *. subst d5.
    eapply h_post; [apply (annotation_end_ok [(TMay TIri, VObj (Some i)); (TMay TAny, VObj (Some p)); (TMay TAny, VObj (Some v)); (TMay TList, VObj opt)] _ _ _ _ _ s5 out l d4); try reflexivity|].
    - revert G6. apply good_perm. cbn [ents map app]. perm.
    - intros (x, d5) s6 o6 (-> & G7 & M7). cbn [fst snd] in *. split; [reflexivity|]. split; [exact G7|]. intros O. destruct (M7 O) as [O2 S2]. split; [now apply M1, M3, M4|exact S2]. }
  destruct (n =? 0).
  - apply h_bind. eapply h_post; [apply (vector_gives _ true f IH s3 out (_ :: _ :: _ :: l) d2 (fun x Z => match Z with end) G3)|].
    intros (an, d3) s4 o4 (-> & G4 & M4). cbn [fst snd] in *. destruct an as [an|].
    + apply MK; [exact G4|]. intros O. now apply M4.
    + eapply h_post; [apply (annotation_end_ok [(TMay TIri, VObj (Some i)); (TMay TAny, VObj (Some p)); (TMay TAny, VObj (Some v)); (TMay TAny, VObj None)] _ _ _ _ _ s4 out l d3); try reflexivity|].
      * apply good_none in G4. apply good_none_in. apply (none_at [_;_;_]). revert G4. apply good_perm. cbn [app]. perm.
      * intros (x, d4) s5 o5 (-> & G5 & M5). cbn [fst snd] in *. split; [reflexivity|]. split; [exact G5|]. intros O. destruct (M5 O) as [O2 S2]. split; [now apply M1, M3, M4|exact S2].
  - apply MK; [|auto]. apply good_none_in. exact G3.
Qed.

(** * Class expressions and data ranges *)

Lemma list_gives item b fuel : gives [] TAny b item -> gives [] TAny true (ModelPrtOwn.decode_vector huge fuel item).
Proof. intros H. apply (gives_any [] TList); [reflexivity|]. now apply vector_gives with b. Qed.
Lemma data_range_gives fuel : gives [] TAny true (ModelPrtOwn.decode_data_range huge random fuel).
Proof.
  induction fuel as [|f IH]; [apply gives_never|]. cbn [ModelPrtOwn.decode_data_range]. apply with_gives. intros n. destruct (_ <=? n); [now apply entity_gives|].
  destruct (nth_error _ _) as [[]|]; try apply gives_fail; apply (construct_gives _ _ true); try reflexivity; try (now left); repeat constructor;
    eauto using list_gives, literal_gives, facet_gives, decode_entity_gives.
Qed.
Lemma quant_gives t p f : gives [] TAny true p -> gives [] TAny true f -> fits_ctor t 1 TAny = true -> gives [] TAny true (decode_quant t p f).
Proof.
  intros HP HF FC s out l d IL G. unfold decode_quant. apply h_bind. eapply h_post; [apply (HP s out l d IL G)|]. intros (x, d1) s1 o1 (-> & G1 & M1). cbn [fst snd] in *.
  apply h_bind. eapply h_post; [apply (HF s1 out ((TMay TAny, VObj x) :: l) d1 (fun x Z => match Z with end) G1)|]. intros (y, d2) s2 o2 (-> & G2 & M2). cbn [fst snd] in *.
  apply good_swap in G2. eapply h_post; [apply (build_ok t [x] y 0 TAny s2 out l d2 G2 eq_refl eq_refl FC)|].
  - intros O. left. intros [Z|[]]. apply M2 in O. destruct O as [O _]. apply M1 in O. destruct O as [_ O]. exact (O eq_refl Z).
  - intros (r, d3) s3 o3 (-> & G3 & M3). cbn [fst snd] in *. split; [reflexivity|]. split; [exact G3|]. intros O. destruct (M3 O) as [O1 S1]. split; [now apply M1, M2|auto].
Qed.
Lemma card_gives t p f : gives [] TAny true p -> gives [] TAny true f -> fits_ctor t 1 TAny = true -> gives [] TAny true (ModelPrtOwn.decode_card huge t p f).
Proof.
  intros HP HF FC. unfold ModelPrtOwn.decode_card. apply gives_read; [apply read_ok|]. intros n s out l d IL G. apply h_bind.
  eapply h_post; [apply (HP s out l d IL G)|]. intros (x, d1) s1 o1 (-> & G1 & M1). cbn [fst snd] in *. apply h_bind.
  assert (HO : gives [] TAny false (if N.odd n then f else dret None)) by (destruct (N.odd n); [now apply gives_weak|apply gives_null; reflexivity]).
  eapply h_post; [apply (HO s1 out ((TMay TAny, VObj x) :: l) d1 (fun x Z => match Z with end) G1)|]. intros (y, d2) s2 o2 (-> & G2 & M2). cbn [fst snd] in *.
  apply good_swap in G2. eapply h_post; [apply (build_ok t [x] y (n / 2) TAny s2 out l d2 G2 eq_refl eq_refl FC)|].
  - intros O. left. intros [Z|[]]. apply M2 in O. destruct O as [O _]. apply M1 in O. destruct O as [_ O]. exact (O eq_refl Z).
  - intros (r, d3) s3 o3 (-> & G3 & M3). cbn [fst snd] in *. split; [reflexivity|]. split; [exact G3|]. intros O. destruct (M3 O) as [O1 S1]. split; [now apply M1, M2|auto].
Qed.
Lemma cls_gives fuel : gives [] TAny true (ModelPrtOwn.decode_cls_exp huge random fuel).
Proof.
  induction fuel as [|f IH]; [apply gives_never|]. cbn [ModelPrtOwn.decode_cls_exp]. apply with_gives. intros n. destruct (_ <=? n); [now apply entity_gives|].
  destruct (nth_error _ _) as [[]|]; try apply gives_fail;
    try (apply (construct_gives _ _ true); try reflexivity; try (now left); repeat constructor;
         eauto using list_gives, prop_gives, decode_individual_gives, decode_entity_gives; fail);
    try (apply quant_gives; try reflexivity; auto using prop_gives, data_range_gives, decode_entity_gives; fail);
    try (apply card_gives; try reflexivity; auto using prop_gives, data_range_gives, decode_entity_gives; fail).
  apply (construct_gives _ _ false); [|reflexivity|right; now left]. repeat constructor; [apply gives_weak; now apply decode_entity_gives|exact literal_gives].
Qed.

(** * Axioms *)

Lemma annots_gives fuel b : gives [] TList false (ModelPrtOwn.decode_annots huge random fuel b).
Proof. destruct b; [apply gives_weak, vector_gives with true, annotation_gives|apply gives_null; reflexivity]. Qed.
Lemma annotated_gives fuel a t ms b : Forall (gives [] TAny b) ms -> fits_ctor t (List.length ms) TList = true -> b = true \/ In t null_given ->
  gives [] TAny true (ModelPrtOwn.decode_annotated huge random fuel a t ms).
Proof.
  intros F FC B s out l d IL G. unfold ModelPrtOwn.decode_annotated. apply h_bind. eapply h_post; [apply (dec_args_ok b ms F s out l d G)|].
  intros (args, d1) s1 o1 (-> & LN & G1 & M). cbn [fst snd] in *. rewrite app_assoc in G1. apply h_bind.
  eapply h_post; [apply (annots_gives fuel a s1 out (ents args ++ l) d1 (fun x Z => match Z with end) G1)|].
  intros (an, d2) s2 o2 (-> & G2 & M2). cbn [fst snd] in *. rewrite <- LN in FC.
  assert (G3 : Good s2 out (ents args ++ (TMay TList, VObj an) :: l ++ idx d2)).
  { revert G2. apply good_perm. rewrite <- app_assoc. apply Permutation_middle. }
  eapply h_post; [apply (build_ok t args an 0 TList s2 out l d2 G3 eq_refl eq_refl FC)|].
  - intros O. apply M2 in O. destruct O as [O _]. destruct B as [->|B]; [left; now apply M|now right].
  - intros (r, d3) s3 o3 (-> & G4 & M3). cbn [fst snd] in *. split; [reflexivity|]. split; [exact G4|]. intros O. destruct (M3 O) as [O1 S1]. split; [now apply M, M2|auto].
Qed.
Lemma operands_ok fuel t ms : ModelPrtOwn.axiom_operands huge random fuel t = Some ms ->
  exists b, Forall (gives [] TAny b) ms /\ fits_ctor t (List.length ms) TList = true /\ (b = true \/ In t null_given).
Proof.
  assert (EA : forall t, type_is_entity t = true -> gives [] TAny true (ModelPrtOwn.decode_entity huge random t)) by exact decode_entity_gives.
  assert (IA := with_gives [] TAny true _ iri_or_anon_gives).
  destruct t; cbn [ModelPrtOwn.axiom_operands]; intros Z; try discriminate Z; injection Z as <-;
    try (exists true; split; [repeat constructor; eauto using list_gives, cls_gives, prop_gives, data_range_gives, decode_individual_gives, any_iri; fail|
         split; [reflexivity|now left]]);
    exists false; (split; [|split; [reflexivity|right; cbn; auto 6]]); repeat constructor;
      first [exact literal_gives | exact annot_value_gives | apply gives_weak; eauto using decode_individual_gives].
Qed.
Lemma sub_prop_gives fuel u a : gives [] TAny true (ModelPrtOwn.decode_sub_obj_prop huge random fuel u a).
Proof.
  intros s out l d IL G. unfold ModelPrtOwn.decode_sub_obj_prop. apply h_bind. set (K := if u then TList else TAny).
  assert (PK : pk K = true) by (destruct u; reflexivity). assert (NP : is_priv K = false) by (destruct u; reflexivity).
  assert (H1 : gives [] K true (if u then ModelPrtOwn.decode_vector huge fuel (ModelPrtOwn.decode_obj_prop_exp huge random) else ModelPrtOwn.decode_obj_prop_exp huge random)).
  { unfold K. destruct u; [apply vector_gives with true|]; exact prop_gives. }
  eapply h_post; [apply (H1 s out l d IL G)|]. intros (sub, d1) s1 o1 (-> & G1 & M1). cbn [fst snd] in *. apply h_bind.
  eapply h_post; [apply (prop_gives s1 out ((TMay K, VObj sub) :: l) d1 (fun x Z => match Z with end) G1)|]. intros (sup, d2) s2 o2 (-> & G2 & M2). cbn [fst snd] in *. apply h_bind.
  eapply h_post; [apply (annots_gives fuel a s2 out ((TMay TAny, VObj sup) :: (TMay K, VObj sub) :: l) d2 (fun x Z => match Z with end) G2)|].
  intros (an, d3) s3 o3 (-> & G3 & M3). cbn [fst snd] in *. apply h_bind.
  set (P := [(TMay K, VObj sub); (TMay TAny, VObj sup); (TMay TList, VObj an)]).
  assert (G4 : Good s3 out (P ++ l ++ idx d3)) by (revert G3; apply good_perm; cbn [P app]; perm).
  eapply h_post; [apply (call_gives _ s3 out _ d3 TAny G4)|].
  - intros X FS.
    assert (OWN : forall k p, In (k, VObj (Some p)) P -> usable (lib ++ owns (P ++ l ++ idx d3) ++ out) s3 p).
    { intros k p J. apply (owned_usable s3 out _ p G4). apply (in_owns k); [|apply in_or_app; now left]. destruct J as [Z|[Z|[Z|[]]]]; injection Z as <- _; auto. }
    assert (NQ : forallb (fun x => negb (is_priv (fst x))) P = true) by (cbn; now rewrite NP).
    assert (AN : forall p, an = Some p -> usable (lib ++ owns (P ++ l ++ idx d3) ++ out) s3 p /\ has_type huge s3 p OT_VECTOR).
    { intros p Z. subst an. split; [apply (OWN (TMay TList)); cbn; auto|]. apply (may_list s3 out _ p G4). cbn; auto. }
    assert (ARG : forall k p, In (k, VObj (Some p)) P -> In p (owns P)).
    { intros k p J. apply (in_owns k); [|exact J]. destruct J as [Z|[Z|[Z|[]]]]; injection Z as <- _; auto. }
    assert (PLAIN : u = false \/ sub = None \/ sup = None -> sub_obj_prop u sub sup an = KConstruct OT_A_SUB_OBJ_PROP [sub; sup] an 0).
    { intros [E | [E | E]]; rewrite E; [reflexivity|destruct u; reflexivity|destruct u, sub; reflexivity]. }
    assert (CON : sub_obj_prop u sub sup an = KConstruct OT_A_SUB_OBJ_PROP [sub; sup] an 0 ->
      exists r s', exec (sub_obj_prop u sub sup an) s3 = Ok r s' /\ Good s' out ((TMay TAny, VObj r) :: P ++ l ++ idx d3)).
    { intros EQ. rewrite EQ in *. destruct FS as [_ FS]. apply (front_call s3 out P (l ++ idx d3)); auto.
      - cbn [allowed ctor_of]. split; [reflexivity|]. split.
        + assert (N : ~ In None [sub; sup]) by (apply FS; cbn; auto). constructor; [|constructor; [|constructor]].
          * destruct sub as [x|]; [|exfalso; apply N; now left]. apply (OWN (TMay K)). now left.
          * destruct sup as [x|]; [|exfalso; apply N; right; now left]. apply (OWN (TMay TAny)). right. now left.
        + destruct an as [x|]; [|exact Logic.I]. exact (AN x eq_refl).
      - exact Logic.I.
      - intros x J. left. cbn in J. destruct sub as [y|], sup as [z|], an as [w|]; cbn in J;
          repeat (destruct J as [J|J]; [subst x|]); try (destruct J); eapply ARG; cbn; eauto. }
    destruct u; [|now apply CON, PLAIN; auto]. destruct sub as [x|]; [|apply CON, PLAIN; auto]. destruct sup as [y|]; [|apply CON, PLAIN; auto].
    cbn [sub_obj_prop] in *. apply (front_call s3 out P (l ++ idx d3)); auto.
    + cbn [allowed]. split; [split|split].
      * apply (OWN (TMay K)). now left.
      * apply (may_list s3 out _ x G4). now left.
      * apply (OWN (TMay TAny)). right. now left.
      * destruct an as [w|]; [|exact Logic.I]. exact (AN w eq_refl).
    + exact Logic.I.
    + intros z J. left. cbn in J. destruct an as [w|]; cbn in J; repeat (destruct J as [J|J]; [subst z|]); try (destruct J); eapply ARG; cbn; eauto.
  - intros (ax, d4) s4 o4 (-> & Z & G5). cbn [fst snd] in *. subst d4. apply h_bind.
    eapply h_post with (P := fun x s' out' => out' = out /\ Good s' out ((TMay TAny, VObj (fst x)) :: (P ++ l) ++ idx (snd x)) /\
      (i_ok (snd x) = true -> i_ok d3 = true /\ fst x <> None)).
    + assert (G6 : Good s4 out ((TMay TAny, VObj ax) :: (P ++ l) ++ idx d3)) by (rewrite <- app_assoc; exact G5).
      destruct (i_ok d3) eqn:O.
      * eapply h_post; [apply (null_ok ax s4 out (P ++ l) d3 TAny G6)|]. intros (x, d4) s5 o5 (-> & _ & G7 & _ & M7). cbn [fst snd] in *. rewrite O in M7. auto.
      * apply h_ret. cbn [fst snd]. split; [reflexivity|]. split; [exact G6|]. congruence.
    + intros (x, d4) s5 o5 (-> & G7 & M7). cbn [fst snd] in *. rewrite <- app_assoc in G7.
      eapply h_post; [apply (finish x TAny P [sub; sup; an] s5 out l d4 G7); [reflexivity|cbn; now rewrite PK]|].
      intros (y, d5) s6 o6 (-> & E1 & E2 & G8). cbn [fst snd] in *. subst y d5. split; [reflexivity|]. split; [exact G8|].
      intros O. destruct (M7 O) as [O1 S1]. split; [now apply M1, M2, M3|auto].
Qed.
Lemma axiom_gives fuel h : gives [] TAny true (ModelPrtOwn.decode_axiom huge random fuel h).
Proof.
  unfold ModelPrtOwn.decode_axiom. destruct (nth_error et_types _) as [t|] eqn:E.
  - apply (annotated_gives _ _ _ _ true); [|reflexivity|now left]. constructor; [|constructor]. apply decode_entity_gives.
    apply nth_error_In in E. cbn in E. repeat (destruct E as [<-|E]; [reflexivity|]). destruct E.
  - destruct (nth_error ModelPrtDecoder.at_types _) as [t|]; [|apply gives_fail].
    assert (H : gives [] TAny true match ModelPrtOwn.axiom_operands huge random fuel t with
      | Some l => ModelPrtOwn.decode_annotated huge random fuel (N.testbit h 6) t l | None => dfail end).
    { destruct (ModelPrtOwn.axiom_operands huge random fuel t) as [ms|] eqn:Q; [|apply gives_fail].
      destruct (operands_ok fuel t ms Q) as (b & F & FC & B). exact (annotated_gives _ _ _ _ b F FC B). }
    destruct t; try exact H. apply sub_prop_gives.
Qed.

(** * Frames *)

Lemma standard_strings s own n : Hist s own -> In n (standard vs) -> has_type huge s n OT_STRING.
Proof.
  intros H J. destruct H as (o & HH & P). destruct (ProofHeapLib.history_inv huge fresh fresh_ok _ _ _ _ _ HH) as (A & X & L & -> & EL & I & LB).
  destruct LB as (G & V & _ & EQ & D & _).
  assert (exists v, In v vs /\ n = v_ns v) as (v & JV & ->).
  { unfold standard in J. destruct vs as [|a [|b [|c [|d [|f [|g [|]]]]]]]; try (destruct J; fail).
    cbn in J. destruct J as [J|[J|[J|[J|[J|[]]]]]]; subst n; eexists; (split; [|reflexivity]); cbn; auto 8. }
  rewrite <- V in JV. apply in_map_iff in JV as ([[g v'] T] & <- & JX). cbn [fst snd].
  assert (Q : In (v_ns v', ProofHeapLib.DS (g_ns g)) L).
  { rewrite EQ. right. unfold ProofHeapLib.vall. apply in_flat_map. exists (g, v', T). split; [exact JX|]. cbn. auto. }
  unfold ProofHeapLib.descs in D. rewrite Forall_forall in D. specialize (D _ Q). cbn in D.
  apply (ProofHeapTop.type_iff huge e A (lib ++ o) []); auto. eapply ProofHeapFun.type_of_str; eauto.
Qed.
(** A step of the reader: with the index, but nothing else. *)
Definition steps {A} (m : D A) : Prop := forall s out d, Good s out (idx d) -> holds (m d) s out (fun x s' out' => Good s' out' (idx (snd x))).
Lemma steps_ret {A} (x : A) : steps (dret x).
Proof. intros s out d G. apply h_ret. exact G. Qed.
Lemma steps_bind {A B} (m : D A) (k : A -> D B) : steps m -> (forall x, steps (k x)) -> steps (dbind m k).
Proof. intros H1 H2 s out d G. apply h_bind. eapply h_post; [apply (H1 s out d G)|]. intros (x, d1) s1 o1 G1. exact (H2 x s1 o1 d1 G1). Qed.
Lemma steps_quiet {A B} (m : D (option A)) (k : option A -> D B) : quiet m -> (forall x, steps (k x)) -> steps (dbind m k).
Proof.
  intros Q H s out d G. apply h_bind. eapply h_post; [apply (Q s out d)|]. intros (x, d1) s1 o1 (-> & -> & E1 & E2 & _). cbn [fst snd] in *.
  apply (H x s out d1). now rewrite (idx_eq d d1 E1 E2).
Qed.
Lemma kept_type s s' held kd v : is_priv kd = false -> (forall a t, In a held -> has_type huge s a t -> has_type huge s' a t) -> incl (own (kd, v)) held ->
  vok s kd v -> vok s' kd v.
Proof.
  intros NP KT IN V. induction kd; cbn [ProofReadRule.vok is_priv] in *; auto; try discriminate NP.
  - destruct V as (a & -> & T). exists a. split; [reflexivity|]. apply KT; [apply IN; now left|exact T].
  - destruct V as (a & -> & T). exists a. split; [reflexivity|]. apply KT; [apply IN; now left|exact T].
  - destruct V as (a & -> & [T|T]); exists a; (split; [reflexivity|]); [left|right]; (apply KT; [apply IN; now left|exact T]).
  - destruct V as (a & -> & T). exists a. split; [reflexivity|]. apply KT; [apply IN; now left|exact T].
  - destruct V as [V|V]; [now left|]. right. apply IHkd; auto.
    destruct kd; cbn in V |- *; try exact IN; try (subst v; intros x []; fail).
    intros x [].
Qed.
Lemma idx_owns d : owns (idx d) = i_ns d ++ i_ids d.
Proof.
  unfold idx. rewrite owns_app. f_equal.
  - induction (i_ns d) as [|a l IH]; [reflexivity|]. cbn. now f_equal.
  - induction (i_ids d) as [|a l IH]; [reflexivity|]. cbn. now f_equal.
Qed.
Lemma handle_ok passed P s out d : Good s out (P ++ idx d) -> map snd P = map (fun a => VObj (Some a)) passed ->
  forallb (fun x => pk (fst x) && negb (is_priv (fst x))) P = true ->
  holds (handle_change passed d) s out (fun x s' out' => idx (snd x) = idx d /\ Good s' out' (P ++ idx (snd x))).
Proof.
  intros G E F. unfold handle_change. apply h_hand. intros s' out' W. pose proof G as (H & FO).
  assert (OP : owns P = passed).
  { clear - E F. revert passed E. induction P as [|[k v] P IH]; intros [|a q] E; try discriminate E; [reflexivity|].
    cbn [map snd] in E. injection E as -> E. cbn [forallb fst] in F. rewrite !andb_true_iff in F. destruct F as [[F1 _] F2].
    cbn [owns flat_map]. rewrite (pk_own k _ F1). cbn. f_equal. apply (IH F2 _ E). }
  assert (PM : forall o, Permutation (o ++ passed ++ i_ns d ++ i_ids d) (owns (P ++ idx d) ++ o)).
  { intros o. rewrite owns_app, OP, idx_owns. apply Permutation_app_comm. }
  destruct (client_ok huge fresh fresh_ok e vs lib passed (i_ns d ++ i_ids d) s out s' out' W) as (H' & KT & _).
  { revert H. apply hist_perm. apply Permutation_sym, PM. }
  assert (G' : Good s' out' (P ++ idx d)).
  { split; [revert H'; apply hist_perm, PM|]. rewrite Forall_forall in *. intros (kd, v) J. pose proof (FO _ J) as V. unfold ProofReadRule.okay in *. cbn [fst snd] in *.
    apply (kept_type s s' (lib ++ passed ++ i_ns d ++ i_ids d)); [|exact KT| |exact V].
    - apply in_app_iff in J as [J|J].
      + rewrite forallb_forall in F. specialize (F _ J). apply andb_true_iff in F. destruct F as [_ F]. cbn in F. now apply negb_true_iff in F.
      + unfold idx in J. apply in_app_iff in J as [J|J]; apply in_map_iff in J as (x & Z & _); injection Z as <- _; reflexivity.
    - intros x I. apply in_or_app. right. rewrite <- OP, <- idx_owns, <- owns_app. unfold owns. apply in_flat_map. eauto. }
  apply h_choose; apply h_ret; cbn [fst snd]; auto.
Qed.
(** Handing over an object and giving it up. *)
Lemma hand_over {A} a k (x : A) s out d : pk k = true -> is_priv k = false -> Good s out ((k, VObj (Some a)) :: idx d) ->
  holds ((let* _ := handle_change [a] in let* _ := drop (Some a) in dret x) d) s out (fun y s' out' => Good s' out' (idx (snd y))).
Proof.
  intros PK NP G. apply h_bind. eapply h_post; [apply (handle_ok [a] [(k, VObj (Some a))] s out d G eq_refl); cbn; now rewrite PK, NP|].
  intros (u, d1) s1 o1 (_ & G1). cbn [fst snd app] in *. apply h_bind. eapply h_post; [apply (drop_ok (Some a) k s1 o1 (idx d1) d1 PK G1)|].
  intros (w, d2) s2 o2 (-> & Z & G2). cbn [fst snd] in *. subst d2. apply h_ret. exact G2.
Qed.
Lemma gives_steps {A} K b m (f : option N -> D A) : gives [] K b m ->
  (forall p s out d, Good s out ((TMay K, VObj p) :: idx d) -> holds (f p d) s out (fun y s' out' => Good s' out' (idx (snd y)))) -> steps (dbind m f).
Proof.
  intros H HF s out d G. apply h_bind. eapply h_post; [apply (H s out [] d (fun x Z => match Z with end) G)|]. intros (p, d1) s1 o1 (-> & G1 & _). exact (HF p s1 out d1 G1).
Qed.
Lemma axiom_frame_steps fuel h : steps (ModelPrtOwn.decode_axiom_frame huge random fuel h).
Proof.
  intros s out d. unfold ModelPrtOwn.decode_axiom_frame. destruct (i_ok d); [|intros G; apply h_ret; exact G]. revert s out d.
  apply (gives_steps TAny true _ _ (axiom_gives fuel h)). intros [a|] s out d G.
  - apply h_bind. eapply h_post; [apply (handle_ok [a] [(TMay TAny, VObj (Some a))] s out d G eq_refl eq_refl)|].
    intros (u, d1) s1 o1 (_ & G1). cbn [fst snd app] in *. eapply h_post; [apply (drop_ok (Some a) (TMay TAny) s1 o1 (idx d1) d1 eq_refl G1)|].
    intros (w, d2) s2 o2 (-> & Z & G2). cbn [fst snd] in *. subst d2. exact G2.
  - apply h_ret. cbn [fst snd]. exact (good_none _ _ _ _ _ _ _ _ _ G).
Qed.
Lemma decl_steps item : steps item -> forall fuel n, steps (decl_loop fuel item n).
Proof.
  intros H. induction fuel as [|fuel IH]; intros n s out d G; cbn [decl_loop]; (destruct (i_ok d && negb (n =? 0)); [|apply h_ret; exact G]); [apply h_never|].
  revert s out d G. apply steps_bind; [exact H|]. intros []; [apply IH|apply steps_ret].
Qed.
Lemma decls_steps fuel item : steps item -> steps (ModelPrtOwn.decode_decls huge fuel item).
Proof. intros H. apply steps_quiet; [apply read_ok|]. intros [n|]; [now apply decl_steps|apply steps_ret]. Qed.
Lemma add_ns_ok s out l d a : Good s out (l ++ idx d) -> has_type huge s a OT_STRING ->
  holds (add_ns a d) s out (fun x s' out' => out' = out /\ Good s' out (l ++ idx (snd x))).
Proof.
  intros G T. unfold add_ns. apply h_do. intros [X _].
  destruct (retain_ok s out _ a G (alive_type _ _ _ T)) as (s' & E & G' & K); [eapply simple_free; eauto; discriminate|exact X|].
  exists (Some a), s'. split; [exact E|]. apply h_ret. cbn [fst snd]. split; [reflexivity|]. apply into_ns. eapply good_as; [exact G'| |reflexivity]. cbn. eauto.
Qed.
Lemma may_any s out k p L : pk k = true -> Good s out ((k, VObj p) :: L) -> Good s out ((TMay TAny, VObj p) :: L).
Proof. intros P G. eapply good_as; [exact G| |]; [destruct p; cbn; eauto|now rewrite !pk_own]. Qed.
Lemma end_decl {A} P ps (x : A) s out d : Good s out (P ++ idx d) -> map snd P = map VObj ps -> forallb (fun x => pk (fst x)) P = true ->
  holds ((let* _ := drops ps in dret x) d) s out (fun y s' out' => Good s' out' (idx (snd y))).
Proof.
  intros G E F. apply h_bind. eapply h_post; [apply (drops_ok ps P s out (idx d) d E F G)|]. intros (u, d1) s1 o1 (-> & Z & G1). cbn [fst snd] in *. subst d1. apply h_ret. exact G1.
Qed.
Lemma prefix_decl_steps : steps (ModelPrtOwn.decode_prefix_decl huge).
Proof.
  apply (gives_steps TStr true _ _ (string_gives false)). intros p s out d G. apply h_bind.
  eapply h_post; [apply (string_gives true s out [(TMay TStr, VObj p)] d (fun x Z => match Z with end) G)|]. intros (n, d1) s1 o1 (-> & G1 & _). cbn [fst snd app] in *.
  apply good_swap in G1. apply h_bind.
  eapply h_post with (P := fun x s' out' => Good s' out' ([(TMay TStr, VObj p); (TMay TStr, VObj n)] ++ idx (snd x))).
  - destruct p as [p|], n as [n|]; try (apply h_ret; exact G1). apply h_bind.
    assert (T : has_type huge s1 n OT_STRING) by (apply (may_str s1 out _ n G1); cbn; auto).
    eapply h_post; [apply (add_ns_ok s1 out [(TMay TStr, VObj (Some p)); (TMay TStr, VObj (Some n))] d1 n G1 T)|].
    intros (u, d2) s2 o2 (-> & G2). cbn [fst snd] in *.
    eapply h_post; [apply (handle_ok [p; n] [(TMay TStr, VObj (Some p)); (TMay TStr, VObj (Some n))] s2 out d2 G2 eq_refl eq_refl)|]. intros x s3 o3 (_ & G3). exact G3.
  - intros (u, d2) s2 o2 G2. cbn [fst snd] in *. exact (end_decl [(TMay TStr, VObj p); (TMay TStr, VObj n)] [p; n] true s2 o2 d2 G2 eq_refl eq_refl).
Qed.
Lemma ns_decl_steps : steps (ModelPrtOwn.decode_ns_decl huge).
Proof.
  apply (gives_steps TStr true _ _ (string_gives false)). intros n s out d G. apply h_bind.
  eapply h_post with (P := fun x s' out' => Good s' out' ([(TMay TStr, VObj n)] ++ idx (snd x))).
  - destruct n as [n|]; [|apply h_ret; exact G]. assert (T : has_type huge s n OT_STRING) by (apply (may_str s out _ n G); now left).
    eapply h_post; [apply (add_ns_ok s out [(TMay TStr, VObj (Some n))] d n G T)|]. intros x s2 o2 (-> & G2). exact G2.
  - intros (u, d2) s2 o2 G2. cbn [fst snd app] in *. apply h_bind. eapply h_post; [apply (drop_ok n (TMay TStr) s2 o2 (idx d2) d2 eq_refl G2)|].
    intros (w, d3) s3 o3 (-> & Z & G3). cbn [fst snd] in *. subst d3. apply h_ret. exact G3.
Qed.
(** Adding an identifier if there is one, and giving up the operands. *)
Lemma add_end string id s out d : Good s out ((TMay TId, VObj id) :: (TMay TStr, VObj string) :: idx d) ->
  holds ((let* _ := (match id with Some i => add_id i | None => fun d => Ret (tt, bad d) end) in let* _ := drops [string; id] in dret true) d) s out
    (fun y s' out' => Good s' out' (idx (snd y))).
Proof.
  intros G. apply good_swap in G. apply h_bind.
  eapply h_post with (P := fun x s' out' => Good s' out' ([(TMay TStr, VObj string); (TMay TId, VObj id)] ++ idx (snd x))).
  - destruct id as [i|]; [|apply h_ret; exact G]. assert (T : has_type huge s i OT_IRI \/ has_type huge s i OT_I_ANONYMOUS).
    { destruct (good_in _ _ _ (TMay TId) (VObj (Some i)) G) as [Z|(a & Z & T)]; [cbn; auto|discriminate Z|]. injection Z as <-. exact T. }
    eapply h_post; [apply (add_id_ok s out [(TMay TStr, VObj string); (TMay TId, VObj (Some i))] d i G T)|]. intros x s2 o2 (-> & _ & G2 & _). exact G2.
  - intros (u, d2) s2 o2 G2. cbn [fst snd] in *. exact (end_decl [(TMay TStr, VObj string); (TMay TId, VObj id)] [string; id] true s2 o2 d2 G2 eq_refl eq_refl).
Qed.
Lemma iri_decl_steps : steps (ModelPrtOwn.decode_iri_decl huge).
Proof.
  apply steps_quiet; [apply read_ok|]. intros [p|]; [|apply steps_ret]. apply (gives_steps TStr true _ _ (string_gives false)). intros [r|] s out d G.
  2:{ apply h_ret. exact (good_none _ _ _ _ _ _ _ _ _ G). }
  destruct (nth_error (i_ns d) (N.to_nat p)) as [ns|] eqn:E.
  - apply nth_error_In in E.
    assert (T1 : has_type huge s ns OT_STRING) by (apply (ns_type s out [(TMay TStr, VObj (Some r))] d ns G E)).
    assert (T2 : has_type huge s r OT_STRING) by (apply (may_str s out _ r G); now left).
    apply h_bind. eapply h_post; [apply (call_gives (KIri ns r) s out _ d TId G)|].
    + intros X _.
      assert (AL : allowed huge e lib (owns ((TMay TStr, VObj (Some r)) :: idx d) ++ out) s (KIri ns r)).
      { split; (split; [apply good_usable; [exact G|eapply alive_type; eauto]|assumption]). }
      destruct (make_iri huge fresh fresh_ok e vs lib s _ (proj1 G) ns r X AL) as (i & s1 & E1 & T).
      destruct (produce huge fresh fresh_ok e vs lib s out _ (KIri ns r) G AL Logic.I X eq_refl) as (y & s2 & E2 & G2).
      { apply (type_free _ s out); [exact G|]. intros x [<-|[<-|[]]]; exists OT_STRING; (split; [assumption|discriminate]). }
      rewrite E1 in E2. injection E2 as <- <-. exists (Some i), s1. split; [exact E1|]. eapply good_as; [exact G2| |reflexivity]. right. cbn. eauto.
    + intros (id, d1) s1 o1 (-> & Z & G1). cbn [fst snd] in *. subst d1. exact (add_end (Some r) id s1 out d G1).
  - apply h_bind. eapply h_post; [apply (drop_ok (Some r) (TMay TStr) s out (idx d) (bad d) eq_refl G)|]. intros (w, d3) s3 o3 (-> & Z & G3). cbn [fst snd] in *. subst d3.
    apply h_ret. exact G3.
Qed.
Lemma anon_decl_steps : steps (ModelPrtOwn.decode_anon_decl huge).
Proof.
  apply (gives_steps TStr true _ _ (string_gives false)). intros [r|] s out d G.
  2:{ apply h_ret. exact (good_none _ _ _ _ _ _ _ _ _ G). }
  assert (T2 : has_type huge s r OT_STRING) by (apply (may_str s out _ r G); now left).
  apply h_bind. eapply h_post; [apply (call_gives (KAnon (Some r) []) s out _ d TId G)|].
  - intros X _.
    assert (AL : allowed huge e lib (owns ((TMay TStr, VObj (Some r)) :: idx d) ++ out) s (KAnon (Some r) [])).
    { split; [apply good_usable; [exact G|eapply alive_type; eauto]|assumption]. }
    destruct (anon_typed s _ (Some r) [] (proj1 G) AL X) as (i & s1 & E1 & T).
    destruct (produce huge fresh fresh_ok e vs lib s out _ (KAnon (Some r) []) G AL Logic.I X eq_refl) as (y & s2 & E2 & G2).
    { apply (type_free _ s out); [exact G|]. intros x [<-|[]]; exists OT_STRING; (split; [assumption|discriminate]). }
    rewrite E1 in E2. injection E2 as <- <-. exists i, s1. split; [exact E1|]. eapply good_as; [exact G2| |reflexivity].
    destruct i as [i|]; [|now left]. right. cbn. eauto.
  - intros (id, d1) s1 o1 (-> & Z & G1). cbn [fst snd] in *. subst d1. exact (add_end (Some r) id s1 out d G1).
Qed.
Lemma handled_iri_steps : steps (ModelPrtOwn.decode_handled_iri huge random).
Proof.
  apply (gives_steps TIri true _ _ decode_iri_gives). intros [i|] s out d G.
  - exact (hand_over i (TMay TIri) true s out d eq_refl eq_refl G).
  - apply h_ret. exact (good_none _ _ _ _ _ _ _ _ _ G).
Qed.
Lemma onto_annot_steps fuel : steps (ModelPrtOwn.decode_onto_annot huge random fuel).
Proof.
  apply (gives_steps TAny true _ _ (annotation_gives fuel)). intros [i|] s out d G.
  - exact (hand_over i (TMay TAny) true s out d eq_refl eq_refl G).
  - apply h_ret. exact (good_none _ _ _ _ _ _ _ _ _ G).
Qed.
Lemma iri_version_steps b : steps (ModelPrtOwn.decode_iri_version huge random b).
Proof.
  apply steps_bind; [apply handled_iri_steps|]. intros _. destruct b; [|apply steps_ret]. apply steps_bind; [apply handled_iri_steps|]. intros _. apply steps_ret.
Qed.
Lemma add_all_steps l : incl l (standard vs) -> steps (add_all l).
Proof.
  induction l as [|a l IH]; intros I; [apply steps_ret|]. cbn [add_all]. apply steps_bind; [|intros _; apply IH; intros x J; apply I; now right].
  intros s out d G. eapply h_post; [apply (add_ns_ok s out [] d a G)|].
  - apply (standard_strings s _ a (proj1 G)). apply I. now left.
  - intros x s1 o1 (-> & G1). exact G1.
Qed.
Lemma free_ns_steps : steps free_ns.
Proof.
  intros s out d G. unfold free_ns. eapply h_post; [apply (drops_ok (map Some (i_ns d)) (map (fun a => (TStr, VObj (Some a))) (i_ns d)) s out (idx (with_ns [] d)) (with_ns [] d))|].
  - rewrite !map_map. reflexivity.
  - clear. induction (i_ns d); cbn; auto.
  - exact G.
  - intros (u, d1) s1 o1 (-> & Z & G1). cbn [fst snd] in *. subst d1. exact G1.
Qed.
Lemma free_ids_steps : steps free_ids.
Proof.
  intros s out d G. unfold free_ids. eapply h_post; [apply (drops_ok (map Some (i_ids d)) (map (fun a => (TId, VObj (Some a))) (i_ids d)) s out (idx (with_ids [] d)) (with_ids [] d))|].
  - rewrite !map_map. reflexivity.
  - clear. induction (i_ids d); cbn; auto.
  - revert G. apply good_perm. unfold idx. cbn [with_ids i_ns i_ids map]. rewrite app_nil_r. apply Permutation_app_comm.
  - intros (u, d1) s1 o1 (-> & Z & G1). cbn [fst snd] in *. subst d1. exact G1.
Qed.
Lemma reset_steps p i : steps (ModelPrtOwn.handle_reset vs p i).
Proof.
  apply steps_bind.
  - destruct p; [|apply steps_ret]. apply steps_bind; [apply free_ns_steps|]. intros _. apply add_all_steps. intros x J. exact J.
  - intros _ s out d G. destruct (p && negb (i_ok d)); [apply h_ret; exact G|]. destruct i; [apply free_ids_steps; exact G|apply h_ret; exact G].
Qed.
Lemma frame_steps fuel : steps (ModelPrtOwn.decode_frame huge random vs fuel).
Proof.
  intros s out d G. unfold ModelPrtOwn.decode_frame. destruct (i_in d) as [|h r]; [apply h_ret; exact G|].
  assert (GO : forall m : D unit, steps m -> holds ((let* _ := m in dret true) (with_in r d)) s out (fun x s' out' => Good s' out' (idx (snd x)))).
  { intros m M. apply (steps_bind m (fun _ => dret true) M (fun _ => steps_ret true) s out (with_in r d)). exact G. }
  apply h_choose; [apply h_ret; exact G|].
  assert (AX := GO _ (axiom_frame_steps fuel h)).
  assert (DC : forall item, steps item -> holds ((let* _ := ModelPrtOwn.decode_decls huge fuel item in dret true) (with_in r d)) s out (fun x s' out' => Good s' out' (idx (snd x)))).
  { intros item M. apply GO. now apply decls_steps. }
  destruct (h mod 64) as [|p]; [apply h_ret; exact G|].
  destruct p as [p|p|]; [destruct p as [p|p|]; [destruct p|destruct p|]|destruct p as [p|p|]; [destruct p|destruct p as [p|p|]; [|destruct p|]|]|]; try exact AX; try (apply h_ret; exact G).
  all: first [apply DC; apply handled_iri_steps | apply DC; apply onto_annot_steps | apply GO; apply reset_steps | apply GO; apply iri_version_steps |
     apply DC; destruct (N.testbit h 6); [apply iri_decl_steps|apply anon_decl_steps] |
     apply DC; destruct (N.testbit h 6); [apply prefix_decl_steps|apply ns_decl_steps]].
Qed.
Lemma frames_steps fuel inner : steps (ModelPrtOwn.decode_frames huge random vs fuel inner).
Proof.
  induction fuel as [|f IH]; intros s out d G; cbn [ModelPrtOwn.decode_frames]; (destruct (i_ok d); [|apply h_ret; exact G]); [apply h_never|].
  revert s out d G. apply steps_bind; [apply frame_steps|]. intros []; [exact IH|apply steps_ret].
Qed.
Lemma header_steps : steps decode_header.
Proof. apply steps_quiet; [apply read_ok|]. intros [v|]; [|apply steps_ret]. intros s out d G. apply h_ret. cbn [snd]. destruct (v =? 1); exact G. Qed.

Lemma decode_ok fuel inner input s out : Hist s out ->
  holds (ModelPrtOwn.read_stream huge random vs fuel inner input) s out (fun _ s' out' => Hist s' out').
Proof.
  intros H. unfold ModelPrtOwn.read_stream. apply h_then.
  set (d0 := mkDec input true [] [] 0). assert (G : Good s out (idx d0)) by (split; [exact H|constructor]).
  apply h_bind. eapply h_post; [apply (add_all_steps _ (fun x J => J) s out d0 G)|]. intros (u1, d1) s1 o1 G1. cbn [fst snd] in *.
  apply h_bind. eapply h_post; [apply (header_steps s1 o1 d1 G1)|]. intros (u2, d2) s2 o2 G2. cbn [fst snd] in *.
  apply h_bind. eapply h_post; [apply (frames_steps fuel inner s2 o2 d2 G2)|]. intros (u3, d3) s3 o3 G3. cbn [fst snd] in *.
  apply h_bind. unfold free_ns at 1.
  eapply h_post; [apply (drops_ok (map Some (i_ns d3)) (map (fun a => (TStr, VObj (Some a))) (i_ns d3)) s3 o3 (idx (with_ns [] d3)) (with_ns [] d3))|].
  - rewrite !map_map. reflexivity.
  - clear. induction (i_ns d3); cbn; auto.
  - exact G3.
  - intros (u4, d4) s4 o4 (-> & Z & G4). cbn [fst snd] in *. subst d4. unfold free_ids.
    eapply h_post; [apply (drops_ok (map Some (i_ids (with_ns [] d3))) (map (fun a => (TId, VObj (Some a))) (i_ids d3)) s4 o3 [] (with_ids [] (with_ns [] d3)))|].
    + rewrite !map_map. reflexivity.
    + clear. induction (i_ids d3); cbn; auto.
    + rewrite app_nil_r. exact G4.
    + intros (u5, d5) s5 o5 (-> & Z & G5). apply h_ret. exact (proj1 G5).
Qed.
End Own.

Lemma decode_all huge fresh e vs lib random fuel inner input s out o : allocator fresh -> sound huge fresh e vs lib s out ->
  decodes huge fresh e vs lib random fuel inner input s out o ->
  exists b s' out', o = Some (b, s', out') /\ sound huge fresh e vs lib s' out'.
Proof. intros F H R. exact (decode_ok huge fresh F e vs lib random fuel inner input s out H o R). Qed.
Lemma decode_safe huge fresh e vs lib random fuel inner input s out o : allocator fresh -> sound huge fresh e vs lib s out ->
  decodes huge fresh e vs lib random fuel inner input s out o -> o <> None.
Proof. intros F H R. destruct (decode_all _ _ _ _ _ _ _ _ _ _ _ _ F H R) as (b & s' & out' & -> & _). discriminate. Qed.
Lemma decode_sound huge fresh e vs lib random fuel inner input s out b s' out' : allocator fresh -> sound huge fresh e vs lib s out ->
  decodes huge fresh e vs lib random fuel inner input s out (Some (b, s', out')) -> sound huge fresh e vs lib s' out'.
Proof. intros F H R. destruct (decode_all _ _ _ _ _ _ _ _ _ _ _ _ F H R) as (b0 & s0 & out0 & E & Z). injection E as <- <- <-. exact Z. Qed.
Lemma decode_counts huge fresh e vs lib random fuel inner input s out b s' out' : allocator fresh -> sound huge fresh e vs lib s out ->
  decodes huge fresh e vs lib random fuel inner input s out (Some (b, s', out')) ->
  (forall a c, lookup (s_heap s') a = Some c -> ref_of huge c = N.of_nat (references (lib ++ out') s' a)) /\
  (forall a, alive s' a -> usable (lib ++ out') s' a).
Proof.
  intros F H R. pose proof (decode_sound _ _ _ _ _ _ _ _ _ _ _ _ _ _ F H R) as S. split.
  - intros a c E. exact (proj1 (ref_count huge fresh F e vs lib s' out' S a c E)).
  - intros a A. exact (any_usable huge fresh F e vs lib s' out' S a A).
Qed.
