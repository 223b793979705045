(** Library start and stop, and histories of calls. *)

From Coq Require Import String.
From Coq Require Import NArith List Bool Arith Lia Permutation.
From Coq Require Import ZifyBool ZifyNat ZifyN.
From Verif Require Import Bytes ModelTypes ModelObject ModelHeader SpecHeader ModelText ModelHeap SpecHeap.
From Verif Require Import ProofObject ProofHeader ProofHeap ProofHeapRun ProofHeapFun ProofHeapName ProofHeapComp ProofHeapSeen ProofHeapOnto ProofHeapTop.
Import ListNotations.
Local Open Scope N_scope.

(** What an object of the library is. *)
Inductive desc : Type := DS (t : bytes) | DI (n m : bytes) | DE (t : otype) (n m : bytes).
Definition is_desc (h : obs) (x : N) (d : desc) : Prop :=
  match d with
  | DS t => txt h x = Some t
  | DI n m => iri_txt h x n m
  | DE t n m => exists i, ent_is h x t i /\ iri_txt h i n m
  end.
Lemma is_desc_fun h x d d' : is_desc h x d -> is_desc h x d' -> d = d'.
Proof.
  destruct d as [t|n m|t n m], d' as [t'|n' m'|t' n' m']; cbn.
  - congruence.
  - unfold txt. intros H (v & ns & rem & E & D & _). rewrite E, D in H. discriminate.
  - unfold txt. intros H (i & (v & E & T & D) & _). rewrite E, D in H. discriminate.
  - unfold txt. intros (v & ns & rem & E & D & _) H. rewrite E, D in H. discriminate.
  - intros (v & ns & rem & E & D & H1 & H2) (v' & ns' & rem' & E' & D' & H1' & H2'). congruence.
  - intros (v & ns & rem & E & D & _) (i & (v' & E' & T & D') & _). congruence.
  - unfold txt. intros (i & (v & E & T & D) & _) H. rewrite E, D in H. discriminate.
  - intros (i & (v' & E' & T & D') & _) (v & ns & rem & E & D & _). congruence.
  - intros (i & (v & E & T & D) & (w & ns & rem & F & G & H1 & H2)) (i' & (v' & E' & T' & D') & (w' & ns' & rem' & F' & G' & H1' & H2')).
    rewrite E in E'. inversion E'; subst v'. rewrite D in D'. inversion D'; subst i'.
    rewrite F in F'. inversion F'; subst w'. rewrite G in G'. inversion G'; subst. congruence.
Qed.

Definition closed (h : obs) (R : list N) : Prop :=
  forall x v y, In x R -> lookup h x = Some v -> In y (kids v) -> In y R.

Section Lib.
Variable huge : bool.
Variable fresh : N -> heap -> N.
Hypothesis fresh_ok : allocator fresh.

Local Notation cs := (ProofHeap.cs huge).
Local Notation Room := (ProofHeap.Room huge).
Local Notation ok := (ProofHeapFun.ok huge).

Section Env.
Variable e : env.
Local Notation Inv := (ProofHeap.Inv huge e).

(** The references of the library, and nothing else is in memory. *)
Definition descs (h : obs) (L : list (N * desc)) : Prop := Forall (fun p => is_desc h (fst p) (snd p)) L.
Definition St (A : ast) (L : list (N * desc)) : Prop :=
  Inv A (map fst L) [] /\ descs (a_h A) L /\ closed (a_h A) (map fst L).

Lemma closed_all A R x : Inv A R [] -> closed (a_h A) R -> live (a_h A) x -> In x R.
Proof.
  intros I C L. destruct (no_garbage huge e A R x I L) as (r & J & H). clear L.
  induction H as [|r b x (v & E & K) H IH]; auto. apply IH. eapply C; eauto.
Qed.
Lemma count_perm l l' : Permutation l l' -> forall x, count x l = count x l'.
Proof. intros P x. unfold count. now apply Permutation_count_occ. Qed.
Lemma St_perm A L L' : Permutation L L' -> St A L -> St A L'.
Proof.
  intros P (I & D & C). assert (PM := Permutation_map fst P). split; [|split].
  - revert I. apply inv_count. now apply count_perm.
  - unfold descs in *. rewrite Forall_forall in *. intros p J. apply D. eapply Permutation_in; [apply Permutation_sym|]; eauto.
  - intros x v y J E K. apply (Permutation_in _ PM). apply (C x v y); auto.
    apply (Permutation_in _ (Permutation_sym PM)). auto.
Qed.

Lemma desc_data h x d v : is_desc h x d -> lookup h x = Some v -> fixed (o_d v).
Proof.
  destruct d as [t|n m|t n m]; cbn.
  - unfold txt. intros H E. rewrite E in H. destruct (o_d v); try discriminate. exact Logic.I.
  - intros (w & ns & rem & F & D & _) E. rewrite E in F. inversion F; subst w. now rewrite D.
  - intros (i & (w & F & T & D) & _) E. rewrite E in F. inversion F; subst w. now rewrite D.
Qed.
Lemma keeps_desc A R R0 h' x d : Inv A R0 [] -> keeps R (a_h A) h' -> use (a_h A) R x -> is_desc (a_h A) x d -> is_desc h' x d.
Proof.
  intros I K U. destruct d as [t|n m|t n m]; cbn.
  - apply (keeps_txt R); auto.
  - apply (keeps_iri R); auto. intros v E. apply (live_all _ _ _ _ _ _ I E).
  - intros (i & E & H). exists i. split.
    + eapply keeps_ent; eauto.
    + apply (keeps_iri R (a_h A)); auto.
      * apply (use_edge _ _ x); auto. destruct E as (v & E & T & D). exists v. split; auto.
        rewrite kids_live by (apply (live_all _ _ _ _ _ _ I E)). rewrite D. now left.
      * intros v F. apply (live_all _ _ _ _ _ _ I F).
Qed.
(** The library's part of memory persists. *)
Lemma keeps_lib A R R0 h' L : Inv A R0 [] -> keeps R (a_h A) h' -> incl (map fst L) R ->
  descs (a_h A) L -> closed (a_h A) (map fst L) -> descs h' L /\ closed h' (map fst L).
Proof.
  intros I K J D C. unfold descs in *. rewrite Forall_forall in *. split.
  - intros p P. apply (keeps_desc A R R0); auto. apply use_in, J. now apply in_map.
  - intros x w y P E Y. apply in_map_iff in P as (p & <- & P).
    destruct (K (fst p)) as (v & w' & F & G & PW & U); [apply use_in, J; now apply in_map|].
    rewrite E in G. inversion G; subst w'. apply (C (fst p) v y); auto; [now apply in_map|].
    rewrite kids_live in Y by auto. rewrite kids_live by (apply (live_all _ _ _ _ _ _ I F)).
    rewrite (up_data v w U) in Y; auto. eapply desc_data; eauto.
Qed.

Lemma St_cons A A' L x d : St A L -> Inv A' (x :: map fst L) [] -> keeps (map fst L) (a_h A) (a_h A') ->
  is_desc (a_h A') x d -> (forall v y, lookup (a_h A') x = Some v -> In y (kids v) -> In y (x :: map fst L)) ->
  St A' ((x, d) :: L).
Proof.
  intros (I & D & C) I' K DX KX.
  destruct (keeps_lib A (map fst L) _ (a_h A') L I K (incl_refl _) D C) as [D' C'].
  split; auto. split; [constructor; auto|]. cbn [map fst].
  intros y v z [<-|J] E Z; [eauto|]. right. eapply C'; eauto.
Qed.

Lemma txt_kids A R x v t : Inv A R [] -> txt (a_h A) x = Some t -> lookup (a_h A) x = Some v -> kids v = [].
Proof.
  intros I X E. rewrite kids_live by (apply (live_all _ _ _ _ _ _ I E)). unfold txt in X. rewrite E in X.
  destruct (o_d v); try discriminate. reflexivity.
Qed.

(** * Creating a vocabulary *)

Definition rem_is (h : obs) (i r : N) : Prop := exists v ns, lookup h i = Some v /\ o_d v = BIri ns r.
Lemma keeps_rem R h h' i r : keeps R h h' -> use h R i -> rem_is h i r -> rem_is h' i r.
Proof.
  intros K U (v & ns & E & D). destruct (K i U) as (v' & w & F & G & _ & B). rewrite E in F. inversion F; subst v'.
  exists w, ns. split; auto. rewrite (up_data v w B); auto. now rewrite D.
Qed.

(** Two namespaces with the same text are the same. *)
Lemma ns_same A R x y n : Inv A R [] -> n <> [] -> txt (a_h A) x = Some n -> txt (a_h A) y = Some n ->
  ns_ok e (a_h A) x -> ns_ok e (a_h A) y -> x = y.
Proof.
  intros I NE X Y NX NY.
  assert (C : forall z, txt (a_h A) z = Some n -> ns_ok e (a_h A) z ->
    exists v, lookup (a_h A) z = Some v /\ ident (a_h A) v = Some (TStr, KeyS n)).
  { intros z Z [->|(v & E & T & B)].
    - rewrite (empty_txt huge e _ _ _ I) in Z. congruence.
    - exists v. split; auto. unfold txt in Z. rewrite E in Z. unfold ident.
      destruct (o_d v); try discriminate. rewrite B. congruence. }
  destruct (C x X NX) as (v & E & D). destruct (C y Y NY) as (w & F & G).
  apply (i_uniq _ _ _ _ _ I x y v w (TStr, KeyS n)); auto; eapply live_all; eauto.
Qed.

Lemma vocab_iri_ok A L ns n m ts : St A L -> In ns (map fst L) -> txt (a_h A) ns = Some n -> ns_ok e (a_h A) ns ->
  n <> [] -> m <> [] -> ~ In (DI n m) (map snd L) ->
  ok A (map fst L) 4 (vocab_iri huge fresh e ns (m, ts))
     (fun p A' => exists i r, p = (m, ts, i) /\ St A' ((i, DI n m) :: (r, DS m) :: L) /\ rem_is (a_h A') i r).
Proof.
  intros S NL XN NS NE ME NI. assert (S' := S). destruct S as (I & D & C). unfold vocab_iri.
  apply (ok_weak huge A (map fst L) 4 (1 + (3 + 0))); [lia|]. cbn [fst].
  apply (ok_bind huge A (map fst L) 1 _ _ _ _ _ (cowl_string_ok huge fresh fresh_ok e A (map fst L) m I)).
  intros r A1 (I1 & X1) K1.
  assert (S1 : St A1 ((r, DS m) :: L)).
  { apply (St_cons A A1); auto. intros v y E J. rewrite (txt_kids A1 (r :: map fst L) r v m I1 X1 E) in J. easy. }
  assert (XN1 : txt (a_h A1) ns = Some n) by (eapply keeps_txt; eauto; now apply use_in).
  assert (NS1 : ns_ok e (a_h A1) ns) by (eapply keeps_ns; eauto; now apply use_in).
  apply (ok_bind1 huge A1 (map fst L) (r :: map fst L) 3 _ _ _ _ _
    (iri_unvalidated_ok huge fresh fresh_ok e A1 (r :: map fst L) ns r n m I1 XN1 X1)); [intros z; now right|].
  intros q A2 (i & -> & I2 & IT & HN) K2. cbn [nonnull].
  eapply ok_pure; [reflexivity|]. apply (ok_frame huge A2 _ (i :: r :: map fst L)); [intros z J; now right; right|].
  apply (ok_ret huge e); auto. exists i, r. split; auto.
  destruct HN as [OLD|(v & ns' & NF & E & DV)].
  { exfalso. apply NI. assert (J : In i (r :: map fst L)).
    { apply (closed_all A1); auto; [apply S1|]. destruct OLD as (v & ns' & rem & E & _). exists v. auto. }
    destruct J as [<-|J].
    - destruct OLD as (v & ns' & rem & E & DV & _). unfold txt in X1. rewrite E, DV in X1. discriminate.
    - apply in_map_iff in J as (p & <- & P).
      assert (DI n m = snd p) as ->.
      { apply (is_desc_fun (a_h A1) (fst p)); auto. destruct S1 as (_ & D1 & _). unfold descs in D1. rewrite Forall_forall in D1.
        apply (D1 p). now right. }
      now apply in_map. }
  split; [|exists v, ns'; auto].
  apply (St_cons A1 A2); auto. intros w y EW J. rewrite E in EW. inversion EW; subst w.
  rewrite kids_live, DV in J by (apply (live_all _ _ _ _ _ _ I2 E)). cbn in J. destruct J as [<-|[<-|[]]].
  - assert (ns' = ns) as ->.
    { destruct IT as (v' & ns2 & rem2 & E' & D' & Y1 & _). rewrite E in E'. inversion E'; subst v'. rewrite DV in D'. inversion D'; subst ns2 rem2.
      apply (ns_same A2 (i :: r :: map fst L) ns' ns n); auto.
      - eapply keeps_txt; eauto. apply use_in. now right.
      - pose proof (i_kids _ _ _ _ _ I2 i v E (live_all _ _ _ _ _ _ I2 E)) as KO. unfold kids_ok in KO. rewrite DV in KO. apply KO.
      - eapply keeps_ns; eauto. apply use_in. now right. }
    right. now right.
  - right. now left.
Qed.

(** Terms with the addresses of the IRI and of the remainder. *)
Definition quad : Type := bytes * list otype * N * N.
Definition q_term (q : quad) : bytes * list otype := fst (fst q).
Definition q_iri (q : quad) : N := snd (fst q).
Definition q_rem (q : quad) : N := snd q.
Definition qpairs (n : bytes) (T : list quad) : list (N * desc) :=
  flat_map (fun q => [(q_iri q, DI n (fst (q_term q))); (q_rem q, DS (fst (q_term q)))]) T.
Definition tdescs (n : bytes) (terms : list (bytes * list otype)) : list desc :=
  flat_map (fun t => [DI n (fst t); DS (fst t)]) terms.
Lemma qpairs_descs n T : map snd (qpairs n T) = tdescs n (map q_term T).
Proof. induction T as [|q T IH]; [reflexivity|]. unfold qpairs, tdescs in *. cbn [map flat_map app snd]. now rewrite IH. Qed.
Definition rems_ok (h : obs) (T : list quad) : Prop := Forall (fun q => rem_is h (q_iri q) (q_rem q)) T.

Lemma vocab_iris_ok terms : forall A L ns n, St A L -> In ns (map fst L) -> txt (a_h A) ns = Some n -> ns_ok e (a_h A) ns ->
  n <> [] -> Forall (fun t => fst t <> []) terms -> NoDup (tdescs n terms ++ map snd L) ->
  ok A (map fst L) (4 * N.of_nat (List.length terms)) (mapm (vocab_iri huge fresh e ns) terms)
     (fun ps A' => exists T, ps = map fst T /\ map q_term T = terms /\ St A' (qpairs n T ++ L) /\ rems_ok (a_h A') T).
Proof.
  induction terms as [|[m ts] terms IH]; intros A L ns n S NL XN NS NE ME ND; cbn [mapm].
  - apply (ok_ret huge e); [apply S|]. exists []. split; auto. split; auto. split; auto. constructor.
  - inversion ME as [|? ? M1 M2]; subst. cbn in M1, ND.
    apply (ok_weak huge A (map fst L) _ (4 + (4 * N.of_nat (List.length terms) + 0))); [cbn [List.length]; lia|].
    assert (NI : ~ In (DI n m) (map snd L)).
    { inversion ND as [|? ? N1 N2]; subst. intros J. apply N1. right. apply in_or_app. auto. }
    apply (ok_bind huge A (map fst L) 4 _ _ _ _ _ (vocab_iri_ok A L ns n m ts S NL XN NS NE M1 NI)).
    intros p A1 (i & r & -> & S1 & RI) K1. set (L1 := (i, DI n m) :: (r, DS m) :: L) in *.
    assert (ND1 : NoDup (tdescs n terms ++ map snd L1)).
    { cbn. eapply Permutation_NoDup; [|exact ND]. 
      change (DI n m :: DS m :: flat_map (fun t => [DI n (fst t); DS (fst t)]) terms ++ map snd L)
        with ([DI n m; DS m] ++ tdescs n terms ++ map snd L).
      change (tdescs n terms ++ DI n m :: DS m :: map snd L) with (tdescs n terms ++ [DI n m; DS m] ++ map snd L).
      rewrite !app_assoc. apply Permutation_app_tail, Permutation_app_comm. }
    assert (UN : use (a_h A) (map fst L) ns) by now apply use_in.
    apply (ok_bind1 huge A1 (map fst L) (map fst L1) _ _ _ _ _ _
      (IH A1 L1 ns n S1 ltac:(right; right; exact NL) (keeps_txt _ _ _ _ _ K1 UN XN) (keeps_ns e _ _ _ _ K1 UN NS) NE M2 ND1)).
    { intros z J. right. now right. }
    intros ps A2 (T & -> & QT & S2 & RS) K2.
    apply (ok_frame huge A2 (map fst L) (map fst (qpairs n T ++ L1))).
    { intros z J. rewrite map_app. apply in_or_app. right. right. now right. }
    apply (ok_ret huge e); [apply S2|]. exists ((m, ts, i, r) :: T). split; [reflexivity|].
    split; [cbn; now rewrite QT|]. split.
    + revert S2. apply St_perm. unfold L1. cbn [qpairs flat_map app q_iri q_rem q_term fst snd].
      change ((i, DI n m) :: (r, DS m) :: flat_map (fun q => [(q_iri q, DI n (fst (q_term q))); (q_rem q, DS (fst (q_term q)))]) T ++ L)
        with ([(i, DI n m); (r, DS m)] ++ qpairs n T ++ L).
      change (qpairs n T ++ (i, DI n m) :: (r, DS m) :: L) with (qpairs n T ++ [(i, DI n m); (r, DS m)] ++ L).
      rewrite !app_assoc. apply Permutation_app_tail, Permutation_app_comm.
    + constructor; auto. cbn. eapply keeps_rem; eauto. apply use_in. now left.
Qed.

Definition epairs (n : bytes) (E : list (otype * bytes * N)) : list (N * desc) :=
  map (fun x => (snd x, DE (fst (fst x)) n (snd (fst x)))) E.
Definition gents (terms : list (bytes * list otype)) : list (otype * bytes) :=
  flat_map (fun t => map (fun y => (y, fst t)) (snd t)) terms.

(** The entities of one term. *)
Lemma vocab_ent_ok A L i n m t : St A L -> In i (map fst L) -> iri_txt (a_h A) i n m -> type_is_entity t = true ->
  ok A (map fst L) 2 (vocab_ent huge fresh i m t)
     (fun x A' => exists a, x = (t, m, a) /\ St A' ((a, DE t n m) :: L)).
Proof.
  intros S J IT TE. assert (S' := S). destruct S as (I & D & C). unfold vocab_ent.
  apply (ok_weak huge A (map fst L) 2 (2 + 0)); [lia|].
  apply (ok_bind huge A (map fst L) 2 _ _ _ _ _ (entity_get_ok huge fresh fresh_ok e A (map fst L) t i I TE (iri_txt_type _ _ _ _ _ _ _ _ I IT))).
  intros r A1 (a & -> & I1 & EI) K1. cbn [nonnull]. eapply ok_pure; [reflexivity|].
  apply (ok_frame huge A1 _ (a :: map fst L)); [intros z; now right|]. apply (ok_ret huge e); auto.
  exists a. split; auto. apply (St_cons A A1); auto.
  - exists i. split; auto. apply (keeps_iri (map fst L) (a_h A)); auto; [now apply use_in|].
    intros v E. apply (live_all _ _ _ _ _ _ I E).
  - intros v y E Y. destruct EI as (v' & E' & T & DV). rewrite E in E'. inversion E'; subst v'.
    rewrite kids_live, DV in Y by (apply (live_all _ _ _ _ _ _ I1 E)). destruct Y as [<-|[]]. now right.
Qed.

Lemma vocab_ents1_ok ts : forall A L i n m, St A L -> In i (map fst L) -> iri_txt (a_h A) i n m ->
  Forall (fun t => type_is_entity t = true) ts ->
  ok A (map fst L) (2 * N.of_nat (List.length ts)) (mapm (vocab_ent huge fresh i m) ts)
     (fun E A' => map fst E = map (fun y => (y, m)) ts /\ St A' (epairs n E ++ L)).
Proof.
  induction ts as [|t ts IH]; intros A L i n m S J IT TE; cbn [mapm].
  - apply (ok_ret huge e); [apply S|]. split; auto.
  - inversion TE as [|? ? T1 T2]; subst.
    apply (ok_weak huge A (map fst L) _ (2 + (2 * N.of_nat (List.length ts) + 0))); [cbn [List.length]; lia|].
    apply (ok_bind huge A (map fst L) 2 _ _ _ _ _ (vocab_ent_ok A L i n m t S J IT T1)).
    intros x A1 (a & -> & S1) K1.
    assert (IT1 : iri_txt (a_h A1) i n m).
    { apply (keeps_iri (map fst L) (a_h A)); auto; [now apply use_in|]. intros v E. destruct S as (I & _). apply (live_all _ _ _ _ _ _ I E). }
    apply (ok_bind1 huge A1 (map fst L) (map fst ((a, DE t n m) :: L)) _ _ _ _ _ _
      (IH A1 ((a, DE t n m) :: L) i n m S1 (or_intror J) IT1 T2)); [intros z; now right|].
    intros E A2 (ME & S2) K2. apply (ok_frame huge A2 (map fst L) (map fst (epairs n E ++ (a, DE t n m) :: L))).
    { intros z Z. rewrite map_app. apply in_or_app. right. now right. }
    apply (ok_ret huge e); [apply S2|]. split; [cbn; now rewrite ME|].
    revert S2. apply St_perm. cbn. apply Permutation_sym, Permutation_middle.
Qed.

Lemma epairs_app n E F : epairs n (E ++ F) = epairs n E ++ epairs n F.
Proof. apply map_app. Qed.

Lemma vocab_ents_ok T : forall A L n, St A L -> incl (qpairs n T) L -> Forall (fun q => Forall (fun t => type_is_entity t = true) (snd (q_term q))) T ->
  ok A (map fst L) (2 * N.of_nat (List.length (gents (map q_term T))))
     (mapm (fun x => mapm (vocab_ent huge fresh (snd x) (fst (fst x))) (snd (fst x))) (map fst T))
     (fun E A' => map fst (List.concat E) = gents (map q_term T) /\ St A' (epairs n (List.concat E) ++ L)).
Proof.
  induction T as [|q T IH]; intros A L n S J TE; cbn [mapm map].
  - apply (ok_ret huge e); [apply S|]. split; auto.
  - inversion TE as [|? ? T1 T2]; subst.
    assert (JI : In (q_iri q, DI n (fst (q_term q))) L) by (apply J; now left).
    assert (IN : In (q_iri q) (map fst L)) by (change (q_iri q) with (fst (q_iri q, DI n (fst (q_term q)))); now apply in_map).
    assert (IT : iri_txt (a_h A) (q_iri q) n (fst (q_term q))).
    { destruct S as (_ & D & _). unfold descs in D. rewrite Forall_forall in D. exact (D _ JI). }
    apply (ok_weak huge A (map fst L) _ (2 * N.of_nat (List.length (snd (q_term q))) + (2 * N.of_nat (List.length (gents (map q_term T))) + 0))).
    { cbn [gents flat_map]. rewrite app_length, map_length. unfold gents. lia. }
    apply (ok_bind huge A (map fst L) _ _ _ _ _ _ (vocab_ents1_ok (snd (q_term q)) A L (q_iri q) n (fst (q_term q)) S IN IT T1)).
    intros E A1 (M1 & S1) K1.
    apply (ok_bind1 huge A1 (map fst L) (map fst (epairs n E ++ L)) _ _ _ _ _ _ (IH A1 (epairs n E ++ L) n S1
      ltac:(intros z Z; apply in_or_app; right; apply J; right; right; exact Z) T2)).
    { intros z Z. rewrite map_app. apply in_or_app. auto. }
    intros F A2 (M2 & S2) K2.
    apply (ok_frame huge A2 (map fst L) (map fst (epairs n (List.concat F) ++ epairs n E ++ L))).
    { intros z Z. rewrite !map_app. apply in_or_app. right. apply in_or_app. auto. }
    apply (ok_ret huge e); [apply S2|]. cbn [List.concat]. split.
    + rewrite map_app, M1, M2. reflexivity.
    + revert S2. apply St_perm. rewrite epairs_app, !app_assoc. apply Permutation_app_tail, Permutation_app_comm.
Qed.

(** A vocabulary and the addresses of its remainders. *)
Definition vdesc : Type := group * vocab * list quad.
Definition vpairs (x : vdesc) : list (N * desc) :=
  let '(g, v, T) := x in
  (v_ns v, DS (g_ns g)) :: (v_prefix v, DS (g_prefix g)) :: qpairs (g_ns g) T ++ epairs (g_ns g) (v_ents v).
Definition vok (h : obs) (x : vdesc) : Prop :=
  let '(g, v, T) := x in
  map q_term T = g_terms g /\ map q_iri T = v_iris v /\ map fst (v_ents v) = gents (g_terms g) /\ rems_ok h T.
Definition gdescs (g : group) : list desc :=
  DS (g_ns g) :: DS (g_prefix g) :: tdescs (g_ns g) (g_terms g) ++ map (fun x => DE (fst x) (g_ns g) (snd x)) (gents (g_terms g)).
Lemma vpairs_descs h x : vok h x -> map snd (vpairs x) = gdescs (fst (fst x)).
Proof.
  destruct x as [[g v] T]. intros (H1 & H2 & H3 & _). cbn. unfold gdescs. f_equal. f_equal.
  rewrite map_app, qpairs_descs, H1. f_equal. rewrite <- H3. unfold epairs. rewrite !map_map. reflexivity.
Qed.
Definition good_group (g : group) : Prop :=
  g_ns g <> [] /\ g_prefix g <> [] /\
  Forall (fun t => fst t <> [] /\ Forall (fun t => type_is_entity t = true) (snd t)) (g_terms g).
Definition cost (g : group) : N := 2 + 4 * N.of_nat (List.length (g_terms g)) + 2 * N.of_nat (List.length (gents (g_terms g))).

Lemma keeps_vok R h h' x : keeps R h h' -> incl (map fst (vpairs x)) R -> vok h x -> vok h' x.
Proof.
  destruct x as [[g v] T]. intros K J (H1 & H2 & H3 & H4). split; auto. split; auto. split; auto.
  unfold rems_ok in *. rewrite Forall_forall in *. intros q Q. eapply keeps_rem; eauto. apply use_in, J. cbn.
  right. right. rewrite map_app. apply in_or_app. left. unfold qpairs. rewrite in_map_iff.
  exists (q_iri q, DI (g_ns g) (fst (q_term q))). split; auto. apply in_flat_map. exists q. split; auto. now left.
Qed.

Lemma vocab_init_ok A L g : St A L -> good_group g -> NoDup (gdescs g ++ map snd L) ->
  ok A (map fst L) (cost g) (vocab_init huge fresh e g)
     (fun v A' => exists T, vok (a_h A') (g, v, T) /\ St A' (vpairs (g, v, T) ++ L)).
Proof.
  intros S (G1 & G2 & G3) ND. unfold vocab_init. assert (I := proj1 S).
  set (n := g_ns g) in *. set (R := map fst L) in *. set (k := N.of_nat (List.length (g_terms g))).
  set (c := N.of_nat (List.length (gents (g_terms g)))).
  apply (ok_weak huge A R _ (1 + (4 * k + (1 + (2 * c + 0))))); [unfold cost; fold k c; lia|].
  apply (ok_bind huge A R 1 _ _ _ _ _ (string_opt_ok huge fresh fresh_ok e A R n true I)).
  intros ns A1 (I1 & X1 & N1) K1. specialize (N1 eq_refl).
  set (L1 := (ns, DS n) :: L).
  assert (S1 : St A1 L1).
  { apply (St_cons A A1); auto. intros v y E J. rewrite (txt_kids A1 (ns :: R) ns v n I1 X1 E) in J. easy. }
  assert (ND1 : NoDup (tdescs n (g_terms g) ++ map snd L1)).
  { unfold gdescs in ND. fold n in ND. cbn [L1 map snd].
    apply (Permutation_NoDup (l := DS n :: tdescs n (g_terms g) ++ map snd L)); [apply Permutation_middle|].
    cbn in ND. inversion ND as [|? ? D1 D2]; subst. inversion D2 as [|? ? D3 D4]; subst.
    constructor.
    - intros J. apply D1. right. apply in_app_or in J as [J|J]; apply in_or_app; [left; apply in_or_app; auto|auto].
    - rewrite <- app_assoc in D4. revert D4. clear. generalize (tdescs n (g_terms g)).
      intros l D. induction l as [|a l IH]; cbn in *.
      + induction (gents (g_terms g)); cbn in *; auto. inversion D; auto.
      + inversion D as [|? ? D1 D2]; subst. constructor; auto. intros J. apply D1.
        apply in_app_or in J as [J|J]; apply in_or_app; auto. right. apply in_or_app. auto. }
  assert (G3a : Forall (fun t => fst t <> []) (g_terms g)) by (eapply Forall_impl; [|exact G3]; now intros t []).
  apply (ok_bind1 huge A1 R (map fst L1) (4 * k) _ _ _ _ _
    (vocab_iris_ok (g_terms g) A1 L1 ns n S1 (or_introl eq_refl) X1 N1 G1 G3a ND1)); [intros z; now right|].
  intros ps A2 (T & -> & QT & S2 & RS) K2. set (L2 := qpairs n T ++ L1) in *.
  apply (ok_bind1 huge A2 R (map fst L2) 1 _ _ _ _ _ (cowl_string_ok huge fresh fresh_ok e A2 (map fst L2) (g_prefix g) (proj1 S2))).
  { intros z J. unfold L2. rewrite map_app. apply in_or_app. right. now right. }
  intros p A3 (I3 & X3) K3. set (L3 := (p, DS (g_prefix g)) :: L2).
  assert (S3 : St A3 L3).
  { apply (St_cons A2 A3); auto. intros v y E J. rewrite (txt_kids A3 (p :: map fst L2) p v _ I3 X3 E) in J. easy. }
  assert (RS3 : rems_ok (a_h A3) T).
  { unfold rems_ok in *. rewrite Forall_forall in *. intros q Q. eapply keeps_rem; eauto. apply use_in. unfold L2. rewrite map_app.
    apply in_or_app. left. unfold qpairs. rewrite in_map_iff. exists (q_iri q, DI n (fst (q_term q))). split; auto.
    apply in_flat_map. exists q. split; auto. now left. }
  assert (TE : Forall (fun q => Forall (fun t => type_is_entity t = true) (snd (q_term q))) T).
  { rewrite Forall_forall in *. intros q Q. apply G3. rewrite <- QT. now apply in_map. }
  assert (CC : 2 * c = 2 * N.of_nat (List.length (gents (map q_term T)))) by (unfold c; now rewrite QT). rewrite CC.
  apply (ok_bind1 huge A3 R (map fst L3) _ _ _ _ _ _ (vocab_ents_ok T A3 L3 n S3
    ltac:(intros z Z; right; unfold L2; apply in_or_app; left; exact Z) TE)).
  { intros z J. right. unfold L2. rewrite map_app. apply in_or_app. right. now right. }
  intros E A4 (ME & S4) K4.
  apply (ok_frame huge A4 R (map fst (epairs n (List.concat E) ++ L3))).
  { intros z J. rewrite map_app. apply in_or_app. right. right. unfold L2. rewrite map_app. apply in_or_app. right. now right. }
  apply (ok_ret huge e); [apply S4|]. exists T. split.
  - split; auto. split; [cbn; now rewrite map_map|]. cbn [v_ents]. split; [now rewrite ME, QT|].
    unfold rems_ok in *. rewrite Forall_forall in *. intros q Q. eapply keeps_rem; eauto. apply use_in. right. unfold L2. rewrite map_app.
    apply in_or_app. left. unfold qpairs. rewrite in_map_iff. exists (q_iri q, DI n (fst (q_term q))). split; auto.
    apply in_flat_map. exists q. split; auto. now left.
  - revert S4. apply St_perm. cbn [vpairs v_ns v_prefix v_ents]. fold n. unfold L3, L2, L1.
    set (a := epairs n (List.concat E)). set (b := qpairs n T). cbn [app].
    transitivity ((p, DS (g_prefix g)) :: (ns, DS n) :: a ++ b ++ L).
    + rewrite <- Permutation_middle. constructor.
      rewrite (app_assoc a), <- Permutation_middle. constructor. now rewrite <- app_assoc.
    + rewrite perm_swap. constructor. constructor. rewrite !app_assoc. apply Permutation_app_tail, Permutation_app_comm.
Qed.

Definition vall (X : list vdesc) : list (N * desc) := flat_map vpairs X.
Definition costs (gs : list group) : N := fold_right (fun g n => cost g + n) 0 gs.

Lemma vocabs_ok gs : forall A L, St A L -> Forall good_group gs -> NoDup (flat_map gdescs gs ++ map snd L) ->
  ok A (map fst L) (costs gs) (mapm (vocab_init huge fresh e) gs)
     (fun vs A' => exists X, map (fun x => fst (fst x)) X = gs /\ map (fun x => snd (fst x)) X = vs /\
        Forall (vok (a_h A')) X /\ St A' (vall X ++ L)).
Proof.
  induction gs as [|g gs IH]; intros A L S G ND; cbn [mapm].
  - apply (ok_ret huge e); [apply S|]. exists []. split; auto.
  - inversion G as [|? ? G1 G2]; subst. cbn [flat_map] in ND.
    apply (ok_weak huge A _ _ (cost g + (costs gs + 0))); [cbn [costs fold_right]; unfold costs; lia|].
    assert (ND1 : NoDup (gdescs g ++ map snd L)).
    { rewrite <- app_assoc in ND. revert ND. generalize (gdescs g) as l. clear. intros l D. induction l as [|a l IH]; cbn in *.
      - induction (flat_map gdescs gs); cbn in *; auto. inversion D; auto.
      - inversion D as [|? ? D1 D2]; subst. constructor; auto. intros J. apply D1.
        apply in_app_or in J as [J|J]; apply in_or_app; auto. right. apply in_or_app. auto. }
    apply (ok_bind huge A _ (cost g) _ _ _ _ _ (vocab_init_ok A L g S G1 ND1)). intros v A1 (T & V1 & S1) K1.
    set (L1 := vpairs (g, v, T) ++ L) in *.
    assert (ND2 : NoDup (flat_map gdescs gs ++ map snd L1)).
    { unfold L1. rewrite map_app, (vpairs_descs (a_h A1) _ V1). cbn [fst].
      eapply Permutation_NoDup; [|exact ND]. rewrite !app_assoc. apply Permutation_app_tail, Permutation_app_comm. }
    apply (ok_bind1 huge A1 _ (map fst L1) _ _ _ _ _ _ (IH A1 L1 S1 G2 ND2)).
    { intros z Z. unfold L1. rewrite map_app. apply in_or_app. auto. }
    intros vs A2 (X & X1 & X2 & X3 & S2) K2.
    apply (ok_frame huge A2 _ (map fst (vall X ++ L1))).
    { intros z Z. unfold L1. rewrite !map_app. apply in_or_app. right. apply in_or_app. auto. }
    apply (ok_ret huge e); [apply S2|]. exists ((g, v, T) :: X). cbn [map fst snd]. split; [now rewrite X1|]. split; [now rewrite X2|].
    split.
    + constructor; auto. apply (keeps_vok (map fst L1) (a_h A1)); auto. intros z Z. unfold L1. rewrite map_app. apply in_or_app. auto.
    + revert S2. apply St_perm. unfold L1. cbn [vall flat_map]. fold (vall X). rewrite !app_assoc.
      apply Permutation_app_tail, Permutation_app_comm.
Qed.

End Env.

(** Without ontologies, the invariant mentions the empty string only. *)
Lemma inv_env e e' A R W : e_empty e = e_empty e' -> (forall a v o, lookup (a_h A) a = Some v -> o_d v <> BOnto o) ->
  ProofHeap.Inv huge e A R W -> ProofHeap.Inv huge e' A R W.
Proof.
  intros E NO [I1 I2 I3 I4 I5 I6 I7 I8 I9 I10 I11 I12]. constructor; auto.
  - intros a v L P. specialize (I6 a v L P). unfold kids_ok, ns_ok in *. destruct (o_d v); auto. now rewrite <- E.
  - now rewrite <- E.
  - intros a v o L _ D. now destruct (NO a v o L).
Qed.

(** * Start *)

Lemma lookup_one {X} (a b : N) (v w : X) : lookup [(a, v)] b = Some w -> b = a /\ w = v.
Proof. cbn. destruct (a =? b) eqn:E; [|discriminate]. apply N.eqb_eq in E. intros Y. inversion Y. auto. Qed.
Lemma lookup_one_none {X} (a b : N) (v : X) : lookup [(a, v)] b = None -> (a =? b) = false.
Proof. cbn. now destruct (a =? b). Qed.
Lemma start_inv : exists A a, string_get huge fresh [] s_zero = Ok a (cs A) /\
  St (mkEnv a 0 0 0 0 0) A [(a, DS [])] /\ Room A (max_refs huge - 1).
Proof.
  set (A0 := mkA [] [] [] [] [] 0). change s_zero with (cs A0). unfold string_get.
  rewrite (alloc_cs huge fresh A0 OT_STRING false (BStr [])). set (v := mkOb OT_STRING false 1 (BStr [])).
  set (a := fst (new huge fresh A0 v)). exists (snd (new huge fresh A0 v)), a. split; [reflexivity|].
  assert (H : a_h (snd (new huge fresh A0 v)) = [(a, v)]) by reflexivity.
  assert (LK : forall b w, lookup [(a, v)] b = Some w -> b = a /\ w = v).
  { intros b w. apply lookup_one. }
  assert (LA : lookup [(a, v)] a = Some v) by (cbn; now rewrite N.eqb_refl).
  split; [split; [|split]|].
  - constructor; rewrite ?H.
    + constructor; [easy|constructor].
    + intros b w E. apply LK in E as [-> ->]. split; [|constructor]. unfold fitv. cbn. destruct huge; vm_compute; discriminate.
    + intros b w E. apply LK in E as [-> ->]. cbn [map fst]. rewrite count_cons, N.eqb_refl. reflexivity.
    + intros b E. cbn [map fst]. rewrite count_cons. now rewrite (lookup_one_none _ _ _ E).
    + split; [constructor|]. intros b. split; [easy|]. intros (w & E & Z). apply LK in E as [-> ->]. discriminate.
    + intros b w E _. apply LK in E as [-> ->]. cbn. discriminate.
    + intros []; constructor.
    + intros T b. assert (atab T (snd (new huge fresh A0 v)) = []) as -> by (destruct T; reflexivity).
      split; [easy|]. intros (w & k & E & _ & D). apply LK in E as [-> ->]. discriminate.
    + intros b c w w' x E E'. apply LK in E as [-> ->]. apply LK in E' as [-> ->]. auto.
    + intros b. constructor. intros c (w & E & J). apply LK in E as [-> ->]. destruct J.
    + exists v. cbn [e_empty map fst]. repeat split; auto. now left.
    + intros b w o E _ D. apply LK in E as [-> ->]. discriminate D.
  - constructor; [|constructor]. cbn [fst snd is_desc]. unfold txt. rewrite H, LA. reflexivity.
  - intros x w y J E Y. rewrite H in E. apply LK in E as [-> ->]. destruct Y.
  - intros b w E. rewrite H in E. apply LK in E as [-> ->]. cbn [v o_n]. destruct huge; vm_compute; discriminate.
Qed.

Lemma vocab_find_in l t r : In (t, r) (map fst l) -> exists a, vocab_find l t r = Some a /\ In a (map snd l).
Proof.
  induction l as [|[[u s] a] l IH]; [easy|]. cbn. destruct (otype_eqb u t && bytes_eqb s r) eqn:E; [eauto|].
  intros [X|J].
  - inversion X; subst. assert (otype_eqb t t = true) by now apply otype_eqb_eq. assert (bytes_eqb r r = true) by now apply bytes_eqb_eq.
    rewrite H, H0 in E. discriminate.
  - destruct (IH J) as (b & F & K). eauto.
Qed.

Definition all_descs : list desc := DS [] :: flat_map gdescs groups.

Definition desc_eq_dec (d d' : desc) : {d = d'} + {d <> d'}.
Proof.
  assert (forall a b : bytes, {a = b} + {a <> b}) by (apply list_eq_dec, N.eq_dec).
  assert (forall a b : otype, {a = b} + {a <> b}).
  { intros a b. destruct (otype_eqb a b) eqn:E; [left; now apply otype_eqb_eq|right]. intros ->.
    assert (otype_eqb b b = true) by now apply otype_eqb_eq. congruence. }
  decide equality.
Defined.
Fixpoint nodupb (l : list desc) : bool :=
  match l with [] => true | d :: l' => negb (if in_dec desc_eq_dec d l' then true else false) && nodupb l' end.
Lemma nodupb_ok l : nodupb l = true -> NoDup l.
Proof.
  induction l as [|d l IH]; cbn; [constructor|]. rewrite andb_true_iff. intros [H1 H2]. constructor; auto.
  destruct (in_dec desc_eq_dec d l); auto. discriminate.
Qed.
Lemma all_nodup : NoDup all_descs.
Proof. apply nodupb_ok. vm_compute. reflexivity. Qed.
Definition nonempty {X} (l : list X) : bool := match l with [] => false | _ => true end.
Lemma nonempty_ok {X} (l : list X) : nonempty l = true -> l <> [].
Proof. destruct l; discriminate. Qed.
Lemma groups_good : Forall good_group groups.
Proof.
  assert (forallb (fun g => nonempty (g_ns g) && nonempty (g_prefix g) &&
    forallb (fun t => nonempty (fst t) && forallb type_is_entity (snd t)) (g_terms g)) groups = true) as H by (vm_compute; reflexivity).
  rewrite forallb_forall in H. apply Forall_forall. intros g J. specialize (H g J). rewrite !andb_true_iff in H.
  destruct H as [[H1 H2] H3]. split; [now apply nonempty_ok|]. split; [now apply nonempty_ok|].
  rewrite forallb_forall in H3. apply Forall_forall. intros t K. specialize (H3 t K). rewrite andb_true_iff in H3.
  destruct H3 as [H3 H4]. split; [now apply nonempty_ok|]. rewrite forallb_forall in H4. now apply Forall_forall.
Qed.
Lemma descs_texts d : In d all_descs -> d = DS [] \/
  match d with DS t => t <> [] | DI n m => n <> [] /\ m <> [] | DE _ n m => n <> [] /\ m <> [] end.
Proof.
  intros [<-|J]; [auto|]. right.
  assert (forallb (fun d => match d with DS t => nonempty t | DI n m => nonempty n && nonempty m | DE _ n m => nonempty n && nonempty m end)
    (flat_map gdescs groups) = true) as H by (vm_compute; reflexivity).
  rewrite forallb_forall in H. specialize (H d J). destruct d; rewrite ?andb_true_iff in H.
  - now apply nonempty_ok.
  - destruct H; split; now apply nonempty_ok.
  - destruct H; split; now apply nonempty_ok.
Qed.

(** The library in memory. *)
Definition Lb (e : env) (vs : list vocab) (X : list vdesc) (h : obs) (L : list (N * desc)) : Prop :=
  map (fun x => fst (fst x)) X = groups /\ map (fun x => snd (fst x)) X = vs /\ Forall (vok h) X /\
  L = (e_empty e, DS []) :: vall X /\ descs h L /\ closed h (map fst L) /\ In (e_string e) (map fst L) /\
  Forall (fun x => exists t n m, In (x, DE t n m) L) [e_thing e; e_literal e; e_lang_string e].

Lemma lib_descs e vs X h L : Lb e vs X h L -> map snd L = all_descs.
Proof.
  intros (G & _ & V & -> & _). cbn. unfold all_descs. f_equal. rewrite <- G. clear G.
  induction V as [|x X V1 V2 IH]; [reflexivity|]. cbn [map flat_map vall]. fold (vall X). now rewrite map_app, (vpairs_descs h x V1), IH.
Qed.

Lemma lib_init_ok : exists e vs A X L, lib_init huge fresh s_zero = Ok (e, vs) (cs A) /\
  ProofHeap.Inv huge e A (map fst L) [] /\ Lb e vs X (a_h A) L.
Proof.
  destruct start_inv as (A0 & a & E0 & S0 & R0). unfold lib_init. rewrite (bind_ok _ _ _ _ _ E0).
  set (e0 := mkEnv a 0 0 0 0 0) in *.
  destruct (vocabs_ok e0 groups A0 [(a, DS [])] S0 groups_good) with (k := 0) as (vs & A & E & _ & _ & X & X1 & X2 & X3 & S).
  { eapply Permutation_NoDup; [|exact all_nodup]. unfold all_descs. cbn [map snd]. rewrite Permutation_app_comm. reflexivity. }
  { revert R0. intros R0 b v Q. specialize (R0 b v Q). assert (costs groups + 0 <= max_refs huge - 1).
    { destruct huge; vm_compute; discriminate. }
    lia. }
  rewrite (bind_ok _ _ _ _ _ E). set (L := (a, DS []) :: vall X).
  assert (S' : St e0 A L). { revert S. apply St_perm. rewrite Permutation_app_comm. reflexivity. }
  clear S E E0 R0 S0. unfold groups in X1. 
  destruct X as [|[[g1 v1] T1] [|[[g2 v2] T2] [|[[g3 v3] T3] [|[[g4 v4] T4] [|[[g5 v5] T5] [|[[g6 v6] T6] [|? ?]]]]]]]; try discriminate X1.
  cbn [map fst snd] in X1, X2. inversion X1; subst g1 g2 g3 g4 g5 g6. subst vs.
  assert (V := X3). inversion V as [|? ? Y1 V2]; inversion V2 as [|? ? Y2 V3]; inversion V3 as [|? ? Y3 V4];
    inversion V4 as [|? ? Y4 V5]; inversion V5 as [|? ? Y5 V6]; inversion V6 as [|? ? Y6 _]; subst.
  destruct Y1 as (_ & _ & Z1 & _), Y2 as (_ & _ & Z2 & _), Y3 as (_ & _ & Z3 & _), Y6 as (_ & _ & Z6 & _).
  destruct (vocab_find_in (v_ents v1) OT_CE_CLASS (bs "Thing")) as (x1 & F1 & J1); [rewrite Z1; now left|].
  destruct (vocab_find_in (v_ents v3) OT_DR_DATATYPE (bs "Literal")) as (x2 & F2 & J2).
  { rewrite Z3. cbn. do 3 right. now left. }
  destruct (vocab_find_in (v_ents v2) OT_DR_DATATYPE (bs "langString")) as (x3 & F3 & J3); [rewrite Z2; now left|].
  destruct (vocab_find_in (v_ents v2) OT_DR_DATATYPE (bs "PlainLiteral")) as (x4 & F4 & _); [rewrite Z2; right; now left|].
  assert (IS : In (OT_DR_DATATYPE, bs "string") (map fst (v_ents v6))).
  { rewrite Z6. clear. 
    assert (existsb (fun p => otype_eqb (fst p) OT_DR_DATATYPE && bytes_eqb (snd p) (bs "string")) (gents (g_terms xsd_group)) = true) as H
      by (vm_compute; reflexivity).
    apply existsb_exists in H as ([t r] & J & B). rewrite andb_true_iff in B. destruct B as [B1 B2].
    apply otype_eqb_eq in B1. apply bytes_eqb_eq in B2. cbn in B1, B2. subst. exact J. }
  destruct (vocab_find_in (v_ents v6) OT_DR_DATATYPE (bs "string") IS) as (x5 & F5 & J5).
  cbn [v_ents]. rewrite F1, F2, F3, F4, F5. cbn [nonnull].
  unfold bind, ret. 
  set (e1 := mkEnv a x1 x2 x3 x4 x5).
  exists e1, [v1; v2; v3; v4; v5; v6], A,
    [(owl_group, v1, T1); (rdf_group, v2, T2); (rdfs_group, v3, T3); (xml_group, v4, T4); (xmlns_group, v5, T5); (xsd_group, v6, T6)], L.
  split; [reflexivity|].
  destruct S' as (I & D & C). split.
  { apply (inv_env e0 e1 A (map fst L) [] eq_refl); [|exact I]. intros b v o EB DB.
    assert (JB : In b (map fst L)). { apply (closed_all e0 A); [exact I|exact C|]. exists v. exact EB. }
    apply in_map_iff in JB as (p & <- & P). unfold descs in D. rewrite Forall_forall in D.
    pose proof (desc_data (a_h A) (fst p) (snd p) v (D p P) EB) as FX. rewrite DB in FX. exact FX. }
  split; [|split; [|split; [|split; [|split; [|split; [|split]]]]]]; [..|exact C| |].
  - reflexivity.
  - reflexivity.
  - exact X3.
  - reflexivity.
  - exact D.
  - cbn [e_string]. right. unfold vall. cbn [flat_map]. rewrite !map_app, !in_app_iff. do 5 right. left.
    cbn [vpairs map fst]. right. right. rewrite map_app. apply in_or_app. right.
    unfold epairs. rewrite map_map. exact J5.
  - assert (EP : forall n E x (M : list (N * desc)), In x (map snd E) -> incl (epairs n E) M -> exists t n m, In (x, DE t n m) M).
    { clear. intros n E x M J IM. apply in_map_iff in J as (q & <- & Q). exists (fst (fst q)), n, (snd (fst q)). apply IM.
      unfold epairs. apply in_map_iff. exists q. auto. }
    assert (EV : forall g v T, In (g, v, T) [(owl_group, v1, T1); (rdf_group, v2, T2); (rdfs_group, v3, T3); (xml_group, v4, T4); (xmlns_group, v5, T5); (xsd_group, v6, T6)] ->
      incl (epairs (g_ns g) (v_ents v)) L).
    { intros g v T J z Z. right. unfold vall. apply in_flat_map. exists (g, v, T). split; [exact J|].
      cbn [vpairs]. right. right. apply in_or_app. right. exact Z. }
    cbn [e_thing e_literal e_lang_string e1].
    apply Forall_cons; [apply (EP _ _ _ _ J1 (EV owl_group v1 T1 (or_introl eq_refl)))|].
    apply Forall_cons; [apply (EP _ _ _ _ J2 (EV rdfs_group v3 T3 ltac:(right; right; left; reflexivity)))|].
    apply Forall_cons; [apply (EP _ _ _ _ J3 (EV rdf_group v2 T2 ltac:(right; left; reflexivity)))|].
    apply Forall_nil.
Qed.

Lemma library_fst e vs X A L : Lb e vs X (a_h A) L -> library e vs (cs A) = map fst L.
Proof.
  intros (_ & <- & V & -> & _). unfold library. cbn [map fst]. f_equal. induction V as [|[[g v] T] X V1 V2 IH]; [reflexivity|].
  cbn [map flat_map vall snd fst]. rewrite map_app. fold (vall X). rewrite IH. clear IH. f_equal.
  destruct V1 as (_ & HI & _ & RS). cbn [vpairs map fst]. f_equal. f_equal. rewrite map_app. f_equal.
  - rewrite <- HI. clear HI. induction RS as [|q T R1 R2 IH]; [reflexivity|]. cbn [map flat_map qpairs fst app].
    fold (qpairs (g_ns g) T). destruct R1 as (w & ns & E & D).
    assert (lookup (s_heap (cs A)) (q_iri q) = Some (ProofHeap.cell_of huge w)) as -> by (apply lk; eauto).
    unfold ProofHeap.cell_of at 1. rewrite D. cbn [app]. now rewrite IH.
  - unfold epairs. now rewrite map_map.
Qed.

Lemma lib_std e vs X h L : Lb e vs X h L -> std e h.
Proof.
  intros (_ & _ & _ & _ & D & _ & _ & F). unfold descs in D. rewrite Forall_forall in D, F.
  assert (ST : forall x, In x [e_thing e; e_literal e; e_lang_string e] -> exists v i, lookup h x = Some v /\ o_d v = BEnt i).
  { intros x J. destruct (F x J) as (t & n & m & K). destruct (D _ K) as (i & (v & E & _ & B) & _). eauto. }
  split; [|split]; apply ST; cbn; auto.
Qed.
(** What the library holds is not affected by removals. *)
Lemma shr_keeps_lib e A A' P lib own L : ProofHeap.Inv huge e A (lib ++ own) [] -> ProofHeap.Inv huge e A' (lib ++ own) [] ->
  lib = map fst L -> descs (a_h A) L -> closed (a_h A) (map fst L) -> shr P (a_h A) (a_h A') -> keeps lib (a_h A) (a_h A').
Proof.
  intros I I' EL D C SH x (r & J & H).
  assert (JX : In x lib).
  { subst lib. clear -J H C. induction H as [|r b x (v & E & K) H IH]; auto. apply IH. eapply C; eauto. }
  destruct (held_live huge e A' (lib ++ own) [] x I' ltac:(apply in_or_app; now left)) as (w & EW & PW).
  destruct (SH x w EW) as (v & E & T & B & DD). exists v, w. split; auto. split; auto. split; auto.
  split; auto. split; auto. left. destruct DD as [DD|[_ ED]]; auto.
  subst lib. apply in_map_iff in JX as (p & <- & P0). unfold descs in D. rewrite Forall_forall in D.
  pose proof (desc_data (a_h A) (fst p) (snd p) v (D p P0) E) as FX. destruct ED; destruct FX.
Qed.
Lemma frame_lib e A A' k own L : let lib := map fst L in
  ProofHeap.Inv huge e A (lib ++ own) [] -> (removes k = true -> ProofHeap.Inv huge e A' (lib ++ own) []) ->
  descs (a_h A) L -> closed (a_h A) lib -> frame huge lib k own A A' -> keeps lib (a_h A) (a_h A').
Proof.
  intros lib I I' D C F. unfold frame in F. destruct (removes k).
  - apply (shr_keeps_lib e A A' (target (cs A) k) lib own L); auto.
  - intros x (r & J & H). apply F. exists r. split; auto. apply in_or_app. auto.
Qed.
Lemma removes_none e k s r s' : removes k = true -> exec huge fresh e k s = Ok r s' -> r = None.
Proof.
  assert (Z : forall X (m : act X), none m s = Ok r s' -> r = None).
  { intros X m. unfold none, bind. destruct (m s); [|discriminate]. cbn. intros Y. now inversion Y. }
  destruct k; intros M; try discriminate M; cbn [exec]; apply Z.
Qed.

(** * Histories *)

Theorem history_inv e vs lib s own : history huge fresh e vs lib s own ->
  exists A X L, s = cs A /\ lib = map fst L /\ ProofHeap.Inv huge e A (lib ++ own) [] /\ Lb e vs X (a_h A) L.
Proof.
  induction 1 as [s E EL|s own k r s' H IH AL NC RM EX].
  - destruct lib_init_ok as (e' & vs' & A & X & L & E' & I & LB). rewrite E in E'. inversion E'; subst e' vs' s.
    exists A, X, L. subst lib. rewrite (library_fst e vs X A L LB), app_nil_r. auto.
  - destruct IH as (A & X & L & -> & EL & I & LB).
    assert (LE : In (e_empty e) lib). { subst lib. destruct LB as (_ & _ & _ & -> & _). now left. }
    assert (LS : In (e_string e) lib) by (subst lib; apply LB).
    destruct (exec_ok huge fresh fresh_ok e lib LE LS A own k I (lib_std e vs X (a_h A) L LB) AL NC 0) as (r' & A' & EX' & _ & V & RS).
    { rewrite N.add_0_r. apply (room_iff huge e A (lib ++ own)); auto. }
    rewrite EX in EX'. inversion EX'; subst r' s'. exists A', X, L. split; auto. split; auto. split; auto.
    destruct LB as (B1 & B2 & B3 & B4 & B5 & B6 & B7).
    assert (KL : keeps lib (a_h A) (a_h A')).
    { subst lib. apply (frame_lib e A A' k own L); auto. intros M. unfold result in RS. rewrite after_removes in RS by auto.
      now rewrite (removes_none e k _ _ _ M EX) in RS. }
    assert (J : incl (map fst L) lib) by (subst lib; apply incl_refl).
    destruct (keeps_lib e A _ _ (a_h A') L I KL J B5 B6) as [D C].
    split; auto. split; auto. split; [|auto].
    rewrite Forall_forall in B3 |- *. intros x Q. apply (keeps_vok lib (a_h A)); auto.
    intros z Z. apply J. subst L. right. unfold vall. apply in_map_iff in Z as (p & <- & P). apply in_map. apply in_flat_map. eauto.
Qed.

End Lib.
