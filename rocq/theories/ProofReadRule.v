(** A check of the actions of the reader, and why it suffices. *)

From Coq Require Import String.
From Coq Require Import NArith List Bool Arith Lia Permutation.
From Verif Require Import Bytes ModelTypes ModelObject ModelHeader SpecHeader ModelText ModelHeap SpecHeap SpecIsolate.
From Verif Require ProofHeap.
From Verif Require Import ModelReadRules ModelReadOwn SpecRead ProofReadCalls ProofReadMake ProofReadLogic.
Import ListNotations.
Local Open Scope N_scope.

(** * Kinds of values *)

Inductive kind : Type :=
| TNone | TText | TName | TBuf | TNum                  (* no reference *)
| TGone                                                (* a value whose reference was given up *)
| TAny | TStr | TIri                                   (* an object *)
| TNew | TVec                                          (* a vector only the reader knows; one that is not empty *)
| TId | TList                                          (* an IRI or anonymous individual; any vector *)
| TUsed                                                (* a vector, or NULL, that the new object points to *)
| TMay (k : kind).                                     (* or NULL *)

Definition obj (k : kind) : bool := match k with TAny | TStr | TIri | TVec => true | _ => false end.
Definition solid (k : kind) : bool := match k with TAny | TStr | TIri => true | _ => false end.
Definition nothing (k : kind) : bool := match k with TNone | TText | TName | TBuf | TNum | TGone => true | _ => false end.
Definition vecish (k : kind) : bool := match k with TVec | TMay TVec => true | _ => false end.
Definition is_used (k : kind) : bool := match k with TUsed => true | _ => false end.
Definition is_gone (k : kind) : bool := match k with TGone => true | _ => false end.
Fixpoint is_priv (k : kind) : bool := match k with TNew | TVec => true | TMay k' => is_priv k' | _ => false end.

Definition nullable (x : string) : bool :=
  existsb (String.eqb x) ["annotation_star"; "data_property_expression_star"; "object_property_expression_star"]%string.
Definition kind_of (x : string) : kind :=
  let t := ctype x in
  if String.eqb x "QUOTED_STRING" then TBuf
  else if String.eqb x "PNAME_LN" then TName
  else if String.eqb t "" then TNone
  else if String.eqb t "UString" then TText
  else if String.eqb t "ulib_uint" then TNum
  else if String.eqb t "CowlString *" then TStr
  else if String.eqb t "CowlIRI *" then TIri
  else if String.eqb t "CowlVector *" then (if nullable x then TMay TVec else TVec)
  else TAny.

(** * The check *)

Definition kn (ks : list kind) (i : nat) : kind := nth (pred i) ks TGone.
Fixpoint upd0 (i : nat) (k : kind) (ks : list kind) : list kind :=
  match ks, i with
  | [], _ => []
  | _ :: ks', O => k :: ks'
  | x :: ks', S i' => x :: upd0 i' k ks'
  end.
Definition upd (i : nat) (k : kind) (ks : list kind) : list kind := upd0 (pred i) k ks.
(** The vectors among these arguments are now part of another object. *)
Fixpoint use (l : list nat) (n : nat) (ks : list kind) : list kind :=
  match ks with
  | [] => []
  | k :: ks' => (if existsb (Nat.eqb n) l && vecish k then TUsed else k) :: use l (S n) ks'
  end.
Definition idle (ks : list kind) : bool := forallb (fun k => negb (is_used k)) ks.
Definition optl (o : option nat) : list nat := match o with Some i => [i] | None => [] end.
Definition make_ok (t : otype) (fs : list nat) (opt val : option nat) (ks : list kind) : bool :=
  forallb (fun i => Nat.leb 1 i && Nat.leb i (List.length ks)) (fs ++ optl opt) &&
  match val with None => true | Some i => match kn ks i with TNum => true | _ => false end end &&
  match ctor_of t with
  | Some (CPlain n) => Nat.eqb (List.length fs) n && forallb (fun i => obj (kn ks i)) fs && match opt with None => true | _ => false end
  | Some (CAnnot n) => Nat.eqb (List.length fs) n && forallb (fun i => obj (kn ks i)) fs && forallb (fun i => vecish (kn ks i)) (optl opt)
  | Some (CUInt n) | Some (CQuant n) =>
      Nat.eqb (List.length fs) n && forallb (fun i => solid (kn ks i)) fs && forallb (fun i => solid (kn ks i)) (optl opt)
  | Some CHasKey =>
      match fs with
      | [c; o; d] => obj (kn ks c) && vecish (kn ks o) && vecish (kn ks d) && forallb (fun i => vecish (kn ks i)) (optl opt)
      | _ => false
      end
  | None => false
  end.

Definition guard {A} (b : bool) (x : A) : option A := if b then Some x else None.
Fixpoint distinct (l : list nat) : bool :=
  match l with [] => true | i :: l' => negb (existsb (Nat.eqb i) l') && distinct l' end.

Definition chk (st : stmt) (ks : list kind) (d : kind) : option (list kind * kind) :=
  match st with
  | SRelease i =>
      guard (match kn ks i with TAny | TStr | TIri | TNew | TVec | TUsed | TMay TVec => true | _ => false end) (upd i TGone ks, d)
  | SFinalize i => guard (is_used (kn ks i)) (upd i TGone ks, d)
  | SCheck =>
      match d with
      | TMay k => guard (obj k && forallb nothing ks) (ks, k)
      | TNew => Some (ks, d)
      | _ => guard (obj d) (ks, d)
      end
  | _ =>
      if idle ks then
        match st with
        | SNull => guard (is_gone d) (ks, TMay TVec)
        | SMove i => guard (is_gone d) (upd i TGone ks, kn ks i)
        | SIri i => guard (is_gone d && match kn ks i with TText | TName => true | _ => false end) (ks, TMay TIri)
        | SShortIri i => guard (is_gone d && match kn ks i with TName => true | _ => false end) (ks, TMay TIri)
        | SString i _ => guard (is_gone d && match kn ks i with TText | TName => true | _ => false end) (ks, TMay TStr)
        | SOwnString i => guard (is_gone d && match kn ks i with TBuf => true | _ => false end) (ks, TMay TStr)
        | SEntity t i => guard (is_gone d && type_is_entity t && match kn ks i with TIri => true | _ => false end) (ks, TMay TAny)
        | SAnon i => guard (is_gone d && match kn ks i with TText | TName => true | _ => false end) (ks, TMay TAny)
        | SLiteral i None => guard (is_gone d && match kn ks i with TStr => true | _ => false end) (ks, TMay TAny)
        | SLiteral i (Some j) => guard (is_gone d && match kn ks i with TStr => true | _ => false end && solid (kn ks j)) (ks, TMay TAny)
        | SMake t fs opt val => guard (is_gone d && make_ok t fs opt val ks) (use (fs ++ optl opt) 1 ks, TAny)
        | SChain i j k =>
            guard (is_gone d && forallb (fun i => Nat.leb 1 i && Nat.leb i (List.length ks)) [i; j; k] &&
                   match kn ks i with TVec => true | _ => false end && solid (kn ks j) && vecish (kn ks k))
                  (use [i; k] 1 ks, TAny)
        | SVector => guard (is_gone d) (ks, TNew)
        | SVectorUnless i => guard (is_gone d && vecish (kn ks i)) (upd i TGone ks, TNew)
        | SPush i => guard (match d with TNew | TVec => true | _ => false end && obj (kn ks i)) (upd i TGone ks, TVec)
        | SHandle l =>
            guard (is_gone d && forallb (fun k => negb (is_gone k)) ks && distinct l &&
                   forallb (fun i => Nat.leb 1 i && Nat.leb i (List.length ks) && solid (kn ks i)) l) (ks, d)
        | SPrefixAdd i j =>
            guard (match kn ks i, kn ks j with TStr, TStr => true | _, _ => false end) (ks, d)
        | SStop => guard (nothing d && forallb nothing ks) (ks, d)
        | _ => None
        end
      else None
  end.
Fixpoint chks (l : list stmt) (ks : list kind) (d : kind) : option (list kind * kind) :=
  match l with
  | [] => Some (ks, d)
  | st :: l' => match chk st ks d with Some (ks', d') => chks l' ks' d' | None => None end
  end.
(** A value of the first kind is one of the second. *)
Definition sub (k k' : kind) : bool :=
  match k, k' with
  | TNum, TNum | TStr, TStr | TIri, TIri | TVec, TVec | TMay TVec, TMay TVec | TVec, TMay TVec => true
  | (TAny | TStr | TIri), TAny => true
  | _, _ => false
  end.
Definition rule_ok (r : rule) : bool :=
  let '(lhs, rhs, acts) := r in
  match chks acts (map kind_of rhs) TGone with
  | Some (ks, d) => forallb nothing ks && (if String.eqb (ctype lhs) "" then nothing d else sub d (kind_of lhs))
  | None => false
  end.
Lemma rules_ok : forallb rule_ok rules = true.
Proof. vm_compute. reflexivity. Qed.

(** * Values in memory *)

Section Sound.
Variable huge : bool.
Variable fresh : N -> heap -> N.
Hypothesis fresh_ok : allocator fresh.
Variables (e : env) (vs : list vocab) (lib : list N).
Local Notation Hist := (ProofReadCalls.Hist huge fresh e vs lib).
Local Notation private := (ProofReadCalls.private huge).
Local Notation holds := (ProofReadLogic.holds huge fresh e (expected huge e) (client huge fresh e lib)).

Fixpoint vok (s : state) (k : kind) (v : value) : Prop :=
  match k with
  | TNone => v = VNone
  | TText => exists t, v = VText t
  | TName => exists t, v = VText t /\ In 58 t
  | TBuf => exists t, v = VBuf t
  | TNum => exists n, v = VNum n
  | TGone => True
  | TAny => exists a, v = VObj (Some a)
  | TStr => exists a, v = VObj (Some a) /\ has_type huge s a OT_STRING
  | TIri => exists a, v = VObj (Some a) /\ has_type huge s a OT_IRI
  | TNew => exists a, v = VObj (Some a) /\ private s a
  | TVec => exists a, v = VObj (Some a) /\ private s a /\ exists x l, has_items s a (x :: l)
  | TId => exists a, v = VObj (Some a) /\ (has_type huge s a OT_IRI \/ has_type huge s a OT_I_ANONYMOUS)
  | TList => exists a, v = VObj (Some a) /\ has_type huge s a OT_VECTOR
  | TUsed => exists p, v = VObj p
  | TMay k => v = VObj None \/ vok s k v
  end.
Definition own (x : kind * value) : list N := match fst x with TGone => [] | _ => refs (snd x) end.
Definition owns (l : list (kind * value)) : list N := flat_map own l.
Definition okay (s : state) (x : kind * value) : Prop := vok s (fst x) (snd x).
Definition Good (s : state) (out : list N) (l : list (kind * value)) : Prop :=
  Hist s (owns l ++ out) /\ Forall (okay s) l.

Lemma nothing_own k v s : nothing k = true -> vok s k v -> own (k, v) = [].
Proof.
  destruct k; cbn; try discriminate; intros _ X; try reflexivity.
  - subst v. reflexivity.
  - destruct X as (t & ->). reflexivity.
  - destruct X as (t & -> & _). reflexivity.
  - destruct X as (t & ->). reflexivity.
  - destruct X as (t & ->). reflexivity.
Qed.
Lemma nothing_owns s ks : forall args, forallb nothing ks = true -> Forall (okay s) (combine ks args) -> owns (combine ks args) = [].
Proof.
  induction ks as [|k ks IH]; intros [|v args]; cbn; auto. rewrite andb_true_iff. intros [N1 N2] F. inversion F as [|? ? F1 F2]; subst.
  rewrite (nothing_own k v s N1 F1). apply IH; auto.
Qed.
Lemma owns_app l m : owns (l ++ m) = owns l ++ owns m.
Proof. apply flat_map_app. Qed.
Lemma good_perm s out l m : Permutation l m -> Good s out l -> Good s out m.
Proof.
  intros P (H & F). split.
  - revert H. apply hist_perm. apply Permutation_app_tail. unfold owns. now apply Permutation_flat_map.
  - rewrite Forall_forall in *. intros x J. apply F. now apply (Permutation_in x (Permutation_sym P)).
Qed.
(** The same reference seen as a value of another kind. *)
Lemma good_as s out k v k' l : Good s out ((k, v) :: l) -> vok s k' v -> own (k', v) = own (k, v) -> Good s out ((k', v) :: l).
Proof.
  intros (H & F) V O. split; [cbn [owns flat_map]; rewrite O; exact H|]. inversion F; subst. constructor; auto.
Qed.
Lemma good_swap s out a b l : Good s out (a :: b :: l) -> Good s out (b :: a :: l).
Proof. apply good_perm. constructor. Qed.

(** The only reference to a private vector. *)
Lemma alone s out l a b m c k v k' v' x : l = a ++ (k, v) :: b -> l = m ++ (k', v') :: c -> List.length a <> List.length m ->
  Good s out l -> is_priv k = true -> In x (refs v) -> vok s k v -> In x (own (k', v')) -> False.
Proof.
  intros -> E NE (H & F) PR J V J'.
  assert (PV : private s x).
  { clear -PR V J. induction k; cbn in *; try discriminate.
    - destruct V as (y & -> & P). destruct J as [->|[]]. exact P.
    - destruct V as (y & -> & P & _). destruct J as [->|[]]. exact P.
    - destruct V as [->|V]; [destruct J|auto]. }
  assert (JK : In x (own (k, v))) by (unfold own; cbn; destruct k; try discriminate PR; exact J).
  assert (P' : Permutation (owns (a ++ (k, v) :: b) ++ out) (x :: owns (a ++ b) ++ out)).
  { unfold owns. rewrite !flat_map_app. cbn [flat_map]. assert (own (k, v) = [x]) as ->.
    { unfold own in *. cbn [fst snd] in *. destruct v as [| | | |[y|]]; cbn in *; try (destruct J; fail). destruct J as [->|[]]. destruct k; try discriminate PR; reflexivity. }
    rewrite <- !app_assoc. cbn [app]. apply Permutation_sym, Permutation_middle. }
  destruct (private_alone huge fresh fresh_ok e vs lib s (owns (a ++ b) ++ out) x (hist_perm huge fresh e vs lib s _ _ P' H) PV) as (_ & _ & NO).
  apply NO. apply in_or_app. left.
  assert (In (k', v') (a ++ b)) as JJ.
  { destruct (Nat.lt_total (List.length a) (List.length m)) as [L|[L|L]]; [|contradiction|].
    - apply in_or_app. right. assert (Z : nth_error (a ++ (k, v) :: b) (List.length m) = Some (k', v')).
      { rewrite E, nth_error_app2, Nat.sub_diag by lia. reflexivity. }
      rewrite nth_error_app2 in Z by lia. destruct (List.length m - List.length a)%nat as [|n] eqn:Q; [lia|]. cbn in Z. eapply nth_error_In; eauto.
    - apply in_or_app. left. assert (Z : nth_error (a ++ (k, v) :: b) (List.length m) = Some (k', v')).
      { rewrite E, nth_error_app2, Nat.sub_diag by lia. reflexivity. }
      rewrite nth_error_app1 in Z by lia. eapply nth_error_In; eauto. }
  unfold owns. apply in_flat_map. exists (k', v'). auto.
Qed.
Lemma refs_own k v x : k <> TGone -> In x (refs v) -> In x (own (k, v)).
Proof. intros N J. unfold own. cbn. destruct k; auto; congruence. Qed.
Lemma priv_not_gone k : is_priv k = true -> k <> TGone.
Proof. intros P ->. discriminate P. Qed.

(** * A call *)

Lemma vok_keep s out l k r s' : Good s out l -> allowed huge e lib (owns l ++ out) s k -> SpecHeap.no_cycle s k ->
  room huge (lib ++ owns l ++ out) s k -> exec huge fresh e k s = Ok r s' ->
  forall kd v, incl (own (kd, v)) (lib ++ after k None (owns l ++ out)) ->
  (is_priv kd = true -> forall a, In a (refs v) -> In a (owns l ++ out) /\ ~ In a (arguments k)) ->
  vok s kd v -> vok s' kd v.
Proof.
  intros (H & F) AL NC RM E kd v I PR. unfold own in I. cbn [fst snd] in I.
  assert (T : forall a t, In a (lib ++ after k None (owns l ++ out)) -> has_type huge s a t -> has_type huge s' a t).
  { intros a t. apply (keeps_type huge fresh fresh_ok e vs lib s _ H k AL NC RM r s' E). }
  assert (PK : forall a, In a (owns l ++ out) -> ~ In a (arguments k) -> private s a -> lookup (s_heap s') a = lookup (s_heap s) a).
  { intros a J NA PV. exact (private_kept huge fresh fresh_ok e vs lib s _ a k r s' H J PV AL NC RM E NA). }
  induction kd; cbn [vok]; auto.
  - intros (a & -> & X). exists a. split; [reflexivity|]. apply T; [apply I; now left|exact X].
  - intros (a & -> & X). exists a. split; [reflexivity|]. apply T; [apply I; now left|exact X].
  - intros (a & -> & X). destruct (PR eq_refl a (or_introl eq_refl)) as (J & NA). exists a. split; [reflexivity|].
    unfold ProofReadCalls.private in *. rewrite (PK a J NA X). exact X.
  - intros (a & -> & X & y & m & HI). destruct (PR eq_refl a (or_introl eq_refl)) as (J & NA). exists a. split; [reflexivity|].
    unfold ProofReadCalls.private, has_items in *. rewrite (PK a J NA X). eauto.
  - intros (a & -> & [X|X]); exists a; (split; [reflexivity|]); [left|right]; (apply T; [apply I; now left|exact X]).
  - intros (a & -> & X). exists a. split; [reflexivity|]. apply T; [apply I; now left|exact X].
  - intros [->|X]; [now left|]. right. apply IHkd; auto. destruct kd; auto. intros x J. destruct J.
Qed.
Lemma after_result k r s s' l : exec huge fresh e k s = Ok r s' -> after k r l = opt_list r ++ after k None l.
Proof.
  intros E. assert (NN : forall X (m : act X) z r s', none m z = Ok r s' -> r = None).
  { intros X m z r0 s0. unfold none, bind. destruct (m z); [|discriminate]. intros Q. now injection Q as <- _. }
  destruct k; cbn [after]; try (destruct r; reflexivity); cbn [exec] in E; apply NN in E; subst r; reflexivity.
Qed.
Lemma good_call s out l k : Good s out l -> allowed huge e lib (owns l ++ out) s k -> SpecHeap.no_cycle s k -> expected huge e s k ->
  exists r s', exec huge fresh e k s = Ok r s' /\
  forall l', Permutation (after k None (owns l ++ out)) (owns l' ++ out) -> Forall (okay s) l' ->
    (forall kd v a, In (kd, v) l' -> is_priv kd = true -> In a (refs v) -> ~ In a (arguments k)) ->
    Good s' out ((TMay TAny, VObj r) :: l').
Proof.
  intros G AL NC X. pose proof G as (H & F). pose proof (fits_room huge fresh fresh_ok e vs lib s _ H k X) as RM.
  destruct (hist_exec huge fresh fresh_ok e vs lib s _ H k AL NC RM) as (r & s' & E & H'). exists r, s'. split; [exact E|].
  intros l' P O D. split.
  - revert H'. apply hist_perm. rewrite (after_result k r s s' _ E). unfold own. cbn [owns flat_map own fst snd].
    assert (refs (VObj r) = opt_list r) as -> by (destruct r; reflexivity). rewrite <- app_assoc. now apply Permutation_app_head.
  - constructor.
    + unfold okay. cbn. destruct r; eauto.
    + rewrite Forall_forall in *. intros (kd, v) J. unfold okay. cbn [fst snd].
      assert (I : incl (own (kd, v)) (after k None (owns l ++ out))).
      { intros x K. apply (Permutation_in x (Permutation_sym P)). apply in_or_app. left. unfold owns. apply in_flat_map. eauto. }
      apply (vok_keep s out l k r s' G AL NC RM E).
      * intros x K. apply in_or_app. right. now apply I.
      * intros PR a K. split; [|eapply D; eauto].
        assert (K' : In a (own (kd, v))) by (apply refs_own; auto; now apply priv_not_gone). apply I in K'.
        assert (GU : forall x y l, In x (give_up y l) -> In x l).
        { intros x y l0. induction l0 as [|b l0 IL]; cbn; auto. destruct (b =? y); cbn; intros Z; tauto. }
        destruct k; cbn [after] in K'; try exact K'; now apply GU in K'.
      * exact (O (kd, v) J).
Qed.
(** * More about entries *)

Lemma good_gone s out d l : Good s out ((TGone, d) :: l) <-> Good s out l.
Proof. split; intros (H & F); (split; [exact H|]); [now inversion F|constructor; [exact Logic.I|exact F]]. Qed.
Lemma good_none s out k l : Good s out ((k, VObj None) :: l) -> Good s out l.
Proof. intros (H & F). split; [|now inversion F]. revert H. unfold owns. cbn. unfold own. cbn. destruct k; auto. Qed.
Lemma good_drop s out k v l : nothing k = true -> Good s out ((k, v) :: l) -> Good s out l.
Proof.
  intros N (H & F). inversion F as [|? ? F1 F2]; subst. split; [|exact F2]. cbn [owns flat_map] in H. rewrite (nothing_own k v s N F1) in H. exact H.
Qed.
Lemma head_apart s out k v l x kd w : Good s out ((k, v) :: l) -> In x (own (k, v)) -> In (kd, w) l -> is_priv kd = true -> ~ In x (refs w).
Proof.
  intros G J I P K. apply in_split in I. destruct I as (a & b & ->). pose proof G as (_ & F). rewrite Forall_forall in F.
  refine (alone s out ((k, v) :: a ++ (kd, w) :: b) ((k, v) :: a) b [] (a ++ (kd, w) :: b) kd w k v x eq_refl eq_refl _ G P K _ J).
  - cbn. discriminate.
  - apply (F (kd, w)). right. apply in_or_app. right. now left.
Qed.
Lemma held_head s out k v l x : Good s out ((k, v) :: l) -> In x (own (k, v)) -> In x (owns ((k, v) :: l) ++ out).
Proof. intros _ J. apply in_or_app. left. cbn. apply in_or_app. now left. Qed.
Lemma entry_held l kd v x : In (kd, v) l -> In x (own (kd, v)) -> In x (owns l).
Proof. intros J K. unfold owns. apply in_flat_map. eauto. Qed.
Lemma type_apart s kd w x t : vok s kd w -> is_priv kd = true -> has_type huge s x t -> t <> OT_VECTOR -> ~ In x (refs w).
Proof.
  intros V P (c & E & T) N J.
  assert (private s x) as (c' & E' & T' & _).
  { clear -P V J. induction kd; cbn in *; try discriminate.
    - destruct V as (y & -> & X). destruct J as [->|[]]. exact X.
    - destruct V as (y & -> & X & _). destruct J as [->|[]]. exact X.
    - destruct V as [->|V]; [destruct J|auto]. }
  congruence.
Qed.
Definition free (k : call) (l : list (kind * value)) : Prop :=
  forall x kd w, In x (arguments k) -> In (kd, w) l -> is_priv kd = true -> ~ In x (refs w).
Definition consumes (k : call) : bool := match k with KRelease _ | KCopyRaw _ | KVectorPush _ _ => true | _ => false end.
Lemma consumes_after k l : consumes k = false -> after k None l = l.
Proof. destruct k; cbn; try discriminate; auto. Qed.
Lemma produce s out l k : Good s out l -> allowed huge e lib (owns l ++ out) s k -> SpecHeap.no_cycle s k -> expected huge e s k ->
  consumes k = false -> free k l ->
  exists r s', exec huge fresh e k s = Ok r s' /\ Good s' out ((TMay TAny, VObj r) :: l).
Proof.
  intros G AL NC X C FR. destruct (good_call s out l k G AL NC X) as (r & s' & E & K). exists r, s'. split; [exact E|].
  apply K; [rewrite (consumes_after k _ C); apply Permutation_refl|exact (proj2 G)|].
  intros kd v a J P R A. exact (FR a kd v A J P R).
Qed.
Lemma release_entry s out k a l : Good s out ((k, VObj (Some a)) :: l) -> k <> TGone -> expected huge e s (KRelease a) ->
  exists s', exec huge fresh e (KRelease a) s = Ok None s' /\ Good s' out l.
Proof.
  intros G N X. assert (JO : In a (own (k, VObj (Some a)))) by (apply refs_own; [exact N|now left]).
  destruct (good_call s out _ (KRelease a) G) as (r & s' & E & K); [cbn [allowed]; now apply (held_head s)|exact Logic.I|exact X|].
  assert (r = None) as ->.
  { cbn [exec] in E. unfold none, bind in E. destruct (release _ _ _); [|discriminate E]. now injection E as <- _. }
  exists s'. split; [exact E|]. apply good_none with (TMay TAny). apply K.
  - cbn [after owns flat_map]. assert (own (k, VObj (Some a)) = [a]) as -> by (unfold own; cbn; destruct k; auto; congruence).
    cbn. rewrite N.eqb_refl. apply Permutation_refl.
  - destruct G as (_ & F). now inversion F.
  - intros kd v b J P R [<-|[]]. exact (head_apart s out k _ l a kd v G JO J P R).
Qed.
(** Types are kept by a call that consumes nothing. *)
Lemma types_kept s own0 k r s' a t : Hist s own0 -> allowed huge e lib own0 s k -> SpecHeap.no_cycle s k -> expected huge e s k ->
  consumes k = false -> removes k = false -> exec huge fresh e k s = Ok r s' -> has_type huge s a t -> has_type huge s' a t.
Proof.
  intros H AL NC X C R E (c & L & T). pose proof (fits_room huge fresh fresh_ok e vs lib s _ H k X) as RM.
  destruct (hist_keeps huge fresh fresh_ok e vs lib s own0 H k AL NC RM r s' E a c) as (c' & L' & T' & _).
  - rewrite (consumes_after k _ C). apply (any_usable huge fresh fresh_ok e vs lib s own0 H). exists c. exact L.
  - rewrite R. discriminate.
  - exact L.
  - exists c'. split; [exact L'|congruence].
Qed.

(** * The prefix map *)

Definition ments (m : list (N * N)) : list (kind * value) := map (fun a => (TStr, VObj (Some a))) (map_refs m).
Lemma ments_owns m : owns (ments m) = map_refs m.
Proof. unfold ments, owns. induction (map_refs m) as [|a l IH]; cbn; [reflexivity|]. now rewrite IH. Qed.
Lemma string_alive s own0 a : Hist s own0 -> has_type huge s a OT_STRING -> usable (lib ++ own0) s a.
Proof. intros H (c & E & _). apply (any_usable huge fresh fresh_ok e vs lib s own0 H). exists c. exact E. Qed.
Lemma text_ok s own0 a : Hist s own0 -> has_type huge s a OT_STRING -> exists t, text s a = Some t.
Proof.
  intros H T. destruct (string_text huge fresh fresh_ok e vs lib s own0 H a T) as (t & c & E & D). exists t. unfold text. now rewrite E, D.
Qed.
Lemma entry_ok s own0 m t : Hist s own0 -> (forall p n, In (p, n) m -> has_type huge s p OT_STRING) ->
  exists r, entry s m t = Some r /\ forall n, r = Some n -> exists p, In (p, n) m.
Proof.
  intros H. induction m as [|(p, n) m IH]; intros T; cbn [entry]; [exists None; split; [reflexivity|discriminate]|].
  destruct (text_ok s own0 p H (T p n (or_introl eq_refl))) as (u & ->).
  destruct IH as (r & -> & K); [intros q b J; apply (T q b); now right|]. eexists. split; [reflexivity|].
  intros b. destruct (bytes_eqb u t).
  - intros Q. injection Q as <-. exists p. now left.
  - intros Q. destruct (K b Q) as (q & J). exists q. now right.
Qed.
Lemma ments_type s out l m p n : Good s out (l ++ ments m) -> In (p, n) m -> has_type huge s p OT_STRING /\ has_type huge s n OT_STRING.
Proof.
  intros (_ & F) J. apply Forall_app in F. destruct F as [_ F]. rewrite Forall_forall in F.
  assert (K : forall a, In a (map_refs m) -> has_type huge s a OT_STRING).
  { intros a I. destruct (F (TStr, VObj (Some a))) as (b & Q & T); [unfold ments; apply in_map_iff; eauto|]. cbn in Q. injection Q as <-. exact T. }
  split; apply K; unfold map_refs; apply in_flat_map; exists (p, n); (split; [exact J|cbn; auto]).
Qed.
Lemma string_free k s out l : Good s out l -> (forall x, In x (arguments k) -> has_type huge s x OT_STRING) -> free k l.
Proof.
  intros (_ & F) T x kd w J I P. rewrite Forall_forall in F. apply (type_apart s kd w x OT_STRING); auto; [exact (F (kd, w) I)|intro; discriminate].
Qed.
Lemma retain_string s out l a : Good s out l -> has_type huge s a OT_STRING -> expected huge e s (KRetain a) ->
  exists s', exec huge fresh e (KRetain a) s = Ok (Some a) s' /\ Good s' out ((TStr, VObj (Some a)) :: l) /\
    (forall b t, has_type huge s b t -> has_type huge s' b t).
Proof.
  intros G T X. assert (U := string_alive s _ a (proj1 G) T).
  destruct (produce s out l (KRetain a) G U Logic.I X eq_refl) as (r & s' & E & G').
  { apply (string_free _ s out); [exact G|]. intros x [<-|[]]. exact T. }
  assert (K : forall b t, has_type huge s b t -> has_type huge s' b t).
  { intros b t. exact (types_kept s _ (KRetain a) r s' b t (proj1 G) U Logic.I X eq_refl eq_refl E). }
  assert (r = Some a) as ->.
  { cbn [exec] in E. revert E. clear. unfold some, retain, bind, ret. cbn [nonnull ret]. unfold ret.
    destruct (incr_ref huge a s); intros E; [now injection E|discriminate E]. }
  exists s'. split; [exact E|]. split; [|exact K]. revert G'. intros G'. eapply good_as; [exact G'| |reflexivity]. cbn. exists a. split; [reflexivity|auto].
Qed.
Lemma put_ok s out l m p n t : Good s out (l ++ ments m) -> has_type huge s p OT_STRING -> has_type huge s n OT_STRING ->
  holds (put p n t m) s out (fun m' s' out' => out' = out /\ Good s' out (l ++ ments m') /\ forall b u, has_type huge s b u -> has_type huge s' b u).
Proof.
  intros G TP TN. unfold put. apply h_look.
  destruct (entry_ok s _ m t (proj1 G)) as ([b|] & -> & _); [intros q b J; now apply (ments_type s out l m q b G)| |].
  - apply h_ret. auto.
  - apply h_do. intros X. destruct (retain_string s out _ p G TP X) as (s1 & E1 & G1 & K1). exists (Some p), s1. split; [exact E1|].
    apply h_do. intros X1. destruct (retain_string s1 out _ n G1 (K1 _ _ TN) X1) as (s2 & E2 & G2 & K2). exists (Some n), s2. split; [exact E2|].
    apply h_ret. split; [reflexivity|]. split; [|auto]. revert G2. apply good_perm.
    change (ments ((p, n) :: m)) with ((TStr, VObj (Some p)) :: (TStr, VObj (Some n)) :: ments m).
    eapply Permutation_trans; [apply perm_swap|]. eapply Permutation_trans; [apply perm_skip, Permutation_middle|]. apply Permutation_middle.
Qed.
Lemma map_add_ok s out l m p n : Good s out (l ++ ments m) -> has_type huge s p OT_STRING -> has_type huge s n OT_STRING ->
  holds (map_add vs p n m) s out (fun m' s' out' => out' = out /\ Good s' out (l ++ ments m') /\ forall b u, has_type huge s b u -> has_type huge s' b u).
Proof.
  intros G TP TN. unfold map_add. apply h_look. destruct (text_ok s _ p (proj1 G) TP) as (t & ->).
  destruct (entry_ok s _ (reserved vs) t (proj1 G)) as (r & -> & K).
  { intros q b J. apply (reserved_strings huge fresh fresh_ok e vs lib s _ (proj1 G) q b J). }
  destruct r as [b|].
  - destruct (K b eq_refl) as (q & J). apply put_ok; [exact G|exact TP|]. apply (reserved_strings huge fresh fresh_ok e vs lib s _ (proj1 G) q b J).
  - apply h_intern. intros X. destruct (make_intern huge fresh fresh_ok e vs lib s _ (proj1 G) n TN X) as (b & s' & E & E' & H' & TB).
    exists b, s'. split; [exact E|].
    assert (AL : allowed huge e lib (owns (l ++ ments m) ++ out) s (KIntern n)) by (split; [exact (string_alive s _ n (proj1 G) TN)|exact TN]).
    destruct (produce s out _ (KIntern n) G AL Logic.I X eq_refl) as (r & s1 & E1 & G1).
    { apply (string_free _ s out); [exact G|]. intros x [<-|[]]. exact TN. }
    rewrite E' in E1. injection E1 as <- <-. apply good_none in G1.
    assert (KT : forall b t, has_type huge s b t -> has_type huge s' b t).
    { intros c u. exact (types_kept s _ (KIntern n) None s' c u (proj1 G) AL Logic.I X eq_refl eq_refl E'). }
    eapply h_post; [apply (put_ok s' out l m p b t G1); auto|]. cbn. intros m' s2 out' (-> & G2 & K2). auto.
Qed.
Lemma map_merge_ok l : forall s out m r, Good s out (r ++ ments m) ->
  (forall p n, In (p, n) l -> has_type huge s p OT_STRING /\ has_type huge s n OT_STRING) ->
  holds (map_merge vs l m) s out (fun m' s' out' => out' = out /\ Good s' out (r ++ ments m')).
Proof.
  induction l as [|(p, n) l IH]; intros s out m r G T; cbn [map_merge]; [apply h_ret; auto|].
  destruct (T p n (or_introl eq_refl)) as [TP TN]. apply h_then. eapply h_post; [apply (map_add_ok s out r m p n G TP TN)|].
  cbn. intros m1 s1 out1 (-> & G1 & K1). apply IH; [exact G1|]. intros q b J. destruct (T q b (or_intror J)). auto.
Qed.
Lemma map_free_ok m : forall s out, Good s out (ments m) -> holds (map_free m) s out (fun _ s' out' => out' = out /\ Good s' out []).
Proof.
  induction m as [|(p, n) m IH]; intros s out G; cbn [map_free]; [apply h_ret; auto|].
  change (ments ((p, n) :: m)) with ((TStr, VObj (Some p)) :: (TStr, VObj (Some n)) :: ments m) in G.
  apply h_do. intros X. destruct (release_entry s out TStr p _ G ltac:(discriminate) X) as (s1 & E1 & G1). exists None, s1. split; [exact E1|].
  apply h_do. intros X1. destruct (release_entry s1 out TStr n _ G1 ltac:(discriminate) X1) as (s2 & E2 & G2). exists None, s2. split; [exact E2|].
  apply IH. exact G2.
Qed.
Lemma short_iri_ok s out l m t : Good s out (l ++ ments m) -> In 58 t ->
  holds (short_iri m t) s out (fun r s' out' => out' = out /\ Good s' out ((TMay TIri, VObj r) :: l ++ ments m)).
Proof.
  intros G J. unfold short_iri.
  assert (exists p r, at_colon t = Some (p, r)) as (pre & rem & ->).
  { clear -J. induction t as [|c t IH]; [destruct J|]. cbn. destruct (N.eqb_spec c 58); [eauto|]. destruct J as [->|J]; [contradiction|].
    destruct (IH J) as (p & r & ->). eauto. }
  apply h_look. destruct (entry_ok s _ m pre (proj1 G)) as (r & -> & K); [intros q b I; now apply (ments_type s out l m q b G)|].
  destruct r as [ns|].
  2: { apply h_ret. split; [reflexivity|]. destruct G as (H & F). split; [exact H|]. constructor; [left; reflexivity|exact F]. }
  destruct (K ns eq_refl) as (q & I). destruct (ments_type s out l m q ns G I) as [_ TN].
  set (k := match rem with [] => KEmpty | _ => KString rem false end).
  apply h_do. intros X.
  assert (exists a s', exec huge fresh e k s = Ok (Some a) s' /\ has_type huge s' a OT_STRING) as (a & s1 & E1 & T1).
  { unfold k in *. destruct rem; [apply (make_empty huge fresh fresh_ok e vs lib s _ (proj1 G) X)|apply (make_string huge fresh fresh_ok e vs lib s _ (proj1 G) _ false X)]. }
  assert (AL : allowed huge e lib (owns (l ++ ments m) ++ out) s k) by (unfold k; destruct rem; exact Logic.I).
  assert (NC : SpecHeap.no_cycle s k) by (unfold k; destruct rem; exact Logic.I).
  assert (CO : consumes k = false) by (unfold k; destruct rem; reflexivity).
  assert (RE : removes k = false) by (unfold k; destruct rem; reflexivity).
  destruct (produce s out _ k G AL NC X CO) as (r & s2 & E2 & G2).
  { intros x kd w Z. unfold k in Z. destruct rem; destruct Z. }
  rewrite E1 in E2. injection E2 as <- <-. exists (Some a), s1. split; [exact E1|].
  assert (TN1 : has_type huge s1 ns OT_STRING) by exact (types_kept s _ k (Some a) s1 ns _ (proj1 G) AL NC X CO RE E1 TN).
  assert (G1 : Good s1 out ((TStr, VObj (Some a)) :: l ++ ments m)).
  { eapply good_as; [exact G2| |reflexivity]. cbn. eauto. }
  apply h_do. intros X1.
  assert (AL1 : allowed huge e lib (owns ((TStr, VObj (Some a)) :: l ++ ments m) ++ out) s1 (KIri ns a)).
  { split; (split; [|assumption]); apply (string_alive s1 _ _ (proj1 G1)); assumption. }
  destruct (make_iri huge fresh fresh_ok e vs lib s1 _ (proj1 G1) ns a X1 AL1) as (i & s3 & E3 & T3).
  destruct (produce s1 out _ (KIri ns a) G1 AL1 Logic.I X1 eq_refl) as (r & s4 & E4 & G4).
  { apply (string_free _ s1 out); [exact G1|]. intros x [<-|[<-|[]]]; assumption. }
  rewrite E3 in E4. injection E4 as <- <-. exists (Some i), s3. split; [exact E3|].
  assert (G3 : Good s3 out ((TMay TIri, VObj (Some i)) :: (TStr, VObj (Some a)) :: l ++ ments m)).
  { eapply good_as; [exact G4| |reflexivity]. right. cbn. eauto. }
  apply h_do. intros X3. apply good_swap in G3. destruct (release_entry s3 out TStr a _ G3 ltac:(discriminate) X3) as (s5 & E5 & G5).
  exists None, s5. split; [exact E5|]. apply h_ret. auto.
Qed.

(** * Statements *)

Lemma alone_nth s out l i j k v k' v' x : Good s out l -> nth_error l i = Some (k, v) -> nth_error l j = Some (k', v') ->
  is_priv k = true -> In x (refs v) -> In x (own (k', v')) -> i = j.
Proof.
  intros G I J P R O. destruct (nth_error_split _ _ I) as (a & b & E & L). destruct (nth_error_split _ _ J) as (a' & b' & E' & L').
  destruct (Nat.eq_dec i j) as [|NE]; [assumption|]. exfalso. pose proof G as (_ & F). rewrite Forall_forall in F.
  refine (alone s out l a b a' b' k v k' v' x E E' _ G P R _ O); [congruence|]. apply (F (k, v)). eapply nth_error_In; eauto.
Qed.
Lemma pick0 ks : forall args i, List.length ks = List.length args -> nth i ks TGone <> TGone ->
  exists a b, combine ks args = a ++ (nth i ks TGone, nth i args VNone) :: b /\ List.length a = i /\
    forall k, combine (upd0 i k ks) args = a ++ (k, nth i args VNone) :: b.
Proof.
  induction ks as [|k ks IH]; intros [|v args] [|i] L N; cbn in *; try discriminate; try congruence.
  - exists [], (combine ks args). auto.
  - destruct (IH args i ltac:(lia) N) as (a & b & E & LA & U). exists ((k, v) :: a), b. rewrite E. cbn. split; [reflexivity|]. split; [lia|].
    intros k'. now rewrite U.
Qed.
Lemma pick ks args i : List.length ks = List.length args -> kn ks i <> TGone ->
  exists a b, combine ks args = a ++ (kn ks i, arg args i) :: b /\ List.length a = pred i /\ forall k, combine (upd i k ks) args = a ++ (k, arg args i) :: b.
Proof. apply pick0. Qed.
Lemma upd_length i k ks : List.length (upd i k ks) = List.length ks.
Proof. unfold upd. generalize (pred i). induction ks as [|x ks IH]; intros [|j]; cbn; auto. Qed.
Lemma use_length l ks : forall n, List.length (use l n ks) = List.length ks.
Proof. induction ks as [|x ks IH]; intros n; cbn; auto. Qed.
Lemma idle_unused ks (args : list value) v : idle ks = true -> ~ In (TUsed, v) (combine ks args).
Proof. intros I J. apply in_combine_l in J. unfold idle in I. rewrite forallb_forall in I. specialize (I _ J). discriminate I. Qed.
Lemma idle_upd i ks : idle ks = true -> idle (upd i TGone ks) = true.
Proof.
  unfold upd. generalize (pred i). induction ks as [|x ks IH]; intros [|j]; cbn; auto; rewrite andb_true_iff; intros [A B].
  - exact B.
  - rewrite A. apply IH. exact B.
Qed.
(** The argument moved to the front. *)
Lemma to_front s out ks args i r : List.length ks = List.length args -> kn ks i <> TGone -> Good s out (combine ks args ++ r) ->
  exists l, Good s out ((kn ks i, arg args i) :: l) /\
    (forall y, In y r -> In y l) /\
    forall s' out' x, Good s' out' (x ++ l) -> Good s' out' (x ++ combine (upd i TGone ks) args ++ r).
Proof.
  intros L N G. destruct (pick ks args i L N) as (a & b & E & _ & U). exists (a ++ b ++ r). rewrite E in G. split.
  - revert G. apply good_perm. rewrite <- app_assoc. cbn. apply Permutation_sym, Permutation_middle.
  - split; [intros y Y; rewrite !in_app_iff; auto|]. intros s' out' x G'. rewrite U. apply good_perm with ((TGone, arg args i) :: x ++ a ++ b ++ r).
    + eapply Permutation_trans; [apply Permutation_middle|]. apply Permutation_app_head. rewrite <- app_assoc. cbn. apply Permutation_middle.
    + now apply good_gone.
Qed.
Lemma arg_ok s out ks args i r : List.length ks = List.length args -> kn ks i <> TGone -> Good s out (combine ks args ++ r) ->
  In (kn ks i, arg args i) (combine ks args) /\ vok s (kn ks i) (arg args i) /\
  forall x, In x (refs (arg args i)) -> In x (owns (combine ks args ++ r) ++ out).
Proof.
  intros L N G. destruct (pick ks args i L N) as (a & b & E & _).
  assert (J : In (kn ks i, arg args i) (combine ks args)) by (rewrite E; apply in_or_app; right; now left).
  split; [exact J|]. destruct G as (_ & F). rewrite Forall_forall in F. split; [apply (F (_, _)); apply in_or_app; auto|].
  intros x K. apply in_or_app. left. apply entry_held with (kn ks i) (arg args i); [apply in_or_app; auto|now apply refs_own].
Qed.
Lemma held_ok s out ks args i r x : List.length ks = List.length args -> kn ks i <> TGone -> Good s out (combine ks args ++ r) ->
  In x (refs (arg args i)) -> usable (lib ++ owns (combine ks args ++ r) ++ out) s x.
Proof.
  intros L N G J. apply (held_usable huge fresh fresh_ok e vs lib s _ (proj1 G)). apply in_or_app. right.
  now apply (arg_ok s out ks args i r L N G).
Qed.
Lemma use_nth l ks : forall (args : list value) n j, nth_error (combine (use l n ks) args) j =
  match nth_error (combine ks args) j with
  | Some (k, v) => Some (if existsb (Nat.eqb (n + j)) l && vecish k then TUsed else k, v)
  | None => None
  end.
Proof.
  induction ks as [|k ks IH]; intros [|v args] n [|j]; cbn; auto.
  - now rewrite Nat.add_0_r.
  - rewrite IH. now rewrite Nat.add_succ_comm.
Qed.
Lemma use_owns l ks : forall args n, owns (combine (use l n ks) args) = owns (combine ks args).
Proof.
  induction ks as [|k ks IH]; intros [|v args] n; cbn; auto. unfold owns in IH. rewrite IH. f_equal.
  unfold own. cbn. destruct (existsb _ l); cbn; [|reflexivity]. destruct k as [| | | | | | | | | | | | | |k]; try reflexivity. destruct k; reflexivity.
Qed.
Lemma use_okay s l ks args r : Forall (okay s) (combine ks args ++ r) -> Forall (okay s) (combine (use l 1 ks) args ++ r).
Proof.
  intros F. apply Forall_app in F. destruct F as [F F']. apply Forall_app. split; [|exact F']. rewrite Forall_forall in *.
  intros (k, v) J. apply In_nth_error in J. destruct J as (j & J). rewrite use_nth in J.
  destruct (nth_error (combine ks args) j) as [[k0 v0]|] eqn:Q; [|discriminate J]. injection J as <- <-.
  apply nth_error_In in Q. specialize (F _ Q). unfold okay in *. cbn [fst snd] in *.
  destruct (existsb _ l); [|exact F]. destruct k0 as [| | | | | | | | | | | | | |k0]; cbn [vecish andb]; try exact F.
  - destruct F as (a & -> & _). exists (Some a). reflexivity.
  - destruct k0; try exact F. destruct F as [->|(a & -> & _)]; cbn; eauto.
Qed.
Lemma use_free s out ks args r l i x kd w : List.length ks = List.length args -> Good s out (combine ks args ++ r) -> kn ks i <> TGone ->
  (is_priv (kn ks i) = true -> (1 <= i)%nat /\ In i l /\ vecish (kn ks i) = true) -> In x (refs (arg args i)) ->
  In (kd, w) (combine (use l 1 ks) args ++ r) -> is_priv kd = true -> ~ In x (refs w).
Proof.
  intros L G N PR J I P K. destruct (pick ks args i L N) as (a & b & E & LA & _).
  assert (NI : nth_error (combine ks args ++ r) (pred i) = Some (kn ks i, arg args i)).
  { rewrite E, <- app_assoc, nth_error_app2, LA, Nat.sub_diag by lia. reflexivity. }
  assert (O : In x (own (kn ks i, arg args i))) by now apply refs_own.
  apply In_nth_error in I. destruct I as (j & I). destruct (Nat.lt_ge_cases j (List.length (combine ks args))) as [LT|GE].
  - rewrite nth_error_app1 in I by (rewrite combine_length in *; rewrite use_length; exact LT). rewrite use_nth in I.
    destruct (nth_error (combine ks args) j) as [[k0 v0]|] eqn:Q; [|discriminate I]. injection I as IK <-.
    assert (kd = k0) as ->.
    { revert IK. destruct (existsb _ l && vecish k0); intros <-; [discriminate P|reflexivity]. }
    assert (Q' : nth_error (combine ks args ++ r) j = Some (k0, v0)) by (rewrite nth_error_app1 by exact LT; exact Q).
    assert (j = pred i) as -> by exact (alone_nth s out _ j (pred i) k0 v0 _ _ x G Q' NI P K O).
    rewrite NI in Q'. injection Q' as <- <-. destruct (PR P) as (L1 & IL & V). rewrite V, andb_true_r in IK.
    assert (X : existsb (Nat.eqb (1 + pred i)) l = true) by (apply existsb_exists; exists i; split; [exact IL|apply Nat.eqb_eq; lia]).
    change ((if existsb (Nat.eqb (1 + pred i)) l then TUsed else kn ks i) = kn ks i) in IK. rewrite X in IK. rewrite <- IK in P. discriminate P.
  - rewrite nth_error_app2 in I by (rewrite combine_length in *; rewrite use_length; exact GE).
    rewrite combine_length, use_length, <- combine_length in I.
    assert (Q' : nth_error (combine ks args ++ r) j = Some (kd, w)) by (rewrite nth_error_app2 by exact GE; exact I).
    assert (j = pred i) as -> by exact (alone_nth s out _ j (pred i) kd w _ _ x G Q' NI P K O).
    rewrite E, app_length in GE. cbn in GE. lia.
Qed.
Lemma use_nil ks : forall n, use [] n ks = ks.
Proof. induction ks as [|k ks IH]; intros n; cbn; [reflexivity|]. now rewrite IH. Qed.
Lemma plain_free s out ks args r i x kd w : List.length ks = List.length args -> Good s out (combine ks args ++ r) -> kn ks i <> TGone ->
  is_priv (kn ks i) = false -> In x (refs (arg args i)) -> In (kd, w) (combine ks args ++ r) -> is_priv kd = true -> ~ In x (refs w).
Proof.
  intros L G N P J I. apply (use_free s out ks args r [] i x kd w L G N); auto; [rewrite P; discriminate|]. now rewrite use_nil.
Qed.

(** * What holds between statements *)

Definition sents (st : stack) : list (kind * value) := map (fun x => (kind_of (fst x), snd x)) st.
Definition J (s : state) (out : list N) (ks : list kind) (args : list value) (D : kind) (f : frame) (st : stack) : Prop :=
  List.length ks = List.length args /\
  Good s out ((D, f_dst f) :: combine ks args ++ sents st ++ ments (f_map f)) /\
  forall a, In (TUsed, VObj (Some a)) (combine ks args) ->
    exists d l, f_dst f = VObj (Some d) /\ D <> TGone /\ points s d a /\ has_items s a l.
Definition post (ks : list kind) (args : list value) (D : kind) (st : stack) (r : step) (s : state) (out : list N) : Prop :=
  match r with
  | Go f => J s out ks args D f st
  | Leave f => Good s out (sents st ++ ments (f_map f))
  end.

Section Stmt.
Variables (s : state) (out : list N) (args : list value) (f : frame) (st : stack).
Variables (ks : list kind) (D : kind).
Hypothesis K : J s out ks args D f st.
Local Notation r := (sents st ++ ments (f_map f)).
Local Notation B := (combine ks args ++ sents st ++ ments (f_map f)).
Local Notation below := (stack_refs st).

Lemma K_len : List.length ks = List.length args.
Proof. exact (proj1 K). Qed.
Lemma K_good : Good s out ((D, f_dst f) :: B).
Proof. exact (proj1 (proj2 K)). Qed.
Lemma K_base : D = TGone -> Good s out B.
Proof. intros E. pose proof K_good as G. rewrite E in G. exact (proj1 (good_gone _ _ _ _) G). Qed.
Lemma J_idle s' out' ks' D' d m b : idle ks' = true -> List.length ks' = List.length args ->
  Good s' out' ((D', d) :: combine ks' args ++ sents st ++ ments m) -> J s' out' ks' args D' (mkFrame d m b) st.
Proof. intros I L G. split; [exact L|]. split; [exact G|]. intros a Z. exfalso. exact (idle_unused ks' args _ I Z). Qed.

(** A call whose result becomes the value. *)
Lemma assign_ok k D' : D = TGone -> idle ks = true ->
  (expected huge e s k -> allowed huge e lib (owns B ++ out) s k) -> SpecHeap.no_cycle s k -> consumes k = false -> free k B -> D' <> TGone ->
  (expected huge e s k -> forall x s', exec huge fresh e k s = Ok x s' -> vok s' D' (VObj x)) ->
  forall b, holds (Do k (fun x => Ret (Go (mkFrame (VObj x) (f_map f) b)))) s out (post ks args D' st).
Proof.
  intros DE I AL NC C FR ND V b. apply h_do. intros X. pose proof (K_base DE) as G.
  destruct (produce s out B k G (AL X) NC X C FR) as (x & s' & E & G'). exists x, s'. split; [exact E|]. apply h_ret. cbn [post].
  apply J_idle; [exact I|exact K_len|]. eapply good_as; [exact G'|exact (V X x s' E)|]. unfold own. cbn. destruct D'; try reflexivity. congruence.
Qed.

Lemma text_kind i : match kn ks i with TText | TName => true | _ => false end = true -> D = TGone ->
  exists t, arg args i = VText t /\ (kn ks i = TName -> In 58 t).
Proof.
  intros Q DE. assert (N : kn ks i <> TGone) by (intros Z; rewrite Z in Q; discriminate Q).
  destruct (arg_ok s out ks args i _ K_len N (K_base DE)) as (_ & V & _). destruct (kn ks i); try discriminate Q; cbn in V.
  - destruct V as (t & ->). exists t. split; [reflexivity|discriminate].
  - destruct V as (t & -> & H). exists t. auto.
Qed.
Lemma obj_kind i : obj (kn ks i) = true -> D = TGone -> exists a, arg args i = VObj (Some a) /\ usable (lib ++ owns B ++ out) s a.
Proof.
  intros Q DE. assert (N : kn ks i <> TGone) by (intros Z; rewrite Z in Q; discriminate Q).
  destruct (arg_ok s out ks args i _ K_len N (K_base DE)) as (_ & V & _).
  assert (exists a, arg args i = VObj (Some a)) as (a & E) by (destruct (kn ks i); try discriminate Q; cbn in V; destruct V as (a & V); [eauto|destruct V; eauto..]).
  exists a. split; [exact E|]. apply (held_ok s out ks args i _ a K_len N (K_base DE)). rewrite E. now left.
Qed.
Lemma str_kind i : kn ks i = TStr -> D = TGone -> exists a, arg args i = VObj (Some a) /\ usable (lib ++ owns B ++ out) s a /\ has_type huge s a OT_STRING.
Proof.
  intros Q DE. assert (N : kn ks i <> TGone) by (intros Z; rewrite Z in Q; discriminate Q).
  destruct (obj_kind i ltac:(now rewrite Q) DE) as (a & E & U). exists a. split; [exact E|]. split; [exact U|].
  destruct (arg_ok s out ks args i _ K_len N (K_base DE)) as (_ & V & _). rewrite Q, E in V. destruct V as (b & Z & T). injection Z as <-. exact T.
Qed.
Lemma solid_obj k : solid k = true -> obj k = true /\ is_priv k = false.
Proof. destruct k; try discriminate; auto. Qed.
Lemma solid_free i a kd w : solid (kn ks i) = true -> D = TGone -> arg args i = VObj (Some a) -> In (kd, w) B -> is_priv kd = true -> ~ In a (refs w).
Proof.
  intros Q DE E. destruct (solid_obj _ Q) as [_ NP]. apply (plain_free s out ks args _ i a kd w K_len (K_base DE)); [|exact NP|rewrite E; now left].
  intros Z. rewrite Z in Q. discriminate Q.
Qed.
Lemma vec_kind i : vecish (kn ks i) = true -> D = TGone -> exists p, arg args i = VObj p /\
  forall a, p = Some a -> usable (lib ++ owns B ++ out) s a /\ has_type huge s a OT_VECTOR /\ exists x l, has_items s a (x :: l).
Proof.
  intros Q DE. assert (N : kn ks i <> TGone) by (intros Z; rewrite Z in Q; discriminate Q).
  destruct (arg_ok s out ks args i _ K_len N (K_base DE)) as (_ & V & _).
  assert (arg args i = VObj None \/ exists a, arg args i = VObj (Some a) /\ private s a /\ exists x l, has_items s a (x :: l)) as [E|(a & E & (c & L & T & _) & I)].
  { destruct (kn ks i) as [| | | | | | | | | | | | | |k]; try discriminate Q; cbn in V; auto. destruct k; try discriminate Q. destruct V; auto. }
  - exists None. split; [exact E|discriminate].
  - exists (Some a). split; [exact E|]. intros b Z. injection Z as <-. split; [|split; [exists c; auto|exact I]].
    apply (held_ok s out ks args i _ a K_len N (K_base DE)). rewrite E. now left.
Qed.
Definition ok_i (l : list nat) (i : nat) : Prop :=
  kn ks i <> TGone /\ (is_priv (kn ks i) = true -> (1 <= i)%nat /\ In i l /\ vecish (kn ks i) = true).
Lemma nth_kn (l : list kind) : forall (m : list value) j k v, nth_error (combine l m) j = Some (k, v) -> kn l (S j) = k /\ arg m (S j) = v.
Proof.
  unfold kn, arg. cbn [pred]. induction l as [|x l IH]; intros [|y m] [|j] k v E; cbn in *; try discriminate E.
  - injection E as -> ->. auto.
  - now apply IH.
Qed.
(** A call that makes an object out of arguments and vectors. *)
Lemma make_ok' k l is : D = TGone -> idle ks = true -> allowed huge e lib (owns B ++ out) s k -> SpecHeap.no_cycle s k -> consumes k = false -> removes k = false ->
  Forall (ok_i l) is -> (forall x, In x (arguments k) -> exists i, In i is /\ In x (refs (arg args i))) -> expected huge e s k ->
  (exists a s', exec huge fresh e k s = Ok (Some a) s' /\
     forall i x, In i l -> vecish (kn ks i) = true -> arg args i = VObj (Some x) -> points s' a x) ->
  forall b, exists a s', exec huge fresh e k s = Ok (Some a) s' /\
    J s' out (use l 1 ks) args TAny (mkFrame (VObj (Some a)) (f_map f) b) st.
Proof.
  intros DE ID AL NC C RE OI AR X (a & s' & E & PT) b. exists a, s'. split; [exact E|]. pose proof (K_base DE) as G.
  split; [rewrite use_length; exact K_len|]. split.
  - destruct (good_call s out B k G AL NC X) as (r0 & s1 & E1 & G1). rewrite E in E1. injection E1 as <- <-.
    eapply good_as; [apply (G1 (combine (use l 1 ks) args ++ r))| |].
    + rewrite (consumes_after k _ C). rewrite !owns_app, use_owns. apply Permutation_refl.
    + apply use_okay. exact (proj2 G).
    + intros kd v x I P R A. destruct (AR x A) as (i & II & JX). rewrite Forall_forall in OI. destruct (OI i II) as (N & PR).
      exact (use_free s out ks args r l i x kd v K_len G N PR JX I P R).
    + cbn. eauto.
    + reflexivity.
  - intros x I. exists a. apply In_nth_error in I. destruct I as (j & I). rewrite use_nth in I.
    destruct (nth_error (combine ks args) j) as [[k0 v0]|] eqn:Q; [|discriminate I].
    assert (existsb (Nat.eqb (1 + j)) l = true /\ vecish k0 = true /\ v0 = VObj (Some x)) as (Z & V & ->).
    { destruct (existsb (Nat.eqb (1 + j)) l && vecish k0) eqn:Z.
      - injection I as ->. apply andb_true_iff in Z. tauto.
      - injection I as -> ->. exfalso. apply (idle_unused ks args (VObj (Some x)) ID). eapply nth_error_In; eauto. }
    destruct (nth_kn ks args j _ _ Q) as [QK QA]. apply existsb_exists in Z. destruct Z as (i & IL & Z). apply Nat.eqb_eq in Z.
    change (1 + j)%nat with (S j) in Z. subst i.
    rewrite <- QK in V. destruct (vec_kind (S j) V DE) as (p & QP & VP). rewrite QA in QP. injection QP as <-.
    destruct (VP x eq_refl) as (U & _ & y & m & HI).
    pose proof (fits_room huge fresh fresh_ok e vs lib s _ (proj1 G) k X) as RM.
    destruct (keeps_vector huge fresh fresh_ok e vs lib s _ (proj1 G) k AL NC RM (Some a) s' E x (y :: m) RE) as (m' & HI').
    + rewrite (consumes_after k _ C). exact U.
    + exact HI.
    + exists m'. split; [reflexivity|]. split; [discriminate|]. split; [exact (PT (S j) x IL V QA)|exact HI'].
Qed.

Lemma ptrs_ok fs : D = TGone -> Forall (fun i => obj (kn ks i) = true \/ vecish (kn ks i) = true) fs ->
  exists ps, ptrs args fs = Some ps /\ Forall2 (fun i p => arg args i = VObj p) fs ps.
Proof.
  intros DE. induction fs as [|i fs IH]; intros F; cbn [ptrs]; [exists []; auto|]. inversion_clear F as [|? ? F1 F2].
  destruct (IH F2) as (ps & -> & F3).
  assert (exists p, arg args i = VObj p) as (p & E).
  { destruct F1 as [Q|Q]; [destruct (obj_kind i Q DE) as (a & E & _)|destruct (vec_kind i Q DE) as (p & E & _)]; eauto. }
  unfold ptr. rewrite E. exists (p :: ps). auto.
Qed.
Lemma two_refs fs ps x : Forall2 (fun i p => arg args i = VObj p) fs ps -> In x (flat_map opt_list ps) -> exists i, In i fs /\ In x (refs (arg args i)).
Proof.
  intros F. induction F as [|i p fs ps E F IH]; cbn; [intros []|]. rewrite in_app_iff. intros [I|I].
  - exists i. split; [now left|]. rewrite E. destruct p; exact I.
  - destruct (IH I) as (j & A & Q). eauto.
Qed.
Lemma two_some fs ps i x : Forall2 (fun i p => arg args i = VObj p) fs ps -> In i fs -> arg args i = VObj (Some x) -> In (Some x) ps.
Proof.
  intros F. induction F as [|j p fs ps E F IH]; cbn; [intros []|]. intros [->|I] Q; [left; congruence|right; auto].
Qed.
Lemma two_required fs ps : D = TGone -> Forall2 (fun i p => arg args i = VObj p) fs ps -> Forall (fun i => obj (kn ks i) = true) fs ->
  Forall (required (usable (lib ++ owns B ++ out) s)) ps.
Proof.
  intros DE F. induction F as [|i p fs ps E F IH]; intros O; constructor; inversion_clear O as [|? ? O1 O2]; auto.
  destruct (obj_kind i O1 DE) as (a & Q & U). rewrite E in Q. injection Q as ->. exact U.
Qed.
Lemma obj_i l i : (1 <= i)%nat -> In i l -> obj (kn ks i) = true \/ vecish (kn ks i) = true -> ok_i l i.
Proof.
  intros L I O. split.
  - intros Z. rewrite Z in O. destruct O; discriminate.
  - intros P. split; [exact L|]. split; [exact I|]. destruct O as [O|O]; [|exact O]. destruct (kn ks i); try discriminate; reflexivity.
Qed.
Lemma s_make t fs opt val ks' D' : chk (SMake t fs opt val) ks D = Some (ks', D') ->
  holds (do_stmt vs below args (SMake t fs opt val) f) s out (post ks' args D' st).
Proof.
  cbn [chk do_stmt makes]. destruct (idle ks) eqn:ID; [|discriminate]. unfold guard. destruct (is_gone D && make_ok t fs opt val ks) eqn:Q; [|discriminate].
  intros Z. injection Z as <- <-. apply andb_true_iff in Q. destruct Q as [DE Q].
  assert (D = TGone) as DG by (destruct D; try discriminate DE; reflexivity).
  unfold make_ok in Q. apply andb_true_iff in Q. destruct Q as [Q QC]. apply andb_true_iff in Q. destruct Q as [QR QV].
  rewrite forallb_forall in QR.
  assert (RG : forall i, In i (fs ++ optl opt) -> (1 <= i)%nat).
  { intros i I. specialize (QR i I). apply andb_true_iff in QR. destruct QR as [QR _]. now apply Nat.leb_le in QR. }
  assert (VAL : exists n, match val with None => Some 0 | Some i => match arg args i with VNum n => Some n | _ => None end end = Some n).
  { destruct val as [i|]; [|eauto]. destruct (kn ks i) eqn:Z; try discriminate QV.
    destruct (arg_ok s out ks args i _ K_len ltac:(rewrite Z; discriminate) (K_base DG)) as (_ & V & _). rewrite Z in V. destruct V as (n & ->). eauto. }
  destruct VAL as (n & ->).
  assert (PF : Forall (fun i => obj (kn ks i) = true \/ vecish (kn ks i) = true) fs /\ Forall (fun i => obj (kn ks i) = true \/ vecish (kn ks i) = true) (optl opt)).
  { destruct (ctor_of t) as [c|]; [|discriminate QC].
    assert (O1 : forall l, forallb (fun i => obj (kn ks i)) l = true -> Forall (fun i => obj (kn ks i) = true \/ vecish (kn ks i) = true) l).
    { intros l F. rewrite forallb_forall in F. apply Forall_forall. auto. }
    assert (O2 : forall l, forallb (fun i => vecish (kn ks i)) l = true -> Forall (fun i => obj (kn ks i) = true \/ vecish (kn ks i) = true) l).
    { intros l F. rewrite forallb_forall in F. apply Forall_forall. auto. }
    assert (O3 : forall l, forallb (fun i => solid (kn ks i)) l = true -> Forall (fun i => obj (kn ks i) = true \/ vecish (kn ks i) = true) l).
    { intros l F. rewrite forallb_forall in F. apply Forall_forall. intros i I. left. now apply solid_obj, F. }
    destruct c.
    - rewrite !andb_true_iff in QC. destruct QC as [[_ A] C]. split; [auto|]. destruct opt; [discriminate C|constructor].
    - rewrite !andb_true_iff in QC. destruct QC as [[_ A] C]. auto.
    - rewrite !andb_true_iff in QC. destruct QC as [[_ A] C]. auto.
    - rewrite !andb_true_iff in QC. destruct QC as [[_ A] C]. auto.
    - destruct fs as [|c [|o [|d []]]]; try discriminate QC. rewrite !andb_true_iff in QC. destruct QC as [[[A1 A2] A3] C]. split; [|auto]. constructor; [auto|]. constructor; [auto|]. constructor; [auto|constructor]. }
  destruct PF as [PF PO]. destruct (ptrs_ok fs DG PF) as (ps & -> & F2).
  assert (exists o, match opt with None => Some None | Some i => ptr args i end = Some o /\ (forall i, opt = Some i -> arg args i = VObj o) /\ (opt = None -> o = None)) as (o & -> & EO & EN).
  { destruct opt as [i|]; [|exists None; repeat split; congruence]. destruct (ptrs_ok [i] DG PO) as (l & _ & F). inversion_clear F as [|? p ? ? E].
    exists p. unfold ptr. rewrite E. split; [reflexivity|]. split; [intros j Z; injection Z as <-; exact E|discriminate]. }
  apply h_do. intros X. set (k := KConstruct t ps o n) in *.
  assert (VO : forallb (fun i => vecish (kn ks i)) (optl opt) = true -> optional (fun a => usable (lib ++ owns B ++ out) s a /\ has_type huge s a OT_VECTOR) o).
  { intros V. destruct o as [a|]; [|exact Logic.I]. destruct opt as [i|]; [|specialize (EN eq_refl); discriminate EN]. cbn in V. rewrite andb_true_r in V.
    destruct (vec_kind i V DG) as (p & E & U). rewrite (EO i eq_refl) in E. injection E as <-. destruct (U a eq_refl) as (U1 & U2 & _). cbn. auto. }
  assert (SO : forallb (fun i => solid (kn ks i)) (optl opt) = true -> optional (usable (lib ++ owns B ++ out) s) o).
  { intros V. destruct o as [a|]; [|exact Logic.I]. destruct opt as [i|]; [|specialize (EN eq_refl); discriminate EN]. cbn in V. rewrite andb_true_r in V.
    destruct (obj_kind i (proj1 (solid_obj _ V)) DG) as (b & E & U). rewrite (EO i eq_refl) in E. injection E as ->. exact U. }
  assert (LEN : List.length ps = List.length fs) by (clear -F2; induction F2; cbn; congruence).
  assert (AL : allowed huge e lib (owns B ++ out) s k).
  { unfold k. cbn [allowed]. destruct (ctor_of t) as [c|]; [|discriminate QC]. destruct c.
    - rewrite !andb_true_iff in QC. destruct QC as [[LN A] C]. apply Nat.eqb_eq in LN. split; [congruence|].
      apply (two_required fs ps DG F2). apply Forall_forall. now apply forallb_forall.
    - rewrite !andb_true_iff in QC. destruct QC as [[LN A] C]. apply Nat.eqb_eq in LN. split; [congruence|]. split; [|auto].
      apply (two_required fs ps DG F2). apply Forall_forall. now apply forallb_forall.
    - rewrite !andb_true_iff in QC. destruct QC as [[LN A] C]. apply Nat.eqb_eq in LN. split; [congruence|]. split; [|auto].
      apply (two_required fs ps DG F2). apply Forall_forall. rewrite forallb_forall in A. intros i I. now apply solid_obj, A.
    - rewrite !andb_true_iff in QC. destruct QC as [[LN A] C]. apply Nat.eqb_eq in LN. split; [congruence|]. split; [|auto].
      apply (two_required fs ps DG F2). apply Forall_forall. rewrite forallb_forall in A. intros i I. now apply solid_obj, A.
    - destruct fs as [|c [|d [|g []]]]; try discriminate QC. rewrite !andb_true_iff in QC. destruct QC as [[[A1 A2] A3] C].
      inversion_clear F2 as [|? p1 ? l1 E1 F3]. inversion_clear F3 as [|? p2 ? l2 E2 F4]. inversion_clear F4 as [|? p3 ? l3 E3 F5]. inversion_clear F5.
      destruct (obj_kind c A1 DG) as (a & Q & U). rewrite E1 in Q. injection Q as ->. exists a, p2, p3. split; [reflexivity|]. split; [exact U|].
      split; [|split; [|auto]].
      + destruct (vec_kind d A2 DG) as (p & E & UP). rewrite E2 in E. injection E as <-. destruct p2; [|exact Logic.I]. now apply UP.
      + destruct (vec_kind g A3 DG) as (p & E & UP). rewrite E3 in E. injection E as <-. destruct p3; [|exact Logic.I]. now apply UP. }
  destruct (make_ok' k (fs ++ optl opt) (fs ++ optl opt) DG ID AL Logic.I eq_refl eq_refl) with (b := f_bufs f) as (a & s' & E & JJ).
  - apply Forall_forall. intros i I. apply obj_i; [auto|exact I|]. apply in_app_iff in I. rewrite Forall_forall in PF, PO. destruct I; auto.
  - unfold k. cbn [arguments]. intros x. rewrite in_app_iff. intros [I|I].
    + destruct (two_refs fs ps x F2 I) as (i & II & R). exists i. split; [apply in_or_app; auto|exact R].
    + assert (In x (opt_list o)) as I' by (unfold optional_argument in I; destruct (ctor_of t) as [[]|]; auto; destruct I).
      destruct opt as [i|]; [|rewrite (EN eq_refl) in I'; destruct I']. exists i. split; [apply in_or_app; right; now left|]. rewrite (EO i eq_refl). destruct o; exact I'.
  - exact X.
  - destruct (make_object huge fresh fresh_ok e vs lib s _ (proj1 (K_base DG)) t ps o n X AL) as (a & s' & E & P1 & P2 & P3). exists a, s'. split; [exact E|].
    assert (OB : forall i v, In i (optl opt) -> vecish (kn ks i) = true -> arg args i = VObj (Some v) -> o = Some v /\ exists y m, has_items s v (y :: m)).
    { intros i v I V E'. destruct opt as [j|]; [|destruct I]. destruct I as [->|[]]. pose proof (EO i eq_refl) as Q. rewrite Q in E'. injection E' as ->.
      split; [reflexivity|]. destruct (vec_kind i V DG) as (p & E2 & U). rewrite Q in E2. injection E2 as <-. now apply U. }
    intros i x I V E'. apply in_app_iff in I. destruct (ctor_of t) as [c|] eqn:CT; [|discriminate QC]. destruct c as [n0|n0|n0|n0|].
    + destruct I as [I|I]; [apply (P1 n0 eq_refl); now apply (two_some fs ps i x F2 I)|].
      rewrite !andb_true_iff in QC. destruct QC as [_ C]. destruct opt; [discriminate C|destruct I].
    + destruct (P2 n0 eq_refl) as [PA PB]. destruct I as [I|I]; [apply PA; now apply (two_some fs ps i x F2 I)|].
      destruct (OB i x I V E') as (EE & y & m & HI). exact (PB x y m EE HI).
    + exfalso. rewrite !andb_true_iff in QC. destruct QC as [[_ A] C]. rewrite forallb_forall in A, C. assert (S : solid (kn ks i) = true) by (destruct I; auto).
      destruct (kn ks i); try discriminate.
    + exfalso. rewrite !andb_true_iff in QC. destruct QC as [[_ A] C]. rewrite forallb_forall in A, C. assert (S : solid (kn ks i) = true) by (destruct I; auto).
      destruct (kn ks i); try discriminate.
    + destruct (P3 eq_refl) as [PA PB]. destruct I as [I|I]; [apply PA; now apply (two_some fs ps i x F2 I)|].
      destruct (OB i x I V E') as (EE & y & m & HI). exact (PB x y m EE HI).
  - exists (Some a), s'. split; [exact E|]. apply h_ret. exact JJ.
Qed.

Lemma gone : is_gone D = true -> D = TGone.
Proof. destruct D; intros Q; try discriminate Q; reflexivity. Qed.
Lemma s_chain i j k ks' D' : chk (SChain i j k) ks D = Some (ks', D') ->
  holds (do_stmt vs below args (SChain i j k) f) s out (post ks' args D' st).
Proof.
  cbn [chk do_stmt makes]. destruct (idle ks) eqn:ID; [|discriminate]. unfold guard.
  match goal with |- context [if ?b then _ else _] => destruct b eqn:Q; [|discriminate] end.
  intros Z. injection Z as <- <-. rewrite !andb_true_iff in Q. destruct Q as [[[[DE RG] QI] QJ] QK]. apply gone in DE.
  rewrite forallb_forall in RG.
  assert (R1 : forall x, In x [i; j; k] -> (1 <= x)%nat).
  { intros x I. specialize (RG x I). apply andb_true_iff in RG. destruct RG as [RG _]. now apply Nat.leb_le in RG. }
  assert (QI' : vecish (kn ks i) = true) by (destruct (kn ks i); try discriminate QI; reflexivity).
  assert (QO : obj (kn ks i) = true) by (destruct (kn ks i); try discriminate QI; reflexivity).
  destruct (obj_kind i QO DE) as (a & EA & UA). destruct (vec_kind i QI' DE) as (pa & EA' & VA). rewrite EA in EA'. injection EA' as <-.
  destruct (VA a eq_refl) as (_ & TA & _). destruct (solid_obj _ QJ) as [OJ PJ]. destruct (obj_kind j OJ DE) as (b & EB & UB).
  destruct (vec_kind k QK DE) as (o & EO & VO). rewrite EA, EB. unfold ptr. rewrite EO. apply h_do. intros X.
  assert (AL : allowed huge e lib (owns B ++ out) s (KChain a b o)).
  { split; [auto|]. split; [exact UB|]. destruct o as [v|]; [|exact Logic.I]. destruct (VO v eq_refl) as (U & T & _). cbn. auto. }
  destruct (make_ok' (KChain a b o) [i; k] [i; j; k] DE ID AL Logic.I eq_refl eq_refl) with (b := f_bufs f) as (d & s' & E & JJ).
  - constructor; [apply obj_i; [apply R1; cbn; auto|cbn; auto|auto]|]. constructor.
    + split; [intros Z; rewrite Z in QJ; discriminate QJ|rewrite PJ; discriminate].
    + constructor; [apply obj_i; [apply R1; cbn; auto|cbn; auto|auto]|constructor].
  - cbn [arguments]. intros x [<-|[<-|I]].
    + exists i. rewrite EA. cbn. auto.
    + exists j. rewrite EB. cbn. auto.
    + exists k. rewrite EO. split; [cbn; auto|]. destruct o; exact I.
  - exact X.
  - destruct (make_chain huge fresh fresh_ok e vs lib s _ (proj1 (K_base DE)) a b o X AL) as (d & s' & E & P1 & P2). exists d, s'. split; [exact E|].
    intros n x [<-|[<-|[]]] V E'.
    + rewrite EA in E'. injection E' as <-. exact P1.
    + rewrite EO in E'. injection E' as ->. destruct (VO x eq_refl) as (_ & _ & y & l & HI). exact (P2 x y l eq_refl HI).
  - exists (Some d), s'. split; [exact E|]. apply h_ret. exact JJ.
Qed.

Ltac simple_kind Q :=
  cbn [chk do_stmt makes]; destruct (idle ks) eqn:ID; [|discriminate]; unfold guard;
  match goal with |- context [if ?b then _ else _] => destruct b eqn:Q; [|discriminate] end;
  intros Z; injection Z as <- <-; rewrite ?andb_true_iff in Q.
Lemma no_args k : arguments k = [] -> free k B.
Proof. intros E x kd w I. rewrite E in I. destruct I. Qed.
Lemma s_iri i ks' D' : chk (SIri i) ks D = Some (ks', D') -> holds (do_stmt vs below args (SIri i) f) s out (post ks' args D' st).
Proof.
  simple_kind Q. destruct Q as [DE Q]. apply gone in DE. destruct (text_kind i Q DE) as (t & -> & _).
  apply (assign_ok (KIriText t) (TMay TIri) DE ID); try exact Logic.I; try reflexivity; try (intros; exact Logic.I); try discriminate.
  - apply no_args. reflexivity.
  - intros X x s' E. destruct (make_iri_text huge fresh fresh_ok e vs lib s _ (proj1 (K_base DE)) t X) as (x' & s1 & E1 & T).
    rewrite E in E1. injection E1 as <- <-. destruct x as [a|]; [right; cbn; eauto|now left].
Qed.
Lemma s_string i b ks' D' : chk (SString i b) ks D = Some (ks', D') -> holds (do_stmt vs below args (SString i b) f) s out (post ks' args D' st).
Proof.
  simple_kind Q. destruct Q as [DE Q]. apply gone in DE. destruct (text_kind i Q DE) as (t & -> & _).
  apply (assign_ok (KString t b) (TMay TStr) DE ID); try exact Logic.I; try reflexivity; try (intros; exact Logic.I); try discriminate.
  - apply no_args. reflexivity.
  - intros X x s' E. destruct (make_string huge fresh fresh_ok e vs lib s _ (proj1 (K_base DE)) t b X) as (x' & s1 & E1 & T).
    rewrite E in E1. injection E1 as -> <-. right. cbn. eauto.
Qed.
Lemma s_own i ks' D' : chk (SOwnString i) ks D = Some (ks', D') -> holds (do_stmt vs below args (SOwnString i) f) s out (post ks' args D' st).
Proof.
  simple_kind Q. destruct Q as [DE Q]. apply gone in DE.
  assert (exists t, arg args i = VBuf t) as (t & ->).
  { assert (N : kn ks i = TBuf) by (destruct (kn ks i); try discriminate Q; reflexivity).
    destruct (arg_ok s out ks args i _ K_len ltac:(rewrite N; discriminate) (K_base DE)) as (_ & V & _). rewrite N in V. exact V. }
  apply (assign_ok (KString t false) (TMay TStr) DE ID); try exact Logic.I; try reflexivity; try (intros; exact Logic.I); try discriminate.
  - apply no_args. reflexivity.
  - intros X x s' E. destruct (make_string huge fresh fresh_ok e vs lib s _ (proj1 (K_base DE)) t false X) as (x' & s1 & E1 & T).
    rewrite E in E1. injection E1 as -> <-. right. cbn. eauto.
Qed.
Lemma may_any s' x : vok s' (TMay TAny) (VObj x).
Proof. destruct x; cbn; eauto. Qed.
Lemma s_anon i ks' D' : chk (SAnon i) ks D = Some (ks', D') -> holds (do_stmt vs below args (SAnon i) f) s out (post ks' args D' st).
Proof.
  simple_kind Q. destruct Q as [DE Q]. apply gone in DE. destruct (text_kind i Q DE) as (t & -> & _).
  apply (assign_ok (KAnonText t) (TMay TAny) DE ID); try exact Logic.I; try reflexivity; try (intros; exact Logic.I); try discriminate.
  - apply no_args. reflexivity.
  - intros. apply may_any.
Qed.
Lemma s_entity t i ks' D' : chk (SEntity t i) ks D = Some (ks', D') -> holds (do_stmt vs below args (SEntity t i) f) s out (post ks' args D' st).
Proof.
  simple_kind Q. destruct Q as [[DE QT] Q]. apply gone in DE.
  assert (N : kn ks i = TIri) by (destruct (kn ks i); try discriminate Q; reflexivity).
  destruct (obj_kind i ltac:(now rewrite N) DE) as (a & E & U). rewrite E.
  destruct (arg_ok s out ks args i _ K_len ltac:(rewrite N; discriminate) (K_base DE)) as (_ & V & _). rewrite N, E in V. destruct V as (b & Z & T). injection Z as <-.
  apply (assign_ok (KEntity t a) (TMay TAny) DE ID); try exact Logic.I; try reflexivity; try discriminate.
  - intros _. cbn [allowed]. auto.
  - intros x kd w [<-|[]] I. apply (solid_free i a kd w); auto. now rewrite N.
  - intros. apply may_any.
Qed.
Lemma s_literal i d ks' D' : chk (SLiteral i d) ks D = Some (ks', D') -> holds (do_stmt vs below args (SLiteral i d) f) s out (post ks' args D' st).
Proof.
  destruct d as [j|]; simple_kind Q.
  - destruct Q as [[DE Q] QJ]. apply gone in DE. assert (N : kn ks i = TStr) by (destruct (kn ks i); try discriminate Q; reflexivity).
    destruct (str_kind i N DE) as (a & E & U & T). rewrite E. destruct (obj_kind j (proj1 (solid_obj _ QJ)) DE) as (b & EB & UB). rewrite EB.
    apply (assign_ok (KLiteral a (Some b)) (TMay TAny) DE ID); try exact Logic.I; try reflexivity; try discriminate.
    + intros (_ & X). cbn [allowed]. split; [auto|]. cbn. auto.
    + intros x kd w [<-|[<-|[]]] I; [apply (solid_free i a kd w)|apply (solid_free j b kd w)]; auto. now rewrite N.
    + intros. apply may_any.
  - destruct Q as [DE Q]. apply gone in DE. assert (N : kn ks i = TStr) by (destruct (kn ks i); try discriminate Q; reflexivity).
    destruct (str_kind i N DE) as (a & E & U & T). rewrite E.
    apply (assign_ok (KLiteral a None) (TMay TAny) DE ID); try exact Logic.I; try reflexivity; try discriminate.
    + intros _. cbn [allowed]. split; [auto|]. exact Logic.I.
    + intros x kd w [<-|[]] I; apply (solid_free i a kd w); auto. now rewrite N.
    + intros. apply may_any.
Qed.
Lemma s_vector ks' D' : chk SVector ks D = Some (ks', D') -> holds (do_stmt vs below args SVector f) s out (post ks' args D' st).
Proof.
  simple_kind Q. apply gone in Q.
  apply (assign_ok (KVector []) TNew Q ID); try exact Logic.I; try reflexivity; try discriminate.
  - intros _. cbn [allowed]. constructor.
  - apply no_args. reflexivity.
  - intros X x s' E. destruct (make_vector huge fresh e vs lib s _ (proj1 (K_base Q))) as (v & s1 & E1 & P). rewrite E in E1. injection E1 as -> <-. cbn. eauto.
Qed.
Lemma s_short i ks' D' : chk (SShortIri i) ks D = Some (ks', D') -> holds (do_stmt vs below args (SShortIri i) f) s out (post ks' args D' st).
Proof.
  simple_kind Q. destruct Q as [DE Q]. apply gone in DE. destruct (text_kind i) as (t & -> & C); [destruct (kn ks i); try discriminate Q; reflexivity|exact DE|].
  pose proof (K_base DE) as G. rewrite app_assoc in G. apply h_then.
  eapply h_post; [apply (short_iri_ok s out _ (f_map f) t G)|].
  - apply C. destruct (kn ks i); try discriminate Q; reflexivity.
  - cbn. intros x s' out' (-> & G'). apply h_ret. cbn [post]. apply J_idle; [exact ID|exact K_len|]. rewrite app_assoc. exact G'.
Qed.
Lemma s_null ks' D' : chk SNull ks D = Some (ks', D') -> holds (do_stmt vs below args SNull f) s out (post ks' args D' st).
Proof.
  simple_kind Q. apply gone in Q. apply h_ret. cbn [post]. apply J_idle; [exact ID|exact K_len|].
  destruct (K_base Q) as (H & F). split; [exact H|]. constructor; [left; reflexivity|exact F].
Qed.
Lemma s_move i ks' D' : chk (SMove i) ks D = Some (ks', D') -> holds (do_stmt vs below args (SMove i) f) s out (post ks' args D' st).
Proof.
  simple_kind Q. apply gone in Q. apply h_ret. cbn [post]. apply J_idle; [now apply idle_upd|rewrite upd_length; exact K_len|].
  pose proof (K_base Q) as G.
  destruct (is_gone (kn ks i)) eqn:QG.
  - assert (N : kn ks i = TGone) by (destruct (kn ks i); try discriminate QG; reflexivity). rewrite N. apply good_gone.
    assert (upd i TGone ks = ks) as ->; [|exact G].
    clear -N. unfold kn, upd in *. revert N. generalize (pred i). induction ks as [|x l IH]; intros [|n] N; cbn in *; try reflexivity; [now subst x|f_equal; now apply IH].
  - assert (N : kn ks i <> TGone) by (intros Z; rewrite Z in QG; discriminate QG).
    destruct (pick ks args i K_len N) as (a & b & E & _ & U). rewrite U. rewrite E in G.
    assert (G' : Good s out ((TGone, arg args i) :: (kn ks i, arg args i) :: a ++ b ++ r)).
    { apply good_gone. revert G. apply good_perm. rewrite <- app_assoc. cbn. apply Permutation_sym, Permutation_middle. }
    revert G'. apply good_perm. eapply Permutation_trans; [apply perm_swap|]. apply perm_skip. rewrite <- app_assoc. cbn. apply Permutation_middle.
Qed.
Lemma s_unless i ks' D' : chk (SVectorUnless i) ks D = Some (ks', D') -> holds (do_stmt vs below args (SVectorUnless i) f) s out (post ks' args D' st).
Proof.
  simple_kind Q. destruct Q as [DE Q]. apply gone in DE. assert (N : kn ks i <> TGone) by (intros Z; rewrite Z in Q; discriminate Q).
  pose proof (K_base DE) as G. destruct (to_front s out ks args i r K_len N G) as (l & G1 & _ & BACK).
  assert (V : arg args i = VObj None \/ exists a, arg args i = VObj (Some a) /\ private s a).
  { destruct (arg_ok s out ks args i _ K_len N G) as (_ & V & _). destruct (kn ks i) as [| | | | | | | | | | | | | |k]; try discriminate Q; cbn in V.
    - destruct V as (a & E & P & _). eauto.
    - destruct k; try discriminate Q. destruct V as [V|(a & E & P & _)]; eauto. }
  destruct V as [V|(a & V & P)]; rewrite V in *.
  - apply good_none in G1. apply h_do. intros X. destruct (make_vector huge fresh e vs lib s _ (proj1 G)) as (v & s1 & E1 & PV).
    destruct (produce s out l (KVector []) G1 (Forall_nil _) Logic.I X eq_refl) as (x & s2 & E2 & G2).
    { intros y kd w []. }
    rewrite E1 in E2. injection E2 as <- <-. exists (Some v), s1. split; [exact E1|]. apply h_ret. cbn [post].
    apply J_idle; [now apply idle_upd|rewrite upd_length; exact K_len|].
    pose proof (good_as _ _ _ _ TNew _ G2 (ex_intro _ v (conj eq_refl PV)) eq_refl) as G3.
    exact (BACK s1 out [_] G3).
  - apply h_ret. cbn [post]. apply J_idle; [now apply idle_upd|rewrite upd_length; exact K_len|]. apply (BACK s out [_]).
    apply (good_as _ _ _ _ TNew _ G1); [exists a; auto|]. unfold own. cbn. destruct (kn ks i); try reflexivity. congruence.
Qed.

Lemma used_kept own1 b s' d a l : Hist s (b :: own1) -> exec huge fresh e (KRelease b) s = Ok None s' -> expected huge e s (KRelease b) ->
  In d own1 -> points s d a -> has_items s a l -> points s' d a /\ exists m, has_items s' a m.
Proof.
  intros H E X I P HI. assert (AL : allowed huge e lib (b :: own1) s (KRelease b)) by now left.
  pose proof (fits_room huge fresh fresh_ok e vs lib s _ H _ X) as RM.
  assert (AF : after (KRelease b) None (b :: own1) = own1) by (cbn; now rewrite N.eqb_refl).
  split.
  - apply (keeps_pointer huge fresh fresh_ok e vs lib s _ H (KRelease b) AL Logic.I RM None s' E d a eq_refl); [rewrite AF; apply in_or_app; now right|exact P].
  - apply (keeps_vector huge fresh fresh_ok e vs lib s _ H (KRelease b) AL Logic.I RM None s' E a l eq_refl); [|exact HI].
    rewrite AF. exists d. split; [apply in_or_app; now right|]. destruct P as (c & L & IP). destruct HI as (c' & L' & _).
    eapply reach_step; [exact L|exact IP|]. constructor. exists c'. exact L'.
Qed.
Lemma upd_in i k v : kn ks i <> TGone -> In (k, v) (combine (upd i TGone ks) args) -> k <> TGone -> In (k, v) (combine ks args).
Proof.
  intros N I NK. destruct (pick ks args i K_len N) as (a & b & E & _ & U). rewrite U in I. rewrite E. rewrite in_app_iff in *.
  destruct I as [I|[I|I]]; [auto| |right; now right]. injection I as <- <-. congruence.
Qed.
Lemma K_shift : Good s out (combine ks args ++ (D, f_dst f) :: r).
Proof. pose proof K_good as G. revert G. apply good_perm. apply Permutation_middle. Qed.
(** Giving up the reference of an argument. *)
Lemma drop_arg i s' a : kn ks i <> TGone -> arg args i = VObj (Some a) -> exec huge fresh e (KRelease a) s = Ok None s' -> expected huge e s (KRelease a) ->
  J s' out (upd i TGone ks) args D f st /\
  forall b d l, f_dst f = VObj (Some d) -> D <> TGone -> points s d b -> has_items s b l -> exists m, has_items s' b m.
Proof.
  intros N E EX X. destruct (to_front s out ks args i _ K_len N K_shift) as (l & G1 & IN & BACK). rewrite E in G1.
  destruct (release_entry s out (kn ks i) a l G1 N X) as (s1 & E1 & G2). rewrite EX in E1. injection E1 as <-.
  assert (OW : own (kn ks i, VObj (Some a)) = [a]) by (unfold own; cbn; destruct (kn ks i); try reflexivity; congruence).
  assert (H1 : Hist s (a :: owns l ++ out)) by (destruct G1 as (H1 & _); cbn [owns flat_map] in H1; rewrite OW in H1; exact H1).
  assert (UK : forall b d m, f_dst f = VObj (Some d) -> D <> TGone -> points s d b -> has_items s b m -> points s' d b /\ exists m, has_items s' b m).
  { intros b d m ED ND P HI. apply (used_kept (owns l ++ out) a s' d b m H1 EX X); auto. apply in_or_app. left.
    apply entry_held with D (f_dst f); [apply IN; now left|]. apply refs_own; [exact ND|]. rewrite ED. now left. }
  split; [|intros b d m ED ND P HI; now apply (UK b d m)].
  split; [rewrite upd_length; exact K_len|]. split.
  - pose proof (BACK s' out [] G2) as G3. cbn [app] in G3. revert G3. apply good_perm. apply Permutation_sym, Permutation_middle.
  - intros b I. assert (I' := upd_in i TUsed (VObj (Some b)) N I ltac:(discriminate)). destruct (proj2 (proj2 K) b I') as (d & m & ED & ND & P & HI).
    destruct (UK b d m ED ND P HI) as (P' & m' & HI'). exists d, m'. auto.
Qed.
Lemma drop_null i : kn ks i <> TGone -> arg args i = VObj None -> J s out (upd i TGone ks) args D f st.
Proof.
  intros N E. destruct (to_front s out ks args i _ K_len N K_shift) as (l & G1 & IN & BACK). rewrite E in G1. apply good_none in G1.
  split; [rewrite upd_length; exact K_len|]. split.
  - pose proof (BACK s out [] G1) as G3. cbn [app] in G3. revert G3. apply good_perm. apply Permutation_sym, Permutation_middle.
  - intros b I. exact (proj2 (proj2 K) b (upd_in i TUsed (VObj (Some b)) N I ltac:(discriminate))).
Qed.
Lemma released a : (exists k, k <> TGone /\ In (k, VObj (Some a)) (combine ks args)) -> expected huge e s (KRelease a) ->
  exists s', exec huge fresh e (KRelease a) s = Ok None s'.
Proof.
  intros (k & N & I) X. apply in_split in I. destruct I as (l1 & l2 & E). pose proof K_good as G. rewrite E in G.
  destruct (release_entry s out k a ((D, f_dst f) :: l1 ++ l2 ++ r)) with (2 := N) (3 := X) as (s' & E' & _); [|eauto].
  revert G. apply good_perm. eapply Permutation_trans; [|apply perm_swap]. apply perm_skip. rewrite <- app_assoc. cbn. apply Permutation_sym, Permutation_middle.
Qed.
Lemma arg_in i : kn ks i <> TGone -> In (kn ks i, arg args i) (combine ks args) /\ vok s (kn ks i) (arg args i).
Proof. intros N. destruct (arg_ok s out ks args i _ K_len N K_shift) as (A & C & _). auto. Qed.
Lemma s_release i ks' D' : chk (SRelease i) ks D = Some (ks', D') -> holds (do_stmt vs below args (SRelease i) f) s out (post ks' args D' st).
Proof.
  cbn [chk do_stmt]. unfold guard. match goal with |- context [if ?b then _ else _] => destruct b eqn:Q; [|discriminate] end.
  intros Z. injection Z as <- <-. assert (N : kn ks i <> TGone) by (intros Z; rewrite Z in Q; discriminate Q).
  destruct (arg_in i N) as (I & V).
  assert (exists p, arg args i = VObj p) as (p & E).
  { destruct (kn ks i) as [| | | | | | | | | | | | | |k]; try discriminate Q; cbn in V.
    - destruct V; eauto.
    - destruct V as (a & -> & _); eauto.
    - destruct V as (a & -> & _); eauto.
    - destruct V as (a & -> & _); eauto.
    - destruct V as (a & -> & _); eauto.
    - exact V.
    - destruct k; try discriminate Q. destruct V as [->|(a & -> & _)]; eauto. }
  rewrite E. destruct p as [a|].
  - apply h_do. intros X. destruct (released a) as (s' & EX); [exists (kn ks i); rewrite <- E; auto|exact X|]. exists None, s'. split; [exact EX|].
    apply h_ret. cbn [post]. now apply drop_arg with a.
  - apply h_ret. cbn [post]. now apply drop_null.
Qed.
Lemma s_finalize i ks' D' : chk (SFinalize i) ks D = Some (ks', D') -> holds (do_stmt vs below args (SFinalize i) f) s out (post ks' args D' st).
Proof.
  cbn [chk do_stmt]. unfold guard. match goal with |- context [if ?b then _ else _] => destruct b eqn:Q; [|discriminate] end.
  intros Z. injection Z as <- <-. assert (QU : kn ks i = TUsed) by (destruct (kn ks i); try discriminate Q; reflexivity).
  assert (N : kn ks i <> TGone) by (rewrite QU; discriminate).
  destruct (arg_in i N) as (I & V). rewrite QU in V. destruct V as (p & E). rewrite E. destruct p as [a|].
  - rewrite QU, E in I. destruct (proj2 (proj2 K) a I) as (d & l & ED & ND & P & HI).
    apply h_do. intros X. destruct (released a) as (s' & EX); [exists TUsed; split; [discriminate|exact I]|exact X|]. exists None, s'. split; [exact EX|].
    destruct (drop_arg i s' a N E EX X) as (JJ & UK). destruct (UK a d l ED ND P HI) as (m & c & L & B0).
    apply h_look. rewrite L, B0. apply h_ret. exact JJ.
  - apply h_ret. cbn [post]. now apply drop_null.
Qed.
Lemma all_nothing : forallb nothing ks = true -> owns (combine ks args) = [].
Proof.
  intros F. apply (nothing_owns s ks args F). destruct K_good as (_ & G). inversion_clear G as [|? ? G1 G2]. apply Forall_app in G2. tauto.
Qed.
Lemma leave k : nothing D = true \/ f_dst f = VObj None -> forallb nothing ks = true -> k = sents st ++ ments (f_map f) -> Good s out k.
Proof.
  intros N F ->. pose proof K_good as G.
  assert (G' : Good s out B) by (destruct N as [N|N]; [exact (good_drop _ _ _ _ _ N G)|rewrite N in G; exact (good_none _ _ _ _ G)]).
  destruct G' as (H & FO). apply Forall_app in FO. split; [|tauto]. revert H. rewrite (owns_app (combine ks args)), (all_nothing F). auto.
Qed.
Lemma s_stop ks' D' : chk SStop ks D = Some (ks', D') -> holds (do_stmt vs below args SStop f) s out (post ks' args D' st).
Proof.
  simple_kind Q. destruct Q as [QD QK]. apply h_choose; apply h_ret; cbn [post]; [exact K|]. apply leave; auto.
Qed.
Lemma s_check ks' D' : chk SCheck ks D = Some (ks', D') -> holds (do_stmt vs below args SCheck f) s out (post ks' args D' st).
Proof.
  pose proof leave as LV. pose proof K_good as GG. pose proof K_len as LL. pose proof K as KK.
  cbn [chk do_stmt]. pose proof K_good as (_ & G). inversion_clear G as [|? ? V _]. unfold okay in V. cbn [fst snd] in V.
  assert (SAME : (exists a, f_dst f = VObj (Some a)) -> Some (ks, D) = Some (ks', D') ->
    holds match f_dst f with VObj (Some _) => Ret (Go f) | VObj None => Ret (Leave f) | _ => Stuck end s out (post ks' args D' st)).
  { intros (a & ->) Z. injection Z as <- <-. apply h_ret. exact KK. }
  destruct D as [| | | | | | | | | | | | | |k] eqn:DE; try discriminate; unfold guard; cbn [obj].
  - intros Z. destruct V as (a & V). apply SAME; eauto.
  - intros Z. destruct V as (a & V & _). apply SAME; eauto.
  - intros Z. destruct V as (a & V & _). apply SAME; eauto.
  - intros Z. destruct V as (a & V & _). apply SAME; eauto.
  - intros Z. destruct V as (a & V & _). apply SAME; eauto.
  - clear SAME. destruct (obj k && forallb nothing ks) eqn:Q; [|discriminate]. intros Z. injection Z as <- <-. apply andb_true_iff in Q. destruct Q as [QO QN].
    destruct V as [V|V].
    + rewrite V. apply h_ret. cbn [post]. apply LV; auto.
    + assert (exists a, f_dst f = VObj (Some a)) as (a & E).
      { destruct k; try discriminate QO; cbn in V; destruct V as (a & V); [eauto|destruct V; eauto..]. }
      rewrite E. apply h_ret. cbn [post]. split; [exact LL|]. split.
      * apply (good_as _ _ _ _ k _ GG V). unfold own. cbn. destruct k; try discriminate QO; reflexivity.
      * intros b I. exfalso. rewrite forallb_forall in QN. apply in_combine_l in I. specialize (QN _ I). discriminate QN.
Qed.
Lemma s_prefix i j ks' D' : chk (SPrefixAdd i j) ks D = Some (ks', D') -> holds (do_stmt vs below args (SPrefixAdd i j) f) s out (post ks' args D' st).
Proof.
  simple_kind Q. destruct (kn ks i) eqn:QI; try discriminate Q. destruct (kn ks j) eqn:QJ; try discriminate Q.
  destruct (arg_in i ltac:(rewrite QI; discriminate)) as (_ & VI). destruct (arg_in j ltac:(rewrite QJ; discriminate)) as (_ & VJ).
  rewrite QI in VI. rewrite QJ in VJ. destruct VI as (p & -> & TP). destruct VJ as (n & -> & TN). pose proof K_good as G.
  rewrite app_assoc, app_comm_cons in G. apply h_then. eapply h_post; [apply (map_add_ok s out _ (f_map f) p n G TP TN)|].
  cbn. intros m s' out' (-> & G' & _). apply h_ret. cbn [post]. apply J_idle; [exact ID|exact K_len|]. cbn [f_dst f_map]. rewrite app_assoc. exact G'.
Qed.
Lemma s_push i ks' D' : chk (SPush i) ks D = Some (ks', D') -> holds (do_stmt vs below args (SPush i) f) s out (post ks' args D' st).
Proof.
  simple_kind Q. destruct Q as [QD QO].
  assert (N : kn ks i <> TGone) by (intros Z; rewrite Z in QO; discriminate QO).
  destruct (arg_in i N) as (_ & V). assert (exists x, arg args i = VObj (Some x)) as (x & EX).
  { destruct (kn ks i); try discriminate QO; cbn in V; destruct V as (a & V); [eauto|destruct V; eauto..]. }
  pose proof K_good as (_ & G0). inversion_clear G0 as [|? ? VD _]. unfold okay in VD. cbn [fst snd] in VD.
  assert (exists v, f_dst f = VObj (Some v) /\ private s v) as (v & ED & PV).
  { destruct D; try discriminate QD; cbn in VD; destruct VD as (a & A1 & A2); [eauto|destruct A2; eauto]. }
  assert (ND : D <> TGone) by (destruct D; try discriminate QD; discriminate). assert (PD : is_priv D = true) by (destruct D; try discriminate QD; reflexivity).
  rewrite ED, EX. apply h_do. intros X. destruct (pick ks args i K_len N) as (l1 & l2' & EC & _ & UC). rewrite EX in EC, UC.
  assert (G2 : Good s out ((D, VObj (Some v)) :: (kn ks i, VObj (Some x)) :: l1 ++ l2' ++ r)).
  { pose proof K_good as G. rewrite EC, ED in G. revert G. apply good_perm. apply perm_skip. rewrite <- app_assoc. cbn. apply Permutation_sym, Permutation_middle. }
  set (l2 := l2' ++ r) in *.
  assert (OX : own (kn ks i, VObj (Some x)) = [x]) by (unfold own; cbn; destruct (kn ks i); try reflexivity; congruence).
  assert (OV : own (D, VObj (Some v)) = [v]) by (unfold own; cbn; destruct D; try reflexivity; congruence).
  assert (H2 : Hist s (v :: x :: owns (l1 ++ l2) ++ out)) by (destruct G2 as (H2 & _); cbn [owns flat_map] in H2; rewrite OX, OV in H2; exact H2).
  destruct (private_alone huge fresh fresh_ok e vs lib s _ v H2 PV) as (P0 & NL & NO).
  assert (NX : x <> v) by (intros ->; apply NO; now left).
  assert (NC : SpecHeap.no_cycle s (KVectorPush v x)) by (cbn; intros R; now apply (reach_none s x v P0) in R).
  assert (OWN : owns ((D, VObj (Some v)) :: (kn ks i, VObj (Some x)) :: l1 ++ l2) = v :: x :: owns (l1 ++ l2)) by (cbn [owns flat_map]; rewrite OX, OV; reflexivity).
  assert (AL : allowed huge e lib (owns ((D, VObj (Some v)) :: (kn ks i, VObj (Some x)) :: l1 ++ l2) ++ out) s (KVectorPush v x)).
  { rewrite OWN. split; [split|cbn; auto].
    - apply (held_usable huge fresh fresh_ok e vs lib s _ H2). apply in_or_app. right. now left.
    - destruct PV as (c & L & T & _). exists c. auto. }
  destruct (good_call s out _ _ G2 AL NC X) as (r0 & s' & E & G3).
  destruct (push_private huge fresh fresh_ok e vs lib s _ H2 v x PV) as (c & m & s1 & L & BD & E1 & HP).
  rewrite E in E1. injection E1 as -> <-. exists None, s'. split; [exact E|]. apply h_ret. cbn [post]. 
  assert (G4 : Good s' out ((TMay TAny, VObj None) :: (TAny, VObj (Some v)) :: l1 ++ l2)).
  { apply G3.
    - rewrite OWN. cbn [after app give_up]. destruct (N.eqb_spec v x); [congruence|]. rewrite N.eqb_refl. apply Permutation_refl.
    - destruct G2 as (_ & F). inversion_clear F as [|? ? F1 F2]. inversion_clear F2 as [|? ? F3 F4]. constructor; [cbn; eauto|exact F4].
    - intros kd w a [Z|I] P R A; [injection Z as <- _; discriminate P|]. destruct A as [<-|[<-|[]]].
      + apply (head_apart s out D (VObj (Some v)) _ v kd w G2); auto; [rewrite OV; now left|now right].
      + apply good_swap in G2. apply (head_apart s out _ (VObj (Some x)) _ x kd w G2); auto; [rewrite OX; now left|now right]. }
  apply good_none in G4.
  assert (G5 : Good s' out ((TVec, VObj (Some v)) :: l1 ++ l2)).
  { apply (good_as _ _ _ _ TVec _ G4); [|reflexivity].
    assert (L' : lookup (s_heap s') v = Some (mkCell (c_hdr c) (BVec (m ++ [x])))) by (rewrite HP, ProofHeap.lookup_store, N.eqb_refl, L; reflexivity).
    destruct PV as (c' & L2 & T2 & R2). rewrite L in L2. injection L2 as <-. cbn. exists v. split; [reflexivity|]. split.
    - eexists. split; [exact L'|]. auto.
    - destruct (m ++ [x]) as [|y m'] eqn:Z; [destruct m; discriminate Z|]. exists y, m'. eexists. split; [exact L'|reflexivity]. }
  split; [rewrite upd_length; exact K_len|]. split.
  - rewrite ED, UC. apply good_perm with ((TGone, VObj (Some x)) :: (TVec, VObj (Some v)) :: l1 ++ l2); [|now apply good_gone].
    eapply Permutation_trans; [apply perm_swap|]. apply perm_skip. rewrite <- app_assoc. cbn. apply Permutation_middle.
  - intros a Z. exfalso. exact (idle_unused _ args _ (idle_upd i ks ID) Z).
Qed.

Lemma not_gone_owns : forallb (fun k => negb (is_gone k)) ks = true -> owns (combine ks args) = flat_map refs args.
Proof.
  pose proof K_len as L. clear -L. revert L. generalize args. induction ks as [|k l IH]; intros [|v m] L F; cbn in *; try discriminate L; [reflexivity|].
  apply andb_true_iff in F. destruct F as [F1 F2]. unfold owns in IH. rewrite IH; auto. f_equal. unfold own. cbn. destruct k; try reflexivity. discriminate F1.
Qed.
Lemma others_one l i : ~ In i l -> forall (m : list value) n, (n <= i < n + List.length m)%nat ->
  Permutation (flat_map refs (others l n m)) (refs (nth (i - n) m VNone) ++ flat_map refs (others (i :: l) n m)).
Proof.
  intros NI. induction m as [|v m IH]; intros n LE; cbn [List.length] in LE; [lia|]. cbn [others existsb].
  destruct (Nat.eqb_spec n i) as [->|NE].
  - rewrite Nat.sub_diag. cbn [nth app]. destruct (existsb (Nat.eqb i) l) eqn:Z.
    { exfalso. apply existsb_exists in Z. destruct Z as (j & J & Z). apply Nat.eqb_eq in Z. subst j. auto. }
    cbn [app flat_map orb]. apply Permutation_app_head.
    assert (E : forall n, (i < n)%nat -> others l n m = others (i :: l) n m).
    { clear. induction m as [|w m IH]; intros n LT; [reflexivity|]. cbn [others existsb]. destruct (Nat.eqb_spec n i); [lia|]. cbn [orb]. f_equal. apply IH. lia. }
    rewrite (E (S i)) by lia. apply Permutation_refl.
  - cbn [orb]. replace (i - n)%nat with (S (i - S n)) by lia. cbn [nth]. specialize (IH (S n) ltac:(lia)).
    rewrite !flat_map_app. eapply Permutation_trans; [apply Permutation_app_head, IH|]. rewrite !app_assoc. apply Permutation_app_tail, Permutation_app_comm.
Qed.
Lemma others_nil (m : list value) : forall n, others [] n m = m.
Proof. induction m as [|v m IH]; intros n; cbn; [reflexivity|]. now rewrite IH. Qed.
Lemma others_swap l l' (m : list value) : (forall i, In i l <-> In i l') -> forall n, others l n m = others l' n m.
Proof.
  intros Q. induction m as [|v m IH]; intros n; cbn; [reflexivity|]. rewrite IH. f_equal.
  assert (existsb (Nat.eqb n) l = existsb (Nat.eqb n) l') as ->; [|reflexivity].
  apply Bool.eq_true_iff_eq. rewrite !existsb_exists. split; intros (j & J1 & J2); exists j; (split; [now apply Q|exact J2]).
Qed.
Lemma handle_perm l ps : Forall2 (fun i p => arg args i = VObj p) l ps -> distinct l = true -> (forall i, In i l -> (1 <= i <= List.length args)%nat) ->
  Permutation (flat_map refs args) (flat_map opt_list ps ++ flat_map refs (others l 1 args)).
Proof.
  intros F. induction F as [|i p l ps E F IH]; intros DI RG; [rewrite others_nil; apply Permutation_refl|].
  cbn [distinct] in DI. apply andb_true_iff in DI. destruct DI as [D1 D2]. eapply Permutation_trans; [apply IH; [exact D2|intros j I; apply RG; now right]|].
  assert (NI : ~ In i l).
  { intros I. apply negb_true_iff in D1. assert (existsb (Nat.eqb i) l = true); [|congruence]. apply existsb_exists. exists i. split; [exact I|apply Nat.eqb_refl]. }
  specialize (RG i (or_introl eq_refl)). pose proof (others_one l i NI args 1 ltac:(lia)) as P.
  assert (A : refs (nth (i - 1) args VNone) = opt_list p).
  { unfold arg in E. replace (i - 1)%nat with (pred i) by lia. rewrite E. destruct p; reflexivity. }
  rewrite A in P. cbn [flat_map]. eapply Permutation_trans; [apply Permutation_app_head, P|]. rewrite !app_assoc. apply Permutation_app_tail, Permutation_app_comm.
Qed.
Lemma sents_owns : Forall (okay s) (sents st) -> owns (sents st) = stack_refs st.
Proof.
  unfold sents, owns, stack_refs. clear. induction st as [|(x, v) l IH]; intros F; [reflexivity|]. cbn in *. inversion_clear F as [|? ? F1 F2]. rewrite IH by exact F2. f_equal.
  assert (N : kind_of x <> TGone).
  { unfold kind_of. repeat match goal with |- context [if ?b then _ else _] => destruct b end; discriminate. }
  unfold own. cbn. destruct (kind_of x); try reflexivity. congruence.
Qed.
Lemma s_handle l ks' D' : chk (SHandle l) ks D = Some (ks', D') -> holds (do_stmt vs below args (SHandle l) f) s out (post ks' args D' st).
Proof.
  simple_kind Q. destruct Q as [[[DE QG] QD] QL]. apply gone in DE. rewrite forallb_forall in QL.
  assert (RG : forall i, In i l -> (1 <= i <= List.length args)%nat /\ solid (kn ks i) = true).
  { intros i I. specialize (QL i I). rewrite !andb_true_iff in QL. destruct QL as [[A1 A2] A3]. apply Nat.leb_le in A1, A2. rewrite K_len in A2. auto. }
  destruct (ptrs_ok l DE) as (ps & EP & F2).
  { apply Forall_forall. intros i I. left. now apply solid_obj, RG. }
  rewrite EP. pose proof (K_base DE) as G. pose proof G as (H & FO).
  pose proof (handle_perm l ps F2 QD (fun i I => proj1 (RG i I))) as PM.
  assert (OB : Permutation (owns B) (flat_map opt_list ps ++ flat_map refs (others l 1 args) ++ stack_refs st ++ map_refs (f_map f))).
  { rewrite !owns_app, ments_owns, (not_gone_owns QG), sents_owns.
    - eapply Permutation_trans; [apply Permutation_app_tail, PM|]. rewrite <- app_assoc. apply Permutation_refl.
    - apply Forall_app in FO. destruct FO as [_ FO]. apply Forall_app in FO. tauto. }
  set (passed := flat_map opt_list ps) in *. set (rest := flat_map refs (others l 1 args) ++ stack_refs st ++ map_refs (f_map f)) in *.
  assert (HH : forall o, Permutation (o ++ passed ++ rest) (owns B ++ o)).
  { intros o. eapply Permutation_trans; [|apply Permutation_app_comm]. apply Permutation_app_head. now apply Permutation_sym. }
  apply h_hand. intros s' out' W. destruct (client_ok huge fresh fresh_ok e vs lib passed rest s out s' out' W) as (H' & KT & KA).
  { revert H. apply hist_perm. apply Permutation_sym, HH. }
  apply h_ret. cbn [post]. split; [exact K_len|]. split; [|intros a Z; exfalso; exact (idle_unused ks args _ ID Z)]. rewrite DE. apply good_gone.
  split; [revert H'; apply hist_perm, HH|]. rewrite Forall_forall in *. intros (kd, v) I. pose proof (FO _ I) as V. unfold okay in *. cbn [fst snd] in *.
  assert (HELD : forall a, In a (own (kd, v)) -> In a (lib ++ passed ++ rest)).
  { intros a A. apply in_or_app. right. apply (Permutation_in a OB). now apply entry_held with kd v. }
  assert (SAME : forall a, is_priv kd = true -> In a (refs v) -> private s a -> lookup (s_heap s') a = lookup (s_heap s) a).
  { intros a P A PV. apply KA. apply in_split in I. destruct I as (b1 & b2 & EB).
    assert (OA : own (kd, v) = [a]).
    { unfold own. cbn. destruct v as [| | | |[y|]]; try (destruct A; fail). destruct A as [->|[]]. destruct kd; try reflexivity. discriminate P. }
    assert (PB : Permutation (owns B ++ out) (a :: owns (b1 ++ b2) ++ out)).
    { rewrite EB, !owns_app. cbn [owns flat_map]. rewrite OA. rewrite <- !app_assoc. cbn. apply Permutation_sym, Permutation_middle. }
    apply (private_apart huge fresh fresh_ok e vs lib s (owns (b1 ++ b2) ++ out) a (out ++ passed)); [revert H; now apply hist_perm|exact PV|].
    intros Z. apply in_app_iff in Z. destruct Z as [Z|Z].
    - destruct (private_alone huge fresh fresh_ok e vs lib s (owns (b1 ++ b2) ++ out) a (hist_perm huge fresh e vs lib s _ _ PB H) PV) as (_ & _ & NO).
      apply NO. apply in_or_app. now right.
    - destruct (two_refs l ps a F2 Z) as (i & II & RI). destruct (RG i II) as (_ & SI). destruct (obj_kind i (proj1 (solid_obj _ SI)) DE) as (y & EY & _).
      rewrite EY in RI. destruct RI as [->|[]].
      apply (solid_free i a kd v SI DE EY); auto. rewrite EB. apply in_or_app. right. now left. }
  clear -V HELD SAME KT. induction kd; cbn [vok] in *; auto.
  - destruct V as (a & -> & T). exists a. split; [reflexivity|]. apply KT; [apply HELD; now left|exact T].
  - destruct V as (a & -> & T). exists a. split; [reflexivity|]. apply KT; [apply HELD; now left|exact T].
  - destruct V as (a & -> & T). exists a. split; [reflexivity|]. unfold ProofReadCalls.private in *. rewrite (SAME a eq_refl (or_introl eq_refl) T). exact T.
  - destruct V as (a & -> & T & y & m & HI). exists a. split; [reflexivity|]. unfold ProofReadCalls.private, has_items in *. rewrite (SAME a eq_refl (or_introl eq_refl) T). eauto.
  - destruct V as (a & -> & [T|T]); exists a; (split; [reflexivity|]); [left|right]; (apply KT; [apply HELD; now left|exact T]).
  - destruct V as (a & -> & T). exists a. split; [reflexivity|]. apply KT; [apply HELD; now left|exact T].
  - destruct V as [V|V]; [now left|]. right. apply IHkd; auto. intros a A. destruct kd; auto. destruct A.
Qed.

Theorem stmt_ok x ks' D' : chk x ks D = Some (ks', D') -> holds (do_stmt vs below args x f) s out (post ks' args D' st).
Proof.
  destruct x.
  - apply s_null.
  - apply s_move.
  - apply s_iri.
  - apply s_short.
  - apply s_string.
  - apply s_own.
  - apply s_entity.
  - apply s_anon.
  - apply s_literal.
  - apply s_make.
  - apply s_chain.
  - apply s_vector.
  - apply s_unless.
  - apply s_push.
  - apply s_release.
  - apply s_finalize.
  - apply s_check.
  - apply s_handle.
  - apply s_prefix.
  - apply s_stop.
Qed.
End Stmt.

(** * Actions *)

Lemma action_ok l : forall s out args f st ks D ks' D', J s out ks args D f st -> chks l ks D = Some (ks', D') ->
  holds (do_action vs (stack_refs st) args l f) s out (post ks' args D' st).
Proof.
  induction l as [|x l IH]; intros s out args f st ks D ks' D' K Q; cbn [chks do_action] in *.
  - injection Q as <- <-. apply h_ret. exact K.
  - destruct (chk x ks D) as [[k1 d1]|] eqn:C; [|discriminate Q]. apply h_then.
    eapply h_post; [apply (stmt_ok s out args f st ks D K x k1 d1 C)|].
    intros [f1|f1] s1 out1 P; cbn [post] in P; [exact (IH s1 out1 args f1 st k1 d1 ks' D' P Q)|]. apply h_ret. exact P.
Qed.

(** * The parser *)

Definition owning (k : kind) : bool := negb (nothing k).
Lemma in_types l x : type_in l x <> ""%string -> In (x, type_in l x) l.
Proof.
  induction l as [|(y, t) l IH]; cbn; [congruence|]. destruct (String.eqb_spec x y) as [->|]; [auto|]. intros N. right. auto.
Qed.
Definition typed_ok (x : string) : bool :=
  Bool.eqb (destroyed x) (owning (kind_of x)) && Bool.eqb (String.eqb (ctype x) "") (match kind_of x with TNone => true | _ => false end).
Lemma types_ok : forallb (fun x => typed_ok (fst x)) (token_types ++ symbol_types) = true.
Proof. vm_compute. reflexivity. Qed.
Lemma destroyed_owning x : typed_ok x = true.
Proof.
  destruct (String.eqb_spec (ctype x) "") as [E|N].
  - destruct (existsb (fun y => String.eqb x (fst y)) (token_types ++ symbol_types)) eqn:Z.
    + apply existsb_exists in Z. destruct Z as (y & I & Q). apply String.eqb_eq in Q. subst x. pose proof types_ok as F. rewrite forallb_forall in F. now apply F.
    + assert (Q : forall z, In z (map fst (token_types ++ symbol_types)) -> String.eqb x z = false).
      { intros z I. apply in_map_iff in I. destruct I as (y & <- & I). destruct (String.eqb x (fst y)) eqn:W; [|reflexivity].
        assert (existsb (fun y => String.eqb x (fst y)) (token_types ++ symbol_types) = true) by (apply existsb_exists; eauto). congruence. }
      unfold typed_ok, destroyed, owning, kind_of. rewrite E.
      rewrite (Q "QUOTED_STRING"%string), (Q "PNAME_LN"%string); [vm_compute; reflexivity| |]; clear; vm_compute; tauto.
  - pose proof (in_types _ x N) as I. pose proof types_ok as F. rewrite forallb_forall in F. exact (F _ I).
Qed.
Lemma take_ok rhs : forall st args0 args st', take rhs st args0 = Some (args, st') ->
  exists l, args = rev l ++ args0 /\ sents st = combine (map kind_of rhs) l ++ sents st' /\ List.length l = List.length rhs.
Proof.
  induction rhs as [|x rhs IH]; intros st args0 args st' E; cbn in E.
  - injection E as <- <-. exists []. auto.
  - destruct st as [|(y, v) st]; [discriminate E|]. destruct (String.eqb_spec x y) as [->|]; [|discriminate E].
    destruct (IH _ _ _ _ E) as (l & -> & ES & LN). exists (v :: l). cbn [rev List.length map combine app].
    rewrite LN, <- app_assoc. change (sents ((y, v) :: st)) with ((kind_of y, v) :: sents st). rewrite ES. auto.
Qed.
Lemma combine_rev {A B} (l : list A) (m : list B) : List.length l = List.length m -> Permutation (combine (rev l) (rev m)) (combine l m).
Proof.
  revert m. induction l as [|x l IH]; intros [|y m] L; cbn in *; try discriminate L; [constructor|].
  assert (combine (rev l ++ [x]) (rev m ++ [y]) = combine (rev l) (rev m) ++ [(x, y)]) as ->.
  { assert (LL : List.length (rev l) = List.length (rev m)) by (rewrite !rev_length; lia). revert LL. generalize (rev l), (rev m). clear.
    induction l as [|a l IH]; intros [|b m] L; cbn in *; try discriminate L; [reflexivity|]. rewrite IH; auto. }
  eapply Permutation_trans; [apply Permutation_app_comm|]. cbn. apply perm_skip. apply IH. lia.
Qed.
Lemma kind_may x k : kind_of x = TMay k -> k = TVec.
Proof. unfold kind_of. repeat match goal with |- context [if ?b then _ else _] => destruct b end; intros Q; try discriminate Q; now injection Q. Qed.
Lemma discard_ok st : forall s out l, Good s out (sents st ++ l) -> holds (discard st) s out (fun _ s' out' => out' = out /\ Good s' out l).
Proof.
  induction st as [|(x, v) st IH]; intros s out l G; cbn [discard]; [apply h_ret; auto|].
  pose proof (destroyed_owning x) as Q. unfold typed_ok in Q. apply andb_true_iff in Q. destruct Q as [Q _]. apply Bool.eqb_prop in Q. rewrite Q.
  cbn [sents map fst snd app] in G. unfold owning. destruct (nothing (kind_of x)) eqn:N; cbn [negb].
  - apply IH. exact (good_drop _ _ _ _ _ N G).
  - assert (NG : kind_of x <> TGone) by (intros Z; rewrite Z in N; discriminate N).
    assert (exists p, v = VObj p) as (p & ->).
    { destruct G as (_ & F). inversion_clear F as [|? ? V _]. unfold okay in V. cbn [fst snd] in V. pose proof (kind_may x) as M.
      clear -V N M. destruct (kind_of x) as [| | | | | | | | | | | | | |k]; cbn in *; try discriminate N.
      - destruct V as (a & ->); eauto.
      - destruct V as (a & -> & _); eauto.
      - destruct V as (a & -> & _); eauto.
      - destruct V as (a & -> & _); eauto.
      - destruct V as (a & -> & _); eauto.
      - destruct V as (a & -> & _); eauto.
      - destruct V as (a & -> & _); eauto.
      - exact V.
      - rewrite (M k eq_refl) in V. destruct V as [->|(a & -> & _)]; eauto. }
    destruct p as [a|].
    + apply h_do. intros X. destruct (release_entry s out (kind_of x) a _ G NG X) as (s1 & E1 & G1). exists None, s1. split; [exact E1|]. now apply IH.
    + apply IH. exact (good_none _ _ _ _ G).
Qed.
Lemma finish_ok s out st m b : Good s out (sents st ++ ments m) -> holds (finish st m b) s out (fun _ s' out' => Good s' out' []).
Proof.
  intros G. unfold finish. apply h_then. eapply h_post; [apply (discard_ok st s out _ G)|]. cbn. intros _ s1 o1 (-> & G1).
  apply h_then. eapply h_post; [apply (map_free_ok m s1 out G1)|]. cbn. intros _ s2 o2 (-> & G2). apply h_ret. exact G2.
Qed.
Lemma token_ok s x v : token_value x v = true -> vok s (kind_of x) v /\ refs v = [].
Proof.
  unfold token_value. intros Q. apply andb_true_iff in Q. destruct Q as [QT QV].
  assert (KO : In x (map fst token_types)) by (apply existsb_exists in QT; destruct QT as (y & I & Z); apply String.eqb_eq in Z; subst x; now apply in_map).
  destruct v as [|t|t|n|p]; try discriminate QV; (split; [|reflexivity]).
  - pose proof (destroyed_owning x) as Z. unfold typed_ok in Z. rewrite QV in Z. apply andb_true_iff in Z. destruct Z as [_ Z]. apply Bool.eqb_prop in Z.
    destruct (kind_of x); try discriminate Z. reflexivity.
  - rewrite !andb_true_iff in QV. destruct QV as [[QC QQ] QN]. unfold kind_of. apply negb_true_iff in QQ. rewrite QQ.
    destruct (String.eqb x "PNAME_LN") eqn:Z.
    + cbn in QN. apply existsb_exists in QN. destruct QN as (c & I & E). apply N.eqb_eq in E. subst c. cbn. eauto.
    + apply String.eqb_eq in QC. rewrite QC. cbn. eauto.
  - unfold kind_of. rewrite QV. cbn. eauto.
  - apply String.eqb_eq in QV. unfold kind_of. rewrite QV.
    destruct (String.eqb_spec x "QUOTED_STRING") as [->|]; [discriminate QV|]. destruct (String.eqb_spec x "PNAME_LN") as [->|]; [discriminate QV|]. cbn. eauto.
Qed.
Lemma sub_ok s k k' v : sub k k' = true -> vok s k v -> vok s k' v /\ own (k', v) = own (k, v).
Proof.
  intros S V. destruct k as [| | | | | | | | | | | | | |[]], k' as [| | | | | | | | | | | | | |[]]; try discriminate S; cbn in *; (split; [|reflexivity]); auto; destruct V as (a & -> & _); eauto.
Qed.
Lemma parse_ok l : forall s out st m b, Good s out (sents st ++ ments m) -> holds (parse vs l st m b) s out (fun _ s' out' => Good s' out' []).
Proof.
  induction l as [|[x v|n] l IH]; intros s out st m b G; cbn [parse].
  - now apply finish_ok.
  - destruct (token_value x v) eqn:T; [|apply h_never]. apply IH. destruct (token_ok s x v T) as (V & R). destruct G as (H & F). split.
    + cbn [sents map app owns flat_map fst snd]. assert (own (kind_of x, v) = []) as -> by (unfold own; cbn; rewrite R; destruct (kind_of x); reflexivity). exact H.
    + constructor; [exact V|exact F].
  - destruct (nth_error rules n) as [[[lhs rhs] acts]|] eqn:E; [|apply h_never].
    destruct (take (rev rhs) st []) as [[args st']|] eqn:T; [|apply h_never].
    destruct (take_ok _ _ _ _ _ T) as (vs0 & -> & ES & LN). rewrite app_nil_r.
    pose proof rules_ok as RO. rewrite forallb_forall in RO. specialize (RO _ (nth_error_In _ _ E)). unfold rule_ok in RO.
    destruct (chks acts (map kind_of rhs) TGone) as [[ks' D']|] eqn:C; [|discriminate RO]. apply andb_true_iff in RO. destruct RO as [RN RS].
    assert (LL : List.length (map kind_of rhs) = List.length (rev vs0)) by (rewrite map_length, rev_length, LN, rev_length; reflexivity).
    apply h_then. eapply h_post; [apply (action_ok acts s out (rev vs0) _ st' (map kind_of rhs) TGone ks' D')|].
    + split; [exact LL|]. split.
      * cbn [f_dst f_map]. apply good_gone. revert G. apply good_perm. rewrite ES, <- app_assoc. apply Permutation_app_tail.
        rewrite map_rev. rewrite <- (rev_involutive vs0) at 1. apply combine_rev. exact LL.
      * intros a I. exfalso. apply in_combine_l in I. apply in_map_iff in I. destruct I as (y & Z & _).
        unfold kind_of in Z. repeat match type of Z with context [if ?b then _ else _] => destruct b end; discriminate Z.
    + exact C.
    + intros [f|f] s1 out1 P; cbn [post] in P; [|now apply finish_ok]. apply IH. destruct P as (LK & G1 & _).
      destruct G1 as (H1 & F1). inversion_clear F1 as [|? ? V F2]. apply Forall_app in F2. destruct F2 as [F2 F3].
      pose proof (nothing_owns s1 ks' (rev vs0) RN F2) as NO. unfold okay in V. cbn [fst snd] in V.
      change (owns ((D', f_dst f) :: combine ks' (rev vs0) ++ sents st' ++ ments (f_map f)) ++ out1) with
        ((own (D', f_dst f) ++ owns (combine ks' (rev vs0) ++ sents st' ++ ments (f_map f))) ++ out1) in H1.
      rewrite (owns_app (combine _ _)), NO in H1. cbn [app] in H1.
      pose proof (destroyed_owning lhs) as Z. unfold typed_ok in Z. apply andb_true_iff in Z. destruct Z as [_ Z]. apply Bool.eqb_prop in Z.
      destruct (String.eqb (ctype lhs) "") eqn:CT.
      * rewrite (nothing_own D' (f_dst f) s1 RS V) in H1. split; [|constructor; [|exact F3]].
        -- cbn [sents map app owns flat_map fst snd]. assert (own (kind_of lhs, VNone) = []) as -> by (unfold own; cbn; destruct (kind_of lhs); reflexivity). exact H1.
        -- unfold okay. cbn [fst snd]. destruct (kind_of lhs); try discriminate Z. reflexivity.
      * destruct (sub_ok s1 D' (kind_of lhs) (f_dst f) RS V) as (V' & O'). split; [|constructor; [exact V'|exact F3]].
        cbn [sents map app owns flat_map fst snd]. rewrite O'. exact H1.
Qed.
Theorem read_ok s out global l : Hist s out -> (forall p n, In (p, n) global -> has_type huge s p OT_STRING /\ has_type huge s n OT_STRING) ->
  holds (read_document vs global l) s out (fun _ s' out' => Hist s' out').
Proof.
  intros H GL. unfold read_document. apply h_then.
  eapply h_post; [apply (map_merge_ok (reserved vs ++ global) s out [] [])|].
  - split; [exact H|constructor].
  - intros p n I. apply in_app_iff in I. destruct I as [I|I]; [|now apply GL].
    destruct (reserved_strings huge fresh fresh_ok e vs lib s out H p n I) as (_ & A & _ & B0). auto.
  - cbn. intros m s1 o1 (-> & G1). eapply h_post; [apply (parse_ok l s1 out [] m 0 G1)|]. cbn. intros _ s2 o2 (H2 & _). exact H2.
Qed.

End Sound.
