(** Proofs about the texts of errors. *)

From Coq Require Import String NArith ZArith List Bool Lia.
From Verif Require Import Bytes ModelText SpecText ModelError SpecError ProofText.
Import ListNotations.
Local Open Scope list_scope.
Local Open Scope N_scope.

(** * Cutting texts *)

Lemma cut_at {c : N} : forall a1 a2 b1 b2, ~ In c a1 -> ~ In c a2 -> a1 ++ c :: b1 = a2 ++ c :: b2 -> a1 = a2 /\ b1 = b2.
Proof.
  induction a1 as [|x a1 IH]; intros [|y a2] b1 b2 N1 N2 E; simpl in *.
  - now injection E as <-.
  - injection E as <- _. tauto.
  - injection E as <- _. tauto.
  - injection E as <- E. destruct (IH a2 b1 b2) as [-> ->]; auto.
Qed.

Lemma cut_digits : forall d1 d2 r1 r2, Forall is_digit d1 -> Forall is_digit d2 ->
  match r1 with [] => True | c :: _ => ~ is_digit c end -> match r2 with [] => True | c :: _ => ~ is_digit c end ->
  d1 ++ r1 = d2 ++ r2 -> d1 = d2 /\ r1 = r2.
Proof.
  induction d1 as [|x d1 IH]; intros [|y d2] r1 r2 F1 F2 H1 H2 E; simpl in *; subst.
  - auto.
  - inversion_clear F2. tauto.
  - inversion_clear F1. tauto.
  - inversion_clear F1. inversion_clear F2. injection E as <- E. destruct (IH d2 r1 r2) as [-> ->]; auto.
Qed.

(** * The parts of a location *)

Lemma uint_text n : exists s, str_from_uint n = Some s /\ s <> [] /\ Forall is_digit s /\ dec_value s = n.
Proof.
  destruct (str_from_uint_spec n) as (s & E & F & V & Z & H). exists s. repeat split; auto. intros ->.
  destruct (N.eq_dec n 0) as [->|N0]; [discriminate (Z eq_refl)|]. now apply H in N0.
Qed.
Lemma uint_text_inj a b s : str_from_uint a = Some s -> str_from_uint b = Some s -> a = b.
Proof.
  destruct (uint_text a) as (s1 & E1 & _ & _ & V1). destruct (uint_text b) as (s2 & E2 & _ & _ & V2). congruence.
Qed.

Lemma locs_total : forall l comma, exists t, write_locs comma l = Some t.
Proof.
  induction l as [|[v n] l IH]; intros comma; simpl; eauto. destruct (v =? 0); auto.
  destruct (uint_text v) as (s & -> & _). destruct (IH true) as (t & ->). eauto.
Qed.

(** What the text begins with. *)
Lemma locs_begin : forall l comma t, write_locs comma l = Some t ->
  t = [] \/ exists name rest, In name (map snd l) /\ t = (if comma then bs ", " else []) ++ name ++ rest.
Proof.
  induction l as [|[v n] l IH]; intros comma t E; simpl in E; [injection E as <-; auto|].
  destruct (v =? 0).
  - destruct (IH comma t E) as [->|(name & rest & I & ->)]; auto. right. exists name, rest. simpl; auto.
  - destruct (uint_text v) as (s & Es & _). rewrite Es in E. destruct (write_locs true l) as [r|]; [|discriminate].
    injection E as <-. right. exists n, (s ++ r). simpl; auto.
Qed.

Lemma locs_then l t : write_locs true l = Some t -> match t with [] => True | c :: _ => ~ is_digit c end.
Proof.
  intros E. destruct (locs_begin l true t E) as [->|(name & rest & _ & ->)]; cbn; auto. unfold is_digit. lia.
Qed.

(** Names that begin with different letters. *)
Definition initials (l : list bytes) : Prop := NoDup (map (hd 0) l) /\ Forall (fun n => n <> []) l.

Lemma locs_inj : forall ns v1 v2 comma t, initials ns -> List.length v1 = List.length ns -> List.length v2 = List.length ns ->
  write_locs comma (combine v1 ns) = Some t -> write_locs comma (combine v2 ns) = Some t -> v1 = v2.
Proof.
  assert (X : forall n ns (v : list N) comma s r, initials (n :: ns) ->
    write_locs comma (combine v ns) = Some ((if comma then bs ", " else []) ++ n ++ s ++ r) -> s <> [] -> False).
  { intros n ns v comma s r [D F] E S. inversion_clear D as [|? ? D1 _]. inversion_clear F as [|? ? F1 F2].
    destruct (locs_begin _ _ _ E) as [Q|(name & rest & I & Q)].
    - destruct n; [tauto|]. destruct comma; discriminate.
    - apply app_inv_head in Q. apply D1.
      assert (I' : In name ns) by (apply in_map_iff in I as ([u w] & <- & I); eapply in_combine_r; eauto).
      replace (hd 0 n) with (hd 0 name); [now apply in_map|].
      assert (name <> []) by (rewrite Forall_forall in F2; auto).
      destruct n, name; try tauto. simpl in *. congruence. }
  induction ns as [|n ns IH]; intros [|a v1] [|b v2] comma t I L1 L2 E1 E2; try discriminate; [reflexivity|].
  simpl in L1, L2. injection L1 as L1. injection L2 as L2.
  assert (I' : initials ns) by (destruct I as [D F]; inversion_clear D; inversion_clear F; split; auto).
  simpl in E1, E2. destruct (a =? 0) eqn:A, (b =? 0) eqn:B.
  - apply N.eqb_eq in A as ->. apply N.eqb_eq in B as ->. f_equal. eauto.
  - destruct (uint_text b) as (s & Es & S & _). rewrite Es in E2. destruct (write_locs true (combine v2 ns)) as [r|]; [|discriminate].
    injection E2 as <-. exfalso. eapply X; eauto.
  - destruct (uint_text a) as (s & Es & S & _). rewrite Es in E1. destruct (write_locs true (combine v1 ns)) as [r|]; [|discriminate].
    injection E1 as <-. exfalso. eapply X; eauto.
  - destruct (uint_text a) as (s1 & Es1 & S1 & D1 & V1). destruct (uint_text b) as (s2 & Es2 & S2 & D2 & V2).
    rewrite Es1 in E1. rewrite Es2 in E2.
    destruct (write_locs true (combine v1 ns)) as [r1|] eqn:W1; [|discriminate].
    destruct (write_locs true (combine v2 ns)) as [r2|] eqn:W2; [|discriminate].
    injection E1 as <-. injection E2 as E2. apply app_inv_head in E2. apply app_inv_head in E2.
    destruct (cut_digits s2 s1 r2 r1 D2 D1 (locs_then _ _ W2) (locs_then _ _ W1) E2) as [-> ->].
    f_equal; [congruence|]. eauto.
Qed.

(** Every part that is not 0 is mentioned. *)
Lemma locs_mention : forall l comma t v name, write_locs comma l = Some t -> In (v, name) l -> v <> 0 -> mentions t name v.
Proof.
  induction l as [|[a n] l IH]; intros comma t v name E I NZ; [destruct I|]. simpl in E. destruct I as [I|I].
  - injection I as -> ->. replace (v =? 0) with false in E by (symmetry; now apply N.eqb_neq).
    destruct (uint_text v) as (s & Es & S & D & V). rewrite Es in E. destruct (write_locs true l) as [r|] eqn:W; [|discriminate].
    injection E as <-. exists (if comma then bs ", " else []), s, r. repeat split; auto. exact (locs_then _ _ W).
  - destruct (a =? 0); eauto. destruct (uint_text a) as (s & Es & _). rewrite Es in E.
    destruct (write_locs true l) as [r|] eqn:W; [|discriminate]. injection E as <-.
    destruct (IH true r v name W I NZ) as (x & d & y & -> & H). exists ((if comma then bs ", " else []) ++ n ++ s ++ x), d, y.
    split; auto. now rewrite <- !app_assoc.
Qed.

(** * Texts *)

Section Text.
  Variable ulib : Z -> bytes.
  Let name := ret_to_string ulib.

  (** The parts of a text. *)
  Definition said_part (e : cerror) : bytes := match e_msg e with Some (_, t) => if has_message e then bs ": " ++ t else [] | None => [] end.
  Definition locs (e : cerror) : list (N * bytes) := [(e_line e, bs "line "); (e_col e, bs "col "); (e_byte e, bs "byte ")].
  Lemma text_parts e : (e_code e < 0)%Z -> exists l, write_locs false (locs e) = Some l /\
    error_text ulib (Some e) = Some (name (e_code e) ++ said_part e ++ (if has_loc e then bs " (" ++ l ++ bs ")" else [])).
  Proof.
    intros C. destruct (locs_total (locs e) false) as [l L]. exists l. split; auto. unfold error_text.
    replace (is_err (e_code e)) with true by (symmetry; now apply Z.ltb_lt). cbn [negb]. fold (said_part e).
    unfold locs in L. destruct (has_loc e); [now rewrite L|]. now rewrite app_nil_r.
  Qed.

  Lemma text_shows e : (e_code e < 0)%Z -> exists t, error_text ulib (Some e) = Some t /\
    (exists rest, t = name (e_code e) ++ rest) /\
    (forall m, message e = Some m -> exists a b, t = a ++ m ++ b) /\
    (e_line e <> 0 -> mentions t (bs "line ") (e_line e)) /\
    (e_col e <> 0 -> mentions t (bs "col ") (e_col e)) /\
    (e_byte e <> 0 -> mentions t (bs "byte ") (e_byte e)).
  Proof.
    intros C. destruct (text_parts e C) as (l & L & ->). eexists. split; [reflexivity|].
    assert (M : forall v n, In (v, n) (locs e) -> v <> 0 ->
      mentions (name (e_code e) ++ said_part e ++ (if has_loc e then bs " (" ++ l ++ bs ")" else [])) n v).
    { intros v n I NZ. destruct (locs_mention _ _ _ _ _ L I NZ) as (a & d & b & E & ND & F & V & B).
      replace (has_loc e) with true.
      - exists (name (e_code e) ++ said_part e ++ bs " (" ++ a), d, (b ++ bs ")").
        split; [rewrite E, <- !app_assoc; reflexivity|]. repeat split; auto.
        destruct b; auto. cbn. unfold is_digit. lia.
      - symmetry. unfold has_loc. simpl in I. destruct I as [I|[I|[I|[]]]]; injection I as <- <-; apply N.eqb_neq in NZ; rewrite NZ; cbn;
          now rewrite ?orb_true_r. }
    split; [eauto|]. split; [|repeat split; intros; apply M; auto; simpl; auto].
    intros m E. unfold message in E. unfold said_part, has_message. destruct (e_msg e) as [[b t]|]; [|discriminate].
    injection E as <-. cbn [snd]. destruct t as [|c t].
    - exists [], (name (e_code e) ++ [] ++ (if has_loc e then bs " (" ++ l ++ bs ")" else [])). reflexivity.
    - eexists (name (e_code e) ++ bs ": "), _. rewrite <- !app_assoc. reflexivity.
  Qed.

  Lemma text_nothing e : (forall c, (c < 0)%Z -> ulib c <> []) ->
    (error_text ulib e = Some [] <-> forall x, e = Some x -> (0 <= e_code x)%Z).
  Proof.
    intros NE. destruct e as [e|]; [|split; [discriminate|reflexivity]]. split.
    - intros E x X. injection X as <-. destruct (Z.le_gt_cases 0 (e_code e)) as [P|P]; auto.
      destruct (text_parts e P) as (l & _ & T). rewrite T in E. injection E as E.
      apply app_eq_nil in E as [E _]. unfold name, ret_to_string in E. destruct (e_code e =? ERR_SYNTAX)%Z; [discriminate|].
      now apply NE in E.
    - intros H. unfold error_text. now replace (is_err (e_code e)) with false by (symmetry; apply Z.ltb_ge; auto).
  Qed.


  Lemma text_same e1 e2 : (e_code e1 < 0)%Z -> (e_code e2 < 0)%Z -> clear_name (name (e_code e1)) -> clear_name (name (e_code e2)) ->
    clear_message e1 -> clear_message e2 -> error_text ulib (Some e1) = error_text ulib (Some e2) ->
    name (e_code e1) = name (e_code e2) /\ message e1 = message e2 /\ e_line e1 = e_line e2 /\ e_col e1 = e_col e2 /\ e_byte e1 = e_byte e2.
  Proof.
    intros C1 C2 G1 G2 M1 M2 E. destruct (text_parts e1 C1) as (l1 & L1 & T1). destruct (text_parts e2 C2) as (l2 & L2 & T2).
    rewrite T1, T2 in E. injection E as E. clear T1 T2.
    set (body e := name (e_code e) ++ said_part e) in *.
    assert (S : forall e, clear_message e -> (message e = None /\ said_part e = []) \/ exists m, message e = Some m /\ said_part e = bs ": " ++ m /\ ~ In 40 m).
    { intros e M. unfold clear_message, message in *. unfold said_part, has_message. destruct (e_msg e) as [[b m]|]; auto. right.
      destruct (M m eq_refl) as [N1 N2]. exists m. repeat split; auto. destruct m; [tauto|reflexivity]. }
    assert (B : forall e, clear_name (name (e_code e)) -> clear_message e -> ~ In 40 (body e)).
    { intros e C M I. apply in_app_or in I as [I|I].
      - now apply C in I.
      - destruct (S e M) as [[_ X]|(m & _ & X & N0)]; rewrite X in I; [destruct I|]. apply in_app_or in I as [I|I]; [|tauto].
        cbn in I. intuition discriminate. }
    rewrite !app_assoc in E. fold (body e1) in E. fold (body e2) in E.
    (* the location begins at the first bracket *)
    assert (LOC : body e1 = body e2 /\ e_line e1 = e_line e2 /\ e_col e1 = e_col e2 /\ e_byte e1 = e_byte e2).
    { assert (Z0 : forall e, has_loc e = false -> e_line e = 0 /\ e_col e = 0 /\ e_byte e = 0).
      { intros e H. unfold has_loc in H. apply orb_false_iff in H as [H H3]. apply orb_false_iff in H as [H1 H2].
        apply negb_false_iff, N.eqb_eq in H1, H2, H3. auto. }
      destruct (has_loc e1) eqn:H1, (has_loc e2) eqn:H2.
      - change (bs " (") with ([32] ++ [40]) in E. rewrite <- ?app_assoc in E. cbn [app] in E.
        replace (body e1 ++ 32 :: 40 :: l1 ++ [41]) with ((body e1 ++ [32]) ++ 40 :: l1 ++ [41]) in E by (now rewrite <- app_assoc).
        replace (body e2 ++ 32 :: 40 :: l2 ++ [41]) with ((body e2 ++ [32]) ++ 40 :: l2 ++ [41]) in E by (now rewrite <- app_assoc).
        apply (@cut_at 40) in E as [E1 E2].
        + apply app_inv_tail in E1. apply app_inv_tail in E2. subst l2. split; auto.
          assert (V : [e_line e1; e_col e1; e_byte e1] = [e_line e2; e_col e2; e_byte e2]).
          { apply (locs_inj [bs "line "; bs "col "; bs "byte "] _ _ false l1); auto.
            split; [cbn; repeat constructor; cbn; intuition discriminate | repeat constructor; discriminate]. }
          injection V as V1 V2 V3. auto.
        + intros I. apply in_app_or in I as [I|[I|[]]]; [exact (B e1 G1 M1 I) | discriminate].
        + intros I. apply in_app_or in I as [I|[I|[]]]; [exact (B e2 G2 M2 I) | discriminate].
      - exfalso. rewrite app_nil_r in E. apply (B e2 G2 M2). rewrite <- E. apply in_or_app. right. cbn. auto.
      - exfalso. rewrite app_nil_r in E. apply (B e1 G1 M1). rewrite E. apply in_or_app. right. cbn. auto.
      - rewrite !app_nil_r in E. destruct (Z0 _ H1) as (-> & -> & ->). destruct (Z0 _ H2) as (-> & -> & ->). auto. }
    destruct LOC as [LB LR].
    destruct G1 as (_ & K1 & _). destruct G2 as (_ & K2 & _).
    assert (Q : name (e_code e1) = name (e_code e2) /\ message e1 = message e2).
    { unfold body in LB. destruct (S e1 M1) as [[X1 Y1]|(m1 & X1 & Y1 & _)], (S e2 M2) as [[X2 Y2]|(m2 & X2 & Y2 & _)];
        rewrite X1, X2; rewrite Y1, Y2 in LB.
      - rewrite !app_nil_r in LB. auto.
      - exfalso. rewrite app_nil_r in LB. apply K1. rewrite LB. apply in_or_app. right. cbn. auto.
      - exfalso. rewrite app_nil_r in LB. apply K2. rewrite <- LB. apply in_or_app. right. cbn. auto.
      - cbn [app bs] in LB. change (bs ": " ++ m1) with (58 :: 32 :: m1) in LB. change (bs ": " ++ m2) with (58 :: 32 :: m2) in LB.
        apply cut_at in LB as [-> LB]; auto. injection LB as ->. auto. }
    destruct Q as [Q1 Q2]. split; auto.
  Qed.
End Text.
