(** Lemmas on ProtocOWL integers, number texts and literal values. *)

From Coq Require Import NArith ZArith String List Bool Lia.
From Coq Require Import ZifyBool ZifyNat ZifyN.
From Verif Require Import Bytes ModelTypes ModelObject ModelText SpecObject SpecText ProofObject ProofText
  ModelPrtValue SpecPrt.
Import ListNotations.
Local Open Scope N_scope.
Ltac Zify.zify_post_hook ::= Z.div_mod_to_equations.

(** * Varints *)

Lemma varint_groups_read g : forall n r, n < 128 ^ N.of_nat (S g) ->
  varint_read_groups (S g) (varint_groups (S g) n ++ r) = Some (n, r).
Proof.
  induction g as [|g IH]; intros n r H.
  - change (128 ^ N.of_nat 1) with 128 in H. cbn [varint_groups]. rewrite (proj2 (N.ltb_lt _ _) H).
    cbn. now rewrite (proj2 (N.ltb_lt _ _) H).
  - remember (S g) as g1. cbn [varint_groups]. destruct (N.ltb_spec n 128) as [L|L].
    + cbn. now rewrite (proj2 (N.ltb_lt _ _) L).
    + cbn [varint_read_groups app]. destruct (N.ltb_spec (n mod 128 + 128) 128) as [L2|L2]; [lia|].
      subst g1. rewrite IH.
      * f_equal. f_equal. lia.
      * rewrite (Nnat.Nat2N.inj_succ (S g)), N.pow_succ_r' in H. lia.
Qed.

Lemma varint_read_varint n r : n < 2 ^ 64 -> varint_read (varint n ++ r) = Some (n, r).
Proof.
  intros H. unfold varint_read, varint. rewrite (varint_groups_read 9).
  - now rewrite N.mod_small.
  - change (128 ^ N.of_nat 10) with (2 ^ 70). lia.
Qed.

Lemma varint_nonempty n : varint n <> [].
Proof. unfold varint. cbn [varint_groups]. destruct (n <? 128); discriminate. Qed.

Lemma varint_small n : n < 128 -> varint n = [n].
Proof. intros H. unfold varint. cbn [varint_groups]. now rewrite (proj2 (N.ltb_lt _ _) H). Qed.

Lemma zigzag_unzigzag z : unzigzag (zigzag z) = z.
Proof.
  unfold unzigzag, zigzag. destruct (Z.ltb_spec z 0) as [L|L].
  - replace (N.even (Z.to_N (-2 * z - 1))) with false by (symmetry; apply not_true_iff_false; rewrite N.even_spec; intros [k K]; lia).
    lia.
  - replace (N.even (Z.to_N (2 * z))) with true by (symmetry; rewrite N.even_spec; exists (Z.to_N z); lia). lia.
Qed.

(** The facts on widths used below. *)
Lemma width_pow w : width w -> (0 < 2 ^ (Z.of_N w - 1))%Z /\ (2 ^ Z.of_N w = 2 * 2 ^ (Z.of_N w - 1))%Z /\
  (2 ^ (Z.of_N w - 1) <= 2 ^ 63)%Z /\ Z.of_N (2 ^ w) = (2 ^ Z.of_N w)%Z /\ 2 ^ w <= 2 ^ 64 /\ (2 ^ 31 <= 2 ^ (Z.of_N w - 1))%Z.
Proof. intros [->| ->]; repeat split; vm_compute; congruence. Qed.

Lemma zigzag_bound z : in_range 64 z -> zigzag z < 2 ^ 64.
Proof.
  unfold in_range, zigzag. change (2 ^ (Z.of_N 64 - 1))%Z with (2 ^ 63)%Z.
  destruct (Z.ltb_spec z 0); change (2 ^ 64) with (Z.to_N (2 * 2 ^ 63)); lia.
Qed.

Lemma in_range_64 w z : width w -> in_range w z -> in_range 64 z.
Proof. intros W H. pose proof (width_pow w W). unfold in_range in *. change (2 ^ (Z.of_N 64 - 1))%Z with (2 ^ 63)%Z. lia. Qed.

Lemma to_int_id w z : width w -> in_range w z -> to_int w z = z.
Proof.
  intros W H. destruct (width_pow w W) as (P & E & _). unfold in_range in H. unfold to_int. rewrite E.
  set (h := (2 ^ (Z.of_N w - 1))%Z) in *. clearbody h. destruct (Z.ltb_spec (z mod (2 * h)) h) as [L|L].
  - destruct (Z_lt_dec z 0).
    + exfalso. rewrite <- (Z_mod_plus_full z 1), Z.mod_small in L; lia.
    + rewrite Z.mod_small; lia.
  - destruct (Z_lt_dec z 0).
    + rewrite <- (Z_mod_plus_full z 1), Z.mod_small; lia.
    + exfalso. rewrite Z.mod_small in L; lia.
Qed.

(** * Printing numbers *)

Lemma show_uint_plain n : nat_plain (show_uint n) n.
Proof.
  unfold show_uint. destruct (digits_loop_spec (S (N.to_nat (N.log2 n))) n) as (l & -> & Hv & HF & Hne & H0 & Hl).
  - rewrite Nnat.Nat2N.inj_succ, Nnat.N2Nat.id. destruct n as [|p]; [vm_compute; reflexivity|]. now apply N.log2_spec.
  - lia.
  - split; [now apply Forall_rev|]. split; [now rewrite dec_value_rev|].
    destruct (N.eq_dec n 0) as [E|E]; [left; now rewrite H0|right].
    destruct l as [|x l] using rev_ind; [easy|]. clear IHl. rewrite rev_app_distr. cbn. exists x, (rev l). split; auto.
    specialize (Hl E). now rewrite last_last in Hl.
Qed.

Lemma dec_value_from_ge d : forall acc, acc * 10 ^ N.of_nat (List.length d) <= dec_value_from acc d.
Proof.
  induction d as [|c d IH]; intros acc; cbn [dec_value_from List.length]; [cbn; lia|].
  rewrite Nnat.Nat2N.inj_succ, N.pow_succ_r'. specialize (IH (10 * acc + (c - 48))).
  eapply N.le_trans; [|exact IH]. rewrite N.mul_assoc. apply N.mul_le_mono_r. lia.
Qed.

Lemma dec_value_from_lt d : Forall is_digit d -> forall acc, dec_value_from acc d < (acc + 1) * 10 ^ N.of_nat (List.length d).
Proof.
  intros F. induction F as [|c d C F IH]; intros acc; cbn [dec_value_from List.length]; [cbn; lia|].
  rewrite Nnat.Nat2N.inj_succ, N.pow_succ_r'. specialize (IH (10 * acc + (c - 48))).
  eapply N.lt_le_trans; [exact IH|]. rewrite N.mul_assoc. apply N.mul_le_mono_r. unfold is_digit in C. lia.
Qed.

Lemma dec_value_from_inj d : forall e acc, List.length d = List.length e -> Forall is_digit d -> Forall is_digit e ->
  dec_value_from acc d = dec_value_from acc e -> d = e.
Proof.
  induction d as [|c d IH]; intros [|c' e] acc L F G E; try discriminate; auto.
  inversion F as [|? ? C F']; inversion G as [|? ? C' G']; subst. cbn [dec_value_from List.length] in *.
  assert (c = c') as ->.
  { pose proof (dec_value_from_ge d (10 * acc + (c - 48))). pose proof (dec_value_from_lt d F' (10 * acc + (c - 48))).
    pose proof (dec_value_from_ge e (10 * acc + (c' - 48))). pose proof (dec_value_from_lt e G' (10 * acc + (c' - 48))).
    injection L as L. rewrite L in *. set (p := 10 ^ N.of_nat (List.length e)) in *. rewrite E in *.
    assert (10 * acc + (c - 48) < 10 * acc + (c' - 48) + 1) by (apply (N.mul_lt_mono_pos_r p); [unfold p; apply N.neq_0_lt_0, N.pow_nonzero; lia|lia]).
    assert (10 * acc + (c' - 48) < 10 * acc + (c - 48) + 1) by (apply (N.mul_lt_mono_pos_r p); [unfold p; apply N.neq_0_lt_0, N.pow_nonzero; lia|lia]).
    unfold is_digit in *. lia. }
  f_equal. eapply IH; eauto.
Qed.

Lemma nat_plain_length_le d e n : nat_plain d n -> nat_plain e n -> (List.length d <= List.length e)%nat.
Proof.
  intros (Fd & Vd & Sd) (Fe & Ve & Se). destruct Sd as [->|(c & r & -> & C)].
  - destruct e; cbn in *; [|lia]. exfalso. now destruct Se as [Se|(? & ? & Se & _)].
  - destruct (le_lt_dec (List.length (c :: r)) (List.length e)) as [H|H]; auto. exfalso.
    inversion Fd as [|? ? Dc Fr]; subst. unfold dec_value in *. cbn [dec_value_from] in *.
    pose proof (dec_value_from_ge r (10 * 0 + (c - 48))). pose proof (dec_value_from_lt e Fe 0).
    assert (10 ^ N.of_nat (List.length e) <= 10 ^ N.of_nat (List.length r)).
    { apply N.pow_le_mono_r; [lia|]. cbn in H. lia. }
    set (p := 10 ^ N.of_nat (List.length r)) in *. unfold is_digit in Dc.
    assert (1 * p <= (10 * 0 + (c - 48)) * p) by (apply N.mul_le_mono_r; lia). lia.
Qed.

Lemma nat_plain_unique d e n : nat_plain d n -> nat_plain e n -> d = e.
Proof.
  intros A B. pose proof (nat_plain_length_le _ _ _ A B). pose proof (nat_plain_length_le _ _ _ B A).
  destruct A as (Fd & Vd & _), B as (Fe & Ve & _). apply (dec_value_from_inj d e 0); auto; [lia|].
  unfold dec_value in *. congruence.
Qed.

Lemma show_uint_unique d n : nat_plain d n -> show_uint n = d.
Proof. intros H. exact (nat_plain_unique _ _ _ (show_uint_plain n) H). Qed.

Lemma nat_plain_value d n m : nat_plain d n -> nat_plain d m -> n = m.
Proof. intros (_ & A & _) (_ & B & _). congruence. Qed.

Lemma nat_plain_digits d n : nat_plain d n -> d <> [] /\ Forall is_digit d.
Proof. intros (F & _ & [->|(c & r & -> & _)]); split; auto; discriminate. Qed.

Lemma show_int_plain z : int_plain (show_int z) z.
Proof.
  unfold show_int. destruct (Z.ltb_spec z 0) as [L|L].
  - right. exists (show_uint (Z.to_N (- z))), (Z.to_N (- z)). split; auto. split; [apply show_uint_plain|]. lia.
  - left. exists (Z.to_N z). split; [apply show_uint_plain|lia].
Qed.

Lemma show_int_unique s z : int_plain s z -> show_int z = s.
Proof.
  unfold show_int. intros [(n & P & ->)|(d & n & -> & P & Hn & ->)].
  - destruct (Z.ltb_spec (Z.of_N n) 0); [lia|]. rewrite N2Z.id. now apply show_uint_unique.
  - destruct (Z.ltb_spec (- Z.of_N n) 0); [|lia]. rewrite Z.opp_involutive, N2Z.id. f_equal. now apply show_uint_unique.
Qed.

Lemma show_uint_int n : show_uint n = show_int (Z.of_N n).
Proof. unfold show_int. destruct (Z.ltb_spec (Z.of_N n) 0); [lia|]. now rewrite N2Z.id. Qed.

(** * Parsing numbers *)

Lemma is_dec_spec c : is_dec c = true <-> is_digit c.
Proof. unfold is_dec, is_digit. lia. Qed.
Lemma is_space_spec c : is_space c = true <-> white c.
Proof. unfold is_space, white. lia. Qed.

(** A text that does not start with a digit. *)
Definition no_digit (r : bytes) : Prop := match r with [] => True | c :: _ => ~ is_digit c end.

Lemma span_digits_app d r : Forall is_digit d -> no_digit r -> span_digits (d ++ r) = (d, r).
Proof.
  intros F N. induction F as [|c d C F IH]; cbn [app].
  - destruct r as [|c r]; cbn; auto. cbn in N. destruct (is_dec c) eqn:E; auto. now apply is_dec_spec in E.
  - cbn [span_digits]. apply is_dec_spec in C. now rewrite C, IH.
Qed.

Lemma span_digits_spec s d r : span_digits s = (d, r) -> s = d ++ r /\ Forall is_digit d /\ no_digit r.
Proof.
  revert d r. induction s as [|c s IH]; intros d r; cbn [span_digits].
  - intros [= <- <-]. cbn. auto.
  - destruct (is_dec c) eqn:E.
    + destruct (span_digits s) as [d' r'] eqn:Es. intros [= <- <-]. destruct (IH _ _ eq_refl) as (-> & F & N).
      split; auto. split; auto. constructor; auto. now apply is_dec_spec.
    + intros [= <- <-]. split; auto. split; auto. cbn. rewrite <- is_dec_spec. congruence.
Qed.

Lemma skip_space_spec s : exists ws, s = ws ++ skip_space s /\ Forall white ws /\
  match skip_space s with [] => True | c :: _ => ~ white c end.
Proof.
  induction s as [|c s (ws & E & F & H)]; [exists []; cbn; auto|].
  cbn [skip_space]. destruct (is_space c) eqn:Ec.
  - exists (c :: ws). cbn. split; [congruence|]. split; auto. constructor; auto. now apply is_space_spec.
  - exists []. cbn. split; auto. split; auto. rewrite <- is_space_spec. congruence.
Qed.

Lemma skip_space_app ws s : Forall white ws -> (match s with [] => True | c :: _ => ~ white c end) -> skip_space (ws ++ s) = s.
Proof.
  intros F N. induction F as [|c ws C F IH]; cbn [app].
  - destruct s as [|c s]; cbn; auto. destruct (is_space c) eqn:E; auto. now apply is_space_spec in E.
  - cbn [skip_space]. apply is_space_spec in C. now rewrite C.
Qed.

Lemma digits_value_spec d : digits_value d = dec_value d.
Proof.
  unfold digits_value, dec_value. generalize 0. induction d as [|c d IH]; intros a; cbn [fold_left dec_value_from]; auto.
  rewrite IH. f_equal. lia.
Qed.

(** What ulib_str_to_int answers for the number [z]. *)
Definition clamp (w : N) (z : Z) : Z :=
  if (z <? - 2 ^ (Z.of_N w - 1))%Z then (- 2 ^ (Z.of_N w - 1))%Z
  else if (2 ^ (Z.of_N w - 1) - 1 <? z)%Z then (2 ^ (Z.of_N w - 1) - 1)%Z else z.
Definition beyond (w : N) (z : Z) : bool :=
  ((z <? - 2 ^ (Z.of_N w - 1))%Z || (2 ^ (Z.of_N w - 1) - 1 <? z)%Z)%bool.

Lemma beyond_spec w z : beyond w z = false <-> in_range w z.
Proof. unfold beyond, in_range. lia. Qed.
Lemma clamp_id w z : in_range w z -> clamp w z = z.
Proof. unfold clamp, in_range. intros H. destruct (Z.ltb_spec z (- 2 ^ (Z.of_N w - 1))); [lia|]. destruct (Z.ltb_spec (2 ^ (Z.of_N w - 1) - 1) z); lia. Qed.
Lemma clamp_range w z : width w -> in_range w (clamp w z).
Proof. intros W. pose proof (width_pow w W). unfold clamp, in_range. destruct (Z.ltb_spec z (- 2 ^ (Z.of_N w - 1))); [lia|]. destruct (Z.ltb_spec (2 ^ (Z.of_N w - 1) - 1) z); lia. Qed.

Lemma str_to_int_number w a z r : int_number a z -> no_digit r ->
  str_to_int w (a ++ r) = Some (clamp w z, beyond w z, r).
Proof.
  intros (ws & sign & d & -> & Fw & Nd & Fd & Hz) Nr. unfold str_to_int.
  destruct d as [|c d]; [easy|]. inversion Fd as [|? ? C F']; subst.
  assert (Sk : skip_space ((ws ++ sign ++ c :: d) ++ r) = sign ++ (c :: d) ++ r).
  { rewrite <- !app_assoc. apply skip_space_app; auto.
    destruct Hz as [[[->| ->] _]|[-> _]]; cbn; unfold white, is_digit in *; lia. }
  rewrite Sk.
  assert (Sp : span_digits ((c :: d) ++ r) = (c :: d, r)) by now apply span_digits_app.
  unfold clamp, beyond. unfold is_digit in C.
  destruct Hz as [[[->| ->] ->]|[-> ->]].
  - cbn [app] in *. destruct (N.eqb_spec c 45); [lia|]. destruct (N.eqb_spec c 43); [lia|].
    rewrite Sp, digits_value_spec.
    destruct (Z.ltb_spec (Z.of_N (dec_value (c :: d))) (- 2 ^ (Z.of_N w - 1))); cbn [orb]; auto.
    destruct (Z.ltb_spec (2 ^ (Z.of_N w - 1) - 1) (Z.of_N (dec_value (c :: d)))); cbn [orb]; auto.
  - cbn [app] in *. change (43 =? 45) with false. change (43 =? 43) with true. cbv iota. rewrite Sp, digits_value_spec.
    destruct (Z.ltb_spec (Z.of_N (dec_value (c :: d))) (- 2 ^ (Z.of_N w - 1))); cbn [orb]; auto.
    destruct (Z.ltb_spec (2 ^ (Z.of_N w - 1) - 1) (Z.of_N (dec_value (c :: d)))); cbn [orb]; auto.
  - cbn [app] in *. change (45 =? 45) with true. cbv iota. rewrite Sp, digits_value_spec.
    destruct (Z.ltb_spec (- Z.of_N (dec_value (c :: d))) (- 2 ^ (Z.of_N w - 1))); cbn [orb]; auto.
    destruct (Z.ltb_spec (2 ^ (Z.of_N w - 1) - 1) (- Z.of_N (dec_value (c :: d)))); cbn [orb]; auto.
Qed.

Lemma str_to_int_some w s v o r : str_to_int w s = Some (v, o, r) ->
  exists a z, s = a ++ r /\ int_number a z /\ no_digit r /\ v = clamp w z /\ o = beyond w z.
Proof.
  unfold str_to_int. destruct (skip_space_spec s) as (ws & E & F & _). remember (skip_space s) as s1. clear Heqs1.
  set (sg := match s1 with c :: s2 => if c =? 45 then (true, s2) else if c =? 43 then (false, s2) else (false, s1) | [] => (false, s1) end).
  assert (exists sign, s1 = sign ++ snd sg /\ (fst sg = false /\ (sign = [] \/ sign = [43]) \/ fst sg = true /\ sign = [45])) as (sign & Es & Hs).
  { unfold sg. destruct s1 as [|c s2]; [exists []; cbn; auto|].
    destruct (N.eqb_spec c 45) as [->|]; [exists [45]; cbn; auto|].
    destruct (N.eqb_spec c 43) as [->|]; [exists [43]; cbn; auto|]. exists []; cbn; auto. }
  destruct sg as [neg s2]. cbn [fst snd] in *. destruct (span_digits s2) as [d r'] eqn:Ed.
  apply span_digits_spec in Ed as (-> & Fd & Nr). destruct d as [|c d]; [discriminate|].
  rewrite digits_value_spec. intros H.
  assert (Hz : exists z, z = (if neg then (- Z.of_N (dec_value (c :: d)))%Z else Z.of_N (dec_value (c :: d)))) by eauto.
  destruct Hz as (z & Hz). rewrite <- Hz in H.
  assert (r' = r /\ v = clamp w z /\ o = beyond w z) as (-> & Hv & Ho).
  { unfold clamp, beyond. destruct (z <? - 2 ^ (Z.of_N w - 1))%Z; [inversion H; auto|].
    destruct (2 ^ (Z.of_N w - 1) - 1 <? z)%Z; inversion H; auto. }
  exists (ws ++ sign ++ c :: d), z. split; [rewrite E, Es; now rewrite <- !app_assoc|]. split.
  - exists ws, sign, (c :: d). split; auto. split; auto. split; [discriminate|]. split; auto.
    destruct Hs as [[-> [->| ->]]|[-> ->]]; auto.
  - auto.
Qed.

Lemma int_number_value s z z' : int_number s z -> int_number s z' -> z = z'.
Proof.
  intros (ws & sign & d & -> & Fw & Nd & Fd & Hz) (ws' & sign' & d' & E & Fw' & Nd' & Fd' & Hz').
  assert (S1 : skip_space (ws ++ sign ++ d) = sign ++ d).
  { apply skip_space_app; auto. destruct d as [|c d]; [easy|]. inversion Fd; subst. destruct Hz as [[[->| ->] _]|[-> _]]; cbn; unfold white, is_digit in *; lia. }
  assert (S2 : skip_space (ws' ++ sign' ++ d') = sign' ++ d').
  { apply skip_space_app; auto. destruct d' as [|c d']; [easy|]. inversion Fd'; subst. destruct Hz' as [[[->| ->] _]|[-> _]]; cbn; unfold white, is_digit in *; lia. }
  rewrite E in S1. rewrite S1 in S2. destruct d as [|c d]; [easy|]. destruct d' as [|c' d']; [easy|].
  inversion Fd; inversion Fd'; subst. unfold is_digit in *.
  destruct Hz as [[[->| ->] ->]|[-> ->]], Hz' as [[[->| ->] ->]|[-> ->]]; cbn in S2; inversion S2; subst; auto; lia.
Qed.

Lemma int_plain_number s z : int_plain s z -> int_number s z.
Proof.
  intros [(n & P & ->)|(d & n & -> & P & Hn & ->)]; destruct (nat_plain_digits _ _ P) as (Nd & Fd); destruct P as (_ & V & _).
  - exists [], [], s. cbn. rewrite V. auto 8.
  - exists [], [45], d. cbn. rewrite V. auto 8.
Qed.

Lemma string_to_int_some w s v : string_to_int w s = Some v <-> int_number s v /\ in_range w v.
Proof.
  unfold string_to_int. split.
  - destruct (str_to_int w s) as [[[v' o] r]|] eqn:E; [|discriminate].
    apply str_to_int_some in E as (a & z & -> & Hn & Nr & -> & ->). destruct (beyond w z) eqn:B; [discriminate|].
    destruct r; [|discriminate]. intros [= <-]. apply beyond_spec in B. rewrite clamp_id, app_nil_r by auto. auto.
  - intros (Hn & R). rewrite <- (app_nil_r s) at 1. rewrite (str_to_int_number w s v []) by (auto; exact I).
    apply beyond_spec in R as B. rewrite B, clamp_id; auto.
Qed.

Lemma string_to_int_none w s : string_to_int w s = None <-> forall z, int_number s z -> ~ in_range w z.
Proof.
  split.
  - intros E z H R. assert (string_to_int w s = Some z) by now apply string_to_int_some. congruence.
  - intros H. destruct (string_to_int w s) as [v|] eqn:E; auto. apply string_to_int_some in E as (A & B). now destruct (H v).
Qed.

(** * The text read back for a text of each group *)

Definition back_int (w : N) (s : bytes) : bytes := match string_to_int w s with Some v => show_int v | None => s end.
Definition back_bool (w : N) (s : bytes) : bytes :=
  if bytes_eqb s (bs "true") then s else if bytes_eqb s (bs "false") then s else back_int w s.
Definition back_dec (w : N) (s : bytes) : bytes :=
  match str_to_int w s with
  | None => s
  | Some (whole, _, []) => show_int whole
  | Some (whole, _, c :: s1) =>
      if negb (c =? 46) then s else
      let (d, r) := span_digits s1 in
      match d, r with
      | [], _ => s
      | _, [] => show_fixed_point whole (digits_value_reverse w d)
      | _, c2 :: s2 =>
          if negb (c2 =? 69) then s else
          match str_to_int w s2 with
          | Some (e, _, []) => show_e_notation whole (digits_value_reverse w d) e
          | _ => s
          end
      end
  end.
Definition back (w : N) (g : dgroup) (s : bytes) : bytes :=
  match g with DG_BOOL => back_bool w s | DG_INT => back_int w s | DG_DEC => back_dec w s | DG_STRING => s end.

Lemma back_int_kept w s : back_int w s = s <-> int_kept w s.
Proof.
  unfold back_int, int_kept. destruct (string_to_int w s) as [v|] eqn:E.
  - apply string_to_int_some in E as (Hn & R). split.
    + intros <-. left. exists v. split; auto. apply show_int_plain.
    + intros [(z & P & R')|H]; [|now destruct (H v)].
      rewrite (int_number_value _ _ _ Hn (int_plain_number _ _ P)). now apply show_int_unique.
  - rewrite string_to_int_none in E. tauto.
Qed.

Lemma back_bool_kept w s : back_bool w s = s <-> bool_kept w s.
Proof.
  unfold back_bool, bool_kept.
  destruct (bytes_eqb s (bs "true")) eqn:E1; [apply bytes_eqb_eq in E1; tauto|].
  destruct (bytes_eqb s (bs "false")) eqn:E2; [apply bytes_eqb_eq in E2; tauto|].
  rewrite back_int_kept. split; auto. intros [->|[->|H]]; auto; now rewrite bytes_eqb_refl in *.
Qed.

Lemma digits_value_reverse_lt w d : d <> [] -> digits_value_reverse w d < 2 ^ w.
Proof.
  intros H. unfold digits_value_reverse. destruct d as [|c d]; [easy|]. cbn [rev]. rewrite fold_left_app. cbn [fold_left].
  apply N.mod_lt, N.pow_nonzero. lia.
Qed.

Lemma digits_value_reverse_spec w d : digits_value_reverse w d = dec_value (rev d) mod 2 ^ w.
Proof.
  unfold digits_value_reverse. rewrite <- digits_value_spec. unfold digits_value.
  assert (P : 2 ^ w <> 0) by (apply N.pow_nonzero; lia).
  enough (H : forall l a b, a = b mod 2 ^ w -> fold_left (fun n c => (n * 10 + (c - 48)) mod 2 ^ w) l a
            = fold_left (fun n c => n * 10 + (c - 48)) l b mod 2 ^ w).
  { apply H. rewrite N.mod_small; [reflexivity|]. lia. }
  induction l as [|c l IH]; intros a b E; cbn [fold_left]; auto. apply IH. subst a.
  rewrite N.add_mod, N.mul_mod_idemp_l, <- N.add_mod by auto. reflexivity.
Qed.

Lemma frac_plain_digits w f : frac_plain w f -> f <> [] /\ Forall is_digit f /\ show_uint (digits_value_reverse w f) = rev f.
Proof.
  intros (n & P & L). destruct (nat_plain_digits _ _ P) as (Nd & Fd). split; [|split].
  - intros ->. now cbn in Nd.
  - rewrite <- (rev_involutive f). now apply Forall_rev.
  - rewrite digits_value_reverse_spec. destruct P as (F & V & S). rewrite V, N.mod_small by auto. apply show_uint_unique. now split.
Qed.

Lemma show_fixed_plain w z n : in_range w z -> n < 2 ^ w -> dec_plain w (show_fixed_point z n).
Proof.
  intros R L. apply (dp_fixed w (show_int z) z (rev (show_uint n))); auto; [apply show_int_plain|].
  exists n. rewrite rev_involutive. split; auto. apply show_uint_plain.
Qed.

Lemma show_e_plain w z n e : in_range w z -> n < 2 ^ w -> in_range w e -> dec_plain w (show_e_notation z n e).
Proof.
  intros R L R'. unfold show_e_notation, show_fixed_point. rewrite <- !app_assoc. cbn [app].
  apply (dp_exp w (show_int z) z (rev (show_uint n)) (show_int e) e); auto; try apply show_int_plain.
  exists n. rewrite rev_involutive. split; auto. apply show_uint_plain.
Qed.

(** The two outcomes: not a number and unchanged, or a number and printed. *)
Lemma back_dec_cases w s : width w ->
  (~ dec_number s /\ back_dec w s = s) \/ (dec_number s /\ dec_plain w (back_dec w s)).
Proof.
  intros W. unfold back_dec.
  assert (Inv : dec_number s -> exists a z r, s = a ++ r /\ int_number a z /\ no_digit r /\
    (r = [] \/ (exists f, r = 46 :: f /\ f <> [] /\ Forall is_digit f) \/
     (exists f x y, r = 46 :: f ++ 69 :: x /\ f <> [] /\ Forall is_digit f /\ int_number x y))).
  { intros [a z H|a z f H Nf Ff|a z f x y H Nf Ff Hx].
    - exists a, z, []. rewrite app_nil_r. cbn. auto.
    - exists a, z, (46 :: f). split; auto. split; auto. split; [cbn; unfold is_digit; lia|]. right. left. eauto.
    - exists a, z, (46 :: f ++ 69 :: x). split; auto. split; auto. split; [cbn; unfold is_digit; lia|]. right. right. exists f, x, y. auto. }
  destruct (str_to_int w s) as [[[v o] r]|] eqn:E.
  2: { left. split; auto. intros H. apply Inv in H as (a & z & r & -> & Hn & Nr & _).
       now rewrite (str_to_int_number w a z r) in E. }
  apply str_to_int_some in E as (a & z & -> & Hn & Nr & -> & ->).
  assert (Det : dec_number (a ++ r) -> (r = [] \/ (exists f, r = 46 :: f /\ f <> [] /\ Forall is_digit f) \/
     (exists f x y, r = 46 :: f ++ 69 :: x /\ f <> [] /\ Forall is_digit f /\ int_number x y))).
  { intros H. apply Inv in H as (a' & z' & r' & Eq & Hn' & Nr' & C).
    pose proof (str_to_int_number w a z r Hn Nr) as P1. rewrite Eq in P1. rewrite (str_to_int_number w a' z' r' Hn' Nr') in P1.
    inversion P1; subst r'. auto. }
  clear Inv. pose proof (clamp_range w z W) as R.
  destruct r as [|c s1].
  { right. rewrite app_nil_r. split; [econstructor 1; eauto|]. eapply dp_int; [apply show_int_plain|auto]. }
  destruct (N.eqb_spec c 46) as [->|Hc]; cbn [negb].
  2: { left. split; auto. intros H. apply Det in H as [H|[(f & H & _)|(f & x & y & H & _)]]; try discriminate; inversion H; congruence. }
  destruct (span_digits s1) as [d r] eqn:Ed. apply span_digits_spec in Ed as (-> & Fd & Nr2).
  assert (Det2 : dec_number (a ++ 46 :: d ++ r) -> d <> [] /\ (r = [] \/ exists x y, r = 69 :: x /\ int_number x y)).
  { intros H. apply Det in H as [H|[(f & H & Nf & Ff)|(f & x & y & H & Nf & Ff & Hx)]]; [discriminate| |]; inversion H as [H'].
    - assert (Sp : span_digits (d ++ r) = span_digits (f ++ [])) by now rewrite app_nil_r, H'.
      rewrite !span_digits_app in Sp by (auto; exact I). inversion Sp; subst. auto.
    - assert (Sp : span_digits (d ++ r) = span_digits (f ++ 69 :: x)) by now rewrite H'.
      rewrite !span_digits_app in Sp by (auto; cbn; unfold is_digit; lia). inversion Sp; subst. split; auto. right. eauto. }
  destruct d as [|c2 d].
  { left. split; auto. intros H. apply Det2 in H as (H & _). easy. }
  pose proof (digits_value_reverse_lt w (c2 :: d) ltac:(discriminate)) as Lt.
  destruct r as [|c3 s2].
  { right. rewrite app_nil_r in *. split; [eapply dn_fixed; eauto; discriminate|]. now apply show_fixed_plain. }
  destruct (N.eqb_spec c3 69) as [->|Hc3]; cbn [negb].
  2: { left. split; auto. intros H. apply Det2 in H as (_ & [H|(x & y & H & _)]); inversion H; congruence. }
  destruct (str_to_int w s2) as [[[e o] r]|] eqn:E2.
  2: { left. split; auto. intros H. apply Det2 in H as (_ & [H|(x & y & H & Hx)]); inversion H; subst.
       rewrite <- (app_nil_r x) in E2. now rewrite (str_to_int_number w x y []) in E2. }
  destruct r as [|c4 r].
  { apply str_to_int_some in E2 as (x & y & -> & Hx & _ & -> & ->). right. rewrite app_nil_r. split.
    - eapply dn_exp; eauto. discriminate.
    - apply show_e_plain; auto. now apply clamp_range. }
  left. split; auto. intros H. apply Det2 in H as (_ & [H|(x & y & H & Hx)]); inversion H; subst.
  rewrite <- (app_nil_r x) in E2. rewrite (str_to_int_number w x y []) in E2 by (auto; exact I). discriminate.
Qed.

Lemma back_dec_plain w s : width w -> dec_plain w s -> back_dec w s = s.
Proof.
  intros W [a z P R|a z f P R Pf|a z f x y P R Pf Px Rx]; unfold back_dec.
  - rewrite <- (app_nil_r a) at 1. rewrite (str_to_int_number w a z []) by (auto using int_plain_number; exact I).
    rewrite clamp_id by auto. now apply show_int_unique.
  - destruct (frac_plain_digits _ _ Pf) as (Nf & Ff & S).
    rewrite (str_to_int_number w a z (46 :: f)) by (auto using int_plain_number; cbn; unfold is_digit; lia).
    change (negb (46 =? 46)) with false. cbv iota.
    rewrite <- (app_nil_r f) at 1. rewrite (span_digits_app f []) by (auto; exact I).
    destruct f as [|c f]; [easy|]. unfold show_fixed_point. rewrite S, rev_involutive, clamp_id by auto.
    now rewrite (show_int_unique a z).
  - destruct (frac_plain_digits _ _ Pf) as (Nf & Ff & S).
    rewrite (str_to_int_number w a z) by (auto using int_plain_number; cbn; unfold is_digit; lia).
    change (negb (46 =? 46)) with false. cbv iota.
    rewrite (span_digits_app f (69 :: x)) by (auto; cbn; unfold is_digit; lia).
    destruct f as [|c f]; [easy|]. change (negb (69 =? 69)) with false. cbv iota.
    rewrite <- (app_nil_r x) at 1. rewrite (str_to_int_number w x y []) by (auto using int_plain_number; exact I).
    unfold show_e_notation, show_fixed_point. rewrite S, rev_involutive, !clamp_id by auto.
    rewrite (show_int_unique a z), (show_int_unique x y) by auto. now rewrite <- !app_assoc.
Qed.

Lemma back_dec_kept w s : width w -> (back_dec w s = s <-> dec_kept w s).
Proof.
  intros W. unfold dec_kept. destruct (back_dec_cases w s W) as [[H E]|[H P]].
  - tauto.
  - split.
    + intros E. left. now rewrite E in P.
    + intros [P'|N]; [|tauto]. now apply back_dec_plain.
Qed.

(** * Datatype groups *)

Lemma dt_in_spec ns rem names : dt_in ns rem (map bs names) = true <-> xsd ns rem names.
Proof.
  unfold dt_in, xsd. rewrite andb_true_iff, bytes_eqb_eq, existsb_exists. split.
  - intros (-> & x & Hx & E). apply bytes_eqb_eq in E. subst x. auto.
  - intros (-> & Hi). split; auto. exists rem. rewrite bytes_eqb_refl. auto.
Qed.

Lemma group_cases ns rem :
  (datatype_group ns rem = DG_BOOL /\ xsd ns rem ["boolean"%string] /\ ~ xsd ns rem integer_names /\ ~ xsd ns rem decimal_names) \/
  (datatype_group ns rem = DG_INT /\ ~ xsd ns rem ["boolean"%string] /\ xsd ns rem integer_names /\ ~ xsd ns rem decimal_names) \/
  (datatype_group ns rem = DG_DEC /\ ~ xsd ns rem ["boolean"%string] /\ ~ xsd ns rem integer_names /\ xsd ns rem decimal_names) \/
  (datatype_group ns rem = DG_STRING /\ ~ xsd ns rem ["boolean"%string] /\ ~ xsd ns rem integer_names /\ ~ xsd ns rem decimal_names).
Proof.
  unfold datatype_group.
  change [bs "boolean"] with (map bs ["boolean"%string]). change int_dts with (map bs integer_names). change dec_dts with (map bs decimal_names).
  pose proof (dt_in_spec ns rem ["boolean"%string]) as A. pose proof (dt_in_spec ns rem integer_names) as B. pose proof (dt_in_spec ns rem decimal_names) as C.
  assert (D1 : xsd ns rem ["boolean"%string] -> ~ xsd ns rem integer_names /\ ~ xsd ns rem decimal_names).
  { intros (_ & [E|[]]). rewrite <- E. split; intros (_ & H); vm_compute in H; intuition discriminate. }
  assert (D2 : xsd ns rem integer_names -> ~ xsd ns rem decimal_names).
  { intros (_ & H) (_ & [E|[E|[E|[]]]]); rewrite <- E in H; vm_compute in H; intuition discriminate. }
  destruct (dt_in ns rem (map bs ["boolean"%string])); [left; tauto|].
  destruct (dt_in ns rem (map bs integer_names)).
  { right. left. split; auto. split; [rewrite <- A; discriminate|]. tauto. }
  destruct (dt_in ns rem (map bs decimal_names)).
  { right. right. left. split; auto. split; [rewrite <- A; discriminate|]. split; [rewrite <- B; discriminate|]. tauto. }
  right. right. right. split; auto. split; [rewrite <- A; discriminate|]. split; [rewrite <- B; discriminate|]. rewrite <- C; discriminate.
Qed.

Lemma back_kept w ns rem v : width w -> (back w (datatype_group ns rem) v = v <-> value_kept w ns rem v).
Proof.
  intros W. unfold value_kept.
  destruct (group_cases ns rem) as [(-> & A & B & C)|[(-> & A & B & C)|[(-> & A & B & C)|(-> & A & B & C)]]]; cbn [back].
  - rewrite back_bool_kept. tauto.
  - rewrite back_int_kept. tauto.
  - rewrite back_dec_kept by auto. tauto.
  - tauto.
Qed.
