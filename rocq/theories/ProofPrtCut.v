(** A ProtocOWL stream cut short: what the decoder does on a part of the input and on the whole of it. *)

From Coq Require Import NArith ZArith String List Bool Lia.
From Coq Require Import ZifyBool ZifyNat ZifyN.
From Coq Require Import Permutation.
From Verif Require Import Bytes ModelTypes ModelObject ModelText ModelChange ModelPrtValue ModelPrtEncoder ModelPrtDecoder.
From Verif Require Import ModelPrtWriter SpecPrt SpecPrtStream SpecPrtCut ProofPrtTop.
Import ListNotations.
Local Open Scope N_scope.

(** The same state with more input. *)
Definition ext (q : bytes) (s : dst) : dst := set_in (d_in s ++ q) s.

Lemma ext_ok q s : d_ok (ext q s) = d_ok s.
Proof. reflexivity. Qed.
Lemma ext_in q s i : ext q (set_in i s) = set_in (i ++ q) (ext q s).
Proof. reflexivity. Qed.

(** What a step must leave alone. *)
Definition seen (s : dst) : bool * list dchange := (d_remove s, d_log s).
Lemma seen_log s s' : seen s' = seen s -> d_log s' = d_log s.
Proof. unfold seen. congruence. Qed.

(** [m1] on a part of the input, [m2] on the whole: neither reports changes, an error stays, and what succeeds on
    the part gives the same on the whole. *)
Definition tied {A} (m1 m2 : D A) : Prop :=
  forall s a s', m1 s = DRet a s' ->
    seen s' = seen s /\ (d_ok s = false -> d_ok s' = false) /\
    (d_ok s' = true -> forall q, m2 (ext q s) = DRet a (ext q s')).
(** An object is made only if there was no error. *)
Definition sound {A} (m : D (option A)) : Prop :=
  forall s a s', d_ok s = true -> m s = DRet (Some a) s' -> d_ok s' = true.
Definition wary {A} (m : D (option A)) : Prop :=
  forall s a s', m s = DRet (Some a) s' -> d_ok s' = true.

Lemma wary_sound {A} (m : D (option A)) : wary m -> sound m.
Proof. intros H s a s' _. apply H. Qed.

Lemma tied_ret {A} (a : A) : tied (dret a) (dret a).
Proof. intros s b s' E. inversion E; subst. auto. Qed.
Lemma tied_bind {A B} (m1 m2 : D A) (k1 k2 : A -> D B) :
  tied m1 m2 -> (forall a, tied (k1 a) (k2 a)) -> tied (dbind m1 k1) (dbind m2 k2).
Proof.
  intros Hm Hk s b s' E. unfold dbind in E. destruct (m1 s) as [a s1| |] eqn:E1; try discriminate E.
  apply Hm in E1 as (L1 & B1 & G1). apply Hk in E as (L2 & B2 & G2). split; [congruence|]. split; [auto|].
  intros Ok q. unfold dbind. rewrite G1; auto. destruct (d_ok s1) eqn:E1; auto. now rewrite B2 in Ok.
Qed.
Lemma set_code_bad c s : (c < 0)%Z -> d_ok (set_code c s) = false.
Proof. intros H. unfold d_ok, set_code. destruct (d_code s <? 0)%Z eqn:E; cbn; lia. Qed.
Lemma set_code_seen c s : seen (set_code c s) = seen s.
Proof. unfold set_code, seen. now destruct (d_code s <? 0)%Z. Qed.
Lemma set_code_log c s : d_log (set_code c s) = d_log s.
Proof. apply seen_log, set_code_seen. Qed.
Lemma set_code_ext c q s : ext q (set_code c s) = set_code c (ext q s).
Proof. unfold set_code. cbn. now destruct (d_code s <? 0)%Z. Qed.
Lemma set_code_err c s : d_ok s = false -> d_ok (set_code c s) = false.
Proof. unfold set_code, d_ok. destruct (d_code s <? 0)%Z eqn:E; cbn; lia. Qed.
Lemma tied_fail {A} c m2 : (c < 0)%Z -> tied (A := option A) (fail c) m2.
Proof.
  intros H s a s' E. inversion E; subst. split; [apply set_code_seen|]. pose proof (set_code_bad c s H) as B. split; [auto|].
  intros C. now rewrite B in C.
Qed.
Lemma tied_ub {A} t (m2 : D A) : tied (fun _ => DUB t) m2.
Proof. intros s a s' E. discriminate E. Qed.
Lemma tied_fuel {A} (m2 : D A) : tied (fun _ => DFuel) m2.
Proof. intros s a s' E. discriminate E. Qed.
Lemma tied_opt {A B} (m1 m2 : D (option A)) (k1 k2 : A -> D B) n : tied m1 m2 -> (forall a, tied (k1 a) (k2 a)) ->
  tied (do x <- m1;; match x with Some a => k1 a | None => dret n end) (do x <- m2;; match x with Some a => k2 a | None => dret n end).
Proof. intros Hm Hk. apply tied_bind; auto. intros [a|]; auto using tied_ret. Qed.

Lemma varint_groups_app k b n r q : varint_read_groups k b = Some (n, r) -> varint_read_groups k (b ++ q) = Some (n, r ++ q).
Proof.
  revert b n r. induction k; intros [|c b] n r E; try discriminate E. cbn in *.
  destruct (c <? 128) eqn:Ec; [inversion E; subst; auto|].
  destruct (varint_read_groups k b) as [[m r']|] eqn:Em; inversion E; subst. now rewrite (IHk _ _ _ Em).
Qed.
Lemma varint_app b n r q : varint_read b = Some (n, r) -> varint_read (b ++ q) = Some (n, r ++ q).
Proof.
  unfold varint_read. destruct (varint_read_groups 10 b) as [[m r']|] eqn:E; [|discriminate].
  intros H. rewrite (varint_groups_app _ _ _ _ q E). destruct (m <? 2 ^ 64); inversion H; subst; auto.
Qed.

Section Cut.
  Variable w : N.
  Variable anon_id : nat -> bytes.

  Ltac fails := try (split; [apply set_code_seen|split; [intros; apply set_code_bad; reflexivity|intros C; rewrite set_code_bad in C by reflexivity; discriminate C]]).

  Lemma tied_byte : tied read_byte read_byte.
  Proof.
    intros s a s'. unfold read_byte. destruct (d_ok s) eqn:Ok; cbn [negb].
    - destruct (d_in s) as [|b r] eqn:E; intros H; inversion H; subst; fails.
      split; [auto|]. split; [discriminate|]. intros _ q. rewrite ext_ok, Ok. cbn. rewrite E. reflexivity.
    - intros H. inversion H; subst. split; auto. split; auto. congruence.
  Qed.
  Lemma tied_bytes n : tied (read_bytes n) (read_bytes n).
  Proof.
    intros s a s'. unfold read_bytes. destruct (d_ok s) eqn:Ok; cbn [negb].
    - destruct (N.of_nat (List.length (d_in s)) <? n) eqn:E; intros H; inversion H; subst; fails.
      split; [auto|]. split; [discriminate|]. intros _ q. rewrite ext_ok, Ok. cbn. rewrite app_length.
      destruct (N.of_nat (List.length (d_in s) + List.length q) <? n) eqn:E2; [lia|].
      rewrite firstn_app, skipn_app. replace (N.to_nat n - List.length (d_in s))%nat with 0%nat by lia. cbn. now rewrite app_nil_r.
    - intros H. inversion H; subst. split; auto. split; auto. congruence.
  Qed.
  Lemma tied_varint : tied (read_varint w) (read_varint w).
  Proof.
    intros s a s'. unfold read_varint. destruct (d_ok s) eqn:Ok; cbn [negb].
    - destruct (varint_read (d_in s)) as [[n r]|] eqn:E; intros H; inversion H; subst; fails.
      split; [auto|]. split; [discriminate|]. intros _ q. rewrite ext_ok, Ok. cbn. now rewrite (varint_app _ _ _ q E).
    - intros H. inversion H; subst. split; auto. split; auto. congruence.
  Qed.
  Lemma tied_svarint : tied (read_svarint w) (read_svarint w).
  Proof.
    intros s a s'. unfold read_svarint. destruct (d_ok s) eqn:Ok; cbn [negb].
    - destruct (varint_read (d_in s)) as [[n r]|] eqn:E; intros H; inversion H; subst; fails.
      split; [auto|]. split; [discriminate|]. intros _ q. rewrite ext_ok, Ok. cbn. now rewrite (varint_app _ _ _ q E).
    - intros H. inversion H; subst. split; auto. split; auto. congruence.
  Qed.
  Lemma tied_null {A} (o : option A) : tied (handle_null o) (handle_null o).
  Proof. destruct o; [apply tied_ret|]. now apply tied_fail. Qed.
  Lemma tied_string : tied (decode_string w) (decode_string w).
  Proof. apply tied_opt; [apply tied_varint|apply tied_bytes]. Qed.
  Lemma tied_get_id i : tied (get_id anon_id i) (get_id anon_id i).
  Proof.
    intros s a s'. unfold get_id. cbn. destruct (i <? N.of_nat (List.length (d_ids s))) eqn:E.
    - intros H. inversion H; subst. auto.
    - destruct (N.of_nat (List.length (d_ids s)) <? i) eqn:E2; intros H; inversion H; subst; fails. auto.
  Qed.

  Local Hint Resolve tied_ret tied_byte tied_bytes tied_varint tied_svarint tied_null tied_string tied_get_id tied_ub tied_fuel : tied.
  Ltac tie := repeat first
    [ solve [eauto with tied] | apply tied_fail; reflexivity | apply tied_opt; [|intros ?] | apply tied_bind; [|intros ?]
    | match goal with |- tied (match ?x with _ => _ end) _ => destruct x end ].

  Lemma tied_get_id_iri i : tied (get_id_iri anon_id i) (get_id_iri anon_id i).
  Proof. unfold get_id_iri. tie. Qed.
  Local Hint Resolve tied_get_id_iri : tied.
  Lemma tied_get_entity e i : tied (get_entity anon_id e i) (get_entity anon_id e i).
  Proof. unfold get_entity. tie. Qed.
  Lemma tied_get_individual i : tied (get_individual anon_id i) (get_individual anon_id i).
  Proof. unfold get_individual. tie. Qed.
  Lemma tied_with g1 g2 : (forall n, tied (g1 n) (g2 n)) -> tied (decode_with w g1) (decode_with w g2).
  Proof. intros H. unfold decode_with. tie. Qed.
  Local Hint Resolve tied_get_entity tied_get_individual : tied.
  Lemma tied_iri : tied (decode_iri w anon_id) (decode_iri w anon_id).
  Proof. apply tied_with. auto with tied. Qed.
  Lemma tied_any : tied (decode_iri_or_anon w anon_id) (decode_iri_or_anon w anon_id).
  Proof. apply tied_with. auto with tied. Qed.
  Lemma tied_entity e : tied (decode_entity w anon_id e) (decode_entity w anon_id e).
  Proof. apply tied_with. auto with tied. Qed.
  Lemma tied_individual : tied (decode_individual w anon_id) (decode_individual w anon_id).
  Proof. apply tied_with. auto with tied. Qed.
  Local Hint Resolve tied_iri tied_any tied_entity tied_individual : tied.
  Lemma tied_lres r : tied (literal_result r) (literal_result r).
  Proof. destruct r; cbn; tie. Qed.
  Local Hint Resolve tied_lres : tied.
  Lemma tied_literal : tied (decode_literal w anon_id) (decode_literal w anon_id).
  Proof.
    unfold decode_literal. apply tied_opt; [auto with tied|]. intros h. apply tied_bind.
    - unfold decode_literal_value, decode_literal_bool, decode_literal_int, decode_literal_uint, decode_literal_fixed_point, decode_literal_e_notation. tie.
    - intros v. apply tied_bind; [auto with tied|]. intros x. unfold decode_literal_string, decode_literal_lang, decode_literal_typed. tie.
  Qed.
  Local Hint Resolve tied_literal : tied.

  Lemma tied_vec_loop f1 f2 m1 m2 n : (f1 <= f2)%nat -> tied m1 m2 -> tied (vec_loop f1 m1 n) (vec_loop f2 m2 n).
  Proof.
    intros L Hm. revert f2 n L. induction f1; intros f2 n L; cbn [vec_loop].
    - destruct (n =? 0) eqn:E; [|apply tied_fuel]. destruct f2; cbn [vec_loop]; rewrite E; apply tied_ret.
    - destruct f2 as [|f2]; [lia|]. cbn [vec_loop]. destruct (n =? 0) eqn:E; [apply tied_ret|].
      apply tied_bind; auto. intros [o|]; [|now apply tied_fail]. apply tied_bind; [apply IHf1; lia|]. intros. apply tied_ret.
  Qed.
  Lemma tied_vector f1 f2 m1 m2 : (f1 <= f2)%nat -> tied m1 m2 -> tied (decode_vector w f1 m1) (decode_vector w f2 m2).
  Proof. intros L Hm. unfold decode_vector. apply tied_opt; [auto with tied|]. intros n. apply tied_bind; [now apply tied_vec_loop|]. intros. apply tied_ret. Qed.
  Lemma tied_args l1 l2 : Forall2 tied l1 l2 -> tied (dec_args l1) (dec_args l2).
  Proof. induction 1; cbn; [apply tied_ret|]. apply tied_bind; auto. intros a. apply tied_bind; auto. intros. apply tied_ret. Qed.
  Lemma tied_build t args mk : tied (build t args mk) (build t args mk).
  Proof.
    intros s a s'. unfold build. destruct (d_ok s) eqn:Ok; [|intros H; inversion H; subst; split; auto; split; auto; congruence].
    destruct (all_some args); [|discriminate]. intros H. inversion H; subst. split; auto. split; [discriminate|]. intros _ q. now rewrite ext_ok, Ok.
  Qed.
  Lemma tied_construct t l1 l2 : Forall2 tied l1 l2 -> tied (construct t l1) (construct t l2).
  Proof. intros H. unfold construct. apply tied_bind; [now apply tied_args|]. intros. apply tied_build. Qed.
  Lemma tied_inv : tied (decode_inv_obj_prop w anon_id) (decode_inv_obj_prop w anon_id).
  Proof. unfold decode_inv_obj_prop. apply tied_opt; auto with tied. Qed.
  Lemma tied_prop : tied (decode_obj_prop_exp w anon_id) (decode_obj_prop_exp w anon_id).
  Proof. apply tied_with. intros n. destruct (n =? 0); auto using tied_inv with tied. Qed.
  Lemma tied_facet : tied (decode_facet_restr w anon_id) (decode_facet_restr w anon_id).
  Proof. unfold decode_facet_restr. tie. Qed.
  Lemma tied_value : tied (decode_annot_value w anon_id) (decode_annot_value w anon_id).
  Proof. apply tied_with. intros n. destruct (n =? 0); auto with tied. Qed.
  Local Hint Resolve tied_inv tied_prop tied_facet tied_value : tied.

  Lemma tied_annotation f1 f2 : (f1 <= f2)%nat -> tied (decode_annotation w anon_id f1) (decode_annotation w anon_id f2).
  Proof.
    revert f2. induction f1; intros f2 L; [apply tied_fuel|]. destruct f2 as [|f2]; [lia|]. cbn [decode_annotation].
    apply tied_opt; [auto with tied|]. intros h. apply tied_bind; [destruct (h =? 0); auto with tied|].
    intros [[|ns rem| | | | | | ]|]; try now apply tied_fail. apply tied_bind; [auto with tied|]. intros [v|]; [|now apply tied_fail].
    destruct (h =? 0); [|apply tied_ret]. apply tied_bind; [apply tied_vector; [lia|apply IHf1; lia]|]. intros [a|]; [apply tied_ret|now apply tied_fail].
  Qed.
  Lemma tied_range f1 f2 : (f1 <= f2)%nat -> tied (decode_data_range w anon_id f1) (decode_data_range w anon_id f2).
  Proof.
    revert f2. induction f1; intros f2 L; [apply tied_fuel|]. destruct f2 as [|f2]; [lia|]. cbn [decode_data_range].
    assert (f1 <= f2)%nat as L' by lia. specialize (IHf1 _ L').
    apply tied_with. intros n. destruct (DRT_COUNT - 1 <=? n); [auto with tied|].
    destruct (nth_error drt_types (N.to_nat (n + 1))) as [[]|]; try (now apply tied_fail);
      apply tied_construct; repeat (apply Forall2_cons || apply Forall2_nil); auto using tied_vector with tied.
  Qed.
  Lemma tied_quant t p1 p2 f1 f2 : tied p1 p2 -> tied f1 f2 -> tied (decode_quant t p1 f1) (decode_quant t p2 f2).
  Proof.
    intros Hp Hf. unfold decode_quant. apply tied_bind; [apply tied_args; auto|]. intros args s a s'.
    destruct (d_ok s) eqn:Ok.
    - destruct args as [|[p|] [|f []]]; try discriminate. intros H. inversion H; subst. split; auto. split; [discriminate|]. intros _ q. now rewrite ext_ok, Ok.
    - intros H; inversion H; subst; split; auto; split; auto; congruence.
  Qed.
  Lemma tied_card t p1 p2 f1 f2 : tied p1 p2 -> tied f1 f2 -> tied (decode_card w t p1 f1) (decode_card w t p2 f2).
  Proof.
    intros Hp Hf. unfold decode_card. apply tied_opt; [auto with tied|]. intros n. apply tied_bind; auto. intros p.
    apply tied_bind; [destruct (N.odd n); auto with tied|]. intros f s a s'. destruct (d_ok s) eqn:Ok.
    - destruct p as [p|]; [|discriminate]. intros H. inversion H; subst. split; auto. split; [discriminate|]. intros _ q. now rewrite ext_ok, Ok.
    - intros H; inversion H; subst; split; auto; split; auto; congruence.
  Qed.
  Lemma tied_cls f1 f2 : (f1 <= f2)%nat -> tied (decode_cls_exp w anon_id f1) (decode_cls_exp w anon_id f2).
  Proof.
    revert f2. induction f1; intros f2 L; [apply tied_fuel|]. destruct f2 as [|f2]; [lia|]. cbn [decode_cls_exp].
    assert (f1 <= f2)%nat as L' by lia. specialize (IHf1 _ L'). pose proof (tied_range _ _ L') as Hr.
    apply tied_with. intros n. destruct (CET_COUNT - 1 <=? n); [auto with tied|].
    destruct (nth_error cet_types (N.to_nat (n + 1))) as [[]|]; try (now apply tied_fail);
      first [apply tied_quant; auto with tied; fail|apply tied_card; auto with tied; fail|apply tied_construct; repeat (apply Forall2_cons || apply Forall2_nil); auto using tied_vector with tied].
  Qed.
  Lemma tied_annots f1 f2 b : (f1 <= f2)%nat -> tied (decode_annots w anon_id f1 b) (decode_annots w anon_id f2 b).
  Proof. intros L. unfold decode_annots. destruct b; [|apply tied_ret]. apply tied_vector; auto using tied_annotation. Qed.
  Lemma tied_annotated f1 f2 b t l1 l2 : (f1 <= f2)%nat -> Forall2 tied l1 l2 ->
    tied (decode_annotated w anon_id f1 b t l1) (decode_annotated w anon_id f2 b t l2).
  Proof.
    intros L Hl. unfold decode_annotated. apply tied_bind; [now apply tied_args|]. intros. apply tied_bind; [now apply tied_annots|]. intros. apply tied_build.
  Qed.
  Lemma tied_sub f1 f2 u b : (f1 <= f2)%nat -> tied (decode_sub_obj_prop w anon_id f1 u b) (decode_sub_obj_prop w anon_id f2 u b).
  Proof.
    intros L. unfold decode_sub_obj_prop. apply tied_bind; [destruct u; auto using tied_vector with tied|]. intros sub.
    apply tied_bind; [auto with tied|]. intros sup. apply tied_bind; [now apply tied_annots|]. intros an s a s'.
    destruct sub, sup; try discriminate. intros H. inversion H; subst. auto.
  Qed.
  Lemma tied_operands f1 f2 t : (f1 <= f2)%nat ->
    match axiom_operands w anon_id f1 t, axiom_operands w anon_id f2 t with Some l1, Some l2 => Forall2 tied l1 l2 | None, None => True | _, _ => False end.
  Proof.
    intros L. pose proof (tied_cls _ _ L). pose proof (tied_range _ _ L). destruct t; cbn; auto;
      repeat (apply Forall2_cons || apply Forall2_nil); auto using tied_vector with tied.
  Qed.
  Lemma tied_axiom f1 f2 h : (f1 <= f2)%nat -> tied (decode_axiom w anon_id f1 h) (decode_axiom w anon_id f2 h).
  Proof.
    intros L. unfold decode_axiom. destruct (nth_error et_types _) as [e|].
    - apply tied_annotated; auto. repeat (apply Forall2_cons || apply Forall2_nil). auto with tied.
    - destruct (nth_error at_types _) as [t|]; [|now apply tied_fail].
      pose proof (tied_operands f1 f2 t L) as Ho.
      destruct (axiom_operands w anon_id f1 t) as [l1|] eqn:E1, (axiom_operands w anon_id f2 t) as [l2|] eqn:E2; try contradiction;
      destruct t; try discriminate E1; first [now apply tied_sub|now apply tied_fail|now apply tied_annotated].
  Qed.

  (** * Which functions make an object only if there was no error *)

  Lemma wary_opt {A B} (m : D (option A)) (k : A -> D (option B)) : wary m -> (forall a, sound (k a)) ->
    wary (do x <- m;; match x with Some a => k a | None => dret None end).
  Proof.
    intros Hm Hk s b s' E. unfold dbind in E. destruct (m s) as [[a|] s1| |] eqn:E1; try discriminate E.
    eapply Hk; [|exact E]. eapply Hm; eauto.
  Qed.
  Lemma sound_opt {A B} (m : D (option A)) (k : A -> D (option B)) : sound m -> (forall a, sound (k a)) ->
    sound (do x <- m;; match x with Some a => k a | None => dret None end).
  Proof.
    intros Hm Hk s b s' Ok E. unfold dbind in E. destruct (m s) as [[a|] s1| |] eqn:E1; try discriminate E.
    eapply Hk; [|exact E]. eapply Hm; eauto.
  Qed.
  Lemma sound_ret {A} (x : option A) : sound (dret x).
  Proof. intros s a s' Ok E. inversion E; subst; auto. Qed.
  Lemma sound_fail {A} c : sound (A := A) (fail c).
  Proof. intros s a s' Ok E. discriminate E. Qed.
  Lemma wary_byte : wary read_byte.
  Proof. intros s a s'. unfold read_byte. destruct (d_ok s) eqn:Ok; cbn [negb]; [|discriminate]. destruct (d_in s); [discriminate|]. intros H. inversion H; subst. exact Ok. Qed.
  Lemma wary_bytes n : wary (read_bytes n).
  Proof. intros s a s'. unfold read_bytes. destruct (d_ok s) eqn:Ok; cbn [negb]; [|discriminate]. destruct (N.of_nat (List.length (d_in s)) <? n); [discriminate|]. intros H. inversion H; subst. exact Ok. Qed.
  Lemma wary_varint : wary (read_varint w).
  Proof. intros s a s'. unfold read_varint. destruct (d_ok s) eqn:Ok; cbn [negb]; [|discriminate]. destruct (varint_read (d_in s)) as [[n r]|]; [|discriminate]. intros H. inversion H; subst. exact Ok. Qed.
  Lemma wary_svarint : wary (read_svarint w).
  Proof. intros s a s'. unfold read_svarint. destruct (d_ok s) eqn:Ok; cbn [negb]; [|discriminate]. destruct (varint_read (d_in s)) as [[n r]|]; [|discriminate]. intros H. inversion H; subst. exact Ok. Qed.
  Lemma wary_string : wary (decode_string w).
  Proof. apply wary_opt; [apply wary_varint|]. intros n. apply wary_sound, wary_bytes. Qed.
  Lemma sound_get_id i : sound (get_id anon_id i).
  Proof.
    intros s a s' Ok. unfold get_id. destruct (i <? _); [intros H; inversion H; subst; auto|]. destruct (_ <? i); [discriminate|].
    intros H. inversion H; subst. exact Ok.
  Qed.
  Lemma sound_bind {A B} (m : D (option A)) (k : option A -> D (option B)) : sound m -> (forall a, sound (k (Some a))) ->
    (forall s a s', k None s = DRet (Some a) s' -> False) -> sound (dbind m k).
  Proof.
    intros Hm Hk Hn s b s' Ok E. unfold dbind in E. destruct (m s) as [[a|] s1| |] eqn:E1; try discriminate E.
    - eapply Hk; [|exact E]. eapply Hm; eauto.
    - exfalso. eapply Hn; eauto.
  Qed.
  Lemma sound_get_id_iri i : sound (get_id_iri anon_id i).
  Proof. apply sound_bind; [apply sound_get_id| |discriminate]. intros []; auto using sound_ret, sound_fail. Qed.
  Lemma sound_get_entity e i : sound (get_entity anon_id e i).
  Proof. apply sound_bind; [apply sound_get_id_iri| |discriminate]. intros []; auto using sound_ret, sound_fail. Qed.
  Lemma wary_with g : (forall n, sound (g n)) -> wary (decode_with w g).
  Proof. intros H. apply wary_opt; [apply wary_varint|exact H]. Qed.
  Lemma wary_iri : wary (decode_iri w anon_id).
  Proof. apply wary_with, sound_get_id_iri. Qed.
  Lemma wary_prop : wary (decode_obj_prop_exp w anon_id).
  Proof.
    apply wary_with. intros n. destruct (n =? 0); [|apply sound_get_entity].
    apply sound_opt; [apply wary_sound, wary_with, sound_get_entity|]. intros. apply sound_ret.
  Qed.
  Lemma sound_lres r : sound (literal_result r).
  Proof. destruct r; cbn; auto using sound_ret, sound_fail. intros s a s' _ E. discriminate E. Qed.
  Lemma sound_lit_value f : sound (decode_literal_value w f).
  Proof.
    unfold decode_literal_value, decode_literal_bool, decode_literal_int, decode_literal_uint, decode_literal_fixed_point, decode_literal_e_notation.
    repeat match goal with |- sound (match ?x with _ => _ end) => destruct x end;
    repeat first [apply sound_ret|apply wary_sound, wary_string
      |apply sound_opt; [apply wary_sound; first [apply wary_svarint|apply wary_varint|apply wary_byte]|intros ?]].
    all: repeat match goal with |- sound (match ?x with _ => _ end) => destruct x end; apply sound_ret.
  Qed.
  Definition lit_end (h : N) (value : option bytes) : D (option obj) :=
    match h mod 4 with
    | 0 => decode_literal_string value
    | 1 => decode_literal_lang w value
    | 2 => decode_literal_typed w anon_id value
    | _ => dret None
    end.
  Lemma lit_end_sound h v : sound (lit_end h v).
  Proof.
    unfold lit_end, decode_literal_string, decode_literal_lang, decode_literal_typed.
    repeat match goal with |- sound (match ?x with _ => _ end) => destruct x end; auto using sound_ret, sound_lres.
    - apply sound_bind; [apply wary_sound, wary_iri| |discriminate]. intros []; auto using sound_ret, sound_lres.
    - apply sound_opt; [apply wary_sound, wary_string|]. auto using sound_lres.
  Qed.
  Lemma lit_end_none h s a s' : lit_end h None s = DRet (Some a) s' -> False.
  Proof.
    unfold lit_end, decode_literal_string, decode_literal_lang, decode_literal_typed.
    repeat match goal with |- match ?x with _ => _ end _ = _ -> _ => destruct x end; try discriminate.
    - unfold dbind. destruct (decode_iri w anon_id s) as [[[]|] s1| |]; try discriminate.
    - unfold dbind. destruct (decode_string w s) as [[]|  |]; try discriminate.
  Qed.
  Lemma wary_literal : wary (decode_literal w anon_id).
  Proof.
    apply wary_opt; [apply wary_byte|]. intros h s a s' Ok. unfold dbind.
    destruct (decode_literal_value w (h mod 64 / 4) s) as [[v|] s1| |] eqn:E1; try discriminate.
    - cbn [handle_null]. unfold dret. fold (lit_end h (Some v)). apply lit_end_sound. eapply sound_lit_value; eauto.
    - cbn [handle_null]. unfold fail, dbind, handle_error, dret. fold (lit_end h None). intros E. now apply lit_end_none in E.
  Qed.
  Lemma wary_value : wary (decode_annot_value w anon_id).
  Proof. apply wary_with. intros n. destruct (n =? 0); [apply wary_sound, wary_literal|apply sound_get_id]. Qed.
  Lemma sound_vec_loop f m n : sound m -> sound (vec_loop f m n).
  Proof.
    intros Hm. revert n. induction f; intros n; cbn [vec_loop]; destruct (n =? 0); auto using sound_ret.
    - intros s a s' _ E. discriminate E.
    - apply sound_bind; [assumption| |discriminate]. intros o. apply sound_bind; [apply IHf| |discriminate]. intros. apply sound_ret.
  Qed.
  Lemma wary_vector f m : sound m -> wary (decode_vector w f m).
  Proof.
    intros Hm. apply wary_opt; [apply wary_varint|]. intros n. apply sound_bind; [now apply sound_vec_loop| |discriminate]. intros. apply sound_ret.
  Qed.
  Lemma wary_annotation f : wary (decode_annotation w anon_id f).
  Proof.
    induction f; [intros s a s' E; discriminate E|]. cbn [decode_annotation]. apply wary_opt; [apply wary_varint|]. intros h.
    apply sound_bind; [destruct (h =? 0); [apply wary_sound, wary_iri|apply sound_get_id_iri]| |discriminate].
    intros []; auto using sound_fail. apply sound_bind; [apply wary_sound, wary_value| |discriminate]. intros v.
    destruct (h =? 0); [|apply sound_ret]. apply sound_bind; [now apply wary_sound, wary_vector, wary_sound| |discriminate]. intros. apply sound_ret.
  Qed.

  (** * Frames *)

  Variable handler : list dchange -> ret.

  Lemma begins_refl {A} (l : list A) : begins l l.
  Proof. exists []. now rewrite app_nil_r. Qed.
  Lemma begins_trans {A} (l m n : list A) : begins l m -> begins m n -> begins l n.
  Proof. intros [x ->] [y ->]. exists (x ++ y). now rewrite app_assoc. Qed.

  (** The changes a part of the input gives, and those the whole gives. *)
  Inductive cut : list dchange -> list dchange -> Prop :=
  | cut_short l l' : begins l l' -> cut l l'
  | cut_bare l c ops x m :
      cut (l ++ [(c, DAxiom (mk_annot OT_A_SUB_OBJ_PROP ops None))]) (l ++ [(c, DAxiom (mk_annot OT_A_SUB_OBJ_PROP ops x))] ++ m).
  Lemma cut_more l m n : cut l m -> begins m n -> cut l n.
  Proof.
    intros C H. destruct C as [l l' HI|]; [apply cut_short; eapply begins_trans; eauto|]. destruct H as [y ->]. rewrite <- !app_assoc. apply cut_bare.
  Qed.

  (** [m] only adds changes, and none once there is an error. *)
  Definition adds {A} (m : D A) : Prop := forall s a s', m s = DRet a s' ->
    begins (d_log s) (d_log s') /\ (d_ok s = false -> d_log s' = d_log s /\ d_ok s' = false).
  Definition grows {A} (m : D A) : Prop := forall s a s', m s = DRet a s' -> begins (d_log s) (d_log s').
  (** [m1] on a part of the input, [m2] on the whole. *)
  Definition logs {A} (m1 m2 : D A) : Prop := forall s a s', d_ok s = true -> m1 s = DRet a s' ->
    (d_ok s' = true -> forall q, m2 (ext q s) = DRet a (ext q s')) /\
    (d_ok s' = false -> forall q b s2, m2 (ext q s) = DRet b s2 -> cut (d_log s') (d_log s2)).

  Lemma tied_adds {A} (m1 m2 : D A) : tied m1 m2 -> adds m1.
  Proof. intros H s a s' E. apply H in E as (L & B & _). apply seen_log in L. rewrite L. split; [apply begins_refl|auto]. Qed.
  Lemma adds_grows {A} (m : D A) : adds m -> grows m.
  Proof. intros H s a s' E. now apply H in E as [H1 _]. Qed.
  Lemma tied_logs {A} (m1 m2 : D A) : tied m1 m2 -> tied m2 m2 -> logs m1 m2.
  Proof.
    intros H H2 s a s' Ok E. apply H in E as (L & B & G). split; [auto|]. intros _ q b s2 E2. apply H2 in E2 as (L2 & _). apply seen_log in L, L2. rewrite L, L2. apply cut_short, begins_refl.
  Qed.
  Lemma adds_bind {A B} (m : D A) (k : A -> D B) : adds m -> (forall a, adds (k a)) -> adds (dbind m k).
  Proof.
    intros Hm Hk s b s' E. unfold dbind in E. destruct (m s) as [a s1| |] eqn:E1; try discriminate E.
    apply Hm in E1 as [I1 B1]. apply Hk in E as [I2 B2]. split; [eapply begins_trans; eauto|].
    intros Bad. destruct (B1 Bad) as [L1 Bad1]. destruct (B2 Bad1) as [L2 Bad2]. split; congruence.
  Qed.
  Lemma grows_bind {A B} (m : D A) (k : A -> D B) : grows m -> (forall a, grows (k a)) -> grows (dbind m k).
  Proof.
    intros Hm Hk s b s' E. unfold dbind in E. destruct (m s) as [a s1| |] eqn:E1; try discriminate E.
    eapply begins_trans; [eapply Hm; eauto|eapply Hk; eauto].
  Qed.
  Lemma logs_bind {A B} (m1 m2 : D A) (k1 k2 : A -> D B) : logs m1 m2 -> (forall a, logs (k1 a) (k2 a)) -> (forall a, adds (k1 a)) ->
    (forall a, grows (k2 a)) -> logs (dbind m1 k1) (dbind m2 k2).
  Proof.
    intros Hm Hk Ha Hg s b s' Ok E. unfold dbind in *. destruct (m1 s) as [a s1| |] eqn:E1; try discriminate E.
    apply Hm in E1 as [G1 B1]; auto. destruct (d_ok s1) eqn:Ok1.
    - apply Hk in E as [G2 B2]; auto. specialize (G1 eq_refl). split; intros; [rewrite G1; auto|]. rewrite G1 in *. eauto.
    - apply Ha in E as [_ B2]. destruct (B2 Ok1) as [L2 Bad2]. split; [congruence|]. intros _ q b2 s2 E2.
      destruct (m2 (ext q s)) as [a2 s3| |] eqn:E3; try discriminate E2. rewrite L2. eapply cut_more; [eapply B1; eauto|]. eapply Hg; eauto.
  Qed.

  Lemma change_ext p q s s' : handle_change handler p s = DRet tt s' -> handle_change handler p (ext q s) = DRet tt (ext q s').
  Proof. unfold handle_change. intros H. inversion H; subst. cbn. now rewrite set_code_ext. Qed.
  Lemma change_logs p : logs (handle_change handler p) (handle_change handler p).
  Proof.
    intros s [] s' Ok E. pose proof (fun q => change_ext p q s s' E) as G. split; [auto|]. intros _ q b s2 E2. rewrite G in E2. inversion E2; subst.
    apply cut_short, begins_refl.
  Qed.
  Lemma change_grows p : grows (handle_change handler p).
  Proof. intros s a s' E. unfold handle_change in E. inversion E; subst. rewrite set_code_log. cbn. now eexists. Qed.


  (** A part that reads nothing. *)
  Definition still {A} (k : D A) : Prop := forall s b s', k s = DRet b s' -> forall q, k (ext q s) = DRet b (ext q s').
  Lemma still_bind {A B} (m : D A) (k : A -> D B) : still m -> (forall a, still (k a)) -> still (dbind m k).
  Proof.
    intros Hm Hk s b s' E q. unfold dbind in *. destruct (m s) as [a s1| |] eqn:E1; try discriminate E. rewrite (Hm _ _ _ E1). now apply Hk.
  Qed.
  Lemma still_ret {A} (a : A) : still (dret a).
  Proof. intros s b s' E q. inversion E; subst. reflexivity. Qed.
  Lemma still_change p : still (handle_change handler p).
  Proof. intros s [] s' E q. now apply change_ext. Qed.
  Lemma still_ns n : still (fun s => DRet tt (set_ns (d_ns s ++ [n]) s)).
  Proof. intros s b s' E q. inversion E; subst. reflexivity. Qed.
  Lemma grows_ret {A} (a : A) : grows (dret a).
  Proof. intros s b s' E. inversion E; subst. apply begins_refl. Qed.
  Lemma grows_ns n : grows (fun s => DRet tt (set_ns (d_ns s ++ [n]) s)).
  Proof. intros s b s' E. inversion E; subst. apply begins_refl. Qed.

  (** Something that is done with what was decoded. *)
  Lemma report_logs {A B} (m1 m2 : D (option A)) (k : A -> D B) (n : B) : tied m1 m2 -> tied m2 m2 -> wary m1 ->
    (forall a, still (k a)) -> (forall a, grows (k a)) ->
    logs (do x <- m1;; match x with Some a => k a | None => dret n end)
         (do x <- m2;; match x with Some a => k a | None => dret n end).
  Proof.
    intros Ht Ht2 Hw Hs Hg s b s' Ok E. unfold dbind at 1 in E. destruct (m1 s) as [[a|] s1| |] eqn:E1; try discriminate E.
    - pose proof (Hw _ _ _ E1) as Ok1. pose proof E1 as E1'. apply Ht in E1 as (L & _ & G). specialize (G Ok1).
      pose proof (Hs a _ _ _ E) as G2.
      split; [intros _ q; unfold dbind at 1; rewrite G; apply G2|]. intros _ q b2 s2 E2. unfold dbind at 1 in E2. rewrite G in E2. rewrite G2 in E2. inversion E2; subst. apply cut_short, begins_refl.
    - inversion E; subst. apply Ht in E1 as (L & B0 & G). split; [intros Ok1 q; unfold dbind; now rewrite G|].
      intros _ q b2 s2 E2. rewrite (seen_log _ _ L). apply cut_short. change (d_log s) with (d_log (ext q s)).
      eapply (grows_bind m2 _ (adds_grows _ (tied_adds _ _ Ht2))); [|exact E2]. intros [a|]; [apply Hg|apply grows_ret].
  Qed.
  Lemma report_adds {A B} (m1 : D (option A)) (k : A -> D B) (n : B) : adds m1 -> wary m1 -> (forall a, grows (k a)) ->
    adds (do x <- m1;; match x with Some a => k a | None => dret n end).
  Proof.
    intros Ht Hw Hg s b s' E. unfold dbind at 1 in E. destruct (m1 s) as [[a|] s1| |] eqn:E1; try discriminate E.
    - pose proof (Hw _ _ _ E1) as Ok1. apply Ht in E1 as [I1 B1]. split.
      + eapply begins_trans; [exact I1|]. eapply Hg; eauto.
      + intros Bad. destruct (B1 Bad). congruence.
    - inversion E; subst. apply Ht in E1. exact E1.
  Qed.
  Lemma logs_ext {A} (m1 m2 n1 n2 : D A) : (forall s, n1 s = m1 s) -> (forall s, n2 s = m2 s) -> logs m1 m2 -> logs n1 n2.
  Proof. intros H1 H2 H s a s' Ok E. rewrite H1 in E. destruct (H _ _ _ Ok E) as [G B]. split; intros; [rewrite H2|rewrite H2 in *]; eauto. Qed.
  Lemma adds_ext {A} (m n : D A) : (forall s, n s = m s) -> adds m -> adds n.
  Proof. intros H1 H s a s' E. rewrite H1 in E. eauto. Qed.
  Lemma bind_assoc {A B C} (m : D A) (f : A -> D B) (k : B -> D C) s : (do a <- m;; do b <- f a;; k b) s = (do b <- (do a <- m;; f a);; k b) s.
  Proof. unfold dbind. now destruct (m s). Qed.

  Lemma loop_adds f m n : grows m -> adds (decl_loop f m n).
  Proof.
    intros Hm. revert n. induction f; intros n s a s'; cbn [decl_loop]; destruct (d_ok s) eqn:Ok; cbn [andb]; try (intros H; inversion H; subst; split; [apply begins_refl|auto]);
      destruct (n =? 0); cbn [negb]; try (intros H; inversion H; subst; split; [apply begins_refl|congruence]).
    - discriminate.
    - intros E. split; [|discriminate]. eapply grows_bind; [exact Hm| |exact E]. intros []; [apply adds_grows, IHf|apply grows_ret].
  Qed.
  Lemma loop_logs f1 f2 m1 m2 n : (f1 <= f2)%nat -> logs m1 m2 -> grows m1 -> grows m2 -> logs (decl_loop f1 m1 n) (decl_loop f2 m2 n).
  Proof.
    intros L Hm Hg1 Hg2. revert f2 n L. induction f1; intros f2 n L s a s' Ok; cbn [decl_loop]; rewrite Ok; cbn [andb];
      (destruct (n =? 0) eqn:E0; cbn [negb];
       [intros H; inversion H; subst; split; intros _ q; destruct f2; cbn [decl_loop]; rewrite ext_ok, Ok, E0; cbn [negb andb]; auto;
          intros b s2 H2; inversion H2; subst; apply cut_short, begins_refl|]).
    - discriminate.
    - destruct f2 as [|f2]; [lia|]. intros E. cbn [decl_loop].
      assert (logs (do go <- m1;; if go : bool then decl_loop f1 m1 (n - 1) else dret tt) (do go <- m2;; if go : bool then decl_loop f2 m2 (n - 1) else dret tt)) as Hl.
      { apply logs_bind; auto.
        - intros []; [apply IHf1; lia|]. apply tied_logs; apply tied_ret.
        - intros []; [now apply loop_adds|]. eapply tied_adds, tied_ret.
        - intros []; [now apply adds_grows, loop_adds|]. apply grows_ret. }
      destruct (Hl _ _ _ Ok E) as [G B]. split; intros H; setoid_rewrite ext_ok; rewrite Ok, E0; cbn [negb andb]; [exact (G H)|exact (B H)].
  Qed.
  Lemma decls_logs f1 f2 m1 m2 : (f1 <= f2)%nat -> logs m1 m2 -> grows m1 -> grows m2 -> logs (decode_decls w f1 m1) (decode_decls w f2 m2).
  Proof.
    intros L Hm Hg1 Hg2. apply logs_bind; [apply tied_logs; apply tied_varint| | |]; intros [n|].
    - now apply loop_logs.
    - apply tied_logs; apply tied_ret.
    - now apply loop_adds.
    - eapply tied_adds, tied_ret.
    - now apply adds_grows, loop_adds.
    - apply grows_ret.
  Qed.
  Lemma decls_grows f m : grows m -> grows (decode_decls w f m).
  Proof. intros H. apply grows_bind; [eapply adds_grows, tied_adds, tied_varint|]. intros [n|]; [now apply adds_grows, loop_adds|apply grows_ret]. Qed.

  (** * The declarations *)

  Lemma prefix_inner_logs p : let m := do ns <- decode_string w;; match ns with
      | Some n => do _ <- (fun s => DRet tt (set_ns (d_ns s ++ [n]) s));; do _ <- handle_change handler (DPrefix p n);; dret true
      | None => dret true end in logs m m /\ adds m.
  Proof.
    assert (forall n, still (do _ <- (fun s => DRet tt (set_ns (d_ns s ++ [n]) s));; do _ <- handle_change handler (DPrefix p n);; dret true)) as Hs.
    { intros n. apply still_bind; [apply still_ns|]. intros _. apply still_bind; [apply still_change|]. intros _. apply still_ret. }
    assert (forall n, grows (do _ <- (fun s => DRet tt (set_ns (d_ns s ++ [n]) s));; do _ <- handle_change handler (DPrefix p n);; dret true)) as Hg.
    { intros n. apply grows_bind; [apply grows_ns|]. intros _. apply grows_bind; [apply change_grows|]. intros _. apply grows_ret. }
    split.
    - apply report_logs; auto using tied_string, wary_string.
    - apply report_adds; auto using wary_string. eapply tied_adds, tied_string.
  Qed.
  Lemma prefix_logs : logs (decode_prefix_decl w handler) (decode_prefix_decl w handler) /\ grows (decode_prefix_decl w handler).
  Proof.
    assert (forall x : option bytes, let m := (do ns <- decode_string w;; match x, ns with
      | Some p, Some n => do _ <- (fun s => DRet tt (set_ns (d_ns s ++ [n]) s));; do _ <- handle_change handler (DPrefix p n);; dret true
      | _, _ => dret true end) in logs m m /\ adds m) as H.
    { intros [p|]; [apply prefix_inner_logs|]. cbv zeta.
      assert (tied (do _ <- decode_string w;; dret true) (do _ <- decode_string w;; dret true)) as T by (apply tied_bind; [apply tied_string|intros; apply tied_ret]).
      split; [now apply tied_logs|]. eapply tied_adds, T. }
    split.
    - apply logs_bind; [apply tied_logs; apply tied_string|intros x; apply (H x)|intros x; apply (H x)|intros x; apply adds_grows, (H x)].
    - apply grows_bind; [eapply adds_grows, tied_adds, tied_string|]. intros x. apply adds_grows, (H x).
  Qed.
  Lemma tied_set_ns n : tied (fun s => DRet tt (set_ns (d_ns s ++ [n]) s)) (fun s => DRet tt (set_ns (d_ns s ++ [n]) s)).
  Proof. intros s a s' E. inversion E; subst. auto. Qed.
  Lemma tied_code c : tied (handle_error c) (handle_error c).
  Proof.
    intros s a s' E. inversion E; subst. split; [apply set_code_seen|]. split; [apply set_code_err|].
    intros _ q. unfold handle_error. now rewrite set_code_ext.
  Qed.
  Lemma tied_ns_decl : tied (decode_ns_decl w) (decode_ns_decl w).
  Proof. apply tied_opt; [apply tied_string|]. intros n. apply tied_bind; [apply tied_set_ns|]. intros _. apply tied_bind; [apply tied_code|]. intros _. apply tied_ret. Qed.
  Lemma tied_iri_decl : tied (decode_iri_decl w) (decode_iri_decl w).
  Proof.
    apply tied_opt; [apply tied_varint|]. intros p. apply tied_opt; [apply tied_string|]. intros r s a s'. cbn [ext set_in d_ns].
    destruct (p <? _).
    - destruct (nth_error _ _) as [ns|]; [destruct (iri_of_parts ns r) as [x y]|]; intros H; inversion H; subst; auto.
    - intros H. inversion H; subst. split; [apply set_code_seen|]. split; [apply set_code_err|]. intros _ q. now rewrite set_code_ext.
  Qed.
  Lemma tied_anon_decl : tied (decode_anon_decl w) (decode_anon_decl w).
  Proof. apply tied_opt; [apply tied_string|]. intros r s a s' E. inversion E; subst. auto. Qed.
  Lemma tied_reset b c : tied (handle_reset b c) (handle_reset b c).
  Proof.
    intros s a s'. unfold handle_reset, set_code, d_ok, ext, seen, set_ns, set_ids, set_in. destruct s as [i code ns ids fr rm lg]. generalize (map fst standard_prefixes) as std. intros std. cbn.
    destruct b, c; cbn; destruct (code <? 0)%Z eqn:Ec; cbn; rewrite ?Ec; cbn;
      try (replace (0 <=? code)%Z with false by lia); try (replace (0 <=? code)%Z with true by lia); cbn;
      intros E; inversion E; subst; cbn; (split; [reflexivity|]; split; [intros; lia|]; intros; try (exfalso; lia); try reflexivity).
  Qed.
  Lemma report_iri (f : obj -> dpart) : let m := do x <- decode_iri w anon_id;; match x with Some i => handle_change handler (f i) | None => dret tt end in
    logs m m /\ adds m.
  Proof.
    split.
    - apply report_logs; auto using tied_iri, wary_iri, still_change, change_grows.
    - apply report_adds; auto using wary_iri, change_grows. eapply tied_adds, tied_iri.
  Qed.
  Lemma version_logs b : logs (decode_iri_version w anon_id handler b) (decode_iri_version w anon_id handler b) /\ grows (decode_iri_version w anon_id handler b).
  Proof.
    destruct (report_iri DIri) as [L1 A1]. destruct (report_iri DVersion) as [L2 A2].
    set (m := do _ <- (do x <- decode_iri w anon_id;; match x with Some i => handle_change handler (DIri i) | None => dret tt end);;
      if b then do version <- decode_iri w anon_id;; match version with Some v => handle_change handler (DVersion v) | None => dret tt end else dret tt).
    assert (forall s, decode_iri_version w anon_id handler b s = m s) as X by (intros s; apply bind_assoc).
    assert (adds m) as Am.
    { apply adds_bind; [exact A1|]. intros _. destruct b; [exact A2|]. eapply tied_adds, tied_ret. }
    split.
    - eapply logs_ext; [exact X|exact X|]. apply logs_bind; [exact L1| | |]; intros _; destruct b; auto using adds_grows, grows_ret.
      + apply tied_logs; apply tied_ret.
      + eapply tied_adds, tied_ret.
    - apply adds_grows. eapply adds_ext; [exact X|exact Am].
  Qed.
  Lemma item_logs {A} (m1 m2 : D (option A)) (f : A -> dpart) : tied m1 m2 -> tied m2 m2 -> wary m1 ->
    logs (do x <- m1;; match x with Some i => do _ <- handle_change handler (f i);; dret true | None => dret false end)
         (do x <- m2;; match x with Some i => do _ <- handle_change handler (f i);; dret true | None => dret false end).
  Proof.
    intros T T2 Wy. apply report_logs; auto; intros a.
    - apply still_bind; [apply still_change|]. intros _. apply still_ret.
    - apply grows_bind; [apply change_grows|]. intros _. apply grows_ret.
  Qed.
  Lemma item_grows {A} (m1 m2 : D (option A)) (f : A -> dpart) : tied m1 m2 ->
    grows (do x <- m1;; match x with Some i => do _ <- handle_change handler (f i);; dret true | None => dret false end).
  Proof.
    intros T. apply grows_bind; [eapply adds_grows, tied_adds, T|]. intros [a|]; [|apply grows_ret].
    apply grows_bind; [apply change_grows|]. intros _. apply grows_ret.
  Qed.

  (** * Axioms *)

  (** An object made in spite of an error. *)
  Lemma annotated_wary f b t l : wary (decode_annotated w anon_id f b t l).
  Proof.
    intros s a s' E. unfold decode_annotated, dbind in E. destruct (dec_args l s) as [args s1| |]; try discriminate E.
    destruct (decode_annots w anon_id f b s1) as [an s2| |]; try discriminate E. unfold build in E. destruct (d_ok s2) eqn:Ok; [|discriminate E].
    destruct (all_some args); [|discriminate E]. inversion E; subst. exact Ok.
  Qed.
  Lemma annots_none f b s a s' : d_ok s = true -> decode_annots w anon_id f b s = DRet a s' -> d_ok s' = false -> a = None.
  Proof.
    unfold decode_annots. destruct b.
    - intros _ E B. destruct a as [a|]; [|reflexivity]. apply wary_vector in E; [congruence|]. apply wary_sound, wary_annotation.
    - intros _ E B. inversion E; subst. reflexivity.
  Qed.
  Lemma sub_bare f1 f2 u b s x s' : (f1 <= f2)%nat -> d_ok s = true -> decode_sub_obj_prop w anon_id f1 u b s = DRet (Some x) s' -> d_ok s' = false ->
    exists ops, x = mk_annot OT_A_SUB_OBJ_PROP ops None /\ forall q y s2, decode_sub_obj_prop w anon_id f2 u b (ext q s) = DRet y s2 ->
      exists an, y = Some (mk_annot OT_A_SUB_OBJ_PROP ops an).
  Proof.
    intros L Ok E B. unfold decode_sub_obj_prop in *. set (m1 := if u then decode_vector w f1 _ else _) in E.
    set (m2 := if u then decode_vector w f2 _ else _).
    assert (tied m1 m2) as Tm by (unfold m1, m2; destruct u; auto using tied_vector, tied_prop).
    assert (wary m1) as Wm by (unfold m1; destruct u; [apply wary_vector, wary_sound, wary_prop|apply wary_prop]).
    unfold dbind in *. destruct (m1 s) as [sub s1| |] eqn:E1; try discriminate E.
    destruct (decode_obj_prop_exp w anon_id s1) as [sup s2| |] eqn:E2; try discriminate E.
    destruct (decode_annots w anon_id f1 b s2) as [an s3| |] eqn:E3; try discriminate E.
    destruct sub as [sub|]; [|discriminate E]. destruct sup as [sup|]; [|discriminate E].
    pose proof (Wm _ _ _ E1) as Ok1. pose proof (wary_prop _ _ _ E2) as Ok2. inversion E; subst x s3; clear E.
    pose proof (annots_none _ _ _ _ _ Ok2 E3 B) as ->. eexists. split; [reflexivity|].
    intros q y t E. apply Tm in E1 as (_ & _ & G1). rewrite (G1 Ok1 q) in E. apply tied_prop in E2 as (_ & _ & G2). rewrite (G2 Ok2 q) in E.
    destruct (decode_annots w anon_id f2 b (ext q s2)) as [an2 s3| |]; try discriminate E. inversion E; subst. eexists. reflexivity.
  Qed.
  Lemma axiom_bare f1 f2 h s x s' : (f1 <= f2)%nat -> d_ok s = true -> decode_axiom w anon_id f1 h s = DRet (Some x) s' -> d_ok s' = false ->
    exists ops, x = mk_annot OT_A_SUB_OBJ_PROP ops None /\ forall q y s2, decode_axiom w anon_id f2 h (ext q s) = DRet y s2 ->
      exists an, y = Some (mk_annot OT_A_SUB_OBJ_PROP ops an).
  Proof.
    intros L Ok E B. unfold decode_axiom in *. destruct (nth_error et_types _) as [e|].
    - apply annotated_wary in E. congruence.
    - destruct (nth_error at_types _) as [t|]; [|discriminate E].
      assert (t = OT_A_SUB_OBJ_PROP \/ match axiom_operands w anon_id f1 t with
        | Some l => decode_annotated w anon_id f1 (N.testbit h 6) t l
        | None => fail ERR_SYNTAX end s = DRet (Some x) s') as [->|E'] by (destruct t; auto).
      + eapply sub_bare; eauto.
      + destruct (axiom_operands w anon_id f1 t); [|discriminate E']. apply annotated_wary in E'. congruence.
  Qed.
  Lemma axiom_frame_logs f1 f2 h : (f1 <= f2)%nat -> logs (decode_axiom_frame w anon_id handler f1 h) (decode_axiom_frame w anon_id handler f2 h).
  Proof.
    intros L s a s' Ok E. unfold decode_axiom_frame in *. rewrite Ok in E. setoid_rewrite ext_ok. rewrite Ok.
    unfold dbind in *. destruct (decode_axiom w anon_id f1 h s) as [[x|] s1| |] eqn:E1; try discriminate E.
    - destruct (d_ok s1) eqn:Ok1.
      + apply (tied_axiom f1 f2 h L) in E1 as (_ & _ & G). specialize (G Ok1). destruct a. pose proof (fun q => change_ext _ q _ _ E) as G2.
        split; [intros _ q; rewrite G; apply G2|]. intros _ q b s2 E2. rewrite G, G2 in E2. inversion E2; subst. apply cut_short, begins_refl.
      + pose proof E1 as E1'. apply axiom_bare with (f2 := f2) in E1 as (ops & -> & H); auto. apply (tied_axiom f1 f1 h (le_n _)) in E1' as (S1 & _ & _).
        split.
        * intros Ok'. unfold handle_change in E. inversion E; subst. rewrite set_code_err in Ok'; [discriminate Ok'|exact Ok1].
        * intros _ q b s2 E2. destruct (decode_axiom w anon_id f2 h (ext q s)) as [y s3| |] eqn:E3; try discriminate E2.
          destruct (H _ _ _ E3) as [an ->]. apply (tied_axiom f2 f2 h (le_n _)) in E3 as (S3 & _ & _).
          unfold handle_change in E, E2. inversion E; subst. inversion E2; subst. rewrite !set_code_log. cbn [d_log].
          unfold seen in S1, S3. cbn in S3. injection S1 as -> ->. injection S3 as -> ->. apply (cut_bare _ _ _ an []).
    - inversion E; subst. apply (tied_axiom f1 f2 h L) in E1 as (S1 & _ & G). split; [intros Ok' q; now rewrite G|].
      intros _ q b s2 E2. rewrite (seen_log _ _ S1). apply cut_short.
      destruct (decode_axiom w anon_id f2 h (ext q s)) as [y s3| |] eqn:E3; try discriminate E2.
      apply (tied_axiom f2 f2 h (le_n _)) in E3 as (S3 & _ & _). apply seen_log in S3. cbn in S3. rewrite <- S3.
      destruct y; [now apply change_grows in E2|]. inversion E2; subst. apply begins_refl.
  Qed.
  Lemma axiom_frame_grows f h : grows (decode_axiom_frame w anon_id handler f h).
  Proof.
    intros s a s'. unfold decode_axiom_frame. destruct (d_ok s); [|apply grows_ret]. intros E.
    eapply grows_bind; [eapply adds_grows, tied_adds, tied_axiom, le_n| |exact E]. intros [x|]; [apply change_grows|apply grows_ret].
  Qed.

  (** * The stream *)

  Definition frame_body (f : nat) (h : N) : D bool :=
    let go (m : D unit) := do _ <- m;; dret true in
    match h mod 64 with
    | 0 => fun s => DRet true (set_remove false s)
    | 1 => fun s => DRet true (set_remove true s)
    | 2 => go (handle_reset (N.testbit h 6) (N.testbit h 7))
    | 3 => dret false
    | 4 => go (decode_decls w f (if N.testbit h 6 then decode_prefix_decl w handler else decode_ns_decl w))
    | 5 => go (decode_decls w f (if N.testbit h 6 then decode_iri_decl w else decode_anon_decl w))
    | 6 => go (decode_iri_version w anon_id handler (N.testbit h 7))
    | 7 => go (decode_decls w f (decode_import w anon_id handler))
    | 8 => go (decode_decls w f (decode_onto_annot w anon_id handler f))
    | _ => go (decode_axiom_frame w anon_id handler f h)
    end.
  Lemma frame_cons f s h r : d_in s = h :: r -> decode_frame w anon_id handler f s = frame_body f h (set_in r s).
  Proof. intros E. unfold decode_frame, frame_body. rewrite E. repeat match goal with |- context [match ?x with _ => _ end] => destruct x end; reflexivity. Qed.
  Lemma go_logs (m1 m2 : D unit) : logs m1 m2 -> logs (do _ <- m1;; dret true) (do _ <- m2;; dret true).
  Proof. intros H. apply logs_bind; auto; intros _; [apply tied_logs; apply tied_ret|eapply tied_adds, tied_ret|apply grows_ret]. Qed.
  Lemma go_grows (m : D unit) : grows m -> grows (do _ <- m;; dret true).
  Proof. intros H. apply grows_bind; auto. intros _. apply grows_ret. Qed.
  Lemma remove_logs b : logs (fun s => DRet true (set_remove b s)) (fun s => DRet true (set_remove b s)).
  Proof. intros s a s' Ok E. inversion E; subst. split; [reflexivity|]. intros _ q c s2 E2. inversion E2; subst. apply cut_short, begins_refl. Qed.

  Lemma body_logs f1 f2 h : (f1 <= f2)%nat -> logs (frame_body f1 h) (frame_body f2 h).
  Proof.
    intros L. unfold frame_body.
    assert (forall f, grows (decode_onto_annot w anon_id handler f)) as Go by (intros; apply item_grows with (decode_annotation w anon_id f), tied_annotation, le_n).
    assert (grows (decode_import w anon_id handler)) as Gi by (apply item_grows with (decode_iri w anon_id), tied_iri).
    assert (grows (decode_ns_decl w)) as Gn by eapply adds_grows, tied_adds, tied_ns_decl.
    assert (grows (decode_iri_decl w)) as Gd by eapply adds_grows, tied_adds, tied_iri_decl.
    assert (grows (decode_anon_decl w)) as Ga by eapply adds_grows, tied_adds, tied_anon_decl.
    repeat match goal with |- logs (match ?x with _ => _ end) _ => destruct x end;
    first [apply remove_logs|apply tied_logs; apply tied_ret|apply go_logs].
    all: try (now apply axiom_frame_logs).
    all: try (apply tied_logs; apply tied_reset).
    all: try apply version_logs.
    all: apply decls_logs; auto.
    all: try (apply (item_logs (decode_iri w anon_id) (decode_iri w anon_id) DImport); auto using tied_iri, wary_iri).
    all: try (apply (item_logs (decode_annotation w anon_id f1) (decode_annotation w anon_id f2) DAnnot); auto using tied_annotation, wary_annotation).
    all: (destruct (N.testbit h 6); auto; try apply prefix_logs; apply tied_logs; auto using tied_ns_decl, tied_iri_decl, tied_anon_decl).
  Qed.
  Lemma body_grows f h : grows (frame_body f h).
  Proof.
    unfold frame_body.
    assert (forall f, grows (decode_onto_annot w anon_id handler f)) as Go by (intros; apply item_grows with (decode_annotation w anon_id f0), tied_annotation, le_n).
    assert (grows (decode_import w anon_id handler)) as Gi by (apply item_grows with (decode_iri w anon_id), tied_iri).
    assert (grows (decode_ns_decl w)) as Gn by eapply adds_grows, tied_adds, tied_ns_decl.
    assert (grows (decode_iri_decl w)) as Gd by eapply adds_grows, tied_adds, tied_iri_decl.
    assert (grows (decode_anon_decl w)) as Ga by eapply adds_grows, tied_adds, tied_anon_decl.
    repeat match goal with |- grows (match ?x with _ => _ end) => destruct x end;
    first [apply grows_ret|apply go_grows|intros s a s' E; inversion E; subst; apply begins_refl].
    all: try (now apply axiom_frame_grows).
    all: try (eapply adds_grows, tied_adds, tied_reset).
    all: try apply version_logs.
    all: apply decls_grows; auto.
    all: destruct (N.testbit h 6); auto; apply prefix_logs.
  Qed.
  Lemma frame_grows f : grows (decode_frame w anon_id handler f).
  Proof.
    intros s a s' E. destruct (d_in s) as [|h r] eqn:Ei.
    - unfold decode_frame in E. rewrite Ei in E. inversion E; subst. apply begins_refl.
    - rewrite (frame_cons _ _ _ _ Ei) in E. now apply body_grows in E.
  Qed.
  Lemma frames_grows f i : grows (decode_frames w anon_id handler f i).
  Proof.
    induction f; intros s a s'; cbn [decode_frames]; (destruct (d_ok s); [|apply grows_ret]); [discriminate|].
    intros E. eapply grows_bind; [apply frame_grows| |exact E]. intros []; [exact IHf|apply grows_ret].
  Qed.
  Lemma frames_bad f i s : d_ok s = false -> decode_frames w anon_id handler f i s = DRet tt s.
  Proof. intros B. destruct f; cbn [decode_frames]; now rewrite B. Qed.

  Lemma frames_cut f1 i1 f2 i2 : (f1 <= f2)%nat -> (i1 <= i2)%nat -> forall s q s1 s2, d_ok s = true ->
    decode_frames w anon_id handler f1 i1 s = DRet tt s1 -> decode_frames w anon_id handler f2 i2 (ext q s) = DRet tt s2 ->
    cut (d_log s1) (d_log s2) /\ (d_ok s1 = true -> begins (d_log s1) (d_log s2)).
  Proof.
    revert f2. induction f1; intros f2 Lf Li s q s1 s2 Ok; [cbn [decode_frames]; rewrite Ok; discriminate|].
    destruct f2 as [|f2]; [lia|]. destruct (d_in s) as [|h r] eqn:Ei.
    - cbn [decode_frames]. rewrite Ok. unfold dbind at 1, decode_frame at 1. rewrite Ei. intros E E2. inversion E; subst s1.
      assert (begins (d_log s) (d_log s2)) as I.
      { change (d_log s) with (d_log (ext q s)). eapply (frames_grows (S f2) i2). cbn [decode_frames]. exact E2. }
      split; auto using cut_short.
    - cbn [decode_frames]. rewrite ext_ok, Ok. unfold dbind. rewrite (frame_cons _ _ _ _ Ei).
      assert (d_in (ext q s) = h :: (r ++ q)) as Ei2 by (cbn; now rewrite Ei). rewrite (frame_cons _ _ _ _ Ei2).
      replace (set_in (r ++ q) (ext q s)) with (ext q (set_in r s)) by reflexivity.
      destruct (frame_body i1 h (set_in r s)) as [go t1| |] eqn:E1; try discriminate. apply (body_logs i1 i2 h Li) in E1 as [G B]; [|exact Ok].
      destruct (d_ok t1) eqn:Ok1.
      + rewrite (G eq_refl q). destruct go; [now apply IHf1; try lia|]. intros H1 H2. inversion H1; subst. inversion H2; subst. cbn [ext set_in d_log].
        split; [apply cut_short|intros _]; apply begins_refl.
      + intros H1 H2. assert (s1 = t1) as ->.
        { destruct go; [rewrite frames_bad in H1 by exact Ok1|]; now inversion H1. }
        split; [|congruence]. destruct (frame_body i2 h (ext q (set_in r s))) as [go2 t2| |] eqn:E2; try discriminate H2.
        eapply cut_more; [eapply B; eauto|]. destruct go2; [now apply frames_grows in H2|]. inversion H2; subst. apply begins_refl.
  Qed.

  Lemma tied_header : tied decode_header decode_header.
  Proof. apply tied_opt; [apply tied_byte|]. intros v. destruct (v =? 1); [apply tied_ret|apply tied_code]. Qed.

  Theorem read_cut p q s1 s2 : read_ontology w anon_id handler p = DRet tt s1 -> read_ontology w anon_id handler (p ++ q) = DRet tt s2 ->
    cut (d_log s1) (d_log s2) /\ (d_ok s1 = true -> begins (d_log s1) (d_log s2)).
  Proof.
    unfold read_ontology, dbind. change (d_init (p ++ q)) with (ext q (d_init p)).
    destruct (decode_header (d_init p)) as [[] t1| |] eqn:E1; try discriminate.
    apply tied_header in E1 as (S1 & _ & G). apply seen_log in S1. destruct (d_ok t1) eqn:Ok1.
    - rewrite (G eq_refl q). apply frames_cut; auto; rewrite app_length; lia.
    - intros H1 H2. rewrite frames_bad in H1 by exact Ok1. inversion H1; subst. rewrite S1. cbn [d_init d_log].
      split; [apply cut_short|intros _]; now exists (d_log s2).
  Qed.
End Cut.

Theorem read_part w anon_id handler p q s1 s2 :
  read_ontology w anon_id handler p = DRet tt s1 -> read_ontology w anon_id handler (p ++ q) = DRet tt s2 ->
  begins (d_log s1) (d_log s2) \/
  ((d_code s1 < 0)%Z /\ exists l c ops x x' m, d_log s1 = l ++ [(c, DAxiom (OComp OT_A_SUB_OBJ_PROP ops x 0))] /\ x = None /\
     d_log s2 = l ++ [(c, DAxiom (OComp OT_A_SUB_OBJ_PROP ops x' 0))] ++ m).
Proof.
  intros H1 H2. destruct (read_cut w anon_id handler p q s1 s2 H1 H2) as [C I]. destruct (d_ok s1) eqn:Ok; [left; exact (I eq_refl)|].
  remember (d_log s1) as l1. remember (d_log s2) as l2. destruct C as [l l' H|l c ops x m]; [left; exact H|]. right. split; [unfold d_ok in Ok; lia|].
  exists l, c, ops, None. eexists _, m. split; [reflexivity|]. split; reflexivity.
Qed.
Theorem read_part_ok w anon_id handler p q s1 s2 :
  read_ontology w anon_id handler p = DRet tt s1 -> read_ontology w anon_id handler (p ++ q) = DRet tt s2 ->
  (0 <= d_code s1)%Z -> begins (d_log s1) (d_log s2).
Proof. intros H1 H2 Ok. apply (read_cut w anon_id handler p q s1 s2 H1 H2). unfold d_ok. lia. Qed.

Lemma begins_filter {A} (f : A -> bool) l l' : begins l l' -> begins (filter f l) (filter f l').
Proof. intros [m ->]. exists (filter f m). apply filter_app. Qed.

Theorem written_part w : width w -> forall visit, (forall t, Permutation (visit t) t) ->
  forall visit_refs alive anon_id handler, (forall l, (0 <= handler l)%Z) ->
  forall h body e, session w h body -> e_anon e = true ->
  exists rs e' b, w_run visit visit_refs alive w (WHeader h :: body ++ [WFooter]) e = Some (rs, e') /\ e_out e' = e_out e ++ b /\
    forall p q s, b = p ++ q -> read_ontology w anon_id handler p = DRet tt s -> (0 <= d_code s)%Z ->
    forall k, begins (filter (concerns k) (d_log s)) (filter (concerns k) (asked h body)).
Proof.
  intros Hw visit Hv visit_refs alive anon_id handler Hh h body e Hs He.
  destruct (stream_round_trip w Hw visit Hv visit_refs alive anon_id handler Hh h body e Hs He) as (rs & e' & b & s & Hr & _ & Hb & Hread & _ & Hsame & _).
  exists rs, e', b. split; [exact Hr|]. split; [exact Hb|]. intros p q s1 -> H1 Ok k. rewrite <- (Hsame k). apply begins_filter.
  eapply read_part_ok; eauto.
Qed.
