(** The decoder on arbitrary bytes: it terminates, what it builds is well formed, where it can fail. *)

From Coq Require Import NArith ZArith String List Bool Lia.
From Coq Require Import ZifyBool ZifyNat ZifyN.
From Verif Require Import Bytes ModelTypes ModelObject ModelText SpecObject SpecText ProofObject ProofIter ProofText ProofLiteral
  ModelChange ModelPrtValue ModelPrtEncoder ModelPrtDecoder SpecPrt ProofPrtValue ProofPrtRead ProofPrtAxiom.
Import ListNotations.
Local Open Scope N_scope.
Ltac Zify.zify_post_hook ::= Z.div_mod_to_equations.

(** The tables of the reader hold IRIs and anonymous individuals only. *)
Definition ids_ok (s : dst) : Prop := Forall (fun o => wt (SOne SAnnotSubj) o = true) (d_ids s).

Record step (s s' : dst) : Prop := {
  st_ids : ids_ok s';
  st_len : (List.length (d_in s') <= List.length (d_in s))%nat;
  st_log : d_log s' = d_log s;
  st_err : d_ok s = false -> d_ok s' = false }.

Lemma step_refl s : ids_ok s -> step s s.
Proof. now constructor. Qed.
Lemma step_trans s s1 s2 : step s s1 -> step s1 s2 -> step s s2.
Proof. intros [] []. constructor; auto; try lia. congruence. Qed.

(** [m], run on less than [f] bytes. *)
Definition tr {A} (f : nat) (m : D A) (Q : dst -> A -> dst -> Prop) : Prop :=
  forall s, ids_ok s -> (List.length (d_in s) < f)%nat ->
    match m s with DRet a s' => step s s' /\ Q s a s' | DUB t => In t null_sites | DFuel => False end.

Lemma tr_ret {A} f (a : A) (Q : dst -> A -> dst -> Prop) : (forall s, Q s a s) -> tr f (dret a) Q.
Proof. intros H s I L. cbn. auto using step_refl. Qed.

Lemma tr_bind {A B} f (m : D A) (k : A -> D B) (Q : dst -> A -> dst -> Prop) (R : dst -> B -> dst -> Prop) :
  tr f m Q ->
  (forall a s0 s, Q s0 a s -> step s0 s -> ids_ok s -> (List.length (d_in s0) < f)%nat ->
    match k a s with DRet b s' => step s s' /\ R s0 b s' | DUB t => In t null_sites | DFuel => False end) ->
  tr f (dbind m k) R.
Proof.
  intros Hm Hk s I L. unfold dbind. specialize (Hm s I L). destruct (m s) as [a s'|t|]; auto.
  destruct Hm as [St HQ]. specialize (Hk a s s' HQ St (st_ids _ _ St) L). destruct (k a s') as [b s''|t|]; auto.
  destruct Hk as [St' HR]. split; auto. eapply step_trans; eauto.
Qed.

Lemma tr_weaken {A} f f' (m : D A) (Q R : dst -> A -> dst -> Prop) : (f' <= f)%nat -> (forall s a s', Q s a s' -> R s a s') -> tr f m Q -> tr f' m R.
Proof. intros L H Hm s I Ls. specialize (Hm s I ltac:(lia)). destruct (m s); auto. destruct Hm; auto. Qed.

(** Results. *)
Definition got {A} (eat strict : bool) (P : A -> Prop) (s : dst) (r : option A) (s' : dst) : Prop :=
  match r with
  | Some a => P a /\ (eat = true -> (List.length (d_in s') < List.length (d_in s))%nat)
  | None => strict = true -> d_ok s' = false
  end.
Definition gets {A} f (eat strict : bool) (P : A -> Prop) (m : D (option A)) : Prop := tr f m (got eat strict P).

Lemma gets_weaken {A} f f' eat strict (P P' : A -> Prop) m : (f' <= f)%nat -> (forall a, P a -> P' a) -> gets f eat strict P m -> gets f' eat strict P' m.
Proof. intros L H. apply tr_weaken; auto. intros s [a|] s'; cbn; auto. intros []; auto. Qed.
Lemma gets_noeat {A} f eat strict (P : A -> Prop) m : gets f eat strict P m -> gets f false strict P m.
Proof. apply tr_weaken; auto. intros s [a|] s'; cbn; auto. intros []; auto. split; auto. discriminate. Qed.
Lemma gets_loose {A} f eat strict (P : A -> Prop) m : gets f eat strict P m -> gets f eat false P m.
Proof. apply tr_weaken; auto. intros s [a|] s'; cbn; auto. discriminate. Qed.

(** Running a continuation: what was eaten before does not matter. *)
Lemma gets_run {A} f strict (P : A -> Prop) m s0 s : gets f false strict P m -> ids_ok s -> (List.length (d_in s) < f)%nat ->
  match m s with DRet b s' => step s s' /\ got false strict P s0 b s' | DUB t => In t null_sites | DFuel => False end.
Proof.
  intros G I L. specialize (G s I L). destruct (m s) as [[a|] s'|t|]; auto. destruct G as [St [Pa _]]. split; auto. split; auto. discriminate.
Qed.

Lemma set_code_err c s : (c < 0)%Z -> d_ok (set_code c s) = false.
Proof. intros H. unfold d_ok, set_code. destruct (d_code s <? 0)%Z eqn:E; cbn; lia. Qed.
Lemma set_code_step c s : ids_ok s -> step s (set_code c s).
Proof.
  intros I. unfold set_code. destruct (d_code s <? 0)%Z eqn:E; [now apply step_refl|].
  constructor; auto. unfold d_ok. cbn. lia.
Qed.
Lemma step_in i s : ids_ok s -> (List.length i <= List.length (d_in s))%nat -> step s (set_in i s).
Proof. intros I L. now constructor. Qed.

Lemma gets_fail {A} f eat strict (P : A -> Prop) c : (c < 0)%Z -> gets f eat strict P (fail c).
Proof. intros H s I L. cbn. split; [now apply set_code_step|]. intros _. now apply set_code_err. Qed.
Lemma gets_none {A} f eat (P : A -> Prop) : gets f eat false P (dret None).
Proof. apply tr_ret. intros s. cbn. discriminate. Qed.
Lemma gets_some {A} f strict (P : A -> Prop) a : P a -> gets f false strict P (dret (Some a)).
Proof. intros H. apply tr_ret. intros s. split; auto. discriminate. Qed.

(** A first part that must succeed. *)
Lemma gets_bind {A B} f eat eat' strict (P : A -> Prop) (Q : B -> Prop) m k : gets f eat true P m ->
  (forall a, P a -> gets (if eat then pred f else f) eat' strict Q (k a)) ->
  gets f (eat || eat') strict Q (do x <- m;; match x with Some a => k a | None => dret None end).
Proof.
  intros Hm Hk. eapply tr_bind; [exact Hm|]. intros [a|] s0 s HQ St I L; cbn in HQ.
  - destruct HQ as [Pa Le]. specialize (Hk a Pa s I).
    assert ((List.length (d_in s) < (if eat then pred f else f))%nat) as Ls.
    { pose proof (st_len _ _ St). destruct eat; [specialize (Le eq_refl)|]; lia. }
    specialize (Hk Ls). destruct (k a s) as [r s'|t|]; auto. destruct Hk as [St' G]. split; auto.
    destruct r as [b|]; cbn in *; auto. destruct G as [Qb Lb]. split; auto. intros E.
    pose proof (st_len _ _ St). pose proof (st_len _ _ St').
    destruct eat; [specialize (Le eq_refl); lia|]. specialize (Lb E). lia.
  - cbn. split; [now apply step_refl|auto].
Qed.

Lemma gets_down {A} f eat strict (P : A -> Prop) m : gets (S f) eat strict P m -> gets f eat strict P m.
Proof. apply gets_weaken; auto. Qed.

Section Safe.
  Variable w : N.
  Variable anon_id : nat -> bytes.

  Lemma varint_groups_eat k b n r : varint_read_groups k b = Some (n, r) -> (List.length r < List.length b)%nat.
  Proof.
    revert b n r. induction k; intros [|c b] n r E; try discriminate E. cbn in E.
    destruct (c <? 128) eqn:Ec; [inversion E; subst; cbn; lia|].
    destruct (varint_read_groups k b) as [[m r']|] eqn:Em; inversion E; subst. apply IHk in Em. cbn. lia.
  Qed.
  Lemma varint_eat b n r : varint_read b = Some (n, r) -> (List.length r < List.length b)%nat.
  Proof. unfold varint_read. destruct (varint_read_groups 10 b) as [[m r']|] eqn:E; [|discriminate]. intros H. inversion H; subst. eapply varint_groups_eat; eauto. Qed.

  Lemma gets_byte f : gets f true true (fun _ => True) read_byte.
  Proof.
    intros s I L. unfold read_byte. destruct (d_ok s) eqn:Ok; cbn [negb]; [|cbn; auto using step_refl].
    destruct (d_in s) as [|b r] eqn:E; [apply (gets_fail f true true); [reflexivity|assumption|now rewrite E]|]. cbn. split; [|rewrite E; cbn; auto].
    apply step_in; auto. rewrite E. cbn. lia.
  Qed.
  Lemma gets_varint f : gets f true true (fun _ => True) (read_varint w).
  Proof.
    intros s I L. unfold read_varint. destruct (d_ok s) eqn:Ok; cbn [negb]; [|cbn; auto using step_refl].
    destruct (varint_read (d_in s)) as [[n r]|] eqn:E; [|apply (gets_fail f true true); [reflexivity|assumption|assumption]].
    apply varint_eat in E. cbn. split; [apply step_in; auto; lia|auto].
  Qed.
  Lemma gets_svarint f : gets f true true (fun _ => True) (read_svarint w).
  Proof.
    intros s I L. unfold read_svarint. destruct (d_ok s) eqn:Ok; cbn [negb]; [|cbn; auto using step_refl].
    destruct (varint_read (d_in s)) as [[n r]|] eqn:E; [|apply (gets_fail f true true); [reflexivity|assumption|assumption]].
    apply varint_eat in E. cbn. split; [apply step_in; auto; lia|auto].
  Qed.
  Lemma gets_bytes f n : gets f false true (fun _ => True) (read_bytes n).
  Proof.
    intros s I L. unfold read_bytes. destruct (d_ok s) eqn:Ok; cbn [negb]; [|cbn; auto using step_refl].
    destruct (N.of_nat (List.length (d_in s)) <? n) eqn:E; [apply (gets_fail f false true); [reflexivity|assumption|assumption]|].
    cbn. split; [apply step_in; auto|split; auto; discriminate]. rewrite skipn_length. lia.
  Qed.
  Lemma gets_string f : gets f true true (fun _ => True) (decode_string w).
  Proof. apply (gets_bind f true false true (fun _ => True)); [apply gets_varint|]. intros n _. apply gets_bytes. Qed.

  Lemma gets_get_id f i : gets f false true (fun o => wt (SOne SAnnotSubj) o = true) (get_id anon_id i).
  Proof.
    intros s I L. unfold get_id. destruct (i <? N.of_nat (List.length (d_ids s))) eqn:E.
    - destruct (nth_error (d_ids s) (N.to_nat i)) as [o|] eqn:En.
      + cbn [got]. split; [now apply step_refl|]. split; [|discriminate]. apply nth_error_In in En. unfold ids_ok in I. rewrite Forall_forall in I. auto.
      + apply nth_error_None in En. lia.
    - destruct (N.of_nat (List.length (d_ids s)) <? i) eqn:E2; [apply (gets_fail f false true); [reflexivity|assumption|assumption]|].
      split; [|split; [reflexivity|discriminate]]. constructor; auto. unfold ids_ok in *. cbn. apply Forall_app. auto.
  Qed.
  Lemma subj_cases o : wt (SOne SAnnotSubj) o = true -> (exists ns rem, o = OIri ns rem) \/ (exists id, o = OAnon id).
  Proof. destruct o as [|ns rem|e ns rem|id|v ns rem|v l|ord l|t fs opt n]; intros H; try discriminate H; eauto; [destruct e; discriminate H|destruct t; discriminate H]. Qed.
  Lemma gets_get_id_iri f i : gets f false true an_iri (get_id_iri anon_id i).
  Proof.
    eapply tr_bind; [apply gets_get_id|]. intros [a|] s0 s HQ St I L; cbn in HQ.
    - destruct HQ as [Pa _]. apply subj_cases in Pa as [(ns & rem & ->)|(id & ->)].
      + cbn. split; [now apply step_refl|]. split; [|discriminate]. unfold an_iri. eauto.
      + cbn. split; [now apply set_code_step|]. intros _. now apply set_code_err.
    - cbn. auto using step_refl.
  Qed.
  Lemma gets_get_entity f e i : gets f false true (fun o => wt (SOne (SEnt e)) o = true) (get_entity anon_id e i).
  Proof.
    eapply tr_bind; [apply gets_get_id_iri|]. intros [a|] s0 s HQ St I L; cbn in HQ.
    - destruct HQ as [(ns & rem & ->) _]. cbn. split; [now apply step_refl|]. split; [|discriminate]. now destruct e.
    - cbn. auto using step_refl.
  Qed.
  Lemma gets_get_individual f i : gets f false true (fun o => wt (SOne SInd) o = true) (get_individual anon_id i).
  Proof.
    eapply tr_bind; [apply gets_get_id|]. intros [a|] s0 s HQ St I L; cbn in HQ.
    - destruct HQ as [Pa _]. apply subj_cases in Pa as [(ns & rem & ->)|(id & ->)]; cbn; (split; [now apply step_refl|]); split; auto; discriminate.
    - cbn. auto using step_refl.
  Qed.

  Lemma gets_with f strict (P : obj -> Prop) get : (forall n, gets f false strict P (get n)) -> gets (S f) true strict P (decode_with w get).
  Proof. intros H. apply (gets_bind (S f) true false strict (fun _ => True)); [apply gets_varint|]. intros n _. apply H. Qed.
  Lemma gets_iri f : gets f true true an_iri (decode_iri w anon_id).
  Proof. apply (gets_weaken (S f)) with (P := an_iri); auto. apply gets_with. intros. apply gets_get_id_iri. Qed.
  Lemma gets_any f : gets f true true (fun o => wt (SOne SAnnotSubj) o = true) (decode_iri_or_anon w anon_id).
  Proof. eapply (gets_weaken (S f)); [| |apply gets_with; intros; apply gets_get_id]; auto. Qed.
  Lemma gets_entity f e : gets f true true (fun o => wt (SOne (SEnt e)) o = true) (decode_entity w anon_id e).
  Proof. eapply (gets_weaken (S f)); [| |apply gets_with; intros; apply gets_get_entity]; auto. Qed.
  Lemma gets_individual f : gets f true true (fun o => wt (SOne SInd) o = true) (decode_individual w anon_id).
  Proof. eapply (gets_weaken (S f)); [| |apply gets_with; intros; apply gets_get_individual]; auto. Qed.

  (** * Literals *)

  Definition a_literal (o : obj) : Prop := wt (SOne SLit) o = true.
  Lemma cowl_literal_lit v d o : cowl_literal v d = LObj o -> a_literal o.
  Proof.
    unfold cowl_literal, literal_lang_alloc, literal_parse_lang_alloc, literal_string, a_literal. intros H.
    repeat match type of H with
    | context [match ?x with _ => _ end] => destruct x; try discriminate H
    | context [let (_, _) := ?x in _] => destruct x; try discriminate H
    end; inversion H; reflexivity.
  Qed.
  Lemma gets_literal_result f r : (forall o, r = LObj o -> a_literal o) -> gets f false false a_literal (literal_result r).
  Proof.
    intros H. destruct r as [o| |]; cbn [literal_result].
    - apply gets_some. auto.
    - now apply gets_fail.
    - intros s I L. cbn. auto.
  Qed.
  Lemma gets_bool f : gets f true false (fun _ => True) decode_literal_bool.
  Proof.
    eapply tr_bind; [apply gets_byte|]. intros [a|] s0 s HQ St I L; cbn in HQ.
    - assert (forall x, match dret (A := option bytes) x s with DRet b s' => step s s' /\ got true false (fun _ => True) s0 b s' | DUB t => In t null_sites | DFuel => False end) as G.
      { intros [x|]; cbn; split; try (now apply step_refl); try tauto. discriminate. }
      destruct a as [|[?|?|]]; apply G.
    - cbn. split; [now apply step_refl|discriminate].
  Qed.
  Lemma gets_map {A B} f eat eat' strict (P : A -> Prop) (Q : B -> Prop) (m : D (option A)) (g : A -> D (option B)) :
    gets f eat strict P m -> (forall a, P a -> gets f eat' strict Q (g a)) -> (strict = true \/ strict = false) ->
    gets f (eat || eat') strict Q (do x <- m;; match x with Some a => g a | None => dret None end).
  Proof.
    intros Hm Hg _. eapply tr_bind; [exact Hm|]. intros [a|] s0 s HQ St I L; cbn in HQ.
    - destruct HQ as [Pa Le]. specialize (Hg a Pa s I). pose proof (st_len _ _ St). specialize (Hg ltac:(lia)).
      destruct (g a s) as [r s'|t|]; auto. destruct Hg as [St' G]. split; auto. pose proof (st_len _ _ St').
      destruct r as [b|]; cbn in *; auto. destruct G as [Qb Lb]. split; auto. intros E.
      destruct eat; [specialize (Le eq_refl); lia|]. specialize (Lb E). lia.
    - cbn. split; [now apply step_refl|auto].
  Qed.
  Lemma gets_int f : gets f true false (fun _ : bytes => True) (decode_literal_int w).
  Proof. apply (gets_map f true false false (fun _ => True)); auto; [eapply gets_loose; apply gets_svarint|]. intros. now apply gets_some. Qed.
  Lemma gets_uint f : gets f true false (fun _ : bytes => True) (decode_literal_uint w).
  Proof. apply (gets_map f true false false (fun _ => True)); auto; [eapply gets_loose; apply gets_varint|]. intros. now apply gets_some. Qed.
  Lemma gets_fixed f : gets f true false (fun _ : bytes => True) (decode_literal_fixed_point w).
  Proof.
    apply (gets_map f true true false (fun _ => True)); auto; [eapply gets_loose; apply gets_svarint|]. intros z _.
    apply (gets_map f true false false (fun _ => True)); auto; [eapply gets_loose; apply gets_varint|]. intros. now apply gets_some.
  Qed.
  Lemma gets_exp f : gets f true false (fun _ : bytes => True) (decode_literal_e_notation w).
  Proof.
    apply (gets_map f true true false (fun _ => True)); auto; [eapply gets_loose; apply gets_svarint|]. intros z _.
    apply (gets_map f true true false (fun _ => True)); auto; [eapply gets_loose; apply gets_varint|]. intros n _.
    apply (gets_map f true false false (fun _ => True)); auto; [eapply gets_loose; apply gets_svarint|]. intros. now apply gets_some.
  Qed.
  Lemma gets_value f fmt : gets f true false (fun _ : bytes => True) (decode_literal_value w fmt).
  Proof.
    unfold decode_literal_value.
    destruct fmt as [|p]; [eapply gets_loose; apply gets_string|].
    do 3 (try destruct p as [p|p|]); auto using gets_none, gets_bool, gets_int, gets_uint, gets_fixed, gets_exp.
  Qed.
  Lemma gets_literal f : gets f true false a_literal (decode_literal w anon_id).
  Proof.
    apply (gets_bind f true false false (fun _ => True)); [apply gets_byte|]. intros h _.
    eapply (tr_bind (pred f)); [apply gets_value|]. intros v s0 s HQ St I L. clear HQ.
    assert (tr (pred f) (handle_null v) (fun _ _ _ => True)) as Hn.
    { intros s1 I1 L1. destruct v; cbn; split; auto using step_refl, set_code_step. }
    assert (G : gets (pred f) false false a_literal (do value <- handle_null v;;
        match h mod 4 with 0 => decode_literal_string value | 1 => decode_literal_lang w value | 2 => decode_literal_typed w anon_id value | _ => dret None end)).
    { eapply tr_bind; [exact Hn|]. intros value s1 s2 _ St2 I2 L2. pose proof (st_len _ _ St2) as L3.
      assert (gets (pred f) false false a_literal (match h mod 4 with 0 => decode_literal_string value | 1 => decode_literal_lang w value | 2 => decode_literal_typed w anon_id value | _ => dret None end)) as G2.
      { assert (h mod 4 = 0 \/ h mod 4 = 1 \/ h mod 4 = 2 \/ h mod 4 = 3) as [->|[->|[->| ->]]] by lia.
        - apply gets_literal_result. intros o. apply cowl_literal_lit.
        - eapply gets_noeat. apply (gets_map (pred f) true false false (fun _ => True)); auto; [eapply gets_loose; apply gets_string|].
          intros l _. apply gets_literal_result. intros o. apply cowl_literal_lit.
        - unfold decode_literal_typed. eapply tr_bind; [apply gets_iri|]. intros [a|] s4 s5 HQ St5 I5 L5; cbn in HQ.
          + destruct HQ as [(ns & rem & ->) _]. pose proof (st_len _ _ St5).
            assert (gets (pred f) false false a_literal (literal_result (cowl_literal value (DLDatatype ns rem)))) as G3.
            { apply gets_literal_result. intros o. apply cowl_literal_lit. }
            eapply gets_run; eauto. lia.
          + cbn. split; [now apply step_refl|discriminate].
        - apply gets_none. }
      eapply gets_run; eauto. lia. }
    pose proof (st_len _ _ St) as L0.
    eapply gets_run; eauto. lia.
  Qed.

  (** * Vectors and constructors *)

  Lemma vec_loop_gets f strict (P : obj -> Prop) item : gets f true strict P item -> forall n,
    gets f false true (fun l => Forall P l) (vec_loop f item n).
  Proof.
    intros H. assert (forall k, (k <= f)%nat -> forall n, gets k false true (fun l => Forall P l) (vec_loop k item n)) as G; [|auto].
    induction k; intros Lk n; cbn [vec_loop]; destruct (n =? 0); try (apply gets_some; constructor).
    - intros s I L. lia.
    - eapply tr_bind; [eapply (gets_weaken f); [exact Lk| |exact H]; intros a Pa; exact Pa|]. intros [a|] s0 s HQ St I L; cbn in HQ.
      + destruct HQ as [Pa Le]. specialize (Le eq_refl). specialize (IHk ltac:(lia) (n - 1) s I ltac:(lia)). unfold dbind.
        destruct (vec_loop k item (n - 1) s) as [[l|] s'|t|]; auto; destruct IHk as [St' G']; split; auto; cbn in *.
        destruct G'. split; [auto|discriminate].
      + cbn. split; [now apply set_code_step|]. intros _. now apply set_code_err.
  Qed.
  Lemma gets_vector f strict i item : gets f true strict (fun o => wt (SOne i) o = true) item ->
    gets (S f) true true (fun o => wt (SMany false i) o = true) (decode_vector w f item).
  Proof.
    intros H. apply (gets_bind (S f) true false true (fun _ => True)); [apply gets_varint|]. intros n _. cbn [pred].
    eapply tr_bind; [eapply vec_loop_gets; exact H|]. intros [l|] s0 s HQ St I L; cbn in HQ; cbn; (split; [now apply step_refl|]); auto.
    destruct HQ as [F _]. split; [|discriminate]. apply forallb_forall. rewrite Forall_forall in F. exact F.
  Qed.

  Definition strict_sort (s : sort) : bool := match s with SOne (SLit | SAnnotVal) => false | _ => true end.

  (** Operands: those read are of their categories; if all is well and all are strict, all were read. *)
  Definition operands (sorts : list sort) (ok : bool) (args : list (option obj)) : Prop :=
    Forall2 (fun a s => match a with Some o => wt s o = true | None => ok = true -> strict_sort s = false end) args sorts.
  Lemma operands_mono sorts args (ok ok' : bool) : (ok' = true -> ok = true) -> operands sorts ok args -> operands sorts ok' args.
  Proof. intros H F. induction F as [|[o|] s args sorts Ha HF IH]; constructor; auto. Qed.
  Lemma gets_args f ms sorts : Forall2 (fun m s => gets f true (strict_sort s) (fun o => wt s o = true) m) ms sorts ->
    tr f (dec_args ms) (fun _ args s' => operands sorts (d_ok s') args).
  Proof.
    induction 1 as [|m s ms sorts Hm HF IH]; cbn [dec_args]; [apply tr_ret; constructor|].
    eapply tr_bind; [exact Hm|]. intros x s0 s1 HQ St I L. pose proof (st_len _ _ St).
    specialize (IH s1 I ltac:(lia)). unfold dbind. destruct (dec_args ms s1) as [args s2|t|]; auto. destruct IH as [St2 G]. split; auto.
    constructor; auto. destruct x as [o|]; cbn in HQ; [tauto|]. intros Ok. destruct (strict_sort s); auto. specialize (HQ eq_refl).
    apply (st_err _ _ St2) in HQ. congruence.
  Qed.
  Lemma operands_all sorts args fs ok : operands sorts ok args -> all_some args = Some fs -> Forall2 (fun o s => wt s o = true) fs sorts.
  Proof.
    intros H. revert fs. induction H as [|a s args sorts Ha HF IH]; cbn; intros fs E; [inversion E; constructor|].
    destruct a as [o|]; [|discriminate]. destruct (all_some args) as [r|]; inversion E; subst. constructor; auto.
  Qed.
  Lemma operands_strict sorts args : operands sorts true args -> forallb strict_sort sorts = true -> exists fs, all_some args = Some fs.
  Proof.
    induction 1 as [|a s args sorts Ha HF IH]; cbn; intros E; [eauto|]. apply andb_true_iff in E as [E1 E2].
    destruct a as [o|]; [|specialize (Ha eq_refl); congruence]. destruct (IH E2) as (fs & ->). eauto.
  Qed.
  Lemma forall2b_wt fs sorts : Forall2 (fun o s => wt s o = true) fs sorts -> forall2b (fun f s' => wt s' f) fs sorts = true.
  Proof. induction 1; cbn; auto. rewrite H, IHForall2. auto. Qed.

  Lemma build_gets t (P : obj -> Prop) mk sorts args s ok :
    (In t null_sites \/ forallb strict_sort sorts = true) -> ids_ok s -> operands sorts ok args -> (d_ok s = true -> ok = true) ->
    (forall fs, Forall2 (fun o s => wt s o = true) fs sorts -> P (mk fs)) ->
    match build t args mk s with DRet r s' => step s s' /\ match r with Some o => P o | None => d_ok s' = false end | DUB t => In t null_sites | DFuel => False end.
  Proof.
    intros Hs I Ho Hok Hmk. unfold build. destruct (d_ok s) eqn:Ok; [|auto using step_refl]. rewrite (Hok eq_refl) in *.
    destruct (all_some args) as [fs|] eqn:E.
    - split; [now apply step_refl|]. apply Hmk. eapply operands_all; eauto.
    - destruct Hs as [Hs|Hs]; auto. destruct (operands_strict _ _ Ho Hs) as (fs & Ef). congruence.
  Qed.
  Lemma got_len {A} (strict : bool) (P : A -> Prop) s0 s s' r : step s s' -> match r with Some o => P o | None => d_ok s' = false end -> got false strict P s0 r s'.
  Proof. intros St H. destruct r; cbn; auto. split; auto. discriminate. Qed.

  Lemma gets_construct f t i ms sorts : isort_has i t = true -> construct_sig t = Some (sorts, NoOpt) -> (In t null_sites \/ forallb strict_sort sorts = true) ->
    Forall2 (fun m s => gets f true (strict_sort s) (fun o => wt s o = true) m) ms sorts ->
    gets f false true (fun o => wt (SOne i) o = true) (construct t ms).
  Proof.
    intros Hi Es Hs HF. eapply tr_bind; [apply gets_args; exact HF|]. intros args s0 s HQ St I L. cbv beta in HQ.
    pose proof (build_gets t (fun o => wt (SOne i) o = true) (mk_plain t) sorts args s (d_ok s) Hs I HQ (fun x => x)) as G.
    destruct (build t args (mk_plain t) s) as [r s'|u|]; auto.
    - destruct G as [St' G]. { intros fs Tf. unfold mk_plain. cbn [wt]. rewrite Hi, Es, (forall2b_wt _ _ Tf). cbn. now destruct (is_card_restr t). }
      split; auto. eapply got_len; eauto.
    - apply G. intros fs Tf. unfold mk_plain. cbn [wt]. rewrite Hi, Es, (forall2b_wt _ _ Tf). cbn. now destruct (is_card_restr t).
    - apply G. intros fs Tf. unfold mk_plain. cbn [wt]. rewrite Hi, Es, (forall2b_wt _ _ Tf). cbn. now destruct (is_card_restr t).
  Qed.

  Lemma gets_inv f : gets f true true (fun o => wt (SOne SObjProp) o = true) (decode_inv_obj_prop w anon_id).
  Proof.
    apply (gets_map f true false true (fun o => wt (SOne (SEnt ET_OBJ_PROP)) o = true)); auto; [apply gets_entity|].
    intros a Ha. apply gets_some. unfold mk_plain. cbn [wt isort_has construct_sig forall2b]. now rewrite Ha.
  Qed.
  Lemma ent_objprop o : wt (SOne (SEnt ET_OBJ_PROP)) o = true -> wt (SOne SObjProp) o = true.
  Proof.
    destruct o as [|ns rem|e ns rem|id|v ns rem|v l|ord l|t fs opt n]; intros H; try discriminate H; [now destruct e|].
    destruct t; discriminate H.
  Qed.
  Lemma gets_objprop f : gets f true true (fun o => wt (SOne SObjProp) o = true) (decode_obj_prop_exp w anon_id).
  Proof.
    apply gets_down. apply gets_with; intros n. destruct (n =? 0).
    - eapply gets_noeat, gets_inv.
    - eapply gets_weaken; [| |apply gets_get_entity]; [apply le_n|]. apply ent_objprop.
  Qed.
  Lemma an_iri_wt o : an_iri o -> wt (SOne SIri) o = true.
  Proof. now intros (ns & rem & ->). Qed.
  Lemma gets_facet f : gets f true false (fun o => wt (SOne SFacet) o = true) (decode_facet_restr w anon_id).
  Proof.
    eapply tr_bind; [apply gets_iri|]. intros iri s0 s HQ St I L. pose proof (st_len _ _ St) as Ls.
    pose proof (gets_literal f s I ltac:(lia)) as G. unfold dbind. destruct (decode_literal w anon_id s) as [lit s'|t|]; auto.
    destruct G as [St' G]. pose proof (st_len _ _ St').
    destruct iri as [i|]; [destruct lit as [l|]|]; cbn in *; split; auto; try discriminate. split; [|lia].
    destruct HQ as [HQ _]. apply an_iri_wt in HQ. unfold a_literal in G. now rewrite HQ, (proj1 G).
  Qed.
  Lemma subj_val o : wt (SOne SAnnotSubj) o = true -> wt (SOne SAnnotVal) o = true.
  Proof. intros H. apply subj_cases in H as [(? & ? & ->)|(? & ->)]; reflexivity. Qed.
  Lemma lit_val o : a_literal o -> wt (SOne SAnnotVal) o = true.
  Proof.
    unfold a_literal. destruct o as [|ns rem|e ns rem|id|v ns rem|v l|ord l|t fs opt n]; intros H; try discriminate H; auto; [destruct e; discriminate H|].
    destruct t; discriminate H.
  Qed.
  Lemma gets_annot_value f : gets f true false (fun o => wt (SOne SAnnotVal) o = true) (decode_annot_value w anon_id).
  Proof.
    apply gets_down. apply gets_with; intros n. destruct (n =? 0).
    - eapply gets_noeat, gets_weaken; [| |apply gets_literal]; [apply le_n|]. apply lit_val.
    - eapply gets_weaken; [| |eapply gets_loose, gets_get_id]; [apply le_n|]. apply subj_val.
  Qed.

  Lemma mk_annot_wt t i fs sorts opt : isort_has i t = true -> is_card_restr t = false -> construct_sig t = Some (sorts, OptAnnots) ->
    Forall2 (fun o s => wt s o = true) fs sorts -> (forall v, opt = Some v -> wt (SMany false SAnnot) v = true) ->
    wt (SOne i) (mk_annot t fs opt) = true.
  Proof.
    intros Hi Hc Es Tf To. unfold mk_annot. cbn [wt]. rewrite Hi, Es, (forall2b_wt _ _ Tf), Hc. cbn [andb].
    destruct opt as [v|]; auto. specialize (To v eq_refl).
    destruct v as [|ns rem|e ns rem|id|v ns rem|v l|ord l|t' fs' opt' n]; try discriminate To. destruct l; auto. cbn [negb andb orb]. rewrite To. reflexivity.
  Qed.

  Lemma gets_annotation f : gets f true true (fun o => wt (SOne SAnnot) o = true) (decode_annotation w anon_id f).
  Proof.
    induction f; cbn [decode_annotation]; [intros s I L; lia|].
    apply (gets_bind (S f) true false true (fun _ => True)); [apply gets_varint|]. intros h _. cbn [pred].
    eapply tr_bind.
    { assert (gets f false true an_iri (if h =? 0 then decode_iri w anon_id else get_id_iri anon_id (h - 1))) as G.
      { destruct (h =? 0); [eapply gets_noeat, gets_iri|apply gets_get_id_iri]. }
      exact G. }
    intros iri s0 s HQ St I L. pose proof (st_len _ _ St) as Ls.
    assert (F : forall s, ids_ok s -> match fail (A := obj) ERR_MEM s with DRet b s' => step s s' /\ got false true (fun o => wt (SOne SAnnot) o = true) s0 b s' | DUB t => In t null_sites | DFuel => False end).
    { intros s1 I1. cbn. split; [now apply set_code_step|]. intros _. now apply set_code_err. }
    destruct iri as [o|]; [|now apply F]. destruct HQ as [(ns & rem & ->) _].
    pose proof (gets_annot_value f s I ltac:(lia)) as G. unfold dbind at 1. destruct (decode_annot_value w anon_id s) as [v s'|t|]; auto.
    destruct G as [St' G]. pose proof (st_len _ _ St') as Ls'. pose proof (st_ids _ _ St') as I'.
    assert (Tm : forall v opt, wt (SOne SAnnotVal) v = true -> (forall a, opt = Some a -> wt (SMany false SAnnot) a = true) ->
       wt (SOne SAnnot) (mk_annot OT_ANNOTATION [OEnt ET_ANNOT_PROP ns rem; v] opt) = true).
    { intros v0 opt Hv Ho. eapply mk_annot_wt; try reflexivity; auto. }
    destruct v as [v|].
    - destruct G as [Tv _]. destruct (h =? 0).
      + pose proof (gets_vector f true SAnnot _ IHf s' I' ltac:(lia)) as G. unfold dbind. destruct (decode_vector w f _ s') as [[a|] s2|t|]; auto.
        * destruct G as [St2 [Ta _]]. unfold dret. cbn [got]. split; [eapply step_trans; eauto|]. split; [|discriminate]. apply Tm; auto. intros ? E. inversion E. now subst.
        * destruct G as [St2 G2]. specialize (F s2 (st_ids _ _ St2)). destruct (fail ERR_MEM s2) as [r s3|t|]; auto. destruct F. split; auto.
          eapply step_trans; [|eassumption]. eapply step_trans; eauto.
      + unfold dret. cbn [got]. split; auto. split; [|discriminate]. apply Tm; auto. discriminate.
    - specialize (F s' I'). destruct (fail ERR_MEM s') as [r s3|t|]; auto. destruct F. split; auto. eapply step_trans; eauto.
  Qed.

  (** The reader of every category. *)
  Lemma gets_item_base f i : one_item i = true -> match i with SCls | SRange => False | _ => True end ->
    gets f true (strict_sort (SOne i) && negb (match i with SFacet => true | _ => false end)) (fun o => wt (SOne i) o = true) (dec_item w anon_id f i).
  Proof.
    intros V H. destruct i as [e| | | | | | | | | | | |]; try discriminate V; try tauto; cbn [dec_item strict_sort negb andb].
    - apply gets_entity.
    - eapply gets_weaken; [| |apply gets_iri]; [apply le_n|]. apply an_iri_wt.
    - apply gets_individual.
    - apply gets_literal.
    - apply gets_objprop.
    - apply gets_facet.
    - apply gets_annotation.
    - apply gets_annot_value.
    - apply gets_any.
  Qed.

  Lemma ent_range o : wt (SOne (SEnt ET_DATATYPE)) o = true -> wt (SOne SRange) o = true.
  Proof.
    destruct o as [|ns rem|e ns rem|id|v ns rem|v l|ord l|t fs opt n]; intros H; try discriminate H; [now destruct e|].
    destruct t; discriminate H.
  Qed.
  Lemma ent_cls o : wt (SOne (SEnt ET_CLASS)) o = true -> wt (SOne SCls) o = true.
  Proof.
    destruct o as [|ns rem|e ns rem|id|v ns rem|v l|ord l|t fs opt n]; intros H; try discriminate H; [now destruct e|].
    destruct t; discriminate H.
  Qed.


  Lemma gets_range f : gets f true true (fun o => wt (SOne SRange) o = true) (decode_data_range w anon_id f).
  Proof.
    induction f; cbn [decode_data_range]; [intros s I L; lia|].
    apply gets_with. intros n. destruct (DRT_COUNT - 1 <=? n).
    { eapply gets_weaken; [| |apply gets_get_entity]; [apply le_n|]. apply ent_range. }
    destruct (nth_error drt_types (N.to_nat (n + 1))) as [t|]; [|now apply gets_fail].
    destruct t; try (now apply gets_fail);
      (eapply gets_construct; [reflexivity|reflexivity|now right|]; repeat constructor;
        try (eapply gets_down, gets_vector); eauto using gets_literal, gets_entity, gets_facet).
  Qed.

  Lemma gets_quant f t prop filler sp j d : isort_has SCls t = true -> construct_sig t = Some ([sp], OptFiller j (Some d)) -> is_card_restr t = false ->
    d = (match t with OT_CE_OBJ_SOME | OT_CE_OBJ_ALL => owl_thing | _ => rdfs_literal end) ->
    gets f true true (fun o => wt sp o = true) prop -> gets f true true (fun o => wt (SOne j) o = true) filler ->
    gets f false true (fun o => wt (SOne SCls) o = true) (decode_quant t prop filler).
  Proof.
    intros Hi Es Hc Hd Hp Hf. unfold decode_quant. cbn [dec_args].
    intros s I L. unfold dbind, dret. pose proof (Hp s I L) as G. destruct (prop s) as [p s1|u|]; auto. destruct G as [St1 G1].
    pose proof (st_len _ _ St1). pose proof (Hf s1 (st_ids _ _ St1) ltac:(lia)) as G. destruct (filler s1) as [q s2|u|]; auto. destruct G as [St2 G2].
    assert (step s s2) by (eapply step_trans; eauto).
    destruct (d_ok s2) eqn:Ok; [|cbn; auto]. destruct p as [p|].
    - cbn [got]. split; auto. split; [|discriminate]. destruct G1 as [Tp _].
      unfold mk_quant. cbn [wt]. rewrite Hi, Es, Hc. cbn [forall2b]. rewrite Tp. cbn [andb orb N.eqb].
      destruct q as [q|]; auto. destruct G2 as [Tq _]. rewrite <- Hd.
      destruct (prim_eqb q d) eqn:Eq; [reflexivity|]. rewrite Tq, Eq. reflexivity.
    - cbn in G1. specialize (G1 eq_refl). apply (st_err _ _ St2) in G1. congruence.
  Qed.
  Lemma gets_card f t prop filler sp j : isort_has SCls t = true -> construct_sig t = Some ([sp], OptFiller j None) -> is_card_restr t = true ->
    gets f true true (fun o => wt sp o = true) prop -> gets f true true (fun o => wt (SOne j) o = true) filler ->
    gets f false true (fun o => wt (SOne SCls) o = true) (decode_card w t prop filler).
  Proof.
    intros Hi Es Hc Hp Hf. unfold decode_card. apply gets_noeat with (eat := true).
    apply (gets_bind f true false true (fun _ => True)); [apply gets_varint|]. intros n _.
    intros s I L. unfold dbind. pose proof (Hp s I ltac:(lia)) as G. destruct (prop s) as [p s1|u|]; auto. destruct G as [St1 G1].
    pose proof (st_len _ _ St1).
    assert (G : match (if N.odd n then filler else dret None) s1 with DRet q s2 => step s1 s2 /\ (forall o, q = Some o -> wt (SOne j) o = true) | DUB t => In t null_sites | DFuel => False end).
    { destruct (N.odd n).
      - pose proof (Hf s1 (st_ids _ _ St1) ltac:(lia)) as G. destruct (filler s1) as [q s2|u|]; auto. destruct G as [St2 G2]. split; auto.
        intros o ->. apply G2.
      - cbn. split; [apply step_refl, (st_ids _ _ St1)|discriminate]. }
    destruct ((if N.odd n then filler else dret None) s1) as [q s2|u|]; auto. destruct G as [St2 G2].
    assert (step s s2) by (eapply step_trans; eauto).
    destruct (d_ok s2) eqn:Ok; [|cbn; auto]. destruct p as [p|].
    - cbn [got]. split; auto. split; [|discriminate]. destruct G1 as [Tp _].
      unfold mk_card. cbn [wt]. rewrite Hi, Es, Hc. cbn [forall2b]. rewrite Tp. cbn [andb orb].
      destruct q as [q|]; auto. rewrite (G2 q eq_refl). reflexivity.
    - cbn in G1. specialize (G1 eq_refl). apply (st_err _ _ St2) in G1. congruence.
  Qed.

  Lemma gets_cls f : gets f true true (fun o => wt (SOne SCls) o = true) (decode_cls_exp w anon_id f).
  Proof.
    induction f; cbn [decode_cls_exp]; [intros s I L; lia|].
    apply gets_with. intros n. destruct (CET_COUNT - 1 <=? n).
    { eapply gets_weaken; [| |apply gets_get_entity]; [apply le_n|]. apply ent_cls. }
    destruct (nth_error cet_types (N.to_nat (n + 1))) as [t|]; [|now apply gets_fail].
    destruct t; try (now apply gets_fail);
      try (eapply gets_quant; try reflexivity; auto using gets_objprop, gets_entity, gets_range; fail);
      try (eapply gets_card; try reflexivity; auto using gets_objprop, gets_entity, gets_range; fail);
      (eapply gets_construct; [reflexivity|reflexivity|try (now right); left; cbn; tauto|]; repeat constructor;
        try (eapply gets_down, gets_vector); eauto using gets_literal, gets_entity, gets_individual, gets_objprop).
  Qed.

  Lemma gets_item f i : one_item i = true ->
    gets f true (strict_sort (SOne i) && negb (match i with SFacet => true | _ => false end)) (fun o => wt (SOne i) o = true) (dec_item w anon_id f i).
  Proof.
    intros V. destruct i; try (now apply gets_item_base); [apply gets_cls|apply gets_range].
  Qed.
  Lemma vec_one i : vec_item i = true -> one_item i = true.
  Proof. destruct i; auto. Qed.
  Lemma gets_sort f s : fine s = true -> s <> SOne SFacet -> gets f true (strict_sort s) (fun o => wt s o = true) (dec_sort w anon_id f s).
  Proof.
    intros Fi Nf. destruct s as [i|ord i|]; [| |discriminate Fi].
    - pose proof (gets_item f i Fi) as G. destruct i; try exact G. now contradict Nf.
    - cbn in Fi. apply andb_true_iff in Fi as [Fo Fi]. destruct ord; [discriminate|]. cbn [strict_sort dec_sort].
      eapply gets_down, gets_vector, gets_item. now apply vec_one.
  Qed.

  (** * Axioms *)

  Local Notation axiomatic := is_axiom_object.
  Lemma gets_annots f b : tr f (decode_annots w anon_id f b) (fun _ r s' => forall v, r = Some v -> wt (SMany false SAnnot) v = true).
  Proof.
    unfold decode_annots. destruct b; [|apply tr_ret; discriminate].
    eapply tr_weaken; [apply le_n| |eapply gets_down, gets_vector, gets_annotation]. intros s [a|] s' H v E; inversion E; subst. apply H.
  Qed.
  Lemma gets_annotated f b t ms sorts : isort_has SAxiom t = true -> construct_sig t = Some (sorts, OptAnnots) ->
    (In t null_sites \/ forallb strict_sort sorts = true) ->
    Forall2 (fun m s => gets f true (strict_sort s) (fun o => wt s o = true) m) ms sorts ->
    gets f false true axiomatic (decode_annotated w anon_id f b t ms).
  Proof.
    intros Hi Es Hs HF. eapply tr_bind; [apply gets_args; exact HF|]. intros args s0 s HQ St I L. cbv beta in HQ. pose proof (st_len _ _ St).
    pose proof (gets_annots f b s I ltac:(lia)) as G. unfold dbind. destruct (decode_annots w anon_id f b s) as [annot s1|u|]; auto.
    destruct G as [St1 Ta].
    assert (Hm : forall fs, Forall2 (fun o s => wt s o = true) fs sorts -> axiomatic (mk_annot t fs annot)).
    { intros fs Tf. eapply mk_annot_wt; eauto. destruct t; auto. }
    assert (Hok : d_ok s1 = true -> d_ok s = true). { intros E. destruct (d_ok s) eqn:E2; auto. apply (st_err _ _ St1) in E2. congruence. }
    pose proof (build_gets t axiomatic (fun fs => mk_annot t fs annot) sorts args s1 (d_ok s) Hs (st_ids _ _ St1) HQ Hok Hm) as G.
    destruct (build t args _ s1) as [r s'|u|]; auto. destruct G as [St2 G]. split; [eapply step_trans; eauto|]. eapply got_len; eauto.
  Qed.

  Lemma gets_sub_obj_prop f u b : tr f (decode_sub_obj_prop w anon_id f u b) (fun _ r s' => forall o, r = Some o -> axiomatic o).
  Proof.
    intros s I L. unfold decode_sub_obj_prop, dbind.
    assert (Gs : gets f true true (fun o => wt (if u then SMany false SObjProp else SOne SObjProp) o = true)
              (if u then decode_vector w f (decode_obj_prop_exp w anon_id) else decode_obj_prop_exp w anon_id)).
    { destruct u; [eapply gets_down, gets_vector|]; apply gets_objprop. }
    specialize (Gs s I L).
    destruct ((if u then decode_vector w f (decode_obj_prop_exp w anon_id) else decode_obj_prop_exp w anon_id) s) as [sub s1|t|]; auto.
    destruct Gs as [St1 Gs]. pose proof (st_len _ _ St1).
    pose proof (gets_objprop f s1 (st_ids _ _ St1) ltac:(lia)) as Gp. destruct (decode_obj_prop_exp w anon_id s1) as [sup s2|t|]; auto.
    destruct Gp as [St2 Gp]. pose proof (st_len _ _ St2).
    pose proof (gets_annots f b s2 (st_ids _ _ St2) ltac:(lia)) as Ga. destruct (decode_annots w anon_id f b s2) as [annot s3|t|]; auto.
    destruct Ga as [St3 Ga].
    destruct sub as [x|]; [|cbn; tauto]. destruct sup as [y|]; [|cbn; tauto].
    split; [eapply step_trans; eauto; eapply step_trans; eauto|]. intros o E. inversion E; subst o. clear E.
    eapply mk_annot_wt; try reflexivity; auto. destruct Gs as [Tx _], Gp as [Ty _].
    constructor; [|constructor; [exact Ty|constructor]].
    destruct u.
    - destruct x as [|ns rem|e ns rem|id|v ns rem|v l|ord l|t fs opt n]; try discriminate Tx. cbn in Tx |- *. apply andb_true_iff in Tx as [_ Tx]. exact Tx.
    - destruct x as [|ns rem|e ns rem|id|v ns rem|v l|ord l|t fs opt n]; try discriminate Tx; exact Tx.
  Qed.

  Lemma fine_no_facet t sorts os : isort_has SAxiom t = true -> construct_sig t = Some (sorts, os) -> Forall (fun s => s <> SOne SFacet) sorts.
  Proof. intros H E. destruct t; try discriminate H; inversion E; subst; repeat constructor; discriminate. Qed.

  Lemma axiom_operands_sorts f t sorts os : ordinary t = true -> construct_sig t = Some (sorts, os) -> axiom_operands w anon_id f t = Some (map (dec_sort w anon_id f) sorts).
  Proof. intros H E. destruct t; try discriminate H; inversion E; subst; reflexivity. Qed.

  Lemma gets_axiom f h : tr f (decode_axiom w anon_id f h) (fun _ r s' => forall o, r = Some o -> axiomatic o).
  Proof.
    assert (W : forall m, gets f false true axiomatic m -> tr f m (fun _ r _ => forall o, r = Some o -> axiomatic o)).
    { intros m. apply tr_weaken; auto. intros s r s' H o ->. apply H. }
    unfold decode_axiom. destruct (nth_error et_types _) as [e|].
    { apply W. eapply gets_annotated; [reflexivity|reflexivity|now right|]. repeat constructor.
      eapply gets_weaken; [| |apply gets_entity]; [apply le_n|].
      intros o. destruct o as [|ns rem|e' ns rem|id|v ns rem|v l|ord l|t fs opt n]; intros H; try (destruct e; discriminate H); try (destruct t, e; discriminate H). now destruct e'. }
    destruct (nth_error at_types _) as [t|] eqn:Et; [|apply W, gets_fail; reflexivity].
    assert (Ha : isort_has SAxiom t = true).
    { apply nth_error_In in Et. revert t Et. apply Forall_forall. repeat constructor. }
    destruct (ordinary t) eqn:Ho.
    - assert (exists sorts, construct_sig t = Some (sorts, OptAnnots)) as (sorts & Es) by (destruct t; try discriminate Ho; eexists; reflexivity).
      destruct (ordinary_fine t sorts _ Ho Es) as (Fi & _). pose proof (fine_no_facet t sorts _ Ha Es) as Nf.
      pose proof (axiom_operands_sorts f t sorts _ Ho Es) as Eo.
      assert (G : gets f false true axiomatic (decode_annotated w anon_id f (N.testbit h 6) t (map (dec_sort w anon_id f) sorts))).
      { eapply gets_annotated; eauto.
        - destruct t; try discriminate Ho; inversion Es; subst; try (now right); left; cbn; tauto.
        - clear Es Eo. induction sorts as [|s sorts IH]; constructor.
          + cbn in Fi. apply andb_true_iff in Fi as [Fi _]. inversion Nf; subst. now apply gets_sort.
          + cbn in Fi. apply andb_true_iff in Fi as [_ Fi]. inversion Nf; subst. auto. }
      apply W in G. rewrite Eo. destruct t; try discriminate Ho; exact G.
    - destruct t; try discriminate Ha; try discriminate Ho; cbn [axiom_operands]; try apply gets_sub_obj_prop.
      apply W, gets_fail. reflexivity.
  Qed.

  (** * Frames *)

  Variable handler : list dchange -> ret.

  Local Notation heeded := (heeded handler).
  (** The state between frames. *)
  Record fst_ok (s : dst) : Prop := {
    f_ids : ids_ok s;
    f_typed : typed_log (d_log s);
    f_heed : heeded (d_log s);
    f_last : d_log s <> [] -> (handler (d_log s) < 0)%Z -> d_ok s = false }.
  Record fstep (s s' : dst) : Prop := {
    fs_ok : fst_ok s';
    fs_len : (List.length (d_in s') <= List.length (d_in s))%nat;
    fs_err : d_ok s = false -> d_ok s' = false }.

  Definition ftr {A} (f : nat) (m : D A) (Q : dst -> A -> dst -> Prop) : Prop :=
    forall s, fst_ok s -> (List.length (d_in s) < f)%nat ->
      match m s with DRet a s' => fstep s s' /\ Q s a s' | DUB t => In t null_sites | DFuel => False end.

  Lemma fstep_refl s : fst_ok s -> fstep s s.
  Proof. now constructor. Qed.
  Lemma fstep_trans s s1 s2 : fstep s s1 -> fstep s1 s2 -> fstep s s2.
  Proof. intros [] []. constructor; auto; try lia. Qed.
  Lemma step_fstep s s' : fst_ok s -> step s s' -> fstep s s'.
  Proof.
    intros [I T H La] [I' L Lg E]. constructor; auto. constructor; auto; try (now rewrite Lg). rewrite Lg. intros; auto.
  Qed.
  Lemma ftr_of {A} f (m : D A) Q : tr f m Q -> ftr f m Q.
  Proof. intros H s F L. specialize (H s (f_ids _ F) L). destruct (m s) as [a s'|t|]; auto. destruct H. split; auto. now apply step_fstep. Qed.
  Lemma ftr_bind {A B} f (m : D A) (k : A -> D B) (Q : dst -> A -> dst -> Prop) (R : dst -> B -> dst -> Prop) :
    ftr f m Q ->
    (forall a s0 s, Q s0 a s -> fstep s0 s -> fst_ok s -> (List.length (d_in s0) < f)%nat ->
      match k a s with DRet b s' => fstep s s' /\ R s0 b s' | DUB t => In t null_sites | DFuel => False end) ->
    ftr f (dbind m k) R.
  Proof.
    intros Hm Hk s I L. unfold dbind. specialize (Hm s I L). destruct (m s) as [a s'|t|]; auto.
    destruct Hm as [St HQ]. specialize (Hk a s s' HQ St (fs_ok _ _ St) L). destruct (k a s') as [b s''|t|]; auto.
    destruct Hk as [St' HR]. split; auto. eapply fstep_trans; eauto.
  Qed.

  (** A change is handed over, when no earlier call failed. *)
  Lemma change_ok p s : fst_ok s -> typed_part p -> (d_log s <> [] -> (0 <= handler (d_log s))%Z) ->
    exists s', handle_change handler p s = DRet tt s' /\ fstep s s'.
  Proof.
    intros [I T H La] Tp Hl. unfold handle_change. set (log := d_log s ++ [(if d_remove s then CHANGE_REMOVE else CHANGE_ADD, p)]). eexists. split; [reflexivity|].
    assert (Ty : typed_log log) by (apply Forall_app; split; auto; constructor; auto).
    assert (He : heeded log).
    { intros l1 c l2 E N1. unfold log in E. destruct (exists_last (l := c :: l2)) as (l' & x & El'); [discriminate|]. rewrite El', app_assoc in E.
      apply app_inj_tail in E as [E _]. destruct l' as [|c' l'].
      - rewrite app_nil_r in E. rewrite <- E in *. now apply Hl.
      - eapply H; eauto. }
    unfold set_code; cbn [d_code]. destruct (d_code s <? 0)%Z eqn:Ec; constructor; auto; cbn; unfold d_ok in *; cbn; try lia;
      constructor; auto; unfold d_ok; cbn; lia.
  Qed.
  Lemma ok_heeded s : fst_ok s -> d_ok s = true -> d_log s <> [] -> (0 <= handler (d_log s))%Z.
  Proof. intros F Ok Hn. destruct (Z.ltb_spec (handler (d_log s)) 0) as [Hl|]; auto. apply (f_last _ F Hn) in Hl. congruence. Qed.

  (** Results, when the reader was not in error. *)
  Definition fok {A} (f : nat) (m : D A) (Q : dst -> A -> dst -> Prop) : Prop :=
    forall s, fst_ok s -> d_ok s = true -> (List.length (d_in s) < f)%nat ->
      match m s with DRet a s' => fstep s s' /\ Q s a s' | DUB t => In t null_sites | DFuel => False end.
  (** A function that reads, then gives something to the handler. *)
  Lemma read_then {A} f (m : D (option A)) (P : A -> Prop) Q (k : A -> dpart) :
    tr f m Q -> (forall s a s', Q s (Some a) s' -> P a) -> (forall a, P a -> typed_part (k a)) ->
    fok f (do x <- m;; match x with Some a => handle_change handler (k a) | None => dret tt end) (fun s _ s' => True).
  Proof.
    intros Hm HP Hk s F Ok L. unfold dbind. specialize (Hm s (f_ids _ F) L). destruct (m s) as [[a|] s'|t|]; auto; destruct Hm as [St HQ].
    - pose proof (step_fstep _ _ F St) as Fs.
      destruct (change_ok (k a) s' (fs_ok _ _ Fs)) as (s2 & -> & Fs2); eauto.
      { rewrite (st_log _ _ St). now apply ok_heeded. }
      split; auto. eapply fstep_trans; eauto.
    - cbn. split; auto. now apply step_fstep.
  Qed.

  Definition item_ok (f : nat) (item : D bool) : Prop :=
    fok f item (fun s b s' => b = true -> (List.length (d_in s') < List.length (d_in s))%nat \/ d_ok s' = false).
  Lemma decl_loop_ok f item : item_ok f item -> forall n, ftr f (decl_loop f item n) (fun _ _ _ => True).
  Proof.
    intros H. assert (forall k, (k <= f)%nat -> forall n, ftr k (decl_loop k item n) (fun _ _ _ => True)) as G; [|auto].
    induction k; intros Lk n s F L; [lia|]. cbn [decl_loop]. destruct (d_ok s && negb (n =? 0)) eqn:E; [|auto using fstep_refl].
    apply andb_true_iff in E as [Ok _]. unfold dbind. specialize (H s F Ok ltac:(lia)). destruct (item s) as [b s'|t|]; auto.
    destruct H as [Fs Hb]. destruct b; [|cbn; auto]. destruct (Hb eq_refl) as [Hl|He].
    - specialize (IHk ltac:(lia) (n - 1) s' (fs_ok _ _ Fs) ltac:(lia)). destruct (decl_loop k item (n - 1) s') as [u s2|t|]; auto.
      destruct IHk. split; auto. eapply fstep_trans; eauto.
    - destruct k; cbn [decl_loop]; rewrite He; cbn [andb]; auto.
  Qed.
  Lemma decls_ok f item : item_ok f item -> ftr f (decode_decls w f item) (fun _ _ _ => True).
  Proof.
    intros H. eapply ftr_bind; [apply ftr_of, gets_varint|]. intros [n|] s0 s HQ Fs F L; cbn in HQ; [|cbn; auto using fstep_refl].
    pose proof (fs_len _ _ Fs). pose proof (decl_loop_ok f item H n s F ltac:(lia)) as G. exact G.
  Qed.

  Lemma prefix_item f : item_ok f (decode_prefix_decl w handler).
  Proof.
    intros s F Ok L. unfold decode_prefix_decl, dbind.
    pose proof (gets_string f s (f_ids _ F) L) as G. destruct (decode_string w s) as [p s1|t|]; auto. destruct G as [St1 G1].
    pose proof (st_len _ _ St1). pose proof (gets_string f s1 (st_ids _ _ St1) ltac:(lia)) as G. destruct (decode_string w s1) as [n s2|t|]; auto. destruct G as [St2 G2].
    pose proof (st_len _ _ St2). assert (St : step s s2) by (eapply step_trans; eauto). pose proof (step_fstep _ _ F St) as Fs.
    destruct p as [p|].
    - destruct n as [n|]; [|cbn; split; auto; intros _; right; cbn in G2; auto].
      set (s3 := set_ns (d_ns s2 ++ [n]) s2). assert (F3 : fst_ok s3) by (destruct (fs_ok _ _ Fs); constructor; auto).
      destruct (change_ok (DPrefix p n) s3 F3 Logic.I) as (s4 & -> & Fs4).
      { unfold s3. cbn. rewrite (st_log _ _ St). now apply ok_heeded. }
      cbn. split.
      + eapply fstep_trans; [|exact Fs4]. destruct Fs. constructor; auto.
      + intros _. left. pose proof (fs_len _ _ Fs4) as L4. unfold s3 in L4. cbn in L4. cbn in G1, G2. destruct G1 as [_ G1]. specialize (G1 eq_refl). lia.
    - cbn. split; auto. intros _. right. cbn in G1. apply (st_err _ _ St2). auto.
  Qed.
  Lemma set_code_fstep c s : (0 <= c)%Z -> fst_ok s -> fstep s (set_code c s).
  Proof. intros Hc F. apply step_fstep; auto. apply set_code_step. apply f_ids; auto. Qed.
  Lemma ns_item f : item_ok f (decode_ns_decl w).
  Proof.
    intros s F Ok L. unfold decode_ns_decl, dbind, handle_error, dret.
    pose proof (gets_string f s (f_ids _ F) L) as G. destruct (decode_string w s) as [p s1|t|]; auto. destruct G as [St1 G1].
    pose proof (step_fstep _ _ F St1) as Fs. destruct p as [p|].
    - set (s3 := set_ns (d_ns s1 ++ [p]) s1). assert (F3 : fst_ok s3) by (destruct (fs_ok _ _ Fs); constructor; auto).
      assert (Hc : (0 <= COWL_OK)%Z) by (vm_compute; discriminate).
      pose proof (set_code_fstep COWL_OK s3 Hc F3) as Fs4. split.
      + eapply fstep_trans; [|exact Fs4]. destruct Fs. constructor; auto.
      + intros _. left. pose proof (fs_len _ _ Fs4) as L4. unfold s3 in L4. cbn in L4. cbn in G1. destruct G1 as [_ G1]. specialize (G1 eq_refl). unfold s3. lia.
    - split; auto.
  Qed.
  Lemma iri_item f : item_ok f (decode_iri_decl w).
  Proof.
    intros s F Ok L. unfold decode_iri_decl, dbind, dret.
    pose proof (gets_varint f s (f_ids _ F) L) as G. destruct (read_varint w s) as [p s1|t|]; auto. destruct G as [St1 G1].
    destruct p as [p|]; [|split; [now apply step_fstep|]; intros _; right; cbn in G1; auto].
    pose proof (st_len _ _ St1). pose proof (gets_string f s1 (st_ids _ _ St1) ltac:(lia)) as G. destruct (decode_string w s1) as [n s2|t|]; auto. destruct G as [St2 G2].
    pose proof (st_len _ _ St2). assert (St : step s s2) by (eapply step_trans; eauto). pose proof (step_fstep _ _ F St) as Fs.
    cbn in G1. destruct G1 as [_ G1]. specialize (G1 eq_refl).
    destruct n as [n|]; [|split; auto; intros _; left; lia].
    destruct (p <? N.of_nat (List.length (d_ns s2))).
    - destruct (nth_error (d_ns s2) (N.to_nat p)) as [ns|]; [|split; auto; intros _; left; lia].
      destruct (iri_of_parts ns n) as [a b]. split; [|intros _; left; cbn; lia].
      destruct Fs as [[I T H1 La] Ll Le]. constructor; auto. constructor; auto. unfold ids_ok in *. cbn. apply Forall_app. auto.
    - split; [|intros _; right; now apply set_code_err]. eapply fstep_trans; eauto. apply step_fstep; [apply (fs_ok _ _ Fs)|]. apply set_code_step, (st_ids _ _ St).
  Qed.
  Lemma anon_item f : item_ok f (decode_anon_decl w).
  Proof.
    intros s F Ok L. unfold decode_anon_decl, dbind, dret.
    pose proof (gets_string f s (f_ids _ F) L) as G. destruct (decode_string w s) as [p s1|t|]; auto. destruct G as [St1 G1].
    pose proof (step_fstep _ _ F St1) as Fs. destruct p as [p|].
    - cbn in G1. destruct G1 as [_ G1]. specialize (G1 eq_refl). split; [|intros _; left; cbn; lia].
      destruct Fs as [[I T H1 La] Ll Le]. constructor; auto. constructor; auto. unfold ids_ok in *. cbn. apply Forall_app. auto.
    - split; auto.
  Qed.
  (** Items given to the handler. *)
  Lemma given_item f (P : obj -> Prop) (m : D (option obj)) k : gets f true true P m -> (forall a, P a -> typed_part (k a)) ->
    item_ok f (do x <- m;; match x with Some a => do _ <- handle_change handler (k a);; dret true | None => dret false end).
  Proof.
    intros Hm Hk s F Ok L. unfold dbind. specialize (Hm s (f_ids _ F) L). destruct (m s) as [[a|] s'|t|]; auto; destruct Hm as [St HQ].
    - pose proof (step_fstep _ _ F St) as Fs. cbn in HQ. destruct HQ as [Pa Hl].
      destruct (change_ok (k a) s' (fs_ok _ _ Fs)) as (s2 & -> & Fs2); auto.
      { rewrite (st_log _ _ St). now apply ok_heeded. }
      cbn. split; [eapply fstep_trans; eauto|]. intros _. left. pose proof (fs_len _ _ Fs2). specialize (Hl eq_refl). lia.
    - cbn. split; [now apply step_fstep|discriminate].
  Qed.
  Lemma import_item f : item_ok f (decode_import w anon_id handler).
  Proof. apply (given_item f an_iri); auto. apply gets_iri. Qed.
  Lemma annot_item f : item_ok f (decode_onto_annot w anon_id handler f).
  Proof. apply (given_item f (fun o => wt (SOne SAnnot) o = true)); auto. apply gets_annotation. Qed.

  Lemma decode_iri_ok s i s' : decode_iri w anon_id s = DRet (Some i) s' -> d_ok s = true.
  Proof. unfold decode_iri, decode_with, dbind, read_varint. destruct (d_ok s); auto. cbn. discriminate. Qed.
  Lemma iri_version_ok f b : fok f (decode_iri_version w anon_id handler b) (fun _ _ _ => True).
  Proof.
    intros s F Ok L. unfold decode_iri_version, dbind.
    pose proof (gets_iri f s (f_ids _ F) L) as G. destruct (decode_iri w anon_id s) as [i s1|t|]; auto. destruct G as [St1 G1].
    pose proof (step_fstep _ _ F St1) as Fs.
    assert (exists s2, (match i with Some i => handle_change handler (DIri i) | None => dret tt end) s1 = DRet tt s2 /\ fstep s1 s2) as (s2 & -> & Fs2).
    { destruct i as [i|]; [|eexists; split; [reflexivity|]; apply fstep_refl, (fs_ok _ _ Fs)].
      apply change_ok; [apply (fs_ok _ _ Fs)|apply G1|]. rewrite (st_log _ _ St1). now apply ok_heeded. }
    assert (Fs' : fstep s s2) by (eapply fstep_trans; eauto). destruct b; [|cbn; auto].
    pose proof (fs_ok _ _ Fs') as F2. pose proof (fs_len _ _ Fs').
    pose proof (gets_iri f s2 (f_ids _ F2) ltac:(lia)) as G. destruct (decode_iri w anon_id s2) as [v s3|t|] eqn:Ev; auto. destruct G as [St3 G3].
    pose proof (step_fstep _ _ F2 St3) as Fs3. destruct v as [v|]; [|cbn; split; auto; eapply fstep_trans; eauto].
    destruct (change_ok (DVersion v) s3 (fs_ok _ _ Fs3)) as (s4 & -> & Fs4); [apply G3| |].
    { rewrite (st_log _ _ St3). apply ok_heeded; auto. eapply decode_iri_ok; eauto. }
    split; auto. eapply fstep_trans; [|exact Fs4]. eapply fstep_trans; eauto.
  Qed.
  Lemma axiom_frame_ok f h : fok f (decode_axiom_frame w anon_id handler f h) (fun _ _ _ => True).
  Proof.
    intros s F Ok L. unfold decode_axiom_frame. rewrite Ok.
    apply (read_then f _ axiomatic _ DAxiom (gets_axiom f h)); auto.
  Qed.
  Lemma reset_ok p i s : fst_ok s -> exists s', handle_reset p i s = DRet tt s' /\ fstep s s'.
  Proof.
    intros F. assert (Hc : (0 <= COWL_OK)%Z) by (vm_compute; discriminate). unfold handle_reset.
    set (s1 := if p then _ else s). assert (F1 : fstep s s1).
    { unfold s1. destruct p; [|now apply fstep_refl]. set (s0 := set_ns _ s). assert (fstep s s0) as F0 by (destruct F; constructor; auto; constructor; auto).
      eapply fstep_trans; [exact F0|]. apply set_code_fstep; auto. apply (fs_ok _ _ F0). }
    destruct (p && negb (d_ok s1)); [eauto|]. destruct i; [|eauto].
    eexists; split; [reflexivity|]. set (s0 := set_ids [] s1). pose proof (fs_ok _ _ F1) as [I T H La].
    assert (fstep s1 s0) as F0 by (constructor; auto; constructor; auto; constructor).
    eapply fstep_trans; [exact F1|]. eapply fstep_trans; [exact F0|]. apply set_code_fstep; auto. apply (fs_ok _ _ F0).
  Qed.

  Lemma frame_ok f : fok f (decode_frame w anon_id handler f)
    (fun s b s' => b = true -> (List.length (d_in s') < List.length (d_in s))%nat).
  Proof.
    intros s F Ok L. unfold decode_frame. destruct (d_in s) as [|h r] eqn:E; [split; [now apply fstep_refl|discriminate]|].
    set (s0 := set_in r s). cbn in L.
    assert (Ok0 : d_ok s0 = true) by exact Ok.
    assert (Fs : fstep s s0). { destruct F. constructor; auto; [constructor; auto|]. rewrite E. cbn. lia. }
    pose proof (fs_ok _ _ Fs) as F0.
    assert (Go : forall m : D unit, fok f m (fun _ _ _ => True) ->
       match (do _ <- m;; dret true) s0 with DRet a s' => fstep s s' /\ (a = true -> (List.length (d_in s') < List.length (h :: r))%nat) | DUB t => In t null_sites | DFuel => False end).
    { intros m Hm. unfold dbind. specialize (Hm s0 F0 Ok0). cbn [d_in set_in s0] in Hm. specialize (Hm ltac:(lia)).
      destruct (m s0) as [u s1|t|]; auto. destruct Hm as [F1 _]. cbn. split; [eapply fstep_trans; eauto|]. intros _.
      pose proof (fs_len _ _ F1) as Hl. cbn in Hl. lia. }
    assert (Go' : forall m : D unit, ftr f m (fun _ _ _ => True) -> fok f m (fun _ _ _ => True)) by (intros m H s1 ? ? ?; now apply H).
    destruct (h mod 64) as [|q].
    { split; [|cbn; lia]. destruct Fs as [[] ? ?]. constructor; auto. constructor; auto. }
    assert (Gr : match (do _ <- handle_reset (N.testbit h 6) (N.testbit h 7);; dret true) s0 with DRet a s' => fstep s s' /\ (a = true -> (List.length (d_in s') < List.length (h :: r))%nat) | DUB t => In t null_sites | DFuel => False end).
    { apply Go. intros s1 F1 _ _. destruct (reset_ok (N.testbit h 6) (N.testbit h 7) s1 F1) as (s2 & -> & Fs2). auto. }
    assert (G1 : fstep s (set_remove true s0) /\ (true = true -> (List.length (d_in (set_remove true s0)) < List.length (h :: r))%nat)).
    { split; [|cbn; lia]. destruct Fs as [[] ? ?]. constructor; auto. constructor; auto. }
    assert (G3 : fstep s s0 /\ (false = true -> (List.length (d_in s0) < List.length (h :: r))%nat)) by (split; auto; discriminate).
    assert (G4 : fok f (decode_decls w f (if N.testbit h 6 then decode_prefix_decl w handler else decode_ns_decl w)) (fun _ _ _ => True)).
    { apply Go', decls_ok. destruct (N.testbit h 6); auto using prefix_item, ns_item. }
    assert (G5 : fok f (decode_decls w f (if N.testbit h 6 then decode_iri_decl w else decode_anon_decl w)) (fun _ _ _ => True)).
    { apply Go', decls_ok. destruct (N.testbit h 6); auto using iri_item, anon_item. }
    do 4 (try destruct q as [q|q|]); auto; apply Go; auto using axiom_frame_ok, iri_version_ok, decls_ok, import_item, annot_item.
  Qed.
  Lemma frames_ok inner : forall f, (f <= inner)%nat -> ftr f (decode_frames w anon_id handler f inner) (fun _ _ _ => True).
  Proof.
    induction f; intros Lf s F L; [lia|]. cbn [decode_frames]. destruct (d_ok s) eqn:Ok; [|split; auto using fstep_refl].
    unfold dbind. pose proof (frame_ok inner s F Ok ltac:(lia)) as G. destruct (decode_frame w anon_id handler inner s) as [b s'|t|]; auto.
    destruct G as [Fs Hb]. destruct b; [|cbn; auto]. specialize (Hb eq_refl). specialize (IHf ltac:(lia) s' (fs_ok _ _ Fs) ltac:(lia)).
    destruct (decode_frames w anon_id handler f inner s') as [u s2|t|]; auto. destruct IHf. split; auto. eapply fstep_trans; eauto.
  Qed.

  Theorem read_safe input :
    match read_ontology w anon_id handler input with
    | DRet _ s => typed_log (d_log s) /\ heeded (d_log s) /\ (d_log s <> [] -> (handler (d_log s) < 0)%Z -> (d_code s < 0)%Z)
    | DUB t => In t null_sites
    | DFuel => False
    end.
  Proof.
    assert (F0 : fst_ok (d_init input)).
    { constructor; cbn; try constructor; try tauto. intros l1 c l2 E. destruct l1; discriminate. }
    unfold read_ontology, dbind.
    assert (G : ftr (S (List.length input)) decode_header (fun _ _ _ => True)).
    { apply ftr_of. eapply tr_bind; [apply gets_byte|]. intros [v|] s0 s _ St I L.
      - destruct (v =? 1); cbn; split; auto; [now apply step_refl|now apply set_code_step].
      - cbn. auto using step_refl. }
    specialize (G (d_init input) F0 ltac:(cbn; lia)). destruct (decode_header (d_init input)) as [u s|t|]; auto. destruct G as [Fs _].
    pose proof (fs_len _ _ Fs) as Ls. cbn [d_in d_init] in Ls.
    pose proof (frames_ok (S (List.length input)) (S (List.length input)) (le_n _) s (fs_ok _ _ Fs) ltac:(lia)) as G.
    destruct (decode_frames w anon_id handler _ _ s) as [u' s'|t|]; auto. destruct G as [Fs' _]. destruct (fs_ok _ _ Fs') as [I T H La].
    split; auto. split; auto. intros Hn Hl. specialize (La Hn Hl). unfold d_ok in La. lia.
  Qed.
End Safe.

Theorem read_typed w anon_id handler input :
  match read_ontology w anon_id handler input with
  | DRet _ s => typed_log (d_log s)
  | DUB t => In t null_sites
  | DFuel => False
  end.
Proof. pose proof (read_safe w anon_id handler input) as H. destruct (read_ontology w anon_id handler input); auto. apply H. Qed.
Theorem read_heeded w anon_id handler input s : read_ontology w anon_id handler input = DRet tt s ->
  heeded handler (d_log s) /\ (d_log s <> [] -> (handler (d_log s) < 0)%Z -> (d_code s < 0)%Z).
Proof. intros E. pose proof (read_safe w anon_id handler input) as H. rewrite E in H. apply H. Qed.
