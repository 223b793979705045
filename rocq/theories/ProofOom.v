(** Proofs about the functions that create objects, when memory can run out. *)

From Coq Require Import NArith List Bool Arith Lia Permutation.
From Coq Require Import ZifyBool ZifyNat ZifyN.
From Verif Require Import Bytes ModelTypes ModelObject ModelHeader SpecHeader ModelText ModelHeap SpecHeap ModelOom.
From Verif Require Import ProofObject ProofHeader ProofHeap ProofHeapRun ProofHeapFun ProofHeapName ProofHeapComp.
Import ListNotations.
Local Open Scope N_scope.

Section Oom.
Variable huge : bool.
Variable fresh : N -> heap -> N.
Hypothesis fresh_ok : allocator fresh.
Variable e : env.
Variable full : N -> bool.

Local Notation Inv := (ProofHeap.Inv huge e).
Local Notation cs := (ProofHeap.cs huge).
Local Notation Room := (ProofHeap.Room huge).
Local Notation ns_ok := (ProofHeap.ns_ok e).
Local Notation ok := (ProofHeapFun.ok huge).
Local Notation cmp := (ProofHeapRun.cmp huge).
Ltac sub := let z := fresh "z" in let H := fresh "H" in intros z H; cbn in *; tauto.

(** * Objects keep their data *)

Definition hold (R : list N) (h h' : obs) : Prop := forall x, use h R x ->
  exists v w, lookup h x = Some v /\ lookup h' x = Some w /\ 0 < o_n w /\ up v w /\ o_d w = o_d v.
Lemma hold_keeps R h h' : hold R h h' -> keeps R h h'.
Proof. intros H x U. destruct (H x U) as (v & w & E & F & P & Q & _). exists v, w. auto. Qed.
Lemma hold_same R h h' : keeps R h h' -> same h h' -> hold R h h'.
Proof. intros K S x U. destruct (K x U) as (v & w & E & F & P & Q). exists v, w. repeat (split; auto); try apply Q. eapply S; eauto. Qed.
Lemma hold_trans R h h1 h2 : hold R h h1 -> hold R h1 h2 -> hold R h h2.
Proof.
  intros H1 H2 x U. destruct (H1 x U) as (v & w & E & F & P & Q & D).
  destruct (H2 x) as (w' & u & F' & G & P' & Q' & D').
  { apply (keeps_use R h); auto. now apply hold_keeps. }
  rewrite F in F'. inversion F'; subst w'. exists v, u. split; auto. split; auto. split; auto. split; [eapply up_trans; eauto|congruence].
Qed.
Lemma hold_incl R R' h h' : incl R R' -> hold R' h h' -> hold R h h'.
Proof. intros J H x U. apply H. eapply use_incl; eauto. Qed.
Lemma hold_refl A R W : Inv A R W -> hold R (a_h A) (a_h A).
Proof. intros I. apply hold_same; [eapply keeps_refl; eauto|]. intros x v w E F. congruence. Qed.

(** * Rules *)

(** The same heap and tables, another counter of requests. *)
Definition at_n (A : ast) (q : N) : ast := mkA (a_h A) (a_s A) (a_i A) (a_e A) (a_a A) q.
Lemma at_self A : at_n A (a_n A) = A.
Proof. now destruct A. Qed.
Lemma inv_at A R W q : Inv A R W -> Inv (at_n A q) R W.
Proof. intros []. constructor; auto; intros T; destruct T; auto. all: try apply (i_nodup TStr); try apply (i_nodup TIri); try apply (i_nodup TEnt); try apply (i_nodup TAno).
  all: try apply (i_tab TStr); try apply (i_tab TIri); try apply (i_tab TEnt); try apply (i_tab TAno). Qed.

Definition okf {X} (A : ast) (R : list N) (c n : N) (m : oact X) (Q : X -> N -> ast -> Prop) : Prop :=
  forall q k, Room A (c + k) -> exists x n' A', m n (cs (at_n A q)) = Ok (x, n') (cs A') /\ Room A' k /\
    hold R (a_h A) (a_h A') /\ Q x n' A'.

Lemma okf_ret {X} A R n (x : X) (Q : X -> N -> ast -> Prop) : Inv A R [] -> (forall q, Q x n (at_n A q)) -> okf A R 0 n (oret x) Q.
Proof. intros I H q k K. exists x, n, (at_n A q). split; auto. split; auto. split; [apply (hold_refl A R []); auto|auto]. Qed.
Lemma okf_weak {X} A R c c' n (m : oact X) Q : c' <= c -> okf A R c' n m Q -> okf A R c n m Q.
Proof. intros L H q k K. apply (H q k). eapply room_less; [exact K|lia]. Qed.
Lemma okf_post {X} A R c n (m : oact X) (P Q : X -> N -> ast -> Prop) :
  okf A R c n m P -> (forall x n' A', P x n' A' -> hold R (a_h A) (a_h A') -> Q x n' A') -> okf A R c n m Q.
Proof. intros H G q k K. destruct (H q k K) as (x & n' & A' & E & K' & V & P'). exists x, n', A'. auto. Qed.
Lemma okf_frame {X} A R R' c n (m : oact X) Q : incl R R' -> okf A R' c n m Q -> okf A R c n m Q.
Proof. intros J H q k K. destruct (H q k K) as (x & n' & A' & E & K' & V & P). exists x, n', A'. repeat (split; auto). eapply hold_incl; eauto. Qed.
Lemma okf_bind1 {X Y} A R R1 c c' n (m : oact X) (f : X -> oact Y) P Q :
  okf A R1 c n m P -> incl R R1 ->
  (forall x n' A', P x n' A' -> hold R1 (a_h A) (a_h A') -> okf A' R c' n' (f x) Q) ->
  okf A R (c + c') n (obind m f) Q.
Proof.
  intros H J G q k K. destruct (H q (c' + k)) as (x & n1 & A1 & E1 & K1 & V1 & P1); [now rewrite N.add_assoc|].
  destruct (G x n1 A1 P1 V1 (a_n A1) k K1) as (y & n2 & A2 & E2 & K2 & V2 & Q2). rewrite at_self in E2.
  exists y, n2, A2. split; [unfold obind; now rewrite (bind_ok _ _ _ _ _ E1)|]. split; auto. split; auto.
  eapply hold_trans; [eapply hold_incl; eauto|auto].
Qed.
Lemma okf_bind {X Y} A R c c' n (m : oact X) (f : X -> oact Y) P Q :
  okf A R c n m P ->
  (forall x n' A', P x n' A' -> hold R (a_h A) (a_h A') -> okf A' R c' n' (f x) Q) ->
  okf A R (c + c') n (obind m f) Q.
Proof. intros H G. apply (okf_bind1 A R R c c' n m f P Q H (incl_refl _) G). Qed.
Lemma okf_eq {X} A R c n (m m' : oact X) Q : (forall s, m n s = m' n s) -> okf A R c n m' Q -> okf A R c n m Q.
Proof. intros H G q k K. rewrite H. apply G; auto. Qed.
Lemma okf_lift {X} A R c n (m : act X) (P : N -> X -> ast -> Prop) (Q : X -> N -> ast -> Prop) :
  (forall q, ok (at_n A q) R c m (P q)) ->
  (forall q x A', P q x A' -> keeps R (a_h A) (a_h A') -> same (a_h A) (a_h A') /\ Q x n A') ->
  okf A R c n (lift m) Q.
Proof.
  intros H G q k K. destruct (H q k K) as (x & A' & E & K' & V & P'). destruct (G q x A' P' V) as [S Q'].
  exists x, n, A'. split; [unfold lift; now rewrite (bind_ok _ _ _ _ _ E)|]. split; auto. split; auto. now apply hold_same.
Qed.
Lemma okf_pure {X Y} A R c n (m : act X) (f : X -> oact Y) x Q :
  (forall q, m (cs (at_n A q)) = Ok x (cs (at_n A q))) -> okf A R c n (f x) Q -> okf A R c n (obind (lift m) f) Q.
Proof.
  intros E H q k K. destruct (H q k K) as (y & n' & A' & E' & R'). exists y, n', A'. split; auto.
  unfold obind, lift, bind. rewrite E. exact E'.
Qed.
Lemma okf_oret {X Y} A R c n (x : X) (f : X -> oact Y) Q : okf A R c n (f x) Q -> okf A R c n (obind (oret x) f) Q.
Proof. intros H. exact H. Qed.
Lemma okf_assoc {X Y Z} A R c n (m : oact X) (f : X -> oact Y) (g : Y -> oact Z) Q :
  okf A R c n (obind m (fun x => obind (f x) g)) Q -> okf A R c n (obind (obind m f) g) Q.
Proof. apply okf_eq. intros s. unfold obind, bind. destruct (m n s); auto. Qed.
Lemma okf_attempt {Y} A R c n (f : bool -> oact Y) Q :
  (forall b, okf A R c n (f b) Q) -> okf A R c n (obind (attempt full) f) Q.
Proof.
  intros H q k K. destruct (H (negb (full q)) (q + 1) k K) as (y & n' & A' & E' & R'). exists y, n', A'. split; auto.
Qed.
Lemma okf_raw_new {Y} A R c n (f : bool -> oact Y) Q :
  okf A R c (n + 1) (f true) Q -> okf A R c n (f false) Q -> okf A R c n (obind (raw_new full) f) Q.
Proof.
  intros H G. unfold raw_new. apply okf_assoc, okf_attempt. intros [|]; [|exact G].
  revert H. intros H q k K. destruct (H q k K) as (y & n' & A' & E' & R'). exists y, n', A'. split; auto.
Qed.
Lemma okf_done {Y} A R c n (f : unit -> oact Y) Q : okf A R c n (f tt) Q -> okf A R c (n + 1) (obind raw_done f) Q.
Proof.
  intros H q k K. destruct (H q k K) as (y & n' & A' & E' & R'). exists y, n', A'. split; auto. rewrite <- E'.
  unfold obind, raw_done, bind. replace (n + 1 =? 0) with false by (symmetry; apply N.eqb_neq; lia). cbn. now rewrite N.add_sub.
Qed.
Lemma okf_if {X Y} A R c n (b : bool) (m m' : oact X) (f : X -> oact Y) Q :
  okf A R c n (if b then obind m f else obind m' f) Q -> okf A R c n (obind (if b then m else m') f) Q.
Proof. now destruct b. Qed.

Definition absent (h : obs) (T : table_id) (k : key) : Prop :=
  forall b v, lookup h b = Some v -> 0 < o_n v -> ident h v <> Some (T, k).
Lemma okf_put {Y} A R c n T k eq (f : put_res -> oact Y) Q : Inv A R [] -> (forall q, cmp (at_n A q) T k eq) ->
  (absent (a_h A) T k -> okf A R c n (f PNew) Q) ->
  (forall b v, lookup (a_h A) b = Some v -> ident (a_h A) v = Some (T, k) -> okf A R c n (f (PHas b)) Q) ->
  okf A R c n (f PErr) Q ->
  okf A R c n (obind (put full T eq) f) Q.
Proof.
  intros I C H1 H2 H3. unfold put. apply okf_assoc, okf_attempt. intros [|]; [|exact H3].
  apply okf_assoc. intros q q' K.
  destruct (find_cs huge e (at_n A q) R [] T k eq (inv_at _ _ _ _ I) (C q)) as (r & F & H).
  assert (G : okf A R c n (f (match r with Some k => PHas k | None => PNew end)) Q).
  { destruct r as [b|]; [destruct H as (v & E & _ & D); eapply H2; eauto|apply H1; exact H]. }
  destruct (G q q' K) as (y & n' & A' & E' & R'). exists y, n', A'. split; auto.
  unfold obind at 1. unfold lift, bind. rewrite F. exact E'.
Qed.

(** * Reference counting *)

Lemma same_shrink h h' : shrink h h' -> same h h'.
Proof. intros S x v w E F. destruct (S x w F) as (u & G & (_ & _ & D) & _). rewrite E in G. inversion G; subst. auto. Qed.

Lemma retain_f A R n a : Inv A R [] -> live (a_h A) a ->
  okf A R 1 n (lift (retain huge (Some a))) (fun x n' A' => x = a /\ n' = n /\ Inv A' (a :: R) [] /\ sim (a_h A) (a_h A')).
Proof.
  intros I L. eapply okf_lift; [intros q; apply (retain_ok huge e (at_n A q) R a (inv_at _ _ _ _ I) L)|].
  intros q x A' (-> & I' & G & S) _. split; auto. now apply same_sim.
Qed.
Lemma incr_f A R n a : Inv A R [] -> live (a_h A) a ->
  okf A R 1 n (lift (incr_ref huge a)) (fun _ n' A' => n' = n /\ Inv A' (a :: R) [] /\ sim (a_h A) (a_h A')).
Proof.
  intros I L q k K. destruct (retain_f A R n a I L q k K) as (x & n' & A' & E & K' & V & -> & -> & I' & S).
  exists tt, n, A'. split; [|auto]. revert E. unfold lift, retain, nonnull, bind, ret.
  destruct (incr_ref huge a (cs (at_n A q))) as [[] s|]; [|discriminate]. intros E. now inversion E.
Qed.
Lemma release_f A R R' n a : Inv A R' [] -> (forall x, count x R' = count x (a :: R)) -> In (e_empty e) R ->
  okf A R 0 n (lift (release huge (Some a))) (fun _ n' A' => n' = n /\ Inv A' R []).
Proof.
  intros I C J. eapply okf_lift; [intros q; apply (release_ok huge e (at_n A q) R R' a (inv_at _ _ _ _ I) C J)|].
  intros q x A' (I' & S) _. split; auto. now apply same_shrink.
Qed.
Lemma release_none_f {Y} A R c n (f : unit -> oact Y) Q : okf A R c n (f tt) Q -> okf A R c n (obind (lift (release huge None)) f) Q.
Proof. intros H. eapply okf_pure; [|exact H]. intros q. reflexivity. Qed.

(** What a function that returns an object does: nothing is left over, and there is a new reference
    to an object with the property, or none. *)
Definition gets (R : list N) (n : N) (P : N -> ast -> Prop) (r : option N) (n' : N) (A' : ast) : Prop :=
  n' = n /\ match r with None => Inv A' R [] | Some a => Inv A' (a :: R) [] /\ P a A' end.

Lemma hold_grow A R h' : Inv A R [] -> hold R (a_h A) h' -> grow (a_h A) h'.
Proof. intros I H. apply (keeps_grow huge e A R); auto. now apply hold_keeps. Qed.
Lemma grow_sim A R h' : Inv A R [] -> sim (a_h A) h' -> (forall x v, lookup h' x = Some v -> 0 < o_n v) -> grow (a_h A) h'.
Proof. intros I [S _] P x v E _. destruct (S x v E) as (w & F & AL). exists w. split; auto. split; [eauto|]. now apply up_alike. Qed.

(** * Strings *)

Lemma string_get_at A R t : Inv A R [] ->
  ok A R 0 (string_get huge fresh t) (fun a A' => Inv A' (a :: R) [] /\ txt (a_h A') a = Some t /\ lookup (a_h A) a = None /\
    a_h A' = (a, mkOb OT_STRING false 1 (BStr t)) :: a_h A).
Proof.
  intros I. eapply ok_post.
  - apply (alloc_at huge fresh fresh_ok e A R R); auto.
    + constructor.
    + easy.
    + eapply empty_in; eauto.
    + discriminate.
  - intros a A' (I' & (F1 & F2 & F3) & H') _. split; auto. split; [unfold txt; now rewrite F2|auto].
Qed.
Lemma same_new h a v : lookup h a = None -> same h ((a, v) :: h).
Proof. intros L. apply same_cons; auto. intros x u w E F. congruence. Qed.
Lemma string_anon_cons A R a t u : Inv A R [] -> lookup (a_h A) a = None -> no_anon (a_h A) u ->
  no_anon ((a, mkOb OT_STRING false 1 (BStr t)) :: a_h A) u.
Proof.
  intros I L H b v E P D. cbn in E. destruct (a =? b) eqn:Q.
  - inversion E; subst v. discriminate D.
  - apply (H b v E P). rewrite <- D. symmetry. apply ident_ext. intros x J. unfold txt. cbn. destruct (a =? x) eqn:Q'; auto.
    apply N.eqb_eq in Q'. subst x. destruct (kid_live huge e A R [] b v a I E) as (w & F & _); [now rewrite kids_live|congruence].
Qed.

Lemma string_get_f_ok A R n t (copy : bool) : Inv A R [] ->
  okf A R 0 (if copy then n else n + 1) (string_get_f huge fresh full t copy)
    (gets R n (fun a A' => txt (a_h A') a = Some t /\ forall u, no_anon (a_h A) u -> no_anon (a_h A') u)).
Proof.
  intros I. unfold string_get_f.
  assert (G : okf A R 0 (n + 1) (mem <- attempt full;; if mem then raw_done;; a <- lift (string_get huge fresh t);; oret (Some a)
      else raw_done;; oret (@None N))%oact
    (gets R n (fun a A' => txt (a_h A') a = Some t /\ forall u, no_anon (a_h A) u -> no_anon (a_h A') u))).
  { apply okf_attempt. intros [|]; apply okf_done.
    - apply (okf_weak A R 0 (0 + 0)); [lia|].
      eapply okf_bind; [eapply okf_lift; [intros q; apply (string_get_at (at_n A q) R t (inv_at _ _ _ _ I))|]|].
      + intros q a A' (I' & X & L & H') _. cbn [at_n a_h] in *. split; [rewrite H'; now apply same_new|].
        instantiate (1 := fun a n' A' => n' = n /\ Inv A' (a :: R) [] /\ txt (a_h A') a = Some t /\ forall u, no_anon (a_h A) u -> no_anon (a_h A') u).
        cbv beta. split; auto. split; auto. split; auto. intros u U. rewrite H'. apply (string_anon_cons A R); auto.
      + intros a n' A' (-> & I' & X & U) _. apply (okf_frame A' R (a :: R)); [sub|]. apply okf_ret; auto.
        intros q. split; auto. split; [now apply inv_at|auto].
    - apply okf_ret; auto. intros q. split; auto. now apply inv_at. }
  destruct copy.
  - apply okf_raw_new; [exact G|]. apply okf_ret; auto. intros q. split; auto. now apply inv_at.
  - exact G.
Qed.

Lemma string_intern_new A R n t (copy : bool) : Inv A R [] -> t <> [] -> absent (a_h A) TStr (KeyS t) ->
  okf A R 0 (if copy then n else n + 1)
    (p <- string_get_f huge fresh full t copy ;;
     match p with Some a => lift (set_bit huge a) ;; lift (table_add TStr a) ;; oret (Some a) | None => oret None end)%oact
    (gets R n (fun a A' => txt (a_h A') a = Some t /\ ns_ok (a_h A') a)).
Proof.
  intros I NE AB. unfold string_get_f.
  assert (N0 : forall n, okf A R 0 n (oret None) (gets R n (fun a A' => txt (a_h A') a = Some t /\ ns_ok (a_h A') a))).
  { intros n0. apply okf_ret; auto. intros q. split; auto. now apply inv_at. }
  assert (G : okf A R 0 (n + 1) (mem <- attempt full;; if mem then raw_done;; a <- lift (string_get huge fresh t);; lift (set_bit huge a) ;; lift (table_add TStr a) ;; oret (Some a)
      else raw_done;; oret (@None N))%oact
    (gets R n (fun a A' => txt (a_h A') a = Some t /\ ns_ok (a_h A') a))).
  { apply okf_attempt. intros [|]; apply okf_done; [|apply N0].
    apply okf_eq with (m' := lift (a <- (a <- string_get huge fresh t;; set_bit huge a;; table_add TStr a;; ret a) ;; ret (Some a))%act).
    { intros s. unfold obind, lift, bind, ret, oret. destruct (string_get huge fresh t s) as [a s1|]; [|reflexivity].
      cbn [fst snd]. destruct (set_bit huge a s1) as [[] s2|]; reflexivity. }
    eapply okf_lift.
    - intros q k K.
      destruct (alloc_tab_at huge fresh fresh_ok e (fun a => a) (at_n A q) R R OT_STRING true (BStr t) TStr (KeyS t) (inv_at _ _ _ q I)) with (k := k)
        as (x & A' & E & K' & V & a & -> & I' & M & H'); auto.
      + constructor.
      + now intros _.
      + eapply empty_in; eauto.
      + exists (Some a), A'. split; [erewrite bind_ok; [reflexivity|]; rewrite get_intern_eq; exact E|].
        split; auto. split; auto.
        instantiate (1 := fun _ r A' => exists a, r = Some a /\ Inv A' (a :: R) [] /\ lookup (a_h A) a = None /\ a_h A' = (a, mkOb OT_STRING true 1 (BStr t)) :: a_h A).
        exists a. split; auto. split; auto. split; auto. apply M.
    - intros q r A' (a & -> & I' & L & H') _. split; [rewrite H'; now apply same_new|].
      split; auto. split; auto. rewrite H'. split; [unfold txt|right; eexists; split]; cbn; try rewrite N.eqb_refl; auto. }
  destruct copy.
  - apply okf_assoc. apply okf_raw_new; [|apply N0]. apply okf_assoc. apply okf_eq with (m' := (mem <- attempt full;; if mem then raw_done;; a <- lift (string_get huge fresh t);; lift (set_bit huge a) ;; lift (table_add TStr a) ;; oret (Some a)
      else raw_done;; oret (@None N))%oact); auto.
    intros s. unfold obind, bind. destruct (attempt full (n + 1) s) as [[[|] ?] s1|]; try reflexivity; cbn [fst snd];
      destruct (raw_done _ s1) as [[[] ?] s2|]; reflexivity.
  - apply okf_assoc, okf_oret, okf_assoc.
    apply okf_eq with (m' := (mem <- attempt full;; if mem then raw_done;; a <- lift (string_get huge fresh t);; lift (set_bit huge a) ;; lift (table_add TStr a) ;; oret (Some a)
      else raw_done;; oret (@None N))%oact); auto.
    intros s. unfold obind, bind. destruct (attempt full (n + 1) s) as [[[|] ?] s1|]; try reflexivity; cbn [fst snd];
      destruct (raw_done _ s1) as [[[] ?] s2|]; reflexivity.
Qed.

Lemma string_get_intern_f_ok A R n t (copy : bool) : Inv A R [] -> t <> [] ->
  okf A R 1 (if copy then n else n + 1) (string_get_intern_f huge fresh full t copy)
    (gets R n (fun a A' => txt (a_h A') a = Some t /\ ns_ok (a_h A') a)).
Proof.
  intros I NE. unfold string_get_intern_f.
  eapply (okf_put A R 1 _ TStr (KeyS t) (str_eq t)); auto.
  - intros q. apply cmp_str.
  - intros AB. eapply okf_weak; [|apply string_intern_new; auto]. lia.
  - intros b v E D. destruct (interned_ns huge e A R b v t I E D) as [X N0].
    apply (okf_weak A R 1 (1 + 0)); [lia|].
    eapply okf_bind; [apply retain_f; auto; eapply txt_live; eauto|].
    intros x n' A' (-> & -> & I' & S) H. assert (G := hold_grow A R _ I H).
    assert (Z : okf A' R 0 n (oret (Some b)) (gets R n (fun a A'0 => txt (a_h A'0) a = Some t /\ ns_ok (a_h A'0) a))).
    { apply (okf_frame A' R (b :: R)); [sub|]. apply okf_ret; auto. intros q. split; auto. split; [now apply inv_at|].
      split; [apply (grow_txt huge e A R)|apply (grow_ns huge e A R)]; auto. }
    destruct copy; [exact Z|]. apply okf_done. exact Z.
  - assert (Z : okf A R 1 n (oret None) (gets R n (fun a A'0 => txt (a_h A'0) a = Some t /\ ns_ok (a_h A'0) a))).
    { apply (okf_weak A R 1 0); [lia|]. apply okf_ret; auto. intros q. split; auto. now apply inv_at. }
    destruct copy; [exact Z|]. apply okf_done. exact Z.
Qed.

Lemma string_empty_f A R n (intern : bool) : Inv A R [] ->
  okf A R 1 n (a <- lift (string_empty huge e) ;; oret (Some a))%oact
    (gets R n (fun a A' => txt (a_h A') a = Some [] /\ ns_ok (a_h A') a /\ sim (a_h A) (a_h A'))).
Proof.
  intros I. apply (okf_weak A R 1 (1 + 0)); [lia|].
  eapply okf_bind; [apply (retain_f A R n (e_empty e)); auto; eapply txt_live, empty_txt, I|].
  intros x n' A' (-> & -> & I' & S) H. apply (okf_frame A' R (e_empty e :: R)); [sub|]. apply okf_ret; auto.
  intros q. split; auto. split; [now apply inv_at|]. split; [eapply empty_txt; apply (inv_at _ _ _ q I')|]. split; [now left|exact S].
Qed.

(** Count of loose buffers before a call that is given a raw string. *)
Definition raws (t : bytes) (copy : bool) (n : N) : N := if copy then n else if Nat.eqb (List.length t) 0 then n else n + 1.
Lemma string_opt_f_ok A R n t (copy intern : bool) : Inv A R [] ->
  okf A R 1 (raws t copy n) (string_opt_f huge fresh e full t copy intern)
    (gets R n (fun a A' => txt (a_h A') a = Some t /\ (intern = true -> ns_ok (a_h A') a))).
Proof.
  intros I. unfold string_opt_f, raws. destruct (Nat.eqb (List.length t) 0) eqn:L.
  - apply len0 in L. subst t. replace (if copy then n else n) with n by now destruct copy.
    eapply okf_post; [apply string_empty_f; auto|]. intros [a|] n' A' G _; destruct G as [-> G]; split; auto. destruct G as (G1 & G2 & G3 & _). auto.
  - apply len1 in L. destruct intern.
    + eapply okf_post; [apply string_get_intern_f_ok; auto|]. intros [a|] n' A' [-> G] _; split; auto. destruct G as (G1 & G2 & G3). auto.
    + apply (okf_weak A R 1 0); [lia|]. eapply okf_post; [apply string_get_f_ok; auto|].
      intros [a|] n' A' [-> G] _; split; auto. destruct G as (G1 & G2 & G3). split; auto. split; auto. discriminate.
Qed.
Lemma cowl_string_f_ok A R n t : Inv A R [] ->
  okf A R 1 (raws t false n) (cowl_string_f huge fresh e full (Some t))
    (gets R n (fun a A' => txt (a_h A') a = Some t /\ forall u, no_anon (a_h A) u -> no_anon (a_h A') u)).
Proof.
  intros I. unfold cowl_string_f, raws. destruct (Nat.eqb (List.length t) 0) eqn:L.
  - apply len0 in L. subst t. eapply okf_post; [apply string_empty_f; auto|].
    intros [a|] n' A' G _; destruct G as [-> G]; split; auto. destruct G as (G1 & G2 & G3 & S). split; auto. split; auto.
    intros u H b v E P D. destruct (proj2 S b v E) as (w & F & AL). rewrite (sim_ident _ _ _ _ S AL) in D.
    exact (H b w F (live_all _ _ _ _ _ _ I F) D).
  - apply (okf_weak A R 1 0); [lia|]. apply (string_get_f_ok A R n t false I).
Qed.

Lemma string_intern_f_ok A R n a t : Inv A R [] -> txt (a_h A) a = Some t ->
  okf A R 0 n (string_intern_f huge e full (Some a))
    (fun r n' A' => n' = n /\ Inv A' R [] /\
       match r with Some b => txt (a_h A') b = Some t /\ ns_ok (a_h A') b | None => True end).
Proof.
  intros I X. unfold string_intern_f. destruct (txt_live _ _ _ X) as (v & E).
  assert (D : o_d v = BStr t) by (unfold txt in X; rewrite E in X; destruct (o_d v); congruence).
  destruct (i_fit _ _ _ _ _ I a v E) as [F SH].
  assert (T : o_t v = OT_STRING) by (rewrite D in SH; inversion SH; auto).
  eapply okf_pure; [intros q; apply (bit_cs huge (at_n A q) a v E F)|].
  assert (RT : forall b, txt (a_h A) b = Some t -> ns_ok (a_h A) b -> okf A R 0 n (oret (Some b))
    (fun r n' A' => n' = n /\ Inv A' R [] /\ match r with Some b => txt (a_h A') b = Some t /\ ns_ok (a_h A') b | None => True end)).
  { intros b XB NB. apply okf_ret; auto. intros q. split; auto. split; [now apply inv_at|auto]. }
  destruct (o_b v) eqn:B; [apply RT; auto; right; exists v; auto|].
  eapply okf_pure; [intros q; apply (text_cs huge (at_n A q) a v t E D)|].
  destruct (Nat.eqb (List.length t) 0) eqn:L.
  - apply len0 in L. subst t. apply RT; [eapply empty_txt; eauto|now left].
  - apply len1 in L. eapply (okf_put A R 0 n TStr (KeyS t)); auto.
    + intros q. apply cmp_str.
    + intros AB. apply okf_eq with (m' := lift (table_add TStr a ;; set_bit huge a ;; ret (Some a))%act).
      { intros s. unfold obind, lift, bind, ret, oret. destruct (table_add TStr a s) as [[] s1|]; auto. cbn. now destruct (set_bit huge a s1) as [[] s2|]. }
      eapply okf_lift; [intros q; apply (intern_new_ok huge e (at_n A q) R a v t (inv_at _ _ _ q I)); auto|].
      intros q r A' (-> & I' & X' & N' & AH) _. split; [|auto]. intros x u w EU EW. rewrite AH in EW. rewrite lookup_store in EW.
      cbn [at_n a_h] in EW. rewrite E in EW. destruct (a =? x) eqn:Q; [|congruence]. apply N.eqb_eq in Q. subst x.
      inversion EW. cbn. congruence.
    + intros b w EB DB. destruct (interned_ns huge e A R b w t I EB DB) as [XB NB]. apply RT; auto.
    + apply okf_ret; auto. intros q. split; auto. split; [now apply inv_at|auto].
Qed.

(** * IRIs *)

Lemma found_f A R n k (P : N -> ast -> Prop) : Inv A R [] -> live (a_h A) k -> (forall A', grow (a_h A) (a_h A') -> Inv A' (k :: R) [] -> P k A') ->
  okf A R 1 n (lift (incr_ref huge k) ;; oret (Some k))%oact (gets R n P).
Proof.
  intros I L H. apply (okf_weak A R 1 (1 + 0)); [lia|].
  eapply okf_bind; [apply incr_f; auto|]. intros _ n' A' (-> & I' & S) V.
  apply (okf_frame A' R (k :: R)); [sub|]. apply okf_ret; auto. intros q. split; auto. split; [now apply inv_at|].
  apply H; [|now apply inv_at]. apply (hold_grow A R); auto.
Qed.
Lemma none_f A R c n (P : N -> ast -> Prop) : Inv A R [] -> okf A R c n (oret None) (gets R n P).
Proof. intros I. apply (okf_weak A R c 0); [lia|]. apply okf_ret; auto. intros q. split; auto. now apply inv_at. Qed.
Lemma some_f A R n a (P : N -> ast -> Prop) : Inv A (a :: R) [] -> (forall q, P a (at_n A q)) -> okf A R 0 n (oret (Some a)) (gets R n P).
Proof.
  intros I H. apply (okf_frame A R (a :: R)); [sub|]. apply okf_ret; auto. intros q. split; auto. split; [now apply inv_at|auto].
Qed.

(** A new object is added to memory and to a table. *)
Lemma table_new_f A R R0 n t b d T k0 (P : N -> ast -> Prop) : Inv A R [] -> shape t b d -> ProofHeap.kids_ok e (a_h A) (mkOb t b 1 d) ->
  ident (a_h A) (mkOb t b 1 d) = Some (T, k0) -> absent (a_h A) T k0 ->
  (forall x, count x R = count x (pointers_of d) + count x R0)%nat -> In (e_empty e) R0 ->
  (forall a A', Inv A' (a :: R0) [] -> lookup (a_h A') a = Some (mkOb t b 1 d) -> grow (a_h A) (a_h A') -> P a A') ->
  okf A R0 0 n (a <- lift (alloc huge fresh t b d) ;; lift (table_add T a) ;; oret (Some a))%oact (gets R0 n P).
Proof.
  intros I SH KO ID AB C EM H.
  apply okf_eq with (m' := lift (a <- alloc huge fresh t b d ;; table_add T a ;; ret (Some a))%act).
  { intros s. unfold obind, lift, bind, ret, oret. destruct (alloc huge fresh t b d s) as [a s1|]; [|reflexivity].
    cbn [fst snd]. destruct (table_add T a s1) as [[] s2|]; reflexivity. }
  eapply okf_lift.
  - intros q. apply (alloc_tab_at huge fresh fresh_ok e (@Some N) (at_n A q) R R0 t b d T k0 (inv_at _ _ _ q I)); auto.
  - intros q y A' (a & -> & I' & (M1 & M2 & M3) & H') _. split; [rewrite H'; now apply same_new|]. split; auto.
Qed.

Lemma absent_sim A R h' T k : Inv A R [] -> sim (a_h A) h' -> absent (a_h A) T k -> absent h' T k.
Proof.
  intros I S H b v E P D. destruct (proj2 S b v E) as (w & F & AL). rewrite (sim_ident _ _ _ _ S AL) in D.
  exact (H b w F (live_all _ _ _ _ _ _ I F) D).
Qed.

Lemma iri_unvalidated_f_ok A R c ns rem n m : Inv A R [] -> txt (a_h A) ns = Some n -> txt (a_h A) rem = Some m ->
  okf A R 3 c (iri_unvalidated_f huge fresh e full (Some ns) (Some rem)) (gets R c (fun a A' => iri_txt (a_h A') a n m)).
Proof.
  intros I XN XR. unfold iri_unvalidated_f. apply (okf_weak A R 3 (0 + 3)); [lia|].
  eapply okf_bind; [apply (string_intern_f_ok A R c ns n I XN)|]. intros r c' A1 (-> & I1 & H1) V1.
  destruct r as [i|]; [|now apply none_f]. destruct H1 as [X1 N1]. assert (G1 := hold_grow A R _ I V1).
  assert (X2 : txt (a_h A1) rem = Some m) by (apply (grow_txt huge e A R); auto).
  cbn [nonnull]. eapply okf_pure; [intros q; reflexivity|].
  eapply (okf_put A1 R 3 c TIri (KeyI i m)); auto.
  - intros q. now apply cmp_iri.
  - intros AB. apply okf_attempt. intros [|]; [|now apply none_f].
    apply (okf_weak A1 R 3 (1 + (1 + 0))); [lia|].
    eapply okf_bind; [apply (retain_f A1 R c i I1 (txt_live _ _ _ X1))|]. intros x c' A2 (-> & -> & I2 & S2) V2. assert (G2 := hold_grow A1 R _ I1 V2).
    assert (LR : live (a_h A2) rem) by (apply (grow_live huge e A1 R); auto; eapply txt_live; eauto).
    eapply okf_bind1; [apply (retain_f A2 (i :: R) c rem I2 LR)|sub|]. intros x c' A3 (-> & -> & I3 & S3) V3. assert (G3 := hold_grow A2 (i :: R) _ I2 V3).
    assert (XI : txt (a_h A3) i = Some n).
    { apply (grow_txt huge e A2 (i :: R)); auto. apply (grow_txt huge e A1 R); auto. }
    assert (XM : txt (a_h A3) rem = Some m).
    { apply (grow_txt huge e A2 (i :: R)); auto. apply (grow_txt huge e A1 R); auto. }
    assert (NI : ns_ok (a_h A3) i).
    { apply (grow_ns huge e A2 (i :: R)); auto. apply (grow_ns huge e A1 R); auto. }
    assert (S : sim (a_h A1) (a_h A3)) by (eapply sim_trans; eauto).
    apply (table_new_f A3 (rem :: i :: R) R c OT_IRI false (BIri i rem) TIri (KeyI i m)); auto.
    + constructor.
    + split; auto. split; eapply type_of_str; eauto.
    + unfold ident. cbn. now rewrite XM.
    + apply (absent_sim A1 R); auto.
    + intros z. cbn [pointers_of]. rewrite !count_cons, count_nil. lia.
    + eapply empty_in; eauto.
    + intros a A' I' L G. exists (mkOb OT_IRI false 1 (BIri i rem)), i, rem. split; auto. split; auto.
      split; apply (grow_txt huge e A3 (rem :: i :: R)); auto.
  - intros k v E D. apply ident_iri in D as (rem' & D & X3). apply (okf_weak A1 R 3 1); [lia|].
    apply found_f; auto; [exists v; auto|]. intros A' G I'. apply (grow_iri huge e A1 R); auto. exists v, i, rem'. auto.
  - now apply none_f.
Qed.

(** The parts of an IRI are released at the end, whether or not there is an IRI. *)
Lemma hold_iri A R R1 h' a n m : Inv A R [] -> hold R1 (a_h A) h' -> In a R1 -> iri_txt (a_h A) a n m -> iri_txt h' a n m.
Proof.
  intros I V J. apply (keeps_iri R1); [now apply hold_keeps|now apply use_in|]. intros v E. apply (live_all _ _ _ _ _ _ I E).
Qed.
Lemma iri_parts_f A R c p q n m : Inv A (p :: q :: R) [] -> In (e_empty e) R ->
  txt (a_h A) p = Some n -> txt (a_h A) q = Some m ->
  okf A R 3 c (iri <- iri_unvalidated_f huge fresh e full (Some p) (Some q) ;; lift (release huge (Some p)) ;; lift (release huge (Some q)) ;; oret iri)%oact
    (gets R c (fun a A' => iri_txt (a_h A') a n m)).
Proof.
  intros I EM XP XQ. apply (okf_weak A R 3 (3 + (0 + (0 + 0)))); [lia|].
  eapply okf_bind1; [apply (iri_unvalidated_f_ok A (p :: q :: R) c p q n m I XP XQ)|sub|].
  intros r c' A1 [-> H1] V1. destruct r as [a|].
  - destruct H1 as [I1 IT].
    eapply okf_bind1; [apply (release_f A1 (a :: q :: R) (a :: p :: q :: R) c p I1)|sub|].
    { intros x. rewrite !count_cons. lia. } { right; right; auto. }
    intros _ c' A2 (-> & I2) V2.
    eapply okf_bind1; [apply (release_f A2 (a :: R) (a :: q :: R) c q I2)|sub|].
    { intros x. rewrite !count_cons. lia. } { now right. }
    intros _ c' A3 (-> & I3) V3. apply some_f; auto. intros q0.
    apply (hold_iri A2 (a :: q :: R) (a :: R)); auto; [now left|]. apply (hold_iri A1 (a :: p :: q :: R) (a :: q :: R)); auto. now left.
  - eapply okf_bind1; [apply (release_f A1 (q :: R) (p :: q :: R) c p H1)|sub|]; auto; [now right|].
    intros _ c' A2 (-> & I2) V2.
    eapply okf_bind1; [apply (release_f A2 R (q :: R) c q I2)|sub|]; auto.
    intros _ c' A3 (-> & I3) V3. now apply none_f.
Qed.

Lemma release_opt_f A R R' n p : Inv A (match p with Some a => a :: R | None => R end) [] -> In (e_empty e) R ->
  R' = R -> okf A R' 0 n (lift (release huge p)) (fun _ n' A' => n' = n /\ Inv A' R []).
Proof.
  intros I EM ->. destruct p as [a|]; [apply (release_f A R (a :: R)); auto|].
  eapply okf_lift; [intros q; apply (release_none huge e (at_n A q) R (inv_at _ _ _ q I))|].
  intros q x A' -> _. split; [intros y v w E F; cbn in F; congruence|]. split; auto. now apply inv_at.
Qed.

Lemma get_ns_rem_f_ok A R c t k : Inv A R [] ->
  okf A R 2 c (get_ns_rem_f huge fresh e full t k)
    (fun p c' A' => c' = c /\ match p with
       | Some (l, r) => Inv A' (l :: r :: R) [] /\ txt (a_h A') l = Some (fst (string_get_ns_rem t k)) /\
           txt (a_h A') r = Some (snd (string_get_ns_rem t k))
       | None => Inv A' R [] end).
Proof.
  intros I. assert (EM : In (e_empty e) R) by (eapply empty_in; eauto). unfold get_ns_rem_f.
  apply (okf_weak A R 2 (1 + (1 + (0 + (0 + 0))))); [lia|].
  apply (okf_bind A R 1 _ _ _ _ (gets R c (fun a A' => txt (a_h A') a = Some (snd (string_get_ns_rem t k))))).
  { unfold string_get_ns_rem. destruct (Nat.ltb k (List.length t)) eqn:B; cbn [snd].
    - eapply okf_post; [apply (string_opt_f_ok A R c (skipn k t) true false I)|].
      intros [a|] c' A' [-> H] _; split; auto. now destruct H as (H1 & H2 & _).
    - eapply okf_post; [apply string_empty_f; auto|]. intros [a|] c' A' [-> H] _; split; auto. now destruct H as (H1 & H2 & _). }
  intros rhs c' A1 [-> H1] V1.
  assert (FS : fst (string_get_ns_rem t k) = firstn k t).
  { unfold string_get_ns_rem. destruct (Nat.ltb k (List.length t)) eqn:B; auto. symmetry. apply firstn_all2. now apply Nat.ltb_ge. }
  rewrite FS.
  destruct rhs as [r|].
  - destruct H1 as [I1 X1].
    eapply okf_bind1; [apply (string_opt_f_ok A1 (r :: R) c (firstn k t) true true I1)|sub|].
    intros [l|] c' A2 [-> H2] V2.
    + destruct H2 as (I2 & X2 & _). apply (okf_weak A2 R (0 + (0 + 0)) 0); [lia|]. apply (okf_frame A2 R (l :: r :: R)); [sub|].
      apply okf_ret; auto. intros q. split; auto. split; [now apply inv_at|]. split; auto.
      apply (keeps_txt (r :: R) (a_h A1)); auto; [now apply hold_keeps|]. apply use_in. now left.
    + apply release_none_f. apply (okf_weak A2 R (0 + (0 + 0)) (0 + 0)); [lia|].
      eapply okf_bind; [apply (release_f A2 R (r :: R) c r H2); auto|]. intros _ c' A3 (-> & I3) _.
      apply okf_ret; auto. intros q. split; auto. now apply inv_at.
  - eapply okf_bind; [apply (string_opt_f_ok A1 R c (firstn k t) true true H1)|].
    intros [l|] c' A2 [-> H2] V2.
    + destruct H2 as (I2 & X2 & _). apply (okf_weak A2 R (0 + (0 + 0)) (0 + 0)); [lia|].
      eapply okf_bind; [apply (release_f A2 R (l :: R) c l I2); auto|]. intros _ c' A3 (-> & I3) _.
      apply release_none_f. apply okf_ret; auto. intros q. split; auto. now apply inv_at.
    + apply release_none_f, release_none_f. apply (okf_weak A2 R (0 + (0 + 0)) 0); [lia|].
      apply okf_ret; auto. intros q. split; auto. now apply inv_at.
Qed.

Lemma iri_of_string_f_ok A R c t : Inv A R [] ->
  okf A R 5 c (iri_of_string_f huge fresh e full t)
    (gets R c (fun a A' => exists n m, iri_from_string t = Some (n, m) /\ iri_txt (a_h A') a n m)).
Proof.
  intros I. unfold iri_of_string_f, iri_from_string. destruct (Nat.leb (ustring_size t) 1); [now apply none_f|].
  apply (okf_weak A R 5 (2 + 3)); [lia|].
  eapply okf_bind; [apply (get_ns_rem_f_ok A R c t (xml_ns_length t) I)|].
  intros [[l r]|] c' A1 [-> H1] V1; [|now apply none_f]. destruct H1 as (I1 & X1 & Y1).
  destruct (string_get_ns_rem t (xml_ns_length t)) as [n m]. cbn [fst snd] in *.
  eapply okf_post; [apply (iri_parts_f A1 R c l r n m I1)|]; auto; [eapply empty_in; eauto|].
  intros [a|] c' A2 [-> H2] _; split; auto. destruct H2. split; auto. exists n, m. auto.
Qed.

(** The two texts of an IRI as raw strings. *)
Lemma append_two_f {Y} A R c n (f : bool -> oact Y) Q : okf A R c (n + 1) (f true) Q -> okf A R c n (f false) Q ->
  okf A R c n (obind (append_two full) f) Q.
Proof.
  intros H G. unfold append_two. apply okf_assoc, okf_raw_new; [|exact G].
  apply okf_assoc, okf_attempt. intros [|]; [exact H|]. apply okf_assoc, okf_done. exact G.
Qed.
Lemma to_string_f {Y} A R c n t (f : option bytes -> oact Y) Q : okf A R c (n + 1) (f (Some t)) Q -> okf A R c n (f None) Q ->
  okf A R c (n + 1) (obind (to_string full t) f) Q.
Proof.
  intros H G. unfold to_string. apply okf_assoc, okf_attempt. intros [|]; [exact H|]. apply okf_assoc, okf_done. exact G.
Qed.

(** What the two parts of an IRI may be. *)
Definition parts_ok (R : list N) (c : N) (n m : bytes) (pq : option N * option N) (c' : N) (A' : ast) : Prop :=
  c' = c /\ Inv A' (opt_list (fst pq) ++ opt_list (snd pq) ++ R) [] /\
  (forall x, fst pq = Some x -> txt (a_h A') x = Some n) /\ (forall x, snd pq = Some x -> txt (a_h A') x = Some m).
Lemma cowl_string_none {Y} A R c n (f : option N -> oact Y) Q : okf A R c n (f None) Q ->
  okf A R c n (obind (cowl_string_f huge fresh e full None) f) Q.
Proof. intros H. exact H. Qed.

(** A buffer whose text is not empty, followed by the other part. *)
Lemma first_part A R c t : Inv A R [] -> t <> [] ->
  okf A R 1 (c + 1) (raw <- to_string full t ;; cowl_string_f huge fresh e full raw)%oact (gets R c (fun a A' => txt (a_h A') a = Some t)).
Proof.
  intros I NE. apply to_string_f.
  - assert (Z : raws t false c = c + 1) by (unfold raws; destruct t; [now elim NE|reflexivity]). rewrite <- Z.
    eapply okf_post; [apply (cowl_string_f_ok A R c t I)|]. intros [a|] c' A' [-> H] _; split; auto. now destruct H as (H1 & H2 & _).
  - cbn [cowl_string_f]. apply none_f; auto.
Qed.

Lemma cowl_iri_f_ok A R c p q n m : Inv A R [] -> txt (a_h A) p = Some n -> txt (a_h A) q = Some m ->
  okf A R 5 c (cowl_iri_f huge fresh e full (Some p) (Some q))
    (gets R c (fun a A' => iri_txt (a_h A') a (fst (iri_of_parts n m)) (snd (iri_of_parts n m)))).
Proof.
  intros I XP XQ. assert (EM : In (e_empty e) R) by (eapply empty_in; eauto). unfold cowl_iri_f.
  eapply okf_pure; [intros k; apply (txt_cs huge (at_n A k) p n XP)|].
  eapply okf_pure; [intros k; apply (txt_cs huge (at_n A k) q m XQ)|].
  cbv zeta. apply (okf_weak A R 5 (2 + 3)); [lia|].
  apply (okf_bind A R 2 3 _ _ _ (parts_ok R c (fst (iri_of_parts n m)) (snd (iri_of_parts n m)))).
  { unfold iri_of_parts.
    assert (NN : forall k x y, okf A R k c (oret (None, None)) (parts_ok R c x y)).
    { intros k x y. apply (okf_weak A R k 0); [lia|]. apply okf_ret; auto. intros q0. split; auto. cbn. split; [now apply inv_at|]. split; discriminate. }
    destruct (Nat.ltb 0 (xml_ns_length m)) eqn:B1; [|destruct (Nat.ltb (xml_ns_length n) (List.length n)) eqn:B2]; cbn [fst snd].
    - apply append_two_f; [|apply NN].
      set (t := n ++ firstn (xml_ns_length m) m).
      assert (NE : t <> []).
      { unfold t. intros Z. apply app_eq_nil in Z as [_ Z]. destruct m; [vm_compute in B1; discriminate|]. destruct (xml_ns_length (n0 :: m)); [discriminate|discriminate]. }
      apply (okf_eq A R 2 (c + 1) _ (p' <- (raw <- to_string full t ;; cowl_string_f huge fresh e full raw) ;;
         q' <- string_opt_f huge fresh e full (skipn (xml_ns_length m) m) true false;; oret (p', q'))%oact).
      { intros s. unfold obind, bind. destruct (to_string full t (c + 1) s) as [[? ?] ?|]; auto. }
      apply (okf_weak A R 2 (1 + (1 + 0))); [lia|].
      eapply okf_bind; [apply (first_part A R c t I NE)|]. intros [x|] c' A1 [-> H1] V1.
      + destruct H1 as [I1 X1].
        eapply okf_bind1; [apply (string_opt_f_ok A1 (x :: R) c (skipn (xml_ns_length m) m) true false I1)|sub|].
        intros [y|] c' A2 [-> H2] V2.
        * destruct H2 as (I2 & X2 & _). apply (okf_frame A2 R (y :: x :: R)); [sub|]. apply okf_ret; auto. intros q0. split; auto. cbn [fst snd opt_list app]. split.
          { apply inv_at. revert I2. apply inv_count. intros z. rewrite !count_cons. lia. }
          split; intros z Z; inversion Z; subst z; auto.
          apply (keeps_txt (x :: R) (a_h A1)); auto; [now apply hold_keeps|]. apply use_in. now left.
        * apply (okf_frame A2 R (x :: R)); [sub|]. apply okf_ret; auto. intros q0. split; auto. cbn [fst snd opt_list app]. split; [now apply inv_at|].
          split; intros z Z; inversion Z; subst z; auto.
          apply (keeps_txt (x :: R) (a_h A1)); auto; [now apply hold_keeps|]. apply use_in. now left.
      + eapply okf_bind; [apply (string_opt_f_ok A1 R c (skipn (xml_ns_length m) m) true false H1)|].
        intros [y|] c' A2 [-> H2] V2.
        * destruct H2 as (I2 & X2 & _). apply (okf_frame A2 R (y :: R)); [sub|]. apply okf_ret; auto. intros q0. split; auto. cbn [fst snd opt_list app]. split; [now apply inv_at|].
          split; intros z Z; inversion Z; subst z; auto.
        * apply okf_ret; auto. intros q0. split; auto. cbn [fst snd opt_list app]. split; [now apply inv_at|]. split; intros z Z; inversion Z.
    - apply append_two_f; [|apply NN].
      set (t := skipn (xml_ns_length n) n ++ m).
      assert (NE : t <> []).
      { unfold t. intros Z. apply app_eq_nil in Z as [Z _]. apply Nat.ltb_lt in B2. assert (List.length (skipn (xml_ns_length n) n) = O) as L by now rewrite Z.
        rewrite skipn_length in L. lia. }
      apply (okf_weak A R 2 (1 + (1 + 0))); [lia|].
      eapply okf_bind; [apply (string_opt_f_ok A R (c + 1) (firstn (xml_ns_length n) n) true true I)|]. intros p' c' A1 [-> H1] V1.
      apply (okf_eq A1 R (1 + 0) (c + 1) _ (q' <- (raw <- to_string full t ;; cowl_string_f huge fresh e full raw) ;; oret (p', q'))%oact).
      { intros s. unfold obind, bind. destruct (to_string full t (c + 1) s) as [[? ?] ?|]; auto. }
      destruct p' as [x|].
      + destruct H1 as (I1 & X1 & _).
        eapply okf_bind1; [apply (first_part A1 (x :: R) c t I1 NE)|sub|]. intros [y|] c' A2 [-> H2] V2.
        * destruct H2 as (I2 & X2). apply (okf_frame A2 R (y :: x :: R)); [sub|]. apply okf_ret; auto. intros q0. split; auto. cbn [fst snd opt_list app]. split.
          { apply inv_at. revert I2. apply inv_count. intros z. rewrite !count_cons. lia. }
          split; intros z Z; inversion Z; subst z; auto.
          apply (keeps_txt (x :: R) (a_h A1)); auto; [now apply hold_keeps|]. apply use_in. now left.
        * apply (okf_frame A2 R (x :: R)); [sub|]. apply okf_ret; auto. intros q0. split; auto. cbn [fst snd opt_list app]. split; [now apply inv_at|].
          split; intros z Z; inversion Z; subst z; auto.
          apply (keeps_txt (x :: R) (a_h A1)); auto; [now apply hold_keeps|]. apply use_in. now left.
      + eapply okf_bind; [apply (first_part A1 R c t H1 NE)|]. intros [y|] c' A2 [-> H2] V2.
        * destruct H2 as (I2 & X2). apply (okf_frame A2 R (y :: R)); [sub|]. apply okf_ret; auto. intros q0. split; auto. cbn [fst snd opt_list app]. split; [now apply inv_at|].
          split; intros z Z; inversion Z; subst z; auto.
        * apply okf_ret; auto. intros q0. split; auto. cbn [fst snd opt_list app]. split; [now apply inv_at|]. split; intros z Z; inversion Z.
    - apply (okf_weak A R 2 (1 + (1 + 0))); [lia|].
      eapply okf_bind; [apply (retain_f A R c p I (txt_live _ _ _ XP))|]. intros x c' A1 (-> & -> & I1 & S1) V1. assert (G1 := hold_grow A R _ I V1).
      assert (L1 : live (a_h A1) q) by (apply (grow_live huge e A R); auto; eapply txt_live; eauto).
      eapply okf_bind1; [apply (retain_f A1 (p :: R) c q I1 L1)|sub|]. intros x c' A2 (-> & -> & I2 & S2) V2. assert (G2 := hold_grow A1 (p :: R) _ I1 V2).
      apply (okf_frame A2 R (q :: p :: R)); [sub|]. apply okf_ret; auto. intros q0. split; auto. cbn [fst snd opt_list app]. split.
      { apply inv_at. revert I2. apply inv_count. intros z. rewrite !count_cons. lia. }
      split; intros z Z; inversion Z; subst z; apply (grow_txt huge e A1 (p :: R)); auto; apply (grow_txt huge e A R); auto. }
  intros [p' q'] c' A1 (-> & I1 & XP' & XQ') V1. cbn [fst snd] in *.
  destruct p' as [x|], q' as [y|]; cbn [opt_list app] in I1.
  - apply iri_parts_f; auto.
  - apply okf_oret. apply (okf_weak A1 R 3 (0 + 0)); [lia|].
    eapply okf_bind; [apply (release_f A1 R (x :: R) c x I1); auto|]. intros _ c' A2 (-> & I2) _. apply release_none_f. now apply none_f.
  - apply okf_oret. apply release_none_f. apply (okf_weak A1 R 3 (0 + 0)); [lia|].
    eapply okf_bind; [apply (release_f A1 R (y :: R) c y I1); auto|]. intros _ c' A2 (-> & I2) _. now apply none_f.
  - apply okf_oret. apply release_none_f, release_none_f. now apply none_f.
Qed.

(** * Entities *)

Lemma entity_get_f_ok A R c t i : Inv A R [] -> type_is_entity t = true -> is_type (a_h A) i OT_IRI ->
  okf A R 2 c (entity_get_f huge fresh full t (Some i)) (gets R c (fun a A' => ent_is (a_h A') a t i)).
Proof.
  intros I TE TI. unfold entity_get_f.
  eapply (okf_put A R 2 c TEnt (KeyE t i)); auto.
  - intros q. apply cmp_ent.
  - intros AB. apply okf_attempt. intros [|]; [|now apply none_f].
    apply (okf_weak A R 2 (1 + 0)); [lia|].
    eapply okf_bind; [apply (retain_f A R c i I (type_live _ _ _ TI))|]. intros x c' A1 (-> & -> & I1 & S1) V1. assert (G1 := hold_grow A R _ I V1).
    apply (table_new_f A1 (i :: R) R c t false (BEnt i) TEnt (KeyE t i)); auto.
    + now constructor.
    + unfold ProofHeap.kids_ok; cbn. apply (grow_type huge e A R); auto.
    + apply (absent_sim A R); auto.
    + intros z. cbn [pointers_of]. rewrite !count_cons, count_nil. lia.
    + eapply empty_in; eauto.
    + intros a A' I' L G. eexists. split; [exact L|]. auto.
  - intros k v E D. apply ident_ent in D as [D T]. apply (okf_weak A R 2 1); [lia|].
    apply found_f; auto; [exists v; auto|]. intros A' G I'. apply (grow_ent huge e A R); auto. exists v. auto.
  - now apply none_f.
Qed.

Lemma entity_of_string_f_ok A R c t u : Inv A R [] -> type_is_entity t = true ->
  okf A R 7 c (entity_of_string_f huge fresh e full t u)
    (gets R c (fun a A' => exists i n m, iri_from_string u = Some (n, m) /\ ent_is (a_h A') a t i /\ iri_txt (a_h A') i n m)).
Proof.
  intros I TE. assert (EM : In (e_empty e) R) by (eapply empty_in; eauto). unfold entity_of_string_f. apply (okf_weak A R 7 (5 + 2)); [lia|].
  eapply okf_bind; [apply (iri_of_string_f_ok A R c u I)|]. intros [i|] c' A1 [-> H1] V1; [|now apply none_f].
  destruct H1 as (I1 & n & m & IF & IT). apply (okf_weak A1 R 2 (2 + (0 + 0))); [lia|].
  eapply okf_bind1; [apply (entity_get_f_ok A1 (i :: R) c t i I1 TE (iri_txt_type huge e _ _ _ _ _ _ I1 IT))|sub|].
  intros [a|] c' A2 [-> H2] V2.
  - destruct H2 as [I2 EI]. assert (G2 := hold_grow A1 (i :: R) _ I1 V2).
    assert (IT2 : iri_txt (a_h A2) i n m) by (apply (grow_iri huge e A1 (i :: R)); auto).
    eapply okf_bind1; [apply (release_f A2 (a :: R) (a :: i :: R) c i I2)|sub|].
    { intros x. rewrite !count_cons. lia. } { now right. }
    intros _ c' A3 (-> & I3) V3. apply some_f; auto. intros q. exists i, n, m. split; auto.
    assert (UA : use (a_h A2) (a :: R) a) by (apply use_in; now left). split.
    + apply (keeps_ent (a :: R) (a_h A2)); auto. now apply hold_keeps.
    + apply (keeps_iri (a :: R) (a_h A2)); auto; [now apply hold_keeps| |].
      * apply (use_edge _ _ a); auto. destruct EI as (v & E & _ & D). exists v. split; auto.
        rewrite kids_live by (apply (live_all _ _ _ _ _ _ I2 E)). rewrite D. now left.
      * intros v E. apply (live_all _ _ _ _ _ _ I2 E).
  - eapply okf_bind; [apply (release_f A2 R (i :: R) c i H2); auto|]. intros _ c' A3 (-> & I3) _. now apply none_f.
Qed.

(** * Anonymous individuals *)

Lemma anon_alloc_f_ok A R c id t : Inv A R [] -> txt (a_h A) id = Some t -> no_anon (a_h A) t ->
  okf A R 1 c (anon_alloc_f huge fresh full (Some id)) (gets R c (fun a A' => anon_is (a_h A') a t)).
Proof.
  intros I X AB. unfold anon_alloc_f. apply okf_attempt. intros [|]; [|now apply none_f].
  apply (okf_weak A R 1 (1 + 0)); [lia|].
  eapply okf_bind; [apply (retain_f A R c id I (txt_live _ _ _ X))|]. intros x c' A1 (-> & -> & I1 & S1) V1. assert (G1 := hold_grow A R _ I V1).
  assert (X1 : txt (a_h A1) id = Some t) by (apply (grow_txt huge e A R); auto).
  apply (table_new_f A1 (id :: R) R c OT_I_ANONYMOUS false (BAnon id) TAno (KeyA t)); auto.
  - constructor.
  - unfold ProofHeap.kids_ok; cbn. eapply type_of_str; eauto.
  - unfold ident. cbn. now rewrite X1.
  - apply (absent_sim A R); auto.
  - intros z. cbn [pointers_of]. rewrite !count_cons, count_nil. lia.
  - eapply empty_in; eauto.
  - intros a A' I' L G. exists (mkOb OT_I_ANONYMOUS false 1 (BAnon id)), id. split; auto. split; auto. apply (grow_txt huge e A1 (id :: R)); auto.
Qed.

Lemma found_anon_f A R c k v t : Inv A R [] -> lookup (a_h A) k = Some v -> ident (a_h A) v = Some (TAno, KeyA t) ->
  okf A R 1 c (lift (incr_ref huge k) ;; oret (Some k))%oact (gets R c (fun a A' => anon_is (a_h A') a t)).
Proof.
  intros I E D. apply ident_anon in D as (i & D & X).
  apply found_f; auto; [exists v; auto|]. intros A' G I'.
  destruct (G k v E) as (w & F & P & U); [apply (live_all _ _ _ _ _ _ I E)|].
  exists w, i. split; auto. split; [|apply (grow_txt huge e A R); auto].
  destruct U as (_ & _ & [Q|[(l & l' & Q & _)|(o & p & Q & _)]]); congruence.
Qed.

Lemma anon_of_id_f_ok A R c id t : Inv A R [] -> txt (a_h A) id = Some t ->
  okf A R 1 c (anon_of_id_f huge fresh full id) (gets R c (fun a A' => anon_is (a_h A') a t)).
Proof.
  intros I X. unfold anon_of_id_f. eapply okf_pure; [intros q; apply (txt_cs huge (at_n A q) id t X)|].
  eapply (okf_put A R 1 c TAno (KeyA t)); auto.
  - intros q. apply cmp_anon.
  - intros AB. apply anon_alloc_f_ok; auto.
  - intros k v E D. eapply found_anon_f; eauto.
  - now apply none_f.
Qed.

Lemma anon_generate_f_ok A R c ids : Inv A R [] -> Forall (fun t => t <> []) ids ->
  okf A R 2 c (anon_generate_f huge fresh e full ids) (gets R c (fun a A' => exists t, In t ids /\ anon_is (a_h A') a t)).
Proof.
  intros I F. assert (EM : In (e_empty e) R) by (eapply empty_in; eauto). induction F as [|t ids NE F IH]; cbn [anon_generate_f]; [now apply none_f|].
  apply okf_raw_new; [|now apply none_f].
  eapply (okf_put A R 2 _ TAno (KeyA t)); auto.
  - intros q. apply cmp_anon.
  - intros AB. assert (Z : raws t false c = c + 1) by (unfold raws; destruct t; [now elim NE|reflexivity]). rewrite <- Z.
    apply (okf_weak A R 2 (1 + (1 + (0 + 0)))); [lia|].
    eapply okf_bind; [apply (cowl_string_f_ok A R c t I)|]. intros [i|] c' A1 [-> H1] V1; [|now apply none_f].
    destruct H1 as (I1 & X1 & NA).
    eapply okf_bind1; [apply (anon_alloc_f_ok A1 (i :: R) c i t I1 X1); apply NA; exact AB|sub|].
    intros [a|] c' A2 [-> H2] V2.
    + destruct H2 as [I2 AI].
      eapply okf_bind1; [apply (release_f A2 (a :: R) (a :: i :: R) c i I2)|sub|].
      { intros x. rewrite !count_cons. lia. } { now right. }
      intros _ c' A3 (-> & I3) V3. apply some_f; auto. intros q. exists t. split; [now left|].
      apply (keeps_anon huge e A2 (a :: i :: R) (a :: R)); auto; [now apply hold_keeps|]. apply use_in. now left.
    + eapply okf_bind; [apply (release_f A2 R (i :: R) c i H2); auto|]. intros _ c' A3 (-> & I3) _. now apply none_f.
  - intros k v E D. apply okf_done. eapply okf_post; [exact IH|]. intros [a|] c' A' [-> H] _; split; auto.
    destruct H as (H & u & J & K). split; auto. exists u. split; auto. now right.
  - apply okf_done. now apply none_f.
Qed.

(** * Composite objects *)

Lemma one_alloc_f A R c n (m : act N) (P : N -> N -> ast -> Prop) (Q : N -> ast -> Prop) : Inv A R [] ->
  (forall q, ok (at_n A q) R c m (P q)) ->
  (forall q a A', P q a A' -> hold R (a_h A) (a_h A') \/ True -> same (a_h A) (a_h A') /\ Inv A' (a :: R) [] /\ Q a A' /\ forall r, Q a (at_n A' r)) ->
  okf A R c n (one_alloc full m) (gets R n Q).
Proof.
  intros I H G. unfold one_alloc. apply okf_attempt. intros [|]; [|now apply none_f].
  apply (okf_weak A R c (c + 0)); [lia|].
  eapply okf_bind; [eapply okf_lift; [exact H|]|].
  - intros q a A' P' _. destruct (G q a A' P' (or_intror Logic.I)) as (S & I' & Q1 & Q2). split; auto.
    instantiate (1 := fun a n' A' => n' = n /\ Inv A' (a :: R) [] /\ forall r, Q a (at_n A' r)). cbv beta. auto.
  - intros a n' A' (-> & I' & Q') _. apply some_f; auto.
Qed.

(** The new object. *)
Definition made_of (A : ast) (t : otype) (ks : list N) (a : N) (A' : ast) : Prop := built (a_h A) (a_h A') a t ks.

Lemma get_impl_f A R c t ks opt n : Inv A R [] -> arity t = Some n -> type_is_card t = false -> List.length ks = n ->
  Forall (live (a_h A)) ks -> opt_live (a_h A) opt ->
  okf A R (N.of_nat n + 1) c (one_alloc full (get_impl huge fresh t (map Some ks) opt)) (gets R c (made_of A t ks)).
Proof.
  intros I AR CD LN F O. eapply one_alloc_f; auto.
  - intros q. apply (get_impl_at huge fresh fresh_ok e (at_n A q) R t ks opt n (inv_at _ _ _ q I)); auto.
  - intros q a A' (I' & B) _. split; [apply B|]. split; [exact I'|]. split; [exact B|intros r; exact B].
Qed.
Lemma get_impl_annot_f A R c t ks annot n : Inv A R [] -> arity t = Some n -> type_is_card t = false -> List.length ks = n ->
  Forall (live (a_h A)) ks -> match annot with Some v => is_type (a_h A) v OT_VECTOR | None => True end ->
  okf A R (N.of_nat n + 1) c (one_alloc full (get_impl_annot huge fresh t (map Some ks) annot)) (gets R c (made_of A t ks)).
Proof.
  intros I AR CD LN F O. eapply one_alloc_f; auto.
  - intros q. apply (get_impl_annot_at huge fresh fresh_ok e (at_n A q) R t ks annot n (inv_at _ _ _ q I)); auto.
  - intros q a A' (I' & B) _. split; [apply B|]. split; [exact I'|]. split; [exact B|intros r; exact B].
Qed.

(** * Vectors *)

Definition vec_is (h : obs) (a : N) (l : list N) : Prop := exists v, lookup h a = Some v /\ o_t v = OT_VECTOR /\ o_d v = BVec l.
Lemma vec_one_f A R c l : Inv A R [] -> Forall (live (a_h A)) l ->
  okf A R (N.of_nat (List.length l)) c (one_alloc full (vector huge fresh (map Some l))) (gets R c (fun a A' => vec_is (a_h A') a l)).
Proof.
  intros I F. eapply one_alloc_f; auto.
  - intros q. apply (vector_at huge fresh fresh_ok e (at_n A q) R l (inv_at _ _ _ q I)); auto.
  - intros q a A' (I' & (w & Y & T) & G & S & L & v & E & D) _. split; auto. split; auto.
    assert (V : vec_is (a_h A') a l) by (exists v; split; auto; split; auto; congruence). split; [exact V|intros r; exact V].
Qed.
Lemma vector_f_ok A R c l : Inv A R [] -> Forall (live (a_h A)) l ->
  okf A R (N.of_nat (List.length l)) c (vector_f huge fresh full l) (gets R c (fun a A' => vec_is (a_h A') a l)).
Proof.
  intros I F. unfold vector_f. apply okf_attempt. intros [|]; [|now apply none_f]. now apply vec_one_f.
Qed.

(** The array of arguments: there is one, or none if there is nothing to put in it. *)
Definition arr (first : bool) (l : list N) (n : N) : N := match l with [] => if first then n else n + 1 | _ => n + 1 end.
Lemma push_all_f A R n l : Inv A R [] -> forall first : bool,
  okf A R 0 (if first then n else n + 1) (push_all full first l)
    (fun b n' A' => Inv A' R [] /\ n' = if b then arr first l n else n).
Proof.
  intros I. induction l as [|x l IH]; intros first; cbn [push_all].
  - apply okf_ret; auto. intros q. split; [now apply inv_at|]. reflexivity.
  - assert (Z : okf A R 0 (n + 1) (push_all full false l) (fun b n' A' => Inv A' R [] /\ n' = if b then arr first (x :: l) n else n)).
    { eapply okf_post; [apply (IH false)|]. intros b n' A' (H & ->) _. split; auto. destruct b; auto. unfold arr. destruct l; reflexivity. }
    destruct first.
    + apply okf_raw_new; [exact Z|]. apply okf_oret. apply okf_ret; auto. intros q. split; [now apply inv_at|reflexivity].
    + apply okf_attempt. intros [|]; [exact Z|]. apply okf_done. apply okf_ret; auto. intros q. split; [now apply inv_at|reflexivity].
Qed.

(** A leftover array only when there is no vector. *)
Lemma vector_with_args_f_ok A R n l : Inv A R [] -> Forall (live (a_h A)) l ->
  okf A R (N.of_nat (List.length l)) n (vector_with_args_f huge fresh full l)
    (fun r n' A' => match r with
       | Some a => n' = n /\ Inv A' (a :: R) [] /\ vec_is (a_h A') a l
       | None => (n' = n \/ n' = n + 1) /\ Inv A' R [] end).
Proof.
  intros I F. unfold vector_with_args_f. apply (okf_weak A R _ (0 + (N.of_nat (List.length l)))); [lia|].
  eapply okf_bind; [apply (push_all_f A R n l I true)|]. intros [|] n1 A1 (I1 & ->) V1.
  - assert (G1 := hold_grow A R _ I V1).
    assert (F1 : Forall (live (a_h A1)) l) by (eapply Forall_impl; [|exact F]; intros x X; apply (grow_live huge e A R); auto).
    apply (okf_weak A1 R _ (N.of_nat (List.length l) + 0)); [lia|].
    eapply okf_bind; [apply (vector_f_ok A1 R _ l I1 F1)|]. intros [a|] n2 A2 [-> H2] V2.
    + destruct H2 as [I2 V]. assert (Z : okf A2 R 0 n (oret (Some a)) (fun r n' A' => match r with
       | Some a => n' = n /\ Inv A' (a :: R) [] /\ vec_is (a_h A') a l
       | None => (n' = n \/ n' = n + 1) /\ Inv A' R [] end)).
      { apply (okf_frame A2 R (a :: R)); [sub|]. apply okf_ret; auto. intros q. split; auto. split; [now apply inv_at|auto]. }
      destruct l as [|x l]; [exact Z|]. apply okf_done. exact Z.
    + assert (Z : okf A2 R 0 (arr true l n) (oret None) (fun r n' A' => match r with
       | Some a => n' = n /\ Inv A' (a :: R) [] /\ vec_is (a_h A') a l
       | None => (n' = n \/ n' = n + 1) /\ Inv A' R [] end)).
      { apply okf_ret; auto. intros q. split; [|now apply inv_at]. unfold arr. destruct l; auto. }
      destruct l as [|x l]; exact Z.
  - apply (okf_weak A1 R _ 0); [lia|]. apply okf_ret; auto. intros q. split; auto. now apply inv_at.
Qed.

Definition nary_is (h : obs) (a : N) (t : otype) (l : list N) : Prop :=
  exists v u w, lookup h a = Some v /\ o_t v = t /\ (exists o us, o_d v = BComp (map Obj (u :: o) ++ map UInt us)) /\ vec_is h u w /\ w = l.
Lemma built_comp h h' a t ks : built h h' a t ks -> exists v o us, lookup h' a = Some v /\ o_t v = t /\ o_d v = BComp (map Obj (ks ++ o) ++ map UInt us).
Proof. intros (_ & _ & H). exact H. Qed.

Lemma hold_vec R h h' a l : hold R h h' -> use h R a -> vec_is h a l -> vec_is h' a l.
Proof.
  intros H U (v & E & T & D). destruct (H a U) as (v' & w & E' & F & P & UP & D'). rewrite E in E'. inversion E'; subst v'.
  exists w. split; auto. split; [destruct UP as (UP & _); congruence|congruence].
Qed.
Lemma nary_f_ok A R n t l : Inv A R [] -> arity t = Some 1%nat -> type_is_card t = false -> Forall (live (a_h A)) l ->
  okf A R (N.of_nat (List.length l) + 2) n (nary_get_impl_f huge fresh full t l)
    (fun r n' A' => match r with
       | Some a => n' = n /\ Inv A' (a :: R) [] /\ nary_is (a_h A') a t l
       | None => (n' = n \/ n' = n + 1) /\ Inv A' R [] end).
Proof.
  intros I AR CD F. assert (EM : In (e_empty e) R) by (eapply empty_in; eauto). unfold nary_get_impl_f.
  eapply okf_bind; [apply (vector_with_args_f_ok A R n l I F)|]. intros [v|] n1 A1 H1 V1.
  - destruct H1 as (-> & I1 & VI). apply (okf_weak A1 R 2 ((N.of_nat 1 + 1) + (0 + 0))); [lia|].
    assert (LV : live (a_h A1) v) by (destruct VI as (w & E & _); exists w; auto).
    eapply okf_bind1; [apply (get_impl_f A1 (v :: R) n t [v] None 1 I1 AR CD eq_refl (Forall_cons _ LV (Forall_nil _)) Logic.I)|sub|].
    intros [o|] n2 A2 [-> H2] V2.
    + destruct H2 as [I2 B].
      assert (VI2 : vec_is (a_h A2) v l) by (apply (hold_vec (v :: R) (a_h A1)); auto; apply use_in; now left).
      eapply okf_bind1; [apply (release_f A2 (o :: R) (o :: v :: R) n v I2)|sub|].
      { intros x. rewrite !count_cons. lia. } { now right. }
      intros _ n3 A3 (-> & I3) V3. apply (okf_frame A3 R (o :: R)); [sub|]. apply okf_ret; auto. intros q. split; auto. split; [now apply inv_at|].
      apply built_comp in B as (u & oo & us & E & T & D).
      destruct (V3 o) as (u' & w & E' & F' & P & UP & D'); [apply use_in; now left|]. rewrite E in E'. inversion E'; subst u'.
      exists w, v, l. split; auto. split; [destruct UP as (UP & _); congruence|]. split; [exists oo, us; rewrite D', D; reflexivity|]. split; auto.
      apply (hold_vec (o :: R) (a_h A2)); auto. apply (use_edge _ _ o); [apply use_in; now left|]. exists u. split; auto.
      rewrite kids_live by (apply (live_all _ _ _ _ _ _ I2 E)). rewrite D. cbn. now left.
    + eapply okf_bind; [apply (release_f A2 R (v :: R) n v H2); auto|]. intros _ n3 A3 (-> & I3) _.
      apply okf_ret; auto. intros q. split; auto. now apply inv_at.
  - destruct H1 as (H1 & I1). apply (okf_weak A1 R 2 0); [lia|]. apply okf_ret; auto. intros q. split; auto. now apply inv_at.
Qed.

(** * The remaining constructors *)

Definition comp_is (h : obs) (a : N) (t : otype) (ks : list N) : Prop :=
  exists v o us, lookup h a = Some v /\ o_t v = t /\ o_d v = BComp (map Obj (ks ++ o) ++ map UInt us).
Lemma hold_comp R h h' a t ks : hold R h h' -> use h R a -> comp_is h a t ks -> comp_is h' a t ks.
Proof.
  intros H U (v & o & us & E & T & D). destruct (H a U) as (v' & w & E' & F & P & UP & D'). rewrite E in E'. inversion E'; subst v'.
  exists w, o, us. split; auto. split; [destruct UP as (UP & _); congruence|congruence].
Qed.

Lemma has_key_f_ok A R n c o d annot : Inv A R [] -> live (a_h A) c -> live (a_h A) o -> live (a_h A) d ->
  match annot with Some v => is_type (a_h A) v OT_VECTOR | None => True end ->
  okf A R 6 n (has_key_f huge fresh full (Some c) (Some o) (Some d) annot) (gets R n (fun a A' => comp_is (a_h A') a OT_A_HAS_KEY [c; o; d])).
Proof.
  intros I LC LO LD AN. assert (EM : In (e_empty e) R) by (eapply empty_in; eauto). unfold has_key_f.
  apply okf_assoc. apply (okf_weak A R 6 (1 + (1 + ((N.of_nat 3 + 1) + (0 + (0 + 0)))))); [lia|].
  eapply okf_bind; [apply (retain_f A R n o I LO)|]. intros x n' A1 (-> & -> & I1 & S1) V1. assert (G1 := hold_grow A R _ I V1).
  apply okf_oret, okf_assoc.
  assert (LD1 : live (a_h A1) d) by (apply (grow_live huge e A R); auto).
  eapply okf_bind1; [apply (retain_f A1 (o :: R) n d I1 LD1)|sub|]. intros x n' A2 (-> & -> & I2 & S2) V2. assert (G2 := hold_grow A1 (o :: R) _ I1 V2).
  apply okf_oret.
  assert (UP : forall x, live (a_h A) x -> live (a_h A2) x) by (intros x LX; apply (grow_live huge e A1 (o :: R)); auto; apply (grow_live huge e A R); auto).
  assert (AN2 : match annot with Some v => is_type (a_h A2) v OT_VECTOR | None => True end).
  { destruct annot; auto. apply (grow_type huge e A1 (o :: R)); auto. apply (grow_type huge e A R); auto. }
  change [Some c; Some o; Some d] with (map Some [c; o; d]).
  eapply okf_bind1; [apply (get_impl_annot_f A2 (d :: o :: R) n OT_A_HAS_KEY [c; o; d] annot 3 I2 eq_refl eq_refl eq_refl); auto|sub|].
  intros [a|] n3 A3 [-> H3] V3.
  - destruct H3 as [I3 B]. apply built_comp in B. fold (comp_is (a_h A3) a OT_A_HAS_KEY [c; o; d]) in B.
    eapply okf_bind1; [apply (release_f A3 (a :: d :: R) (a :: d :: o :: R) n o I3)|sub|].
    { intros x. rewrite !count_cons. lia. } { right; now right. }
    intros _ n4 A4 (-> & I4) V4.
    assert (B4 : comp_is (a_h A4) a OT_A_HAS_KEY [c; o; d]) by (apply (hold_comp (a :: d :: R) (a_h A3)); auto; apply use_in; now left).
    eapply okf_bind1; [apply (release_f A4 (a :: R) (a :: d :: R) n d I4)|sub|].
    { intros x. rewrite !count_cons. lia. } { now right. }
    intros _ n5 A5 (-> & I5) V5. apply some_f; auto. intros q. apply (hold_comp (a :: R) (a_h A4)); auto. apply use_in. now left.
  - eapply okf_bind1; [apply (release_f A3 (d :: R) (d :: o :: R) n o H3)|sub|].
    { intros x. rewrite !count_cons. lia. } { now right. }
    intros _ n4 A4 (-> & I4) V4.
    eapply okf_bind1; [apply (release_f A4 R (d :: R) n d I4)|sub|]; auto.
    intros _ n5 A5 (-> & I5) V5. now apply none_f.
Qed.

Lemma chain_f_ok A R n sb super annot : Inv A R [] -> is_type (a_h A) sb OT_VECTOR -> live (a_h A) super ->
  match annot with Some v => is_type (a_h A) v OT_VECTOR | None => True end ->
  okf A R 3 n (chain_axiom_f huge fresh full (Some sb) (Some super) annot) (gets R n (fun a A' => comp_is (a_h A') a OT_A_SUB_OBJ_PROP [sb; super])).
Proof.
  intros I TS LS AN. unfold chain_axiom_f. apply (okf_weak A R 3 (0 + (N.of_nat 2 + 1))); [lia|].
  eapply okf_bind; [eapply okf_lift; [intros q; apply (set_ordered_at huge e (at_n A q) R sb (inv_at _ _ _ q I) TS)|]|].
  { intros q x A' (I' & S) _. split; auto. instantiate (1 := fun _ n' A' => n' = n /\ Inv A' R []). cbv beta. auto. }
  intros _ n1 A1 (-> & I1) V1. assert (G1 := hold_grow A R _ I V1).
  change [Some sb; Some super] with (map Some [sb; super]).
  eapply okf_post; [apply (get_impl_annot_f A1 R n OT_A_SUB_OBJ_PROP [sb; super] annot 2 I1); auto|].
  - repeat constructor; apply (grow_live huge e A R); auto. eapply type_live; eauto.
  - destruct annot; auto. apply (grow_type huge e A R); auto.
  - intros [a|] n' A' [-> H] _; split; auto. destruct H as [H B]. split; auto. now apply built_comp in B.
Qed.

Lemma construct_f_ok A R n t fs opt val : Inv A R [] -> good (a_h A) t fs opt -> (t = OT_A_HAS_KEY -> Forall (fun f => f <> None) fs) ->
  okf A R (N.of_nat (List.length fs) + 4) n (construct_f huge fresh e full t fs opt val)
    (gets R n (fun a A' => exists ks, fs = map Some ks /\ comp_is (a_h A') a t ks)).
Proof.
  intros I G NN. unfold construct_f. destruct (ctor_of t) as [ct|] eqn:CT; [|unfold good in G; rewrite CT in G; contradiction].
  assert (HK : ct = CHasKey \/ ctor_of t <> Some CHasKey) by (destruct ct; auto; right; rewrite CT; discriminate).
  destruct HK as [->|HK].
  - assert (t = OT_A_HAS_KEY) as -> by (revert CT; destruct t; cbn; congruence).
    unfold good in G. rewrite CT in G. destruct G as (c & o & d & -> & LC & LO & LD & AN).
    specialize (NN eq_refl). inversion NN as [|? ? _ NN1]; subst. inversion NN1 as [|? ? NO NN2]; subst. inversion NN2 as [|? ? ND _]; subst.
    destruct o as [o|]; [|now elim NO]. destruct d as [d|]; [|now elim ND].
    apply (okf_weak A R _ 6); [cbn; lia|]. eapply okf_post; [apply has_key_f_ok; auto|].
    intros [a|] n' A' [-> H] _; split; auto. destruct H. split; auto. exists [c; o; d]. auto.
  - replace (match ct with CHasKey => _ | _ => _ end) with (one_alloc full (construct huge fresh e t fs opt val))
      by (destruct ct; auto; now elim HK).
    eapply one_alloc_f; auto.
    + intros q. apply (construct_at huge fresh fresh_ok e (at_n A q) R t fs opt val (inv_at _ _ _ q I)); auto.
    + intros q a A' (I' & ks & -> & B) _. split; [apply B|]. split; auto. apply built_comp in B.
      split; [exists ks; auto|]. intros r. exists ks. auto.
Qed.

(** * Literals *)

Definition lit_is (h : obs) (a v d : N) : Prop := exists w, lookup h a = Some w /\ o_t w = OT_LITERAL /\ o_d w = BComp [Obj v; Obj d].
Lemma hold_lit R h h' a v d : hold R h h' -> use h R a -> lit_is h a v d -> lit_is h' a v d.
Proof.
  intros H U (x & E & T & D). destruct (H a U) as (v' & w & E' & F & P & UP & D'). rewrite E in E'. inversion E'; subst v'.
  exists w. split; auto. split; [destruct UP as (UP & _); congruence|congruence].
Qed.
Lemma literal_alloc_f_ok A R n v d : Inv A R [] -> is_type (a_h A) v OT_STRING -> live (a_h A) d ->
  okf A R 2 n (literal_alloc_f huge fresh full (Some v) (Some d) false) (gets R n (fun a A' => lit_is (a_h A') a v d)).
Proof.
  intros I TV LD. unfold literal_alloc_f.
  assert (Z : okf A R 2 n (one_alloc full (get_impl huge fresh OT_LITERAL [Some v; Some d] None)) (gets R n (fun a A' => lit_is (a_h A') a v d))).
  { eapply one_alloc_f; auto.
    - intros q. assert (EQ : forall s, get_impl huge fresh OT_LITERAL [Some v; Some d] None s = literal_alloc huge fresh (Some v) (Some d) false s).
      { intros s. unfold literal_alloc, bind. destruct (get_impl huge fresh OT_LITERAL [Some v; Some d] None s); reflexivity. }
      intros k K. rewrite EQ. revert k K. apply (literal_alloc_at huge fresh fresh_ok e (at_n A q) R v d false (inv_at _ _ _ q I)); auto.
    - intros q a A' (I' & S & L & E) _. split; auto. split; auto.
      assert (V : lit_is (a_h A') a v d) by (eexists; split; [exact E|auto]). split; [exact V|intros r; exact V]. }
  apply (okf_weak A R 2 (2 + 0)); [lia|]. eapply okf_bind; [exact Z|].
  intros [a|] n' A' [-> H] _; apply okf_oret; [apply some_f; [apply H|intros q; apply H]|now apply none_f].
Qed.

Lemma lit_copied_f_ok A R n t d : Inv A R [] -> live (a_h A) d ->
  okf A R 3 n (lit_copied_f huge fresh e full t (Some d)) (gets R n (fun a A' => exists v, lit_is (a_h A') a v d /\ txt (a_h A') v = Some t)).
Proof.
  intros I LD. assert (EM : In (e_empty e) R) by (eapply empty_in; eauto). unfold lit_copied_f.
  apply (okf_weak A R 3 (1 + (2 + (0 + 0)))); [lia|].
  eapply okf_bind; [apply (string_opt_f_ok A R n t true false I)|]. intros [v|] n' A1 [-> H1] V1; [|now apply none_f].
  destruct H1 as (I1 & X1 & _). assert (G1 := hold_grow A R _ I V1).
  eapply okf_bind1; [apply (literal_alloc_f_ok A1 (v :: R) n v d I1); [eapply type_of_str; eauto|apply (grow_live huge e A R); auto]|sub|].
  intros [a|] n' A2 [-> H2] V2.
  - destruct H2 as [I2 LI].
    assert (X2 : txt (a_h A2) v = Some t) by (apply (keeps_txt (v :: R) (a_h A1)); auto; [now apply hold_keeps|apply use_in; now left]).
    eapply okf_bind1; [apply (release_f A2 (a :: R) (a :: v :: R) n v I2)|sub|].
    { intros x. rewrite !count_cons. lia. } { now right. }
    intros _ n3 A3 (-> & I3) V3. apply some_f; auto. intros q. exists v. split.
    + apply (hold_lit (a :: R) (a_h A2)); auto. apply use_in. now left.
    + apply (keeps_txt (a :: R) (a_h A2)); auto; [now apply hold_keeps|]. apply (use_edge _ _ a); [apply use_in; now left|].
      destruct LI as (w & E & _ & D). exists w. split; auto.
      rewrite kids_live by (apply (live_all _ _ _ _ _ _ I2 E)). rewrite D. cbn. now left.
  - eapply okf_bind; [apply (release_f A2 R (v :: R) n v H2); auto|]. intros _ n3 A3 (-> & I3) _. now apply none_f.
Qed.

Lemma ontology_f A R n : Inv A R [] -> okf A R 0 n (one_alloc full (ontology huge fresh)) (gets R n (fun a A' => is_type (a_h A') a OT_ONTOLOGY)).
Proof.
  intros I. eapply one_alloc_f; auto.
  - intros q. unfold ontology. apply (alloc_at huge fresh fresh_ok e (at_n A q) R R); auto.
    + now apply inv_at.
    + constructor.
    + unfold ProofHeap.kids_ok; cbn. repeat (split; try discriminate; auto). all: try constructor; try (intros; contradiction).
    + eapply empty_in; eauto.
    + intros o X; inversion X; subst; reflexivity.
  - intros q a A' (I' & (M1 & M2 & M3) & H') _. split; [rewrite H'; now apply same_new|]. split; auto.
    assert (V : is_type (a_h A') a OT_ONTOLOGY) by (eexists; split; [exact M2|reflexivity]). split; [exact V|intros r; exact V].
Qed.

End Oom.
