(** The parser looks one token ahead at most. *)

From Coq Require Import String NArith ZArith List Bool Lia.
From Coq Require Import ZifyBool ZifyNat ZifyN.
From Verif Require Import Bytes ModelTypes ModelObject ModelText SpecObject SpecText ModelChange ModelPrtDecoder ModelFuncLex ModelFuncParser
  SpecFunc SpecFuncDoc SpecFuncRead ProofFuncSafe ProofFuncRead.
Import ListNotations.
Local Open Scope N_scope.

(** Tokens that are not single unexpected bytes. *)
Definition proper (t : token) : Prop := match t with TChar _ => False | _ => True end.

(** What [p] takes from the input, [q] takes from any input that starts with the same tokens and goes on with the
    same token, if it has at most [k] tokens. *)
Definition local {A} (some : bool) (k : nat) (p q : P A) : Prop :=
  forall ts a r, p ts = POk a r -> exists u, ts = u ++ r /\ Forall proper u /\ (some = true -> u <> []) /\
    ((List.length u <= k)%nat -> forall t x y, r = t :: x -> q (u ++ t :: y) = POk a (t :: y)).

Lemma local_weaken {A} b b' k k' (p q : P A) : (k' <= k)%nat -> (b' = true -> b = true) -> local b k p q -> local b' k' p q.
Proof. intros Hk Hb H ts a r E. destruct (H ts a r E) as (u & E1 & F & N0 & G). exists u. split; auto. split; auto. split; auto. intros Hl. apply G. lia. Qed.
Lemma local_ret {A} k (a : A) : local false k (pret a) (pret a).
Proof. intros ts a' r E. injection E as <- <-. exists []. split; [reflexivity|]. split; [constructor|]. split; [discriminate|]. intros _ t x y ->. reflexivity. Qed.
Lemma local_fail {A} b k c (q : P A) : local b k (fun _ => PFail c) q.
Proof. intros ts a r E. discriminate. Qed.
Lemma local_bind {A B} b b' k (p q : P A) (f g : A -> P B) : local b k p q -> (forall a, local b' k (f a) (g a)) -> local (b || b') k (pbind p f) (pbind q g).
Proof.
  intros Hp Hf ts a r E. unfold pbind in E. destruct (p ts) as [c r1| | |] eqn:E1; try discriminate.
  destruct (Hp ts c r1 E1) as (u & -> & F & N0 & G). destruct (Hf c r1 a r E) as (v & -> & F' & N1 & G').
  exists (u ++ v). split; [now rewrite app_assoc|]. split; [now apply Forall_app|]. split.
  { intros Hb Hn. apply app_eq_nil in Hn as [Hu Hv]. apply orb_true_iff in Hb as [Hb|Hb]; [now apply N0|now apply N1]. }
  intros Hl t x y ->. rewrite app_length in Hl. unfold pbind. rewrite <- app_assoc. destruct v as [|t' v].
  - cbn [app] in *. rewrite (G ltac:(lia) t x y eq_refl). apply (G' ltac:(cbn; lia) t x y eq_refl).
  - cbn [app] in *. rewrite (G ltac:(cbn in Hl; lia) t' (v ++ t :: x) (v ++ t :: y) eq_refl). apply (G' ltac:(cbn in *; lia) t x y eq_refl).
Qed.
Lemma local_map {A B} b k (p q : P A) (f : A -> B) : local b k p q -> local b k (get a <- p;; pret (f a)) (get a <- q;; pret (f a)).
Proof. intros H. rewrite <- (orb_false_r b). apply local_bind; [exact H|]. intros a. apply local_ret. Qed.

Lemma local_lparen k : local true k tok_lparen tok_lparen.
Proof. intros [|[] ts] a r E; try discriminate. injection E as <- <-. exists [TLParen]. split; [reflexivity|]. split; [repeat constructor|]. split; [discriminate|]. intros _ t x y ->. reflexivity. Qed.
Lemma local_rparen k : local true k tok_rparen tok_rparen.
Proof. intros [|[] ts] a r E; try discriminate. injection E as <- <-. exists [TRParen]. split; [reflexivity|]. split; [repeat constructor|]. split; [discriminate|]. intros _ t x y ->. reflexivity. Qed.

Section Map.
  Variable m : pmap.
  Lemma local_iri k : local true k (parse_iri m) (parse_iri m).
  Proof.
    intros ts a r E. destruct ts as [|t ts]; [discriminate|].
    assert (Hr : r = ts /\ proper t /\ forall y, parse_iri m (t :: y) = POk a y).
    { destruct t; try discriminate; cbn [parse_iri] in *.
      - destruct (pmap_ns m _); [|discriminate]. injection E as <- <-. repeat split.
      - destruct (iri_from_string _); [|discriminate]. injection E as <- <-. repeat split. }
    destruct Hr as (-> & Ht & Hr). exists [t]. split; [reflexivity|]. split; [constructor; auto|]. split; [discriminate|]. intros _ t' x y ->. apply Hr.
  Qed.
  Lemma local_anon k other : local true k other other -> local true k (parse_anon other) (parse_anon other).
  Proof.
    intros H ts a r E. destruct ts as [|t ts]; [cbn in E; destruct (H [] a r E) as (u & E1 & _ & N0 & _)|].
    - destruct u; [exfalso; now apply N0|discriminate].
    - assert (D : (exists s, t = TBlank s) \/ forall y, parse_anon other (t :: y) = other (t :: y)) by (destruct t; eauto).
      destruct D as [[s ->]|D].
      + cbn in E. injection E as <- <-. exists [TBlank s]. split; [reflexivity|]. split; [repeat constructor|]. split; [discriminate|]. reflexivity.
      + rewrite D in E. destruct (H _ a r E) as (u & E1 & F & N0 & G). exists u. split; auto. split; auto. split; auto.
        intros Hl t' x y Er. specialize (G Hl t' x y Er). destruct u as [|t0 u]; [exfalso; now apply N0|]. injection E1 as -> E1. cbn [app] in *. rewrite D. exact G.
  Qed.
  Lemma value_ret l ts o r : literal_value l ts = POk o r -> r = ts /\ forall y, literal_value l y = POk o y.
  Proof. destruct l; cbn; try discriminate. intros [= <- <-]. auto. Qed.
  Lemma local_literal k : local true k (parse_literal m) (parse_literal m).
  Proof.
    intros ts a r E. destruct ts as [|t ts]; [discriminate|]. destruct t as [|v| | | | | | | | | | |]; try discriminate.
    assert (Hplain : forall r', (match r' with TCaret :: _ | TLang _ :: _ => False | _ => True end) ->
      parse_literal m (TQuoted v :: r') = literal_value (cowl_literal (Some v) DLNull) r').
    { intros [|[] r'] Hr'; try reflexivity; contradiction. }
    destruct (match ts with TCaret :: _ => 1 | TLang _ :: _ => 2 | _ => 0 end) eqn:Ek.
    - assert (Hts : match ts with TCaret :: _ | TLang _ :: _ => False | _ => True end) by (destruct ts as [|[] ?]; try discriminate; exact I).
      rewrite (Hplain ts Hts) in E. apply value_ret in E as [-> E]. exists [TQuoted v]. split; [reflexivity|]. split; [repeat constructor|]. split; [discriminate|].
      intros _ t x y ->. cbn [app]. rewrite Hplain; [apply E|]. destruct t; auto.
    - destruct ts as [|[| | | | |l| | | | | | |] ts]; try discriminate.
      + cbn [parse_literal] in E. apply value_ret in E as [-> E]. exists [TQuoted v; TLang l]. split; [reflexivity|]. split; [repeat constructor|]. split; [discriminate|].
        intros _ t x y ->. apply E.
      + cbn [parse_literal] in E.
        assert (L : local true k (get i <- parse_iri m;; literal_value (cowl_literal (Some v) (DLDatatype (fst i) (snd i))))
           (get i <- parse_iri m;; literal_value (cowl_literal (Some v) (DLDatatype (fst i) (snd i))))).
        { apply (local_bind true false); [apply local_iri|]. intros i ts' a' r' E'. apply value_ret in E' as [-> E']. exists []. split; [reflexivity|]. split; [constructor|]. split; [discriminate|]. intros _ t x y ->. apply E'. }
        destruct (L ts a r E) as (u & -> & F & N0 & G). exists (TQuoted v :: TCaret :: u). split; [reflexivity|]. split; [repeat constructor; auto|]. split; [discriminate|].
        intros Hl t x y ->. cbn [app parse_literal]. apply (G ltac:(cbn in Hl; lia) t x y eq_refl).
  Qed.
  Lemma local_flat k n : local true k (parse_flat m n) (parse_flat m n).
  Proof.
    destruct n; cbn [parse_flat]; try apply local_fail.
    - apply local_map, local_iri.
    - apply local_map, local_iri.
    - apply local_anon, local_map, local_iri.
    - apply local_literal.
    - apply local_map, local_iri.
    - apply local_map, local_iri.
    - apply (local_bind true true); [apply local_iri|]. intros i. apply local_map, local_literal.
    - apply local_map, local_iri.
    - intros ts a r E.
      assert (La : local true k (parse_anon (get i <- parse_iri m;; pret (OIri (fst i) (snd i)))) (parse_anon (get i <- parse_iri m;; pret (OIri (fst i) (snd i))))) by apply local_anon, local_map, local_iri.
      destruct ts as [|t ts]; [discriminate|]. destruct t as [|v| | | | | | | | | | |].
      2: { destruct (local_literal k _ a r E) as (u & E1 & F & N0 & G). exists u. split; auto. split; auto. split; auto.
           intros Hl t x y Er. specialize (G Hl t x y Er). destruct u as [|t0 u]; [exfalso; now apply N0|]. injection E1 as <- E1. exact G. }
      all: destruct (La _ a r E) as (u & E1 & F & N0 & G); exists u; (split; [exact E1|]); (split; [exact F|]); (split; [exact N0|]);
        intros Hl t' x y Er; specialize (G Hl t' x y Er); (destruct u as [|t0 u]; [exfalso; now apply N0|]); injection E1 as <- E1; exact G.
    - apply local_anon, local_map, local_iri.
  Qed.

  Section Rec.
    Variables self self' : nt -> P obj.
    Variable k : nat.
    Hypothesis self_ok : forall n, local true k (self n) (self' n).

    Lemma local_items n : forall f ts l r, items f (self n) ts = POk l r -> exists u, ts = u ++ r /\ Forall proper u /\
      ((List.length u <= k)%nat -> forall t x y f', r = t :: x -> (List.length u <= f')%nat -> items f' (self' n) (u ++ t :: y) = POk l (t :: y)).
    Proof.
      intros f. induction f as [|f IH]; intros ts l r E.
      - destruct ts as [|[] ts]; try discriminate. cbn in E. injection E as <- <-. exists []. split; [reflexivity|]. split; [constructor|].
        intros _ t x y f' [= <- <-] _. destruct f'; reflexivity.
      - assert (D : ts = TRParen :: tl ts \/ (items (S f) (self n) ts = (get o <- self n;; get l <- items f (self n);; pret (o :: l)) ts /\ forall x, ts <> TRParen :: x)).
        { destruct ts as [|[] ts]; try (right; split; [reflexivity|discriminate]). now left. }
        destruct D as [D|[D Hd]].
        + rewrite D in E. cbn in E. injection E as <- <-. exists []. split; [exact D|]. split; [constructor|].
          intros _ t x y f' [= <- <-] _. destruct f'; reflexivity.
        + rewrite D in E. unfold pbind, pret in E. destruct (self n ts) as [o r1| | |] eqn:E1; try discriminate.
          destruct (items f (self n) r1) as [l1 r2| | |] eqn:E2; try discriminate. injection E as <- <-.
          destruct (self_ok n ts o r1 E1) as (u & -> & F & N0 & G). destruct (IH r1 l1 r2 E2) as (v & -> & F' & G').
          exists (u ++ v). split; [now rewrite app_assoc|]. split; [now apply Forall_app|].
          intros Hl t x y f' -> Hf. rewrite app_length in Hl, Hf. destruct u as [|t0 u]; [exfalso; now apply N0|].
          destruct f' as [|f']; [cbn in Hf; lia|].
          assert (Hne : t0 <> TRParen) by (intros ->; eapply Hd; reflexivity).
          assert (D' : forall z, items (S f') (self' n) (t0 :: z) = (get o <- self' n;; get l <- items f' (self' n);; pret (o :: l)) (t0 :: z))
            by (intros z; destruct t0; try reflexivity; contradiction).
          rewrite <- app_assoc. cbn [app]. rewrite D'. unfold pbind, pret. destruct v as [|t' v].
          * cbn [app] in *. rewrite (G ltac:(cbn in *; lia) t x y eq_refl : self' n (t0 :: u ++ t :: y) = _).
            rewrite (G' ltac:(cbn; lia) t x y f' eq_refl ltac:(cbn; lia) : items f' (self' n) (t :: y) = _). reflexivity.
          * cbn [app] in *. rewrite (G ltac:(cbn in *; lia) t' (v ++ t :: x) (v ++ t :: y) eq_refl : self' n (t0 :: u ++ t' :: v ++ t :: y) = _).
            rewrite (G' ltac:(cbn in *; lia) t x y f' eq_refl ltac:(cbn in *; lia) : items f' (self' n) (t' :: v ++ t :: y) = _). reflexivity.
    Qed.
    Lemma local_annots : forall f ts l r, annots f (self N_annotation) ts = POk l r -> exists u, ts = u ++ r /\ Forall proper u /\
      ((List.length u <= k)%nat -> forall t x y f', r = t :: x -> (List.length u <= f')%nat -> annots f' (self' N_annotation) (u ++ t :: y) = POk l (t :: y)).
    Proof.
      assert (Hnil : forall (ts : list token), (forall x, ts <> TKw ANNOTATION :: x) -> exists u, ts = u ++ ts /\ Forall proper u /\
        ((List.length u <= k)%nat -> forall t x y f', ts = t :: x -> (List.length u <= f')%nat -> annots f' (self' N_annotation) (u ++ t :: y) = POk [] (t :: y))).
      { intros ts Hn. exists []. split; [reflexivity|]. split; [constructor|]. intros _ t x y f' -> _. cbn [app].
        destruct t as [| | | | | | | | | | |kw|]; try (destruct f'; reflexivity). destruct kw; try (destruct f'; reflexivity). exfalso. eapply Hn. reflexivity. }
      intros f. induction f as [|f IH]; intros ts l r E.
      - assert (D : (forall x, ts <> TKw ANNOTATION :: x) /\ l = [] /\ r = ts).
        { destruct ts as [|t ts]; [cbn in E; injection E as <- <-; repeat split; discriminate|].
          destruct t as [| | | | | | | | | | |kw|]; try (cbn in E; injection E as <- <-; repeat split; discriminate).
          destruct kw; try discriminate; cbn in E; injection E as <- <-; repeat split; discriminate. }
        destruct D as (D & -> & ->). apply Hnil. exact D.
      - assert (D : (exists x, ts = TKw ANNOTATION :: x) \/ (forall x, ts <> TKw ANNOTATION :: x) /\ annots (S f) (self N_annotation) ts = POk [] ts).
        { destruct ts as [|t ts]; [right; split; [discriminate|reflexivity]|].
          destruct t as [| | | | | | | | | | |kw|]; try (right; split; [discriminate|reflexivity]).
          destruct kw; try (right; split; [discriminate|reflexivity]). left. eauto. }
        destruct D as [[x0 D]|[D D']]; [|rewrite D' in E; injection E as <- <-; apply Hnil; exact D].
        rewrite D in E. cbn [annots] in E. rewrite <- D in E. unfold pbind, pret in E.
        destruct (self N_annotation ts) as [o r1| | |] eqn:E1; try discriminate.
        destruct (annots f (self N_annotation) r1) as [l1 r2| | |] eqn:E2; try discriminate. injection E as <- <-.
        destruct (self_ok N_annotation ts o r1 E1) as (u & Eu & F & N0 & G). destruct (IH r1 l1 r2 E2) as (v & -> & F' & G').
        exists (u ++ v). split; [now rewrite <- app_assoc|]. split; [now apply Forall_app|].
        intros Hl t x y f' -> Hf. rewrite app_length in Hl, Hf. destruct u as [|t0 u]; [exfalso; now apply N0|].
        destruct f' as [|f']; [cbn in Hf; lia|]. rewrite D in Eu. injection Eu as <- Eu.
        rewrite <- app_assoc. cbn [app annots]. unfold pbind, pret. destruct v as [|t' v].
        + cbn [app] in *. rewrite (G ltac:(cbn in *; lia) t x y eq_refl : self' N_annotation (TKw ANNOTATION :: u ++ t :: y) = _).
          rewrite (G' ltac:(cbn; lia) t x y f' eq_refl ltac:(cbn; lia) : annots f' (self' N_annotation) (t :: y) = _). reflexivity.
        + cbn [app] in *. rewrite (G ltac:(cbn in *; lia) t' (v ++ t :: x) (v ++ t :: y) eq_refl : self' N_annotation (TKw ANNOTATION :: u ++ t' :: v ++ t :: y) = _).
          rewrite (G' ltac:(cbn in *; lia) t x y f' eq_refl ltac:(cbn in *; lia) : annots f' (self' N_annotation) (t' :: v ++ t :: y) = _). reflexivity.
    Qed.
    Lemma local_at_least j n : local false k (at_least j (self n)) (at_least j (self' n)).
    Proof.
      intros ts l r E. unfold at_least, pbind in E. destruct (items _ (self n) ts) as [l1 r1| | |] eqn:E1; try discriminate.
      destruct (local_items n _ ts l1 r1 E1) as (u & -> & F & G). destruct (Nat.ltb (List.length l1) j) eqn:Ej; [discriminate|]. injection E as <- <-.
      exists u. split; [reflexivity|]. split; [exact F|]. split; [discriminate|]. intros Hl t x y ->. unfold at_least, pbind.
      rewrite (G Hl t x y _ eq_refl) by (rewrite app_length; lia). rewrite Ej. reflexivity.
    Qed.
    Lemma local_paren j n ord : local true k (get _ <- tok_lparen;; get l <- at_least j (self n);; get _ <- tok_rparen;; pret (GObj (OVec ord l)))
      (get _ <- tok_lparen;; get l <- at_least j (self' n);; get _ <- tok_rparen;; pret (GObj (OVec ord l))).
    Proof.
      apply (local_bind true true); [apply local_lparen|]. intros _. apply (local_bind false true); [apply local_at_least|]. intros l.
      apply (local_map true k tok_rparen tok_rparen (fun _ => GObj (OVec ord l))), local_rparen.
    Qed.
    Lemma local_sym y : local false k (parse_sym self y) (parse_sym self' y).
    Proof.
      destruct y as [|n|j n|n| |n|]; cbn [parse_sym].
      - intros ts v r E. unfold pbind in E. destruct (annots _ (self N_annotation) ts) as [l1 r1| | |] eqn:E1; try discriminate.
        destruct (local_annots _ ts l1 r1 E1) as (u & -> & F & G). injection E as <- <-.
        exists u. split; [reflexivity|]. split; [exact F|]. split; [discriminate|]. intros Hl t x y ->. unfold pbind.
        rewrite (G Hl t x y _ eq_refl) by (rewrite app_length; lia). reflexivity.
      - apply (local_weaken true false k k); auto. apply local_map, self_ok.
      - apply local_map, local_at_least.
      - apply (local_weaken true false k k); auto. apply local_paren.
      - intros [|[] ts] v r E; try discriminate. injection E as <- <-. eexists [_]. split; [reflexivity|]. split; [repeat constructor|]. split; [discriminate|]. reflexivity.
      - intros ts v r E. assert (L : local true k (get o <- self n;; pret (GObj o)) (get o <- self' n;; pret (GObj o))) by apply local_map, self_ok.
        destruct (match ts with TRParen :: _ => true | _ => false end) eqn:Ek.
        + destruct ts as [|[] ts]; try discriminate. injection E as <- <-. exists []. split; [reflexivity|]. split; [constructor|]. split; [discriminate|].
          intros _ t x y [= <- <-]. reflexivity.
        + assert (D : forall s z, match z with TRParen :: _ => true | _ => false end = false ->
            match z with TRParen :: _ => POk GNull z | _ => (get o <- s n;; pret (GObj o)) z end = (get o <- s n;; pret (GObj o)) z)
            by (intros s [|[] z] Hz; try reflexivity; discriminate).
          rewrite D in E by exact Ek. destruct (L ts v r E) as (u & -> & F & N0 & G). exists u. split; [reflexivity|]. split; [exact F|]. split; [discriminate|].
          intros Hl t x y Er. rewrite D; [apply (G Hl t x y Er)|]. destruct u as [|t0 u]; [exfalso; now apply N0|exact Ek].
      - intros ts v r E. assert (L : local true k (get o <- self N_obj_prop_exp;; pret (GObj o)) (get o <- self' N_obj_prop_exp;; pret (GObj o))) by apply local_map, self_ok.
        destruct (match ts with TKw OBJECT_PROPERTY_CHAIN :: _ => true | _ => false end) eqn:Ek.
        + destruct ts as [|t ts]; [discriminate|]. destruct t as [| | | | | | | | | | |kw|]; try discriminate. destruct kw; try discriminate.
          destruct (local_paren 2 N_obj_prop_exp true ts v r E) as (u & -> & F & N0 & G). exists (TKw OBJECT_PROPERTY_CHAIN :: u).
          split; [reflexivity|]. split; [repeat constructor; auto|]. split; [discriminate|]. intros Hl t x y Er. cbn [app]. apply (G ltac:(cbn in Hl; lia) t x y Er).
        + assert (D : forall (s : nt -> P obj) z, match z with TKw OBJECT_PROPERTY_CHAIN :: _ => true | _ => false end = false ->
            match z with TKw OBJECT_PROPERTY_CHAIN :: r => (get _ <- tok_lparen;; get l <- at_least 2 (s N_obj_prop_exp);; get _ <- tok_rparen;; pret (GObj (OVec true l))) r
            | _ => (get o <- s N_obj_prop_exp;; pret (GObj o)) z end = (get o <- s N_obj_prop_exp;; pret (GObj o)) z).
          { intros s [|t z] Hz; [reflexivity|]. destruct t as [| | | | | | | | | | |kw|]; try reflexivity. destruct kw; try reflexivity. discriminate. }
          rewrite D in E by exact Ek. destruct (L ts v r E) as (u & -> & F & N0 & G). exists u. split; [reflexivity|]. split; [exact F|]. split; [discriminate|].
          intros Hl t x y Er. rewrite D; [apply (G Hl t x y Er)|]. destruct u as [|t0 u]; [exfalso; now apply N0|exact Ek].
    Qed.
    Lemma local_syms : forall l, local false k (parse_syms self l) (parse_syms self' l).
    Proof.
      intros l. induction l as [|y l IH]; cbn [parse_syms]; [apply local_ret|].
      apply (local_bind false false); [apply local_sym|]. intros v. apply local_map, IH.
    Qed.
    Lemma local_prod p : local true k (parse_prod self p) (parse_prod self' p).
    Proof.
      unfold parse_prod. apply (local_bind true false); [apply local_lparen|]. intros _. apply (local_bind false false); [apply local_syms|]. intros l.
      apply (local_weaken true false k k); auto. apply (local_bind true false); [apply local_rparen|]. intros _. destruct (run_ctor _ l); [apply local_ret|].
      intros ts a r E. discriminate.
    Qed.
    Lemma local_step n : local true (S k) (parse_step m self n) (parse_step m self' n).
    Proof.
      intros ts a r E. destruct (match ts with TKw _ :: _ => true | _ => false end) eqn:Ek.
      - destruct ts as [|[| | | | | | | | | | |kw|] ts]; try discriminate. cbn [parse_step] in E. destruct (rule_for (rules_of n) kw) as [p|] eqn:Er; [|discriminate].
        destruct (local_prod p ts a r E) as (u & -> & F & N0 & G). exists (TKw kw :: u). split; [reflexivity|]. split; [repeat constructor; auto|]. split; [discriminate|].
        intros Hl t x y Et. cbn [app parse_step]. rewrite Er. apply (G ltac:(cbn in Hl; lia) t x y Et).
      - assert (D : forall s z, match z with TKw _ :: _ => true | _ => false end = false -> parse_step m s n z = parse_flat m n z) by (intros s [|[] z] Hz; try reflexivity; discriminate).
        rewrite D in E by exact Ek. destruct (local_flat (S k) n ts a r E) as (u & -> & F & N0 & G). exists u. split; [reflexivity|]. split; [exact F|]. split; [exact N0|].
        intros Hl t x y Er. rewrite D; [apply (G Hl t x y Er)|]. destruct u as [|t0 u]; [exfalso; now apply N0|exact Ek].
    Qed.
  End Rec.

  Lemma local_parse : forall f f' n, local true f' (parse m f n) (parse m f' n).
  Proof.
    intros f. induction f as [|f IH]; intros f' n; [intros ts a r E; discriminate|]. cbn [parse]. destruct f' as [|f'].
    - intros ts a r E. destruct (local_step (parse m f) (parse m 0) 0 (IH 0%nat) n ts a r E) as (u & -> & F & N0 & _). exists u.
      split; [reflexivity|]. split; [exact F|]. split; [exact N0|]. intros Hl. destruct u; [exfalso; now apply N0|cbn in Hl; lia].
    - cbn [parse]. apply local_step. apply IH.
  Qed.
  Theorem local_nt n ts a r : parse_nt m n ts = POk a r -> exists u, ts = u ++ r /\ Forall proper u /\ u <> [] /\
    forall t x y, r = t :: x -> parse_nt m n (u ++ t :: y) = POk a (t :: y).
  Proof.
    intros E. unfold parse_nt in E. 
    assert (G : forall f', exists u, ts = u ++ r /\ Forall proper u /\ u <> [] /\ ((List.length u <= f')%nat -> forall t x y, r = t :: x -> parse m f' n (u ++ t :: y) = POk a (t :: y))).
    { intros f'. destruct (local_parse _ f' n ts a r E) as (u & E1 & F & N0 & G). exists u. auto 6. }
    destruct (G 0%nat) as (u & -> & F & N0 & _). exists u. split; [reflexivity|]. split; [exact F|]. split; [exact N0|]. intros t x y ->.
    destruct (G (S (List.length (u ++ t :: y)))) as (u' & E1 & _ & _ & G'). apply app_inv_tail in E1. subst u'.
    unfold parse_nt. apply (G' ltac:(rewrite app_length; lia) t x y eq_refl).
  Qed.
  Lemma iri_one ts i r : parse_iri m ts = POk i r -> exists t, ts = t :: r /\ proper t /\ starts_iri ts = true /\ forall y, parse_iri m (t :: y) = POk i y.
  Proof.
    intros E. destruct ts as [|t ts]; [discriminate|]. exists t. destruct t; try discriminate; cbn [parse_iri] in *.
    - destruct (pmap_ns m _); [|discriminate]. injection E as <- <-. repeat split.
    - destruct (iri_from_string _); [|discriminate]. injection E as <- <-. repeat split.
  Qed.
End Map.
