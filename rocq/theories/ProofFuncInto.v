(** Reading any text into a new ontology. *)

From Coq Require Import String NArith ZArith List Bool Lia Permutation.
From Coq Require Import ZifyBool ZifyNat ZifyN.
From Verif Require Import Bytes ModelTypes ModelObject ModelText SpecObject SpecText ProofObject ProofText
  ModelPrefixMap SpecPrefixMap ProofPrefixMap ProofPrefixSafe ModelOntology SpecOntology ProofOntology ProofOntologyQuery ProofOntologyHistory ProofOntologyTop
  ModelChange SpecChange ProofChange ModelPrtDecoder SpecPrtStore ProofPrtStore ModelFuncLex ModelFuncParser
  SpecFunc SpecFuncDoc SpecFuncRead ProofFuncSafe ProofFuncRead ProofFuncReadTop ProofFuncStore.
Import ListNotations.
Local Open Scope N_scope.

Lemma stands_lists (ps : list part) (log : list dchange) : Forall2 stands_for ps (map snd log) ->
  map r_obj (p_axioms ps) = axioms_in log /\ map r_obj (p_annots ps) = annots_in log /\ map r_obj (p_imports ps) = imports_in log /\
  map r_obj (p_iris ps) = iris_in log /\ map r_obj (p_versions ps) = versions_in log.
Proof.
  revert ps. induction log as [|[t d] log IH]; intros ps H; inversion H as [|p d' ps' ds' S0 F]; subst; [repeat split|].
  destruct (IH _ F) as (I1 & I2 & I3 & I4 & I5). unfold axioms_in, annots_in, imports_in, iris_in, versions_in in *.
  destruct S0; cbn; repeat split; auto; f_equal; auto.
Qed.
Lemma sound_typed ps log heap : Forall2 stands_for ps (map snd log) -> Forall sound_change log -> Forall (part_in_heap heap) ps ->
  Forall (fun p => typed_p p /\ part_in_heap heap p) ps.
Proof.
  revert ps. induction log as [|[t d] log IH]; intros ps H Hs Hp; inversion H as [|p d' ps' ds' S0 F]; subst; [constructor|].
  inversion Hs as [|? ? [_ Hd] Hs']; subst. inversion Hp as [|? ? Hp1 Hp2]; subst. constructor; [|now apply IH].
  split; [|exact Hp1]. destruct S0; cbn in *; auto.
Qed.
Lemma last_in l : option_map r_obj (last_of l None) = match List.rev (map r_obj l) with [] => None | o :: _ => Some o end.
Proof.
  assert (G : forall l d, last_of l d = match List.rev l with [] => d | x :: _ => Some x end).
  { intros m. induction m as [|x m IH]; intros d; [reflexivity|]. cbn [last_of List.rev]. rewrite IH. destruct (List.rev m); reflexivity. }
  rewrite G, <- map_rev. destruct (List.rev l); reflexivity.
Qed.
Lemma at_most_one log n : (n = 1 \/ n = 2)%nat -> in_document_order log ->
  forall l1 a l2 b l3, log = l1 ++ a :: l2 ++ b :: l3 -> rank (snd a) = n -> rank (snd b) = n -> False.
Proof. intros Hn [_ H] l1 a l2 b l3 E Ha Hb. specialize (H l1 a l2 b l3 E ltac:(congruence)). lia. Qed.
Lemma flat_one (f : dchange -> list obj) log n : (n = 1 \/ n = 2)%nat -> (forall c, f c <> [] -> rank (snd c) = n /\ exists o, f c = [o]) -> in_document_order log ->
  flat_map f log = [] \/ exists o, flat_map f log = [o].
Proof.
  intros Hn Hf Ho. induction log as [|c log IH]; [now left|]. cbn [flat_map].
  assert (Ho' : in_document_order log).
  { destruct Ho as [H1 H2]. inversion H1; subst. split; auto. intros l1 a l2 b l3 ->. apply (H2 (c :: l1) a l2 b l3 eq_refl). }
  assert (D : f c = [] \/ f c <> []) by (destruct (f c); [now left|right; discriminate]).
  destruct D as [E|E]; [rewrite E; apply IH; exact Ho'|].
  destruct (Hf c E) as [Hr [o Eo]]. rewrite Eo. right. exists o. cbn. f_equal.
  assert (G : forall d, In d log -> f d = []).
  { intros d Hd. apply in_split in Hd as (l1 & l2 & ->). destruct (f d) eqn:Ed; [reflexivity|exfalso].
    destruct (Hf d) as [Hr' _]; [rewrite Ed; discriminate|]. exact (at_most_one _ n Hn Ho [] c l1 d l2 eq_refl Hr Hr'). }
  clear -G. induction log as [|d log IH]; [reflexivity|]. cbn. rewrite (G d (or_introl eq_refl)). apply IH. intros e He. apply G. now right.
Qed.

Theorem read_into visit w signed defaults b c log : (forall t, Permutation (visit t) t) ->
  func_read (fun _ => COWL_OK) signed w (initial_map defaults) b = FRet c log ->
  forall heap ps dst, Forall2 stands_for ps (map snd log) -> Forall (part_in_heap heap) ps ->
  x_onto dst = o_empty true -> new_map visit defaults (x_pm dst) ->
  exists dst', receives (change_apply visit w CHANGE_ADD) ps dst (Some (dst', COWL_OK)) /\ reached heap w (x_onto dst') /\
    (forall l, contains (x_onto dst') l -> Permutation (map r_obj l) (axioms_in log)) /\
    (forall l, delivers (fun S call s => iterate_annot call (x_onto dst') s) l -> map r_obj l = annots_in log) /\
    (forall l, delivers (fun S call s => iterate_imports call (x_onto dst') s) l -> map r_obj l = imports_in log) /\
    match option_map r_obj (o_iri (x_onto dst')) with Some i => iris_in log = [i] | None => iris_in log = [] end /\
    match option_map r_obj (o_version (x_onto dst')) with Some i => versions_in log = [i] | None => versions_in log = [] end.
Proof.
  intros V E heap ps dst Sf Hp De Nd.
  destruct (read_sound (fun _ => COWL_OK) signed w (initial_map defaults) b log) as [Hs Ho]; [left; now exists c|].
  assert (Rd : reached heap w (x_onto dst)) by (rewrite De; exists [], [], []; split; [intros e []|reflexivity]).
  destruct (map_reached_good visit V _ (new_map_reached _ _ _ Nd)) as (Gd & _).
  destruct (apply_all heap visit w ps dst Rd Gd (sound_typed ps log heap Sf Hs Hp)) as (dst' & Rc & R' & A1 & A2 & A3 & A4 & A5).
  destruct (stands_lists _ _ Sf) as (M1 & M2 & M3 & M4 & M5). rewrite De in *. cbn [o_empty o_annot o_imports o_iri o_version vec_data app] in *.
  exists dst'. split; [exact Rc|]. split; [exact R'|]. split; [|split; [|split; [|split]]].
  - intros l C. rewrite (contains_eq _ _ C). rewrite <- M1. apply Permutation_map. exact A1.
  - intros l D. rewrite (delivers_unique _ _ _ D (deliver_annot _)), A2. exact M2.
  - intros l D. rewrite (delivers_unique _ _ _ D (deliver_imports _)), A3. exact M3.
  - assert (G : iris_in log = [] \/ exists o, iris_in log = [o]).
    { apply (flat_one _ log 1); auto. intros [t d] Hd. destruct d; cbn in *; try congruence. split; eauto. }
    rewrite A4, last_in, M4. destruct G as [G|[o G]]; rewrite G; reflexivity.
  - assert (G : versions_in log = [] \/ exists o, versions_in log = [o]).
    { apply (flat_one _ log 2); auto. intros [t d] Hd. destruct d; cbn in *; try congruence. split; eauto. }
    rewrite A5, last_in, M5. destruct G as [G|[o G]]; rewrite G; reflexivity.
Qed.
