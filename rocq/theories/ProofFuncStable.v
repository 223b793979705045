(** Saving what was read, and reading it again. *)

From Coq Require Import String NArith ZArith List Bool Lia Permutation.
From Coq Require Import ZifyBool ZifyNat ZifyN.
From Verif Require Import Bytes ModelTypes ModelObject ModelText SpecObject SpecText ProofObject ProofText
  ModelPrefixMap SpecPrefixMap ProofPrefixMap ProofPrefixRev ProofPrefixSafe ModelOntology SpecOntology ProofOntology ProofOntologyQuery ProofOntologyHistory ProofOntologyTop
  ModelChange SpecChange ProofChange ModelPrtDecoder SpecPrt SpecPrtStream SpecPrtStore ProofPrtAxiom ProofPrtStore ModelFuncLex ModelFuncParser ModelFuncWriter
  SpecFunc SpecFuncDoc SpecFuncRead ProofFuncWrite ProofFuncParse ProofFuncDoc ProofFuncSafe ProofFuncRead ProofFuncReadTop ProofFuncStore ProofFuncInto
  ProofFuncGrammar ProofFuncDocument ProofFuncTokens SpecFuncTokens SpecFuncStable SpecFuncGrammar.
Import ListNotations.
Local Open Scope N_scope.

(** * Tokens of a text *)

Definition legal (w : N) (t : token) : Prop :=
  match t with
  | TIriRef s => Forall iri_char s /\ Forall is_byte s
  | TPnameLn s => exists p l, s = p ++ 58 :: l /\ prefix_name p /\ local_name l
  | TPnameNs p => prefix_name p
  | TBlank l => local_name l
  | TInt n => n < 2 ^ w
  | _ => True
  end.
Lemma legal_lexeme w x t : lexeme w x (Some t) -> Forall is_byte x -> legal w t.
Proof.
  intros H Hb. inversion H; subst; cbn; auto.
  - apply N.mod_lt. apply N.pow_nonzero. lia.
  - split; [assumption|]. inversion Hb as [|? ? _ Hb2]; subst. now apply Forall_app in Hb2 as [? _].
  - eauto.
Qed.
Lemma cut_legal w q b ts : cut w q b ts -> Forall is_byte b -> Forall (legal w) ts.
Proof.
  induction 1 as [q|x rest ts Hx Hm Hc IH|x t rest ts Hx Hm Hc IH|c rest ts Hc Hn Hr IH|rest ts Hr IH|s c rest ts H1 H2 Hr IH|s c rest ts H1 Hr IH|s rest ts H1 Hr IH|s rest ts Hr IH];
    intros Hb.
  - constructor.
  - apply Forall_app in Hb as [_ Hb]. auto.
  - apply Forall_app in Hb as [Hb1 Hb]. constructor; auto. now apply (legal_lexeme w x).
  - inversion Hb; subst. constructor; [exact I|auto].
  - inversion Hb; subst. auto.
  - inversion Hb; subst. auto.
  - inversion Hb as [|? ? _ Hb2]; subst. inversion Hb2; subst. auto.
  - inversion Hb; subst. constructor; [exact I|auto].
  - inversion Hb; subst. constructor; [exact I|auto].
Qed.

(** * IRIs *)

Lemma colon_unique (p q r s : bytes) : ~ In 58 p -> ~ In 58 q -> p ++ 58 :: r = q ++ 58 :: s -> p = q /\ r = s.
Proof.
  revert q. induction p as [|a p IH]; intros [|b q] Hp Hq E; cbn in Hp, Hq; cbn [app] in E.
  - injection E as E. auto.
  - injection E as E1 E2. subst b. tauto.
  - injection E as E1 E2. subst a. tauto.
  - injection E as -> E2. destruct (IH q) as [-> ->]; auto.
Qed.
Lemma local_chars l : local_name l -> Forall iri_char l /\ Forall is_byte l.
Proof.
  intros (c & r & -> & Hc & Hr & _).
  assert (G : forall x, inner_char x -> iri_char x /\ is_byte x).
  { intros x Hx. unfold iri_char, is_byte, inner_char, letter, non_ascii, is_digit in *. cbn [In]. lia. }
  split; constructor; try apply G; try (unfold inner_char; tauto); (eapply Forall_impl; [|exact Hr]); intros a Ha; apply G; exact Ha.
Qed.

Section Names.
  Variable w : N.
  Variable m : pmap.
  Hypothesis chars : forall n, In n (map snd m) -> Forall iri_char n /\ Forall is_byte n.

  Lemma binds_in p n : binds m p n -> In n (map snd m).
  Proof. intros (a & b & -> & _). rewrite map_app. apply in_or_app. right. now left. Qed.
  Lemma names_chars t ns rem : names m t ns rem -> legal w t ->
    ns ++ rem <> [] /\ Forall iri_char (ns ++ rem) /\ Forall is_byte (ns ++ rem).
  Proof.
    intros [s ns' rem' Hs Hc|p r n Hp Hb] Hl.
    - destruct Hc as [<- _]. destruct Hl. auto.
    - destruct Hl as (q & l & E & Hq & Hr). destruct (colon_unique p q r l Hp (prefix_no_colon q Hq) E) as [-> ->].
      rewrite iri_of_parts_text. destruct (chars n (binds_in _ _ Hb)) as [N1 N2]. destruct (local_chars l Hr) as [L1 L2].
      split; [|split; apply Forall_app; auto]. destruct Hr as (c & r & -> & _). now destruct n.
  Qed.
  Variable short : bytes -> option bytes.
  Hypothesis shorts : forall ns p, short ns = Some p -> In ns (map snd m).
  Lemma stable_ok ns rem : ns ++ rem <> [] -> Forall iri_char (ns ++ rem) -> Forall is_byte (ns ++ rem) ->
    stable_iri (map snd m) ns rem -> iri_ok short ns rem.
  Proof.
    intros Hn Hi Hb [Hc Hd]. split; [exact Hn|]. split; [exact Hc|].
    destruct rem as [|c r]; [exact Hi|]. destruct (short ns) as [p|] eqn:E; [|exact Hi].
    specialize (Hd (shorts _ _ E)). destruct Hc as (_ & [Hr|Hr] & _); [discriminate|]. destruct Hr as (c' & r' & Eq & Hs & Hr). injection Eq as <- <-.
    apply Forall_app in Hb as [_ Hb]. inversion Hb as [|? ? Hb1 Hb2]; subst. exists c, r. split; [reflexivity|]. split; [|split; [|exact Hd]].
    - unfold name_start, letter, non_ascii, is_byte in *. lia.
    - rewrite Forall_forall in *. intros x Hx. specialize (Hr x Hx). specialize (Hb2 x Hx).
      unfold inner_char, name_char, name_start, letter, non_ascii, is_digit, is_byte in *. lia.
  Qed.
  Lemma names_ok t ns rem : names m t ns rem -> legal w t -> stable_iri (map snd m) ns rem -> iri_ok short ns rem.
  Proof. intros Hn Hl Hs. destruct (names_chars t ns rem Hn Hl) as (H1 & H2 & H3). now apply stable_ok. Qed.

  Lemma literal_ok ts o : literal m ts o -> Forall (legal w) ts -> stable (map snd m) o -> expressible w short o.
  Proof.
    intros H Hl Hs. destruct H as [v|v t ns rem Hn Hd|v a b l t ns rem Hn Hd Ht Hb|v l l' Hne Hb]; cbn in *.
    - destruct Hs as [H1 H2]. split; [exact H1|]. split; [intros E; discriminate E|]. split; [intros E; discriminate E|].
      apply stable_ok; auto; [discriminate| |]; apply Forall_forall; intros x Hx; unfold iri_char, is_byte; cbn in Hx |- *;
        repeat (destruct Hx as [<-|Hx]; [lia|]); destruct Hx.
    - destruct Hs as [H1 H2]. split; [exact H1|]. inversion Hl as [|? ? _ Hl1]; subst. inversion Hl1 as [|? ? _ Hl2]; subst. inversion Hl2; subst.
      split; [|split; [|now apply (names_ok t)]].
      + intros [= E1 E2]. apply Hd. split; [exact E1|]. left. exact E2.
      + intros [= E1 E2]. apply Hd. split; [exact E1|]. right. exact E2.
    - exact Hs.
    - exact Hs.
  Qed.

  Lemma stable_list l : fold_right (fun x P => stable (map snd m) x /\ P) True l <-> Forall (stable (map snd m)) l.
  Proof. induction l as [|x l IH]; cbn; split; intros H; auto; [constructor; tauto|inversion H; subst; tauto]. Qed.
  Definition sized (t : otype) (f : obj) : Prop := match f with OVec _ l => (least t <= List.length l)%nat | _ => True end.
  Lemma least_two t : (least t <= 2)%nat.
  Proof. destruct t; cbn; lia. Qed.
  Lemma reads_not_vec i ts o : reads m i ts o -> is_vec o = false.
  Proof. intros H. inversion H; subst; try reflexivity; match goal with L : literal _ _ _ |- _ => now inversion L end. Qed.

  Lemma inner ts : Forall (legal w) (in_parens ts) -> Forall (legal w) ts.
  Proof. unfold in_parens. intros H. inversion H; subst. now apply Forall_app in H3 as [? _]. Qed.
  Lemma pow_pos : 0 < 2 ^ w.
  Proof. apply N.neq_0_lt_0. apply N.pow_nonzero. lia. Qed.

  Theorem reads_expressible :
    (forall i ts o, reads m i ts o -> Forall (legal w) ts -> stable (map snd m) o -> expressible w short o) /\
    (forall i ts l, reads_all m i ts l -> Forall (legal w) ts -> Forall (stable (map snd m)) l -> Forall (expressible w short) l) /\
    (forall t ss ts fs, operands m t ss ts fs -> Forall (legal w) ts -> Forall (stable (map snd m)) fs ->
       Forall (expressible w short) fs /\ Forall (sized t) fs).
  Proof.
    apply (reads_mutind m
      (fun i ts o _ => Forall (legal w) ts -> stable (map snd m) o -> expressible w short o)
      (fun i ts l _ => Forall (legal w) ts -> Forall (stable (map snd m)) l -> Forall (expressible w short) l)
      (fun t ss ts fs _ => Forall (legal w) ts -> Forall (stable (map snd m)) fs -> Forall (expressible w short) fs /\ Forall (sized t) fs)).
    all: intros.
    1-6,9,12: (cbn in *; eapply names_ok; [eassumption| |assumption]; match goal with L : Forall _ [_] |- _ => inversion L; subst; assumption end).
    1,3,5: (cbn in *; match goal with L : Forall _ [_] |- _ => inversion L; subst; assumption end).
    1,2: (eapply literal_ok; eassumption).
    - cbn in *. eapply names_ok; [eassumption| |assumption]. inversion H; subst. apply inner in H4. now inversion H4; subst.
    - cbn in *. inversion H; subst. destruct H0 as ((S1 & S2 & _) & _). split; [|split; [exact I|split; [|split; [apply pow_pos|exact I]]]].
      + split; [now apply (names_ok t)|]. split; [now apply (literal_ok ts)|exact I].
      + constructor; [exact I|]. constructor; [|constructor]. now inversion l.
    - cbn [stable] in H1. destruct H1 as (S1 & _ & S3). rewrite stable_list in S1. inversion H0; subst. apply inner in H4.
      destruct (H H4 S1) as [E1 E2]. cbn [expressible]. rewrite expressible_list. split; [exact E1|]. split; [exact I|]. split; [exact E2|]. split; [apply pow_pos|exact S3].
    - cbn [stable] in H2. destruct H2 as (S1 & S2 & S3). rewrite stable_list in S1. inversion H1; subst. apply inner in H5. apply Forall_app in H5 as [H5 H6].
      destruct (H0 H6 S1) as [E1 E2]. cbn [expressible]. rewrite expressible_list. split; [exact E1|]. split; [|split; [exact E2|split; [apply pow_pos|exact S3]]].
      destruct l as [|x l]; [exact I|]. cbn [expressible]. rewrite expressible_list. apply H; [exact H5|]. cbn [stable] in S2. rewrite stable_list in S2. exact S2.
    - cbn [stable] in H2. destruct H2 as (S1 & S2 & S3). rewrite stable_list in S1. inversion H1; subst. apply inner in H5. apply Forall_app in H5 as [H5 H6].
      destruct (H H5 S1) as [E1 E2]. cbn [expressible]. rewrite expressible_list. split; [exact E1|]. split; [|split; [exact E2|split; [apply pow_pos|exact S3]]].
      match goal with D : _ \/ _ |- _ => destruct D as [[_ ->]|[_ ->]] end; [exact I|]. now apply H0.
    - cbn [stable] in H1. destruct H1 as (S1 & _ & S3). rewrite stable_list in S1. inversion H0; subst. apply inner in H4. inversion H4; subst.
      destruct (H H6 S1) as [E1 E2]. cbn [expressible]. rewrite expressible_list. split; [exact E1|]. split; [exact I|]. split; [exact E2|]. split; [assumption|exact S3].
    - cbn [stable] in H2. destruct H2 as (S1 & S2 & S3). rewrite stable_list in S1. inversion H1; subst. apply inner in H5. inversion H5; subst. apply Forall_app in H7 as [H7 H8].
      destruct (H H7 S1) as [E1 E2]. cbn [expressible]. rewrite expressible_list. split; [exact E1|]. split; [now apply H0|]. split; [exact E2|]. split; [assumption|exact S3].
    - constructor.
    - apply Forall_app in H1 as [H1 H1']. inversion H2; subst. constructor; auto.
    - split; constructor.
    - apply Forall_app in H1 as [H1 H1']. inversion H2; subst. destruct (H0 H1' H6) as [E1 E2]. split; constructor; auto.
      apply reads_not_vec in r. now destruct o.
    - apply Forall_app in H1 as [H1 H1']. inversion H2; subst. destruct (H0 H1' H6) as [E1 E2]. split; constructor; auto.
      cbn [expressible]. rewrite expressible_list. cbn [stable] in H5. rewrite stable_list in H5. auto.
    - apply Forall_app in H1 as [H1 H1']. inversion H2; subst. destruct (H0 H1' H6) as [E1 E2]. split; constructor; auto.
      + cbn [expressible]. rewrite expressible_list. cbn [stable] in H5. rewrite stable_list in H5. apply inner in H1. auto.
      + cbn. lia.
    - apply Forall_app in H1 as [H1 H1']. inversion H2; subst. destruct (H0 H1' H6) as [E1 E2]. split; constructor; auto.
      apply reads_not_vec in r. now destruct o.
    - apply Forall_app in H1 as [H1 H1']. inversion H2; subst. destruct (H0 H1' H6) as [E1 E2]. split; constructor; auto.
      + cbn [expressible]. rewrite expressible_list. cbn [stable] in H5. rewrite stable_list in H5. inversion H1; subst. apply inner in H8. auto.
      + cbn. pose proof (least_two t). lia.
  Qed.
End Names.

(** * The parts of a document *)

Definition fits (w : N) (short : bytes -> option bytes) (p : dpart) : Prop :=
  match p with
  | DPrefix p n => prefix_name p /\ Forall iri_char n /\ Forall is_byte n
  | DIri o | DVersion o | DImport o => full_iri_ok o
  | DAnnot o | DAxiom o => expressible w short o
  end.

Section Parts.
  Variable w : N.
  Variable m : pmap.
  Variable short : bytes -> option bytes.
  Hypothesis chars : forall n, In n (map snd m) -> Forall iri_char n /\ Forall is_byte n.
  Hypothesis shorts : forall ns p, short ns = Some p -> In ns (map snd m).

  Lemma names_full_ok t ns rem : names m t ns rem -> legal w t -> canonical_split (ns ++ rem) ns rem -> full_iri_ok (OIri ns rem).
  Proof.
    intros Hn Hl Hc. destruct (names_chars w m chars t ns rem Hn Hl) as (H1 & H2 & _). exists ns, rem. split; [reflexivity|].
    split; [exact H1|]. split; [exact Hc|]. unfold in_full. destruct rem; exact H2.
  Qed.
  Lemma id_fits ts ps : ontology_id m ts ps -> Forall (legal w) ts -> Forall (stable_part (map snd m)) ps -> Forall (fits w short) ps.
  Proof.
    intros H Hl Hs. destruct H as [|t ns rem Hn|t ns rem t' ns' rem' Hn Hn'].
    - constructor.
    - inversion Hl; inversion Hs; subst. constructor; [|constructor]. now apply (names_full_ok t).
    - inversion Hl as [|? ? L1 L2]; inversion Hs as [|? ? S1 S2]; subst. inversion L2; inversion S2; subst. constructor; [now apply (names_full_ok t)|].
      constructor; [now apply (names_full_ok t')|constructor].
  Qed.
  Lemma heads_fits ts ps : heads m ts ps -> Forall (legal w) ts -> Forall (stable_part (map snd m)) ps -> Forall (fits w short) ps.
  Proof.
    induction 1 as [|t ns rem ts ps Hn H IH|us o ts ps Hr H IH]; intros Hl Hs; [constructor| |].
    - apply Forall_app in Hl as [L1 L2]. inversion Hs as [|? ? S1 S2]; subst. inversion L1 as [|? ? _ L3]; subst. apply inner in L3. inversion L3; subst.
      constructor; [now apply (names_full_ok t)|auto].
    - apply Forall_app in Hl as [L1 L2]. inversion Hs as [|? ? S1 S2]; subst.
      constructor; [now apply (proj1 (reads_expressible w m chars short shorts) SAnnot us)|auto].
  Qed.
End Parts.

Definition parts_decl (ps : list dpart) : pmap := flat_map (fun p => match p with DPrefix p n => [(p, n)] | _ => [] end) ps.
Lemma declarations_add ps : declarations (map (fun p => (CHANGE_ADD, p)) ps) = parts_decl ps.
Proof. unfold declarations, parts_decl. induction ps as [|p ps IH]; [reflexivity|]. cbn. now rewrite IH. Qed.
Lemma decl_ds (ds : pmap) : parts_decl (map (fun d => DPrefix (fst d) (snd d)) ds) = ds.
Proof. unfold parts_decl. induction ds as [|[p n] ds IH]; [reflexivity|]. cbn. now rewrite IH. Qed.
Lemma decl_none l : (forall p, In p l -> match p with DPrefix _ _ => False | _ => True end) -> parts_decl l = [].
Proof.
  unfold parts_decl. induction l as [|p l IH]; intros H; [reflexivity|]. cbn. rewrite IH by (intros q Hq; apply H; now right).
  specialize (H p (or_introl eq_refl)). now destruct p.
Qed.
Lemma id_plain m ts ps : ontology_id m ts ps -> forall p, In p ps -> match p with DPrefix _ _ => False | _ => True end.
Proof. intros H p Hp. destruct H; cbn in Hp; repeat (destruct Hp as [<-|Hp]; [exact I|]); destruct Hp. Qed.
Lemma heads_plain m ts ps : heads m ts ps -> forall p, In p ps -> match p with DPrefix _ _ | DIri _ | DVersion _ => False | _ => True end.
Proof. induction 1 as [|t ns rem ts ps _ _ IH|us o ts ps _ _ IH]; intros p Hp; [destruct Hp| |]; (destruct Hp as [<-|Hp]; [exact I|exact (IH p Hp)]). Qed.

Lemma standard_legal p n : In (p, n) standard -> prefix_name p /\ Forall iri_char n /\ Forall is_byte n.
Proof.
  intros H. cbn in H. repeat (destruct H as [E|H]; [injection E as <- <-|]); [| | | |destruct H].
  all: (split; [right; eexists _, _; split; [reflexivity|]; split; [unfold letter; lia|]; split;
    [repeat (constructor; [unfold inner_char, letter; lia|]); constructor|
     intros u Hu; apply (f_equal (@List.rev N)) in Hu; rewrite rev_app_distr in Hu; discriminate Hu]|]).
  all: (split; apply Forall_forall; intros x Hx; unfold iri_char, is_byte; cbn in Hx |- *; repeat (destruct Hx as [<-|Hx]; [lia|]); destruct Hx).
Qed.

(** The parts of a document from legal tokens, if they are stable. *)
Lemma document_fits w defaults short ts ps : document (initial_map defaults) ts ps -> Forall (legal w) ts -> legal_defaults defaults ->
  (forall ns p, short ns = Some p -> In ns (map snd (initial_map defaults ++ parts_decl ps))) ->
  Forall (stable_part (map snd (initial_map defaults ++ parts_decl ps))) ps -> Forall (fits w short) ps.
Proof.
  intros D Hl Ld Hsh Hs. destruct D as [ds id ps head qs ax l Hi Hh Ha].
  assert (Ed : parts_decl (map (fun d => DPrefix (fst d) (snd d)) ds ++ ps ++ qs ++ map DAxiom l) = ds).
  { unfold parts_decl at 1. rewrite !flat_map_app. change (flat_map _ (map _ ds)) with (parts_decl (map (fun d => DPrefix (fst d) (snd d)) ds)).
    change (flat_map _ ps) with (parts_decl ps). change (flat_map _ qs) with (parts_decl qs). change (flat_map _ (map DAxiom l)) with (parts_decl (map DAxiom l)).
    rewrite decl_ds, (decl_none ps (id_plain _ _ _ Hi)), (decl_none qs), (decl_none (map DAxiom l)); [apply app_nil_r| |].
    - intros p Hp. apply in_map_iff in Hp as (o & <- & _). exact I.
    - intros p Hp. pose proof (heads_plain _ _ _ Hh p Hp). now destruct p. }
  rewrite Ed in *. rewrite !Forall_app in Hl. destruct Hl as (L1 & _ & L2 & L3 & L4 & _). rewrite !Forall_app in Hs. destruct Hs as (_ & S2 & S3 & S4).
  assert (Hd : forall p n, In (p, n) ds -> prefix_name p /\ Forall iri_char n /\ Forall is_byte n).
  { intros p n Hin. rewrite Forall_forall in L1.
    assert (T1 : legal w (TPnameNs p)) by (apply L1; apply in_flat_map; exists (p, n); split; [exact Hin|cbn; tauto]).
    assert (T2 : legal w (TIriRef n)) by (apply L1; apply in_flat_map; exists (p, n); split; [exact Hin|cbn; tauto]).
    cbn in T1, T2. tauto. }
  assert (Hc : forall n, In n (map snd (initial_map defaults ++ ds)) -> Forall iri_char n /\ Forall is_byte n).
  { intros n Hin. apply in_map_iff in Hin as ([p n'] & <- & Hin). cbn [snd]. rewrite initial_standard, !in_app_iff in Hin. destruct Hin as [[Hin|Hin]|Hin].
    - apply (standard_legal p n' Hin).
    - destruct (Ld p n' Hin) as (_ & ? & ? & _). auto.
    - apply (Hd p n' Hin). }
  rewrite !Forall_app. split; [|split; [|split]].
  - apply Forall_forall. intros q Hq. apply in_map_iff in Hq as ([p n] & <- & Hq). exact (Hd p n Hq).
  - eapply id_fits; eauto.
  - eapply heads_fits; eauto.
  - apply Forall_map. apply (proj1 (proj2 (reads_expressible w _ Hc short Hsh)) SAxiom ax l Ha L4). rewrite Forall_map in S4. exact S4.
Qed.
Lemma document_version m ts ps : document m ts ps ->
  versions_in (map (fun p => (CHANGE_ADD, p)) ps) <> [] -> iris_in (map (fun p => (CHANGE_ADD, p)) ps) <> [].
Proof.
  intros D. destruct D as [ds id ps head qs ax l Hi Hh Ha].
  assert (Hf : forall f, (forall p n, f (CHANGE_ADD, DPrefix p n) = []) -> (forall o, f (CHANGE_ADD, DAxiom o) = []) -> (forall o, f (CHANGE_ADD, DImport o) = []) ->
    (forall o, f (CHANGE_ADD, DAnnot o) = []) ->
    flat_map f (map (fun p => (CHANGE_ADD, p)) (map (fun d => DPrefix (fst d) (snd d)) ds ++ ps ++ qs ++ map DAxiom l)) = flat_map f (map (fun p => (CHANGE_ADD, p)) ps) :> list obj).
  { intros f F1 F2 F3 F4. rewrite !map_app, !flat_map_app.
    assert (Hn : forall k, (forall p, In p k -> f (CHANGE_ADD, p) = []) -> flat_map f (map (fun p => (CHANGE_ADD, p)) k) = []).
    { induction k as [|p k IH]; intros H; [reflexivity|]. cbn. rewrite (H p) by now left. apply IH. intros q Hq. apply H. now right. }
    rewrite (Hn (map _ ds)), (Hn qs), (Hn (map DAxiom l)); [apply app_nil_r| | |].
    - intros p Hp. apply in_map_iff in Hp as (o & <- & _). apply F2.
    - intros p Hp. pose proof (heads_plain _ _ _ Hh p Hp). destruct p; try contradiction; auto.
    - intros p Hp. apply in_map_iff in Hp as (o & <- & _). apply F1. }
  unfold versions_in, iris_in. rewrite !Hf by reflexivity. destruct Hi; cbn; congruence.
Qed.

(** * The prefix map *)

Definition prefix_ops (ps : list part) : list pop := flat_map (fun p => match p with PPrefix k v => [PAdd k v true] | _ => [] end) ps.
Lemma receives_run visit w ps x x' : receives (change_apply visit w CHANGE_ADD) ps x (Some (x', COWL_OK)) ->
  exists rs, pm_run visit (x_pm x) (prefix_ops ps) = Some (x_pm x', rs).
Proof.
  intros R. remember (Some (x', COWL_OK)) as res eqn:Er. revert Er.
  induction R as [s|p l s H|p l s s' r H Hr|p l s s' res H R IH]; intros Er; inversion Er; subst; [exists []; reflexivity|contradiction|].
  destruct (IH eq_refl) as (rs & E). destruct p as [k v|i|i|i|a|a].
  2-6: (cbn [change_apply add_to_ontology] in H; apply on_ontology_pm in H; rewrite H in E; exists rs; exact E).
  cbn [change_apply add_to_ontology] in H. unfold add_prefix in H. destruct (pm_add (x_pm s) k v true) as [[s1 c]|] eqn:Ea; [|discriminate]. injection H as <- _.
  cbn [x_pm] in E. exists (c :: rs). cbn [prefix_ops flat_map app pm_run pm_step]. rewrite Ea. change (flat_map _ l) with (prefix_ops l). rewrite E. reflexivity.
Qed.
Lemma received_quiet visit w defaults ps x x' : new_map visit defaults (x_pm x) -> receives (change_apply visit w CHANGE_ADD) ps x (Some (x', COWL_OK)) ->
  quiet_map visit (x_pm x').
Proof.
  intros (r & src & s0 & c & c' & R & D & T & E0 & E) Rc. destruct (receives_run _ _ _ _ _ Rc) as (rs & Er).
  assert (Ho : forall o, In o (prefix_ops ps) -> SpecPrefixMap.keeps o /\ SpecPrefixMap.adds o).
  { intros o Ho. apply in_flat_map in Ho as (p & _ & Hp). destruct p; cbn in Hp; try contradiction. destruct Hp as [<-|[]]. split; exact I. }
  exists r, (PMerge src false :: prefix_ops ps), [], s0, c, (x_pm x'), (c' :: rs), []. split; [exact R|]. split; [|split; [|split; [exact E0|split; [|split; [constructor|reflexivity]]]]].
  - rewrite app_nil_r. constructor; [exact D|]. apply Forall_forall. intros o H. now apply Ho.
  - constructor; [exact I|]. apply Forall_forall. intros o H. now apply Ho.
  - cbn [pm_run pm_step]. rewrite E, Er. reflexivity.
Qed.

(** What a new ontology binds after receiving the changes of a text. *)
Lemma received_map visit w defaults log ps x x' : (forall t, Permutation (visit t) t) ->
  Forall2 stands_for ps (map snd log) -> new_map visit defaults (x_pm x) -> receives (change_apply visit w CHANGE_ADD) ps x (Some (x', COWL_OK)) ->
  ProofPrefixMap.good (x_pm x') /\ forall p,
    (is_standard p = true -> fm (fwd (x_pm x')) p = pmap_ns standard p) /\
    (is_standard p = false -> (forall n, ~ In (p, n) (declarations log)) -> fm (fwd (x_pm x')) p = pmap_ns defaults p) /\
    (is_standard p = false -> forall n, In (p, n) (declarations log) -> exists n', In (p, n') (declarations log) /\ fm (fwd (x_pm x')) p = Some n').
Proof.
  intros V F Nm R. destruct (map_reached_good visit V _ (new_map_reached _ _ _ Nm)) as [G Pk].
  destruct (receive_prefixes visit w ps x x' R G Pk) as (G' & U & D & T). split; [exact G'|]. intros p.
  assert (Ep : p_prefixes ps = declarations log).
  { rewrite (stands_prefixes _ _ F). unfold declarations. rewrite flat_map_concat_map, flat_map_concat_map, map_map. reflexivity. }
  rewrite Ep in *. pose proof (new_map_fm visit defaults (x_pm x) p V Nm) as E0. rewrite initial_standard, pmap_app in E0.
  split; [|split].
  - intros Es. pose proof Es as Es'. apply standard_in in Es' as (n & Hn). rewrite (pmap_unique standard p n Hn) in *.
    + apply T; auto.
    + intros n' Hn'. now apply (standard_unique p).
    + intros n' Hn'. now apply (standard_unique p).
  - intros Es Hn. rewrite U by exact Hn. destruct (pmap_ns standard p) as [n|] eqn:Ex; [|exact E0]. apply pmap_in in Ex.
    assert (is_standard p = true) by (apply standard_in; eauto). congruence.
  - intros Es n Hn. exact (D p n Hn Es).
Qed.
Lemma pmap_some_in (l : pmap) p n : In (p, n) l -> exists n', pmap_ns l p = Some n' /\ In (p, n') l.
Proof. intros H. destruct (pmap_ns l p) as [n'|] eqn:E; [exists n'; split; [reflexivity|now apply pmap_in]|]. exfalso. exact (pmap_none _ _ _ E H). Qed.
Lemma new_map_unique visit defaults pm p n n' : new_map visit defaults pm -> In (p, n) defaults -> In (p, n') defaults -> n = n'.
Proof.
  intros (r & src & s0 & c & c' & R & D & T & E0 & E) H H'. rewrite <- T in H, H'. unfold texts in *.
  apply in_map_iff in H as ([k v] & E1 & H). apply in_map_iff in H' as ([k' v'] & E2 & H'). cbn in E1, E2. injection E1 as <- <-. injection E2 as E2 <-.
  assert (X : (k, v) = (k', v')) by (apply (distinct_unique src); auto). now injection X as -> ->.
Qed.
Lemma in_texts t p n : distinct_keys t -> (In (p, n) (texts t) <-> fm t p = Some n).
Proof.
  intros D. rewrite fm_some by exact D. unfold texts. rewrite in_map_iff. split.
  - intros ([k v] & E & H). cbn in E. injection E as <- <-. eauto.
  - intros (k & v & H & <- & <-). exists (k, v). auto.
Qed.

(** * The theorem *)

Theorem stable_round_trip visit w signed defaults b log : (forall t, Permutation (visit t) t) ->
  Forall is_byte b -> legal_defaults defaults ->
  func_read (fun _ => COWL_OK) signed w (initial_map defaults) b = FRet COWL_OK log ->
  agrees defaults (declarations log) -> Forall (stable_part (map snd (initial_map defaults ++ declarations log))) (map snd log) ->
  forall heap ps x0, Forall2 stands_for ps (map snd log) -> Forall (part_in_heap heap) ps -> x_onto x0 = o_empty true -> new_map visit defaults (x_pm x0) ->
  exists x b' log', receives (change_apply visit w CHANGE_ADD) ps x0 (Some (x, COWL_OK)) /\ w_ontology visit x = Some b' /\
    func_read (fun _ => COWL_OK) signed w (initial_map defaults) b' = FRet COWL_OK log' /\
    forall heap' ps' y0, Forall2 stands_for ps' (map snd log') -> Forall (part_in_heap heap') ps' -> x_onto y0 = o_empty true -> new_map visit defaults (x_pm y0) ->
      exists y, receives (change_apply visit w CHANGE_ADD) ps' y0 (Some (y, COWL_OK)) /\ same_contents y x /\ forall p n, ns_text y p n <-> ns_text x p n.
Proof.
  intros V Hb Ld E Hag Hst heap ps x0 Sf Hp De Nm.
  destruct (read_into visit w signed defaults b COWL_OK log V E heap ps x0 Sf Hp De Nm) as (x & Rc & Rx & A1 & A2 & A3 & A4 & A5).
  specialize (A1 _ (contains_all _)). specialize (A2 _ (deliver_annot _)). specialize (A3 _ (deliver_imports _)).
  destruct (read_sound (fun _ => COWL_OK) signed w (initial_map defaults) b log) as [Hsd _]; [left; now exists COWL_OK|].
  apply reads_documents in E as (ts & z & dps & Hlex & Hdoc & _ & El). apply lex_cut in Hlex.
  assert (Hl : Forall (legal w) ts) by (apply cut_legal in Hlex; [|exact Hb]; now apply Forall_app in Hlex as [? _]).
  destruct (received_map visit w defaults log ps x0 x V Sf Nm Rc) as (Gx & Mx).
  assert (Hfm : forall p n, fm (fwd (x_pm x)) p = Some n -> In (p, n) (initial_map defaults ++ declarations log)).
  { intros p n Hf. rewrite initial_standard, !in_app_iff. destruct (Mx p) as (M1 & M2 & M3). destruct (is_standard p) eqn:Es.
    - rewrite (M1 eq_refl) in Hf. left. left. now apply pmap_in.
    - destruct (in_dec (list_eq_dec N.eq_dec) p (map fst (declarations log))) as [Hi|Hi].
      + apply in_map_iff in Hi as ([q n0] & Eq & Hi). cbn in Eq. subst q. destruct (M3 eq_refl n0 Hi) as (n' & Hn' & Hf'). right. congruence.
      + rewrite M2 in Hf; auto; [left; right; now apply pmap_in|]. intros n0 H0. apply Hi. apply in_map_iff. exists (p, n0). auto. }
  assert (Hshort : forall ns p, prefix_in visit (onto_fheader x) ns = Some p -> In ns (map snd (initial_map defaults ++ declarations log))).
  { unfold prefix_in. cbn [onto_fheader fh_pm]. intros ns p Hpi.
    destruct (quiet_good visit _ V (received_quiet _ _ _ _ _ _ Nm Rc)) as (G & C & _).
    destruct (get_prefix_shortest visit V (x_pm x) ns G C) as (s & q & Eg & Hq). rewrite Eg in Hpi. destruct q as [q|]; [|discriminate].
    cbn in Hq. destruct Hq as [Hq _]. apply in_map_iff. exists (stx q, ns). split; [reflexivity|]. now apply Hfm. }
  assert (Edecl : declarations log = parts_decl dps) by (rewrite El; apply declarations_add).
  assert (Hfits : Forall (fits w (prefix_in visit (onto_fheader x))) dps).
  { apply (document_fits w defaults _ ts); auto; rewrite <- Edecl; auto. rewrite El, map_map in Hst. cbn [snd] in Hst. rewrite map_id in Hst. rewrite <- El in Hst. exact Hst. }
  assert (Hin : forall d, In d (map snd log) -> fits w (prefix_in visit (onto_fheader x)) d).
  { rewrite El, map_map. cbn [snd]. rewrite map_id. rewrite Forall_forall in Hfits. exact Hfits. }
  assert (Hmem : forall (f : dpart -> list obj) o, In o (flat_map (fun c => f (snd c)) log) -> exists d, In d (map snd log) /\ In o (f d) /\ exists c, In c log /\ snd c = d).
  { intros f o Ho. apply in_flat_map in Ho as (c & Hc & Ho). exists (snd c). split; [now apply in_map|]. split; eauto. }
  rewrite Forall_forall in Hsd.
  assert (Hfit : map_fit visit (x_pm x) defaults).
  { constructor.
    - exact (received_quiet _ _ _ _ _ _ Nm Rc).
    - intros p n Ht. apply (in_texts _ _ _ (proj1 Gx)) in Ht. apply Hfm in Ht. rewrite initial_standard, !in_app_iff in Ht. destruct Ht as [[Ht|Ht]|Ht].
      + destruct (standard_legal p n Ht) as (? & ? & _). auto.
      + destruct (Ld p n Ht) as (? & ? & _). auto.
      + rewrite Edecl in Ht. apply in_flat_map in Ht as (d & Hd & Ht). rewrite Forall_forall in Hfits. specialize (Hfits d Hd).
        destruct d; cbn in Ht; try contradiction. destruct Ht as [Ht|[]]. injection Ht as -> ->. cbn in Hfits. tauto.
    - intros p n n' Hd Ht. apply (in_texts _ _ _ (proj1 Gx)) in Ht. destruct (Mx p) as (M1 & M2 & M3). destruct (is_standard p) eqn:Es.
      + rewrite (M1 eq_refl) in Ht. apply pmap_in in Ht. destruct (Ld p n Hd) as (_ & _ & _ & X). now apply X.
      + destruct (in_dec (list_eq_dec N.eq_dec) p (map fst (declarations log))) as [Hi|Hi].
        * apply in_map_iff in Hi as ([q n0] & Eq & Hi). cbn in Eq. subst q. destruct (M3 eq_refl n0 Hi) as (n1 & Hn1 & Hf1).
          assert (n1 = n') as -> by congruence. apply (Hag p n n' Hd Hn1). intros y Hy. assert (is_standard p = true) by (apply standard_in; eauto). congruence.
        * rewrite M2 in Ht; auto; [|intros n0 H0; apply Hi; apply in_map_iff; exists (p, n0); auto].
          apply pmap_in in Ht. exact (new_map_unique visit defaults (x_pm x0) p n n' Nm Hd Ht). }
  assert (Hw : writable w visit defaults x (all_ax (x_onto x))).
  { constructor.
    - exact Hfit.
    - intros i. rewrite !in_app_iff. intros [Hi|[Hi|Hi]].
      + destruct (o_iri (x_onto x)) as [r|]; [|destruct Hi]. destruct Hi as [<-|[]]. cbn in A4.
        assert (Ho : In (r_obj r) (iris_in log)) by (rewrite A4; now left).
        destruct (Hmem (fun d => match d with DIri o => [o] | _ => [] end) (r_obj r) Ho) as (d & Hd & Ho' & _). specialize (Hin d Hd).
        destruct d; cbn in Ho'; try contradiction. destruct Ho' as [<-|[]]. exact Hin.
      + destruct (o_version (x_onto x)) as [r|]; [|destruct Hi]. destruct Hi as [<-|[]]. cbn in A5.
        assert (Ho : In (r_obj r) (versions_in log)) by (rewrite A5; now left).
        destruct (Hmem (fun d => match d with DVersion o => [o] | _ => [] end) (r_obj r) Ho) as (d & Hd & Ho' & _). specialize (Hin d Hd).
        destruct d; cbn in Ho'; try contradiction. destruct Ho' as [<-|[]]. exact Hin.
      + assert (Ho : In (r_obj i) (imports_in log)) by (rewrite <- A3; now apply in_map).
        destruct (Hmem (fun d => match d with DImport o => [o] | _ => [] end) (r_obj i) Ho) as (d & Hd & Ho' & _). specialize (Hin d Hd).
        destruct d; cbn in Ho'; try contradiction. destruct Ho' as [<-|[]]. exact Hin.
    - intros Hv Hn. rewrite Hn in A4. cbn in A4. destruct (o_version (x_onto x)) as [r|]; [|congruence]. cbn in A5.
      rewrite El in A4, A5. apply (document_version _ _ _ Hdoc); [rewrite A5; discriminate|exact A4].
    - intros a Ha. assert (Ho : In (r_obj a) (annots_in log)) by (rewrite <- A2; now apply in_map).
      destruct (Hmem (fun d => match d with DAnnot o => [o] | _ => [] end) (r_obj a) Ho) as (d & Hd & Ho' & c & Hc & Ec). specialize (Hin d Hd). specialize (Hsd c Hc).
      destruct Hsd as [_ Hsd]. rewrite Ec in Hsd. destruct d; cbn in Ho'; try contradiction. destruct Ho' as [->|[]]. split; [exact Hsd|exact Hin].
    - intros a Ha. assert (Ho : In (r_obj a) (axioms_in log)) by (apply (Permutation_in _ A1); now apply in_map).
      destruct (Hmem (fun d => match d with DAxiom o => [o] | _ => [] end) (r_obj a) Ho) as (d & Hd & Ho' & _). specialize (Hin d Hd).
      destruct d; cbn in Ho'; try contradiction. destruct Ho' as [->|[]]. exact Hin. }
  destruct (functional_round_trip_declared w visit V defaults (fun _ => COWL_OK) signed (fun _ => eq_refl) heap x (all_ax (x_onto x)) Rx (contains_all _) Hw)
    as (b' & log' & Eb & Er & Ha & Hdc & Hrt).
  exists x, b', log'. split; [exact Rc|]. split; [exact Eb|]. split; [exact Er|]. intros heap' ps' y0 Sf' Hp' De' Nm'.
  destruct (Hrt heap' ps' y0 Sf' Hp' De' Nm') as (y & Ry & Sc & Hns). exists y. split; [exact Ry|]. split; [exact Sc|].
  destruct (received_map visit w defaults log' ps' y0 y V Sf' Nm' Ry) as (Gy & My).
  assert (Hsome : forall p n, ns_text x p (Some n) -> ns_text y p (Some n)) by exact Hns.
  assert (Hnone : forall p, fm (fwd (x_pm x)) p = None -> fm (fwd (x_pm y)) p = None).
  { intros p Hn. destruct (Mx p) as (M1 & M2 & M3). destruct (My p) as (Y1 & Y2 & Y3). destruct (is_standard p) eqn:Es.
    - rewrite (M1 eq_refl) in Hn. now rewrite (Y1 eq_refl).
    - assert (Hnd : forall n, ~ In (p, n) (declarations log)).
      { intros n Hi. destruct (M3 eq_refl n Hi) as (n' & _ & Hf). congruence. }
      rewrite (M2 eq_refl Hnd) in Hn. rewrite (Y2 eq_refl); [exact Hn|].
      intros n Hi. apply in_flat_map in Hi as ([t d] & Hi & Hd). destruct d as [q m| | | | |]; cbn in Hd; try contradiction. destruct Hd as [Hd|[]]. injection Hd as -> ->.
      rewrite Forall_forall in Ha. pose proof (Ha _ Hi) as Et. cbn in Et. subst t. apply Hdc in Hi. unfold declared in Hi. apply filter_In in Hi as [Hi _].
      cbn [onto_fheader fh_pm] in Hi. apply (in_texts _ _ _ (proj1 Gx)) in Hi. rewrite (M2 eq_refl Hnd) in Hi. congruence. }
  intros p n. rewrite (ns_text_fm _ _ _ Gy), (ns_text_fm _ _ _ Gx). destruct (fm (fwd (x_pm x)) p) as [n0|] eqn:Ex.
  - assert (Hy : fm (fwd (x_pm y)) p = Some n0) by (apply (ns_text_fm _ _ _ Gy); apply Hns; apply (ns_text_fm _ _ _ Gx); exact Ex). now rewrite Hy.
  - now rewrite (Hnone p Ex).
Qed.
