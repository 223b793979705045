(** Concrete cases for PropertiesFuncStable. *)

From Coq Require Import String NArith ZArith List Bool Lia Permutation.
From Coq Require Import ZifyBool ZifyNat ZifyN.
From Verif Require Import Bytes ModelTypes ModelObject ModelText SpecObject SpecText ProofObject ProofText ModelPrefixMap SpecPrefixMap ProofPrefixMap
  ModelOntology SpecOntology ModelChange SpecChange ModelPrtDecoder SpecPrtStore ModelFuncLex ModelFuncParser ModelFuncWriter
  SpecFunc SpecFuncDoc SpecFuncRead SpecFuncStable ProofFuncStable ExamplesPrefix ExamplesChange ExamplesFunc ExamplesFuncRead.
Import ListNotations.
Local Open Scope N_scope.

(** * Objects and a new ontology for the changes of a text *)

Definition fs_object (d : dpart) : obj := match d with DPrefix p n => OIri p n | DIri o | DVersion o | DImport o | DAnnot o | DAxiom o => o end.
Definition fs_part (i : N) (d : dpart) : part :=
  match d with
  | DPrefix p n => PPrefix (vstr (1000 + 2 * i) p) (vstr (1001 + 2 * i) n)
  | DIri o => PIri (mkRef i o) | DVersion o => PVersion (mkRef i o) | DImport o => PImport (mkRef i o)
  | DAnnot o => PAnnot (mkRef i o) | DAxiom o => PAxiom (mkRef i o)
  end.
Fixpoint fs_parts (i : N) (ds : list dpart) : list part := match ds with [] => [] | d :: l => fs_part i d :: fs_parts (i + 1) l end.
Definition fs_heap (ds : list dpart) (i : N) : obj := fs_object (nth (N.to_nat i) ds (DPrefix [] [])).
Lemma fs_stand ds : forall i, Forall2 stands_for (fs_parts i ds) ds.
Proof.
  induction ds as [|d l IH]; intros i; cbn [fs_parts]; constructor; [|apply IH].
  destruct d as [p n|o|o|o|o|o]; [exact (sf_prefix (vstr _ p) (vstr _ n))|exact (sf_iri (mkRef i o))|exact (sf_version (mkRef i o))|
    exact (sf_import (mkRef i o))|exact (sf_annot (mkRef i o))|exact (sf_axiom (mkRef i o))].
Qed.
Lemma fs_in_heap pre ds : Forall (part_in_heap (fs_heap (pre ++ ds))) (fs_parts (N.of_nat (List.length pre)) ds).
Proof.
  revert pre. induction ds as [|d l IH]; intros pre; cbn [fs_parts]; constructor.
  - assert (E : fs_heap (pre ++ d :: l) (N.of_nat (List.length pre)) = fs_object d) by (unfold fs_heap; now rewrite Nat2N.id, app_nth2, Nat.sub_diag by lia).
    destruct d; cbn; auto.
  - specialize (IH (pre ++ [d])). rewrite <- app_assoc, app_length in IH. cbn [List.length app] in IH.
    replace (N.of_nat (List.length pre) + 1) with (N.of_nat (List.length pre + 1)) by lia. exact IH.
Qed.
Definition fs_map (src : tbl) : pst :=
  match pm_init ex_rc with
  | Some (s0, _) => match pm_merge id_visit s0 src false with Some (s, _) => s | None => s0 end
  | None => ex_map []
  end.
Lemma fs_new_map src : distinct_keys src -> new_map id_visit (texts src) (fs_map src).
Proof.
  intros D. unfold fs_map. destruct (init_good ex_rc ex_rc_nz) as (s0 & c & E0 & G0 & _). rewrite E0.
  destruct (merge_good id_visit id_visit_perm s0 src false D G0) as (pm & c' & E & _). rewrite E.
  exists ex_rc, src, s0, c, c'. split; [exact ex_rc_nz|]. split; [exact D|]. split; [reflexivity|]. split; [exact E0|exact E].
Qed.
Definition fs_full (src : tbl) : full := mkFull (o_empty true) (fs_map src) [].
Definition fs_log (src : tbl) (b : bytes) : list dchange :=
  match func_read (fun _ => COWL_OK) true 32 (initial_map (texts src)) b with FRet _ l => l | _ => [] end.
(** Reading a text and writing the ontology; [None] if that is not possible. *)
Definition fs_trip (src : tbl) (b : bytes) : option (full * option bytes) :=
  match func_read (fun _ => COWL_OK) true 32 (initial_map (texts src)) b with
  | FRet c log => if (c =? COWL_OK)%Z then
                    match fr_apply (fs_parts 0 (map snd log)) (fs_full src) with Some x => Some (x, w_ontology id_visit x) | None => None end
                  else None
  | _ => None
  end.
Lemma fs_saved src b o : distinct_keys src -> option_map snd (fs_trip src b) = Some o ->
  exists x, saved id_visit 32 true (texts src) b (fs_log src b) x o /\ option_map fst (fs_trip src b) = Some x.
Proof.
  intros D. unfold fs_trip, saved, fs_log. destruct (func_read _ true 32 _ b) as [c log| |] eqn:E; [|discriminate..].
  destruct (c =? COWL_OK)%Z eqn:Ec; [|discriminate]. apply Z.eqb_eq in Ec. subst c.
  destruct (fr_apply (fs_parts 0 (map snd log)) (fs_full src)) as [x|] eqn:Ea; [|discriminate]. cbn [option_map snd fst]. intros [= <-].
  exists x. split; [|reflexivity]. split; [reflexivity|]. exists (fs_heap (map snd log)), (fs_parts 0 (map snd log)), (fs_full src).
  split; [apply fs_stand|]. split; [exact (fs_in_heap [] (map snd log))|]. split; [reflexivity|]. split; [exact (fs_new_map src D)|]. split; [|reflexivity].
  now apply fr_apply_receives.
Qed.

(** * A check for stable parts *)

Section Check.
  Variable nss : list bytes.
  Definition fs_canonical (ns rem : bytes) : bool :=
    match iri_from_string (ns ++ rem) with Some (a, b) => bytes_eqb a ns && bytes_eqb b rem | None => false end.
  Lemma fs_canonical_ok ns rem : fs_canonical ns rem = true -> canonical_split (ns ++ rem) ns rem.
  Proof.
    unfold fs_canonical. destruct (iri_from_string_canonical (ns ++ rem)) as [[E1 E2]|(E1 & a & b & E2 & E3)]; rewrite E2; [discriminate|].
    intros H. apply andb_true_iff in H as [A B]. apply bytes_eqb_eq in A, B. now subst a b.
  Qed.
  Definition fs_iri (ns rem : bytes) : bool := fs_canonical ns rem && (negb (existsb (bytes_eqb ns) nss) || fx_last rem).
  Lemma fs_iri_ok ns rem : fs_iri ns rem = true -> stable_iri nss ns rem.
  Proof.
    unfold fs_iri. intros H. apply andb_true_iff in H as [A B]. split; [now apply fs_canonical_ok|]. intros Hin. apply orb_true_iff in B as [B|B]; [|now apply fx_last_ok].
    apply negb_true_iff in B. exfalso. assert (existsb (bytes_eqb ns) nss = true); [|congruence]. apply existsb_exists. exists ns. split; [exact Hin|apply bytes_eqb_refl].
  Qed.
  Fixpoint fs_obj (o : obj) : bool :=
    match o with
    | OStr _ _ | OAnon _ => true
    | OIri ns rem | OEnt _ ns rem => fs_iri ns rem
    | OLit v ns rem => fx_value v && fs_iri ns rem
    | OLang v l => fx_value v && fx_lang l
    | OVec _ l => forallb fs_obj l
    | OComp t fs opt n => forallb fs_obj fs && match opt with Some p => fs_obj p | None => true end &&
        match t, fs with OT_A_SUB_OBJ_PROP, OComp _ _ _ _ :: _ => false | _, _ => true end
    end.
  Lemma fs_fold l : Forall (fun x => fs_obj x = true -> stable nss x) l -> forallb fs_obj l = true -> fold_right (fun x P => stable nss x /\ P) True l.
  Proof. induction 1 as [|x l Hx F IH]; cbn; auto. intros H. apply andb_true_iff in H as [H1 H2]. auto. Qed.
  Lemma fs_obj_ok o : fs_obj o = true -> stable nss o.
  Proof.
    induction o as [i s|ns rem|e ns rem|id|v ns rem|v l|ord l IH|t fs opt n IH IHo] using obj_ind'; cbn [fs_obj stable]; intros H; auto.
    - now apply fs_iri_ok.
    - now apply fs_iri_ok.
    - apply andb_true_iff in H as [H1 H2]. split; [exact (fx_value_ok v H1)|now apply fs_iri_ok].
    - apply andb_true_iff in H as [H1 H2]. split; [exact (fx_value_ok v H1)|apply (fx_lang_ok in_full l); exact H2].
    - now apply fs_fold.
    - apply andb_true_iff in H as [H H3]. apply andb_true_iff in H as [H1 H2]. split; [now apply fs_fold|]. split; [destruct opt; auto|].
      destruct t; auto. destruct fs as [|[] fs]; auto; discriminate.
  Qed.
  Definition fs_stable (d : dpart) : bool :=
    match d with
    | DPrefix _ _ => true
    | DIri o | DVersion o | DImport o => match o with OIri ns rem => fs_canonical ns rem | _ => false end
    | DAnnot o | DAxiom o => fs_obj o
    end.
  Lemma fs_stable_ok ds : forallb fs_stable ds = true -> Forall (stable_part nss) ds.
  Proof.
    intros H. apply Forall_forall. intros d Hd. rewrite forallb_forall in H. specialize (H d Hd).
    destruct d as [p n|o|o|o|o|o]; cbn [fs_stable stable_part] in *; [exact I| | | |now apply fs_obj_ok|now apply fs_obj_ok]; destruct o; try discriminate; now apply fs_canonical_ok.
  Qed.
End Check.
Lemma fs_bytes b : forallb (fun c => c <? 256) b = true -> Forall is_byte b.
Proof. intros H. apply Forall_forall. intros c Hc. rewrite forallb_forall in H. specialize (H c Hc). unfold is_byte. lia. Qed.

(** * A text that is stable *)

Definition fs_text : bytes :=
  bs "# comment" ++ [10] ++ bs "Prefix(ex:=<http://ex.org/1#>) Prefix(:=<http://ex.org/2/>)" ++ [10; 32] ++
  bs "Ontology(<http://ex.org/1#onto> <http://ex.org/1#v1> Import(<http://ex.org/2#imp>) Annotation(rdfs:comment ""a \""b\""""@EN) " ++
  bs "Declaration(Class(ex:C)) SubClassOf(Annotation(rdfs:label ""x"") ex:C ObjectMinCardinality(007 :p ObjectOneOf(_:n1 <http://ex.org/3/d>))) " ++
  bs "SubObjectPropertyOf(ObjectPropertyChain(:p ObjectInverseOf(:q)) :r) DataPropertyAssertion(:dp <http://ex.org/3/e.> ""1.5""^^xsd:decimal))".
Definition fs_text_log : list dchange := Eval vm_compute in fs_log fx_src fs_text.
Lemma fs_read : func_read (fun _ => COWL_OK) true 32 (initial_map fx_defaults) fs_text = FRet COWL_OK fs_text_log.
Proof. vm_compute. reflexivity. Qed.
Lemma fs_legal : legal_defaults fx_defaults.
Proof.
  intros p n [E|[]]. injection E as <- <-. split; [apply fx_prefix_ok; vm_compute; reflexivity|]. split; [apply fx_char_ok; vm_compute; reflexivity|].
  split; [apply fs_bytes; vm_compute; reflexivity|]. intros n' H. exfalso. cbn in H. repeat (destruct H as [H|H]; [discriminate (f_equal fst H)|]). exact H.
Qed.
Lemma fs_agrees : agrees fx_defaults (declarations fs_text_log).
Proof. intros p n n' [E|[]] H _. injection E as <- <-. cbn in H. repeat (destruct H as [H|H]; [discriminate (f_equal fst H)|]). destruct H. Qed.
Lemma fs_stable_case : Forall (stable_part (map snd (initial_map fx_defaults ++ declarations fs_text_log))) (map snd fs_text_log).
Proof. apply fs_stable_ok. vm_compute. reflexivity. Qed.
Lemma fs_case : Forall is_byte fs_text /\ legal_defaults fx_defaults /\
  func_read (fun _ => COWL_OK) true 32 (initial_map fx_defaults) fs_text = FRet COWL_OK fs_text_log /\ agrees fx_defaults (declarations fs_text_log) /\
  Forall (stable_part (map snd (initial_map fx_defaults ++ declarations fs_text_log))) (map snd fs_text_log) /\
  (List.length fs_text_log = 10 /\ List.length (axioms_in fs_text_log) = 4 /\ List.length (declarations fs_text_log) = 2)%nat /\
  exists heap ps x0, Forall2 stands_for ps (map snd fs_text_log) /\ Forall (part_in_heap heap) ps /\ x_onto x0 = o_empty true /\
    new_map id_visit fx_defaults (x_pm x0).
Proof.
  split; [apply fs_bytes; vm_compute; reflexivity|]. split; [exact fs_legal|]. split; [exact fs_read|]. split; [exact fs_agrees|]. split; [exact fs_stable_case|].
  split; [repeat split; reflexivity|]. exists (fs_heap (map snd fs_text_log)), (fs_parts 0 (map snd fs_text_log)), (fs_full fx_src).
  split; [apply fs_stand|]. split; [exact (fs_in_heap [] (map snd fs_text_log))|]. split; [reflexivity|exact (fs_new_map fx_src fx_src_distinct)].
Qed.

(** * Texts that are not *)

Definition fs_no_src : distinct_keys [] := FOP_nil _.
(** An IRI that ends in a full stop, and a prefix for its namespace. *)
Definition fs_dot : bytes := bs "Prefix(e:=<http://x/>) Ontology(Declaration(Class(<http://x/a.>)))".
Lemma fs_dot_case : exists x b', saved id_visit 32 true [] fs_dot (fs_log [] fs_dot) x (Some b') /\
  exists log', func_read (fun _ => COWL_OK) true 32 (initial_map []) b' = FRet ERR_SYNTAX log'.
Proof.
  assert (H : exists b', option_map snd (fs_trip [] fs_dot) = Some (Some b') /\ exists log', func_read (fun _ => COWL_OK) true 32 (initial_map []) b' = FRet ERR_SYNTAX log').
  { eexists. split; [vm_compute; reflexivity|]. eexists. vm_compute. reflexivity. }
  destruct H as (b' & H & Hr). destruct (fs_saved [] fs_dot (Some b') fs_no_src H) as (x & Hs & _). exists x, b'. split; [exact Hs|exact Hr].
Qed.
(** A prefix of the default map declared with another namespace: the class has another IRI afterwards. *)
Definition fs_src : tbl := [(vstr 40 (bs "ex"), vstr 41 (bs "http://a/"))].
Definition fs_rebind : bytes := bs "Prefix(ex:=<http://b/>) Ontology(Declaration(Class(<http://b/D>)))".
Lemma fs_rebind_case : exists x b' log', saved id_visit 32 true [(bs "ex", bs "http://a/")] fs_rebind (fs_log fs_src fs_rebind) x (Some b') /\
  axioms_in (fs_log fs_src fs_rebind) = [fx_decl "http://b/" "D"] /\
  func_read (fun _ => COWL_OK) true 32 (initial_map [(bs "ex", bs "http://a/")]) b' = FRet COWL_OK log' /\
  axioms_in log' = [fx_decl "http://a/" "D"].
Proof.
  assert (H : exists b' log', option_map snd (fs_trip fs_src fs_rebind) = Some (Some b') /\
    axioms_in (fs_log fs_src fs_rebind) = [fx_decl "http://b/" "D"] /\
    func_read (fun _ => COWL_OK) true 32 (initial_map [(bs "ex", bs "http://a/")]) b' = FRet COWL_OK log' /\
    axioms_in log' = [fx_decl "http://a/" "D"]).
  { eexists _, _. split; [vm_compute; reflexivity|]. split; [vm_compute; reflexivity|]. split; [vm_compute; reflexivity|vm_compute; reflexivity]. }
  destruct H as (b' & log' & H & Hr). assert (D : distinct_keys fs_src) by (repeat constructor).
  destruct (fs_saved fs_src fs_rebind (Some b') D H) as (x & Hs & _). exists x, b', log'. split; [exact Hs|exact Hr].
Qed.
(** A zero byte in a string. *)
Definition fs_nul : bytes := bs "Ontology(Annotation(rdfs:label ""a" ++ [0] ++ bs "b""))".
Definition fs_label (v : bytes) : obj :=
  mk_annot OT_ANNOTATION [OEnt ET_ANNOT_PROP (bs "http://www.w3.org/2000/01/rdf-schema#") (bs "label");
    OLit v (bs "http://www.w3.org/2001/XMLSchema#") (bs "string")] None.
Lemma fs_nul_case : exists x b' log', saved id_visit 32 true [] fs_nul (fs_log [] fs_nul) x (Some b') /\
  annots_in (fs_log [] fs_nul) = [fs_label [97; 0; 98]] /\
  func_read (fun _ => COWL_OK) true 32 (initial_map []) b' = FRet COWL_OK log' /\ annots_in log' = [fs_label [97]].
Proof.
  assert (H : exists b' log', option_map snd (fs_trip [] fs_nul) = Some (Some b') /\ annots_in (fs_log [] fs_nul) = [fs_label [97; 0; 98]] /\
    func_read (fun _ => COWL_OK) true 32 (initial_map []) b' = FRet COWL_OK log' /\ annots_in log' = [fs_label [97]]).
  { eexists _, _. split; [vm_compute; reflexivity|]. split; [vm_compute; reflexivity|]. split; [vm_compute; reflexivity|vm_compute; reflexivity]. }
  destruct H as (b' & log' & H & Hr). destruct (fs_saved [] fs_nul (Some b') fs_no_src H) as (x & Hs & _). exists x, b', log'. split; [exact Hs|exact Hr].
Qed.
(** An abbreviated IRI with a digit after the colon. *)
Definition fs_split : bytes := bs "Prefix(ex:=<http://x/a>) Ontology(Declaration(Class(ex:1b)))".
Lemma fs_split_case : exists x b' log', saved id_visit 32 true [] fs_split (fs_log [] fs_split) x (Some b') /\
  axioms_in (fs_log [] fs_split) = [fx_decl "http://x/a1" "b"] /\
  func_read (fun _ => COWL_OK) true 32 (initial_map []) b' = FRet COWL_OK log' /\ axioms_in log' = [fx_decl "http://x/" "a1b"].
Proof.
  assert (H : exists b' log', option_map snd (fs_trip [] fs_split) = Some (Some b') /\ axioms_in (fs_log [] fs_split) = [fx_decl "http://x/a1" "b"] /\
    func_read (fun _ => COWL_OK) true 32 (initial_map []) b' = FRet COWL_OK log' /\ axioms_in log' = [fx_decl "http://x/" "a1b"]).
  { eexists _, _. split; [vm_compute; reflexivity|]. split; [vm_compute; reflexivity|]. split; [vm_compute; reflexivity|vm_compute; reflexivity]. }
  destruct H as (b' & log' & H & Hr). destruct (fs_saved [] fs_split (Some b') fs_no_src H) as (x & Hs & _). exists x, b', log'. split; [exact Hs|exact Hr].
Qed.
(** A plain literal with something after the at sign that is not a language tag. *)
Definition fs_tag : bytes := bs "Ontology(Annotation(rdfs:label ""a@b c""^^rdf:PlainLiteral))".
Lemma fs_tag_case : exists x b', saved id_visit 32 true [] fs_tag (fs_log [] fs_tag) x (Some b') /\
  exists log', func_read (fun _ => COWL_OK) true 32 (initial_map []) b' = FRet ERR_SYNTAX log'.
Proof.
  assert (H : exists b', option_map snd (fs_trip [] fs_tag) = Some (Some b') /\ exists log', func_read (fun _ => COWL_OK) true 32 (initial_map []) b' = FRet ERR_SYNTAX log').
  { eexists. split; [vm_compute; reflexivity|]. eexists. vm_compute. reflexivity. }
  destruct H as (b' & H & Hr). destruct (fs_saved [] fs_tag (Some b') fs_no_src H) as (x & Hs & _). exists x, b'. split; [exact Hs|exact Hr].
Qed.
(** An inverse property as a sub-property. *)
Definition fs_inverse : bytes := bs "Prefix(:=<http://x/>) Ontology(SubObjectPropertyOf(ObjectInverseOf(:p) :q))".
Lemma fs_inverse_case : exists x, saved id_visit 32 true [] fs_inverse (fs_log [] fs_inverse) x None /\ List.length (axioms_in (fs_log [] fs_inverse)) = 1%nat.
Proof.
  assert (H : option_map snd (fs_trip [] fs_inverse) = Some None) by (vm_compute; reflexivity).
  destruct (fs_saved [] fs_inverse None fs_no_src H) as (x & Hs & _). exists x. split; [exact Hs|vm_compute; reflexivity].
Qed.
