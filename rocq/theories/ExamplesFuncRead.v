(** Concrete cases for PropertiesFuncRead. *)

From Coq Require Import String NArith ZArith List Bool Lia Permutation.
From Verif Require Import Bytes ModelTypes ModelObject ModelText SpecObject SpecText ModelPrefixMap SpecPrefixMap ModelOntology SpecOntology ModelChange SpecChange
  ModelPrtDecoder SpecPrtStore ModelFuncLex ModelFuncParser ModelFuncWriter SpecFunc SpecFuncDoc SpecFuncRead ProofFuncInto
  ExamplesPrefix ExamplesChange ExamplesFunc.
Import ListNotations.
Local Open Scope N_scope.

(** * A document *)

Definition fr_text : bytes :=
  bs "Prefix(ex:=<http://ex.org/1#>) Ontology(<http://ex.org/1#onto> <http://ex.org/1#v1> Import(<http://ex.org/2#imp>) " ++
  bs "Annotation(rdfs:comment ex:note) Declaration(Class(ex:C)) SubClassOf(ex:C owl:Thing))".
Definition fr_log : list dchange :=
  Eval vm_compute in match func_read (fun _ => COWL_OK) true 32 (initial_map fx_defaults) fr_text with FRet _ log => log | _ => [] end.
Lemma fr_read : func_read (fun _ => COWL_OK) true 32 (initial_map fx_defaults) fr_text = FRet COWL_OK fr_log.
Proof. vm_compute. reflexivity. Qed.
Lemma fr_log_length : List.length fr_log = 7%nat /\ List.length (axioms_in fr_log) = 2%nat /\ List.length (annots_in fr_log) = 1%nat /\
  List.length (imports_in fr_log) = 1%nat /\ List.length (iris_in fr_log) = 1%nat /\ List.length (versions_in fr_log) = 1%nat.
Proof. repeat split; vm_compute; reflexivity. Qed.

(** Objects for the changes. *)
Definition fr_heap (i : N) : obj :=
  match nth (N.to_nat i) (map snd fr_log) (DPrefix [] []) with
  | DPrefix p n => OIri p n
  | DIri o | DVersion o | DImport o | DAnnot o | DAxiom o => o
  end.
Definition fr_at (i : N) : ref := mkRef i (fr_heap i).
Definition fr_parts : list part :=
  [ PPrefix (vstr 60 (bs "ex")) (vstr 61 (bs "http://ex.org/1#")); PIri (fr_at 1); PVersion (fr_at 2); PImport (fr_at 3); PAnnot (fr_at 4);
    PAxiom (fr_at 5); PAxiom (fr_at 6) ].
Lemma fr_stand : Forall2 stands_for fr_parts (map snd fr_log).
Proof.
  unfold fr_parts, fr_log. cbn [map snd].
  apply Forall2_cons; [exact (sf_prefix (vstr 60 (bs "ex")) (vstr 61 (bs "http://ex.org/1#")))|].
  apply Forall2_cons; [exact (sf_iri (fr_at 1))|].
  apply Forall2_cons; [exact (sf_version (fr_at 2))|].
  apply Forall2_cons; [exact (sf_import (fr_at 3))|].
  apply Forall2_cons; [exact (sf_annot (fr_at 4))|].
  apply Forall2_cons; [exact (sf_axiom (fr_at 5))|].
  apply Forall2_cons; [exact (sf_axiom (fr_at 6))|].
  apply Forall2_nil.
Qed.
Lemma fr_in_heap : Forall (part_in_heap fr_heap) fr_parts.
Proof.
  unfold fr_parts. apply Forall_cons; [exact I|].
  do 6 (apply Forall_cons; [reflexivity|]). apply Forall_nil.
Qed.
Lemma fr_coherent : coherent fx_defaults (declarations fr_log).
Proof.
  intros p n n' _ H H'. cbn in H, H'.
  destruct H as [E|[E|[]]]; injection E as <- <-; destruct H' as [E|[E|[]]]; first [now injection E|discriminate (f_equal fst E)].
Qed.

Lemma fr_into_case : func_read (fun _ => COWL_OK) true 32 (initial_map fx_defaults) fr_text = FRet COWL_OK fr_log /\ List.length fr_log = 7%nat /\
  Forall2 stands_for fr_parts (map snd fr_log) /\ Forall (part_in_heap fr_heap) fr_parts /\
  exists dst, x_onto dst = o_empty true /\ new_map id_visit fx_defaults (x_pm dst).
Proof.
  split; [exact fr_read|]. split; [reflexivity|]. split; [exact fr_stand|]. split; [exact fr_in_heap|].
  destruct fx_new_map as [pm Hm]. exists (mkFull (o_empty true) pm []). split; [reflexivity|exact Hm].
Qed.
Lemma fr_short_case : func_read (fun _ => COWL_OK) true 32 (initial_map fx_defaults) fr_text = FRet COWL_OK fr_log /\
  declarations fr_log = [(bs "ex", bs "http://ex.org/1#")] /\ coherent fx_defaults (declarations fr_log) /\
  exists dst dst', Forall2 stands_for fr_parts (map snd fr_log) /\ new_map id_visit fx_defaults (x_pm dst) /\
    receives (change_apply id_visit 32 CHANGE_ADD) fr_parts dst (Some (dst', COWL_OK)).
Proof.
  split; [exact fr_read|]. split; [reflexivity|]. split; [exact fr_coherent|].
  destruct fx_new_map as [pm Hm]. exists (mkFull (o_empty true) pm []).
  destruct (read_into id_visit 32 true fx_defaults fr_text COWL_OK fr_log id_visit_perm fr_read fr_heap fr_parts (mkFull (o_empty true) pm []) fr_stand fr_in_heap
    eq_refl Hm) as (dst' & R & _).
  exists dst'. split; [exact fr_stand|]. split; [exact Hm|exact R].
Qed.

(** * Handlers *)

(** A handler that fails at its third call. *)
Definition fr_third (log : list dchange) : ret := if Nat.eqb (List.length log) 3 then (-9)%Z else COWL_OK.
Lemma fr_obeys_case : exists a x, fr_third (a ++ [x]) = (-9)%Z /\
  func_read fr_third true 32 (initial_map []) fr_text = FRet ERR_SYNTAX (a ++ [x]) /\ List.length a = 2%nat.
Proof.
  exists (firstn 2 fr_log), (nth 2 fr_log (CHANGE_ADD, DPrefix [] [])). repeat split; vm_compute; reflexivity.
Qed.

(** * Counterexamples *)

(** Applying changes one after another. *)
Fixpoint fr_apply (ps : list part) (x : full) : option full :=
  match ps with
  | [] => Some x
  | p :: l => match change_apply id_visit 32 CHANGE_ADD p x with
              | Some (x', r) => if (r =? COWL_OK)%Z then fr_apply l x' else None
              | None => None
              end
  end.
Lemma fr_apply_receives ps : forall x y, fr_apply ps x = Some y -> receives (change_apply id_visit 32 CHANGE_ADD) ps x (Some (y, COWL_OK)).
Proof.
  induction ps as [|p l IH]; intros x y H; cbn [fr_apply] in H; [injection H as ->; constructor|].
  destruct (change_apply id_visit 32 CHANGE_ADD p x) as [[x' r]|] eqn:E; [|discriminate].
  destruct (r =? COWL_OK)%Z eqn:Er; [|discriminate]. apply Z.eqb_eq in Er. subst r. eapply rcv_next; [exact E|]. now apply IH.
Qed.
Lemma fr_apply_short ps x s v : option_map (fun y => pm_parse_short_iri (x_pm y) s) (fr_apply ps x) = Some v ->
  exists y, receives (change_apply id_visit 32 CHANGE_ADD) ps x (Some (y, COWL_OK)) /\ pm_parse_short_iri (x_pm y) s = v.
Proof.
  destruct (fr_apply ps x) as [y|] eqn:E; cbn; [|discriminate]. intros H. injection H as <-. exists y. split; [now apply fr_apply_receives|reflexivity].
Qed.
Definition fr_new (ops : list pop) : full := mkFull (o_empty true) (ex_map ops) [].

(** The same prefix declared twice: the reader uses the first declaration, the ontology keeps the second. *)
Definition fr_ax (n : bytes) : ref := mkRef 9 (mk_annot OT_A_DECL [OEnt ET_CLASS n (bs "C")] None).
Lemma fr_differ : bs "http://x/1#" <> bs "http://x/2#".
Proof. discriminate. Qed.
Lemma fr_twice : fx_read (bs "Prefix(a:=<http://x/1#>) Prefix(a:=<http://x/2#>) Ontology(Declaration(Class(a:C)))") =
  FRet COWL_OK [(CHANGE_ADD, DPrefix (bs "a") (bs "http://x/1#")); (CHANGE_ADD, DPrefix (bs "a") (bs "http://x/2#"));
                (CHANGE_ADD, DAxiom (fx_decl "http://x/1#" "C"))].
Proof. vm_compute. reflexivity. Qed.
Lemma fr_twice_map : exists ps dst', Forall2 stands_for ps [DPrefix (bs "a") (bs "http://x/1#"); DPrefix (bs "a") (bs "http://x/2#"); DAxiom (fx_decl "http://x/1#" "C")] /\
  receives (change_apply id_visit 32 CHANGE_ADD) ps (fr_new []) (Some (dst', COWL_OK)) /\
  pm_parse_short_iri (x_pm dst') (bs "a:C") = Some (Some (bs "http://x/2#", bs "C")).
Proof.
  exists [PPrefix (vstr 60 (bs "a")) (vstr 61 (bs "http://x/1#")); PPrefix (vstr 60 (bs "a")) (vstr 62 (bs "http://x/2#")); PAxiom (fr_ax (bs "http://x/1#"))].
  match goal with |- exists d, ?F /\ receives _ ?ps ?x _ /\ _ => destruct (fr_apply_short ps x (bs "a:C") (Some (Some (bs "http://x/2#", bs "C")))) as (y & R & E) end;
    [vm_compute; reflexivity|].
  exists y. split; [|split; [exact R|exact E]].
  apply Forall2_cons; [exact (sf_prefix (vstr 60 (bs "a")) (vstr 61 (bs "http://x/1#")))|].
  apply Forall2_cons; [exact (sf_prefix (vstr 60 (bs "a")) (vstr 62 (bs "http://x/2#")))|].
  apply Forall2_cons; [exact (sf_axiom (fr_ax (bs "http://x/1#")))|apply Forall2_nil].
Qed.
(** A prefix of the default map declared in the document. *)
Lemma fr_default : func_read (fun _ => COWL_OK) true 32 (initial_map [(bs "a", bs "http://x/2#")]) (bs "Prefix(a:=<http://x/1#>) Ontology(Declaration(Class(a:C)))") =
  FRet COWL_OK [(CHANGE_ADD, DPrefix (bs "a") (bs "http://x/1#")); (CHANGE_ADD, DAxiom (fx_decl "http://x/2#" "C"))].
Proof. vm_compute. reflexivity. Qed.
Definition fr_def : full := fr_new [PAdd (vstr 50 (bs "a")) (vstr 51 (bs "http://x/2#")) false].
Lemma fr_default_map : exists ps dst', Forall2 stands_for ps [DPrefix (bs "a") (bs "http://x/1#"); DAxiom (fx_decl "http://x/2#" "C")] /\
  receives (change_apply id_visit 32 CHANGE_ADD) ps fr_def (Some (dst', COWL_OK)) /\
  pm_parse_short_iri (x_pm dst') (bs "a:C") = Some (Some (bs "http://x/1#", bs "C")).
Proof.
  exists [PPrefix (vstr 60 (bs "a")) (vstr 61 (bs "http://x/1#")); PAxiom (fr_ax (bs "http://x/2#"))].
  match goal with |- exists d, ?F /\ receives _ ?ps ?x _ /\ _ => destruct (fr_apply_short ps x (bs "a:C") (Some (Some (bs "http://x/1#", bs "C")))) as (y & R & E) end;
    [vm_compute; reflexivity|].
  exists y. split; [|split; [exact R|exact E]].
  apply Forall2_cons; [exact (sf_prefix (vstr 60 (bs "a")) (vstr 61 (bs "http://x/1#")))|].
  apply Forall2_cons; [exact (sf_axiom (fr_ax (bs "http://x/2#")))|apply Forall2_nil].
Qed.

(** A literal of type rdf:PlainLiteral without a tag. *)
Lemma fr_plain : fx_read (bs "Ontology(AnnotationAssertion(rdfs:label rdfs:label " ++ [34; 118; 34] ++ bs "^^rdf:PlainLiteral))") = FCrash [].
Proof. vm_compute. reflexivity. Qed.

Lemma fr_nul : fx_read (bs "Ontology()" ++ [0] ++ bs "garbage") = FRet COWL_OK [] /\ fx_read (bs "Ontology()" ++ bs "garbage") = FRet ERR_SYNTAX [].
Proof. split; vm_compute; reflexivity. Qed.
Lemma fr_high : fx_read (bs "Ontology()" ++ [195; 169] ++ bs " garbage") = FRet COWL_OK [].
Proof. vm_compute. reflexivity. Qed.

(** The ontology IRI is rejected, the version is delivered anyway, and the code returned is not that of the handler. *)
Definition fr_all (log : list dchange) : ret := (-9)%Z.
Lemma fr_again : func_read fr_all true 32 (initial_map []) (bs "Ontology(<http://x/1#o> <http://x/1#v>)") =
  FRet ERR_SYNTAX [(CHANGE_ADD, DIri (OIri (bs "http://x/1#") (bs "o"))); (CHANGE_ADD, DVersion (OIri (bs "http://x/1#") (bs "v")))].
Proof. vm_compute. reflexivity. Qed.
Lemma fr_garbage : bs "garbage" <> [].
Proof. discriminate. Qed.
Lemma fr_twice_all : exists b n n' log ps dst', fx_read b = FRet COWL_OK log /\
  log = [(CHANGE_ADD, DPrefix (bs "a") n); (CHANGE_ADD, DPrefix (bs "a") n'); (CHANGE_ADD, DAxiom (mk_annot OT_A_DECL [OEnt ET_CLASS n (bs "C")] None))] /\
  Forall2 stands_for ps (map snd log) /\ receives (change_apply id_visit 32 CHANGE_ADD) ps (fr_new []) (Some (dst', COWL_OK)) /\
  pm_parse_short_iri (x_pm dst') (bs "a:C") = Some (Some (n', bs "C")) /\ n <> n'.
Proof.
  destruct fr_twice_map as (ps & dst' & F & R & E).
  eexists _, _, _, _, ps, dst'. split; [exact fr_twice|]. split; [reflexivity|]. split; [exact F|]. split; [exact R|]. split; [exact E|exact fr_differ].
Qed.
Lemma fr_default_all : exists b n n' log ps dst', func_read (fun _ => COWL_OK) true 32 (initial_map [(bs "a", n')]) b = FRet COWL_OK log /\
  log = [(CHANGE_ADD, DPrefix (bs "a") n); (CHANGE_ADD, DAxiom (mk_annot OT_A_DECL [OEnt ET_CLASS n' (bs "C")] None))] /\
  Forall2 stands_for ps (map snd log) /\ receives (change_apply id_visit 32 CHANGE_ADD) ps fr_def (Some (dst', COWL_OK)) /\
  pm_parse_short_iri (x_pm dst') (bs "a:C") = Some (Some (n, bs "C")) /\ n <> n'.
Proof.
  destruct fr_default_map as (ps & dst' & F & R & E).
  eexists _, _, _, _, ps, dst'. split; [exact fr_default|]. split; [reflexivity|]. split; [exact F|]. split; [exact R|]. split; [exact E|exact fr_differ].
Qed.
