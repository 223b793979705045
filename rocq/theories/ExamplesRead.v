(** Concrete cases for PropertiesRead.v. *)

From Coq Require Import String.
From Coq Require Import NArith List Bool Arith Lia Permutation.
From Verif Require Import Bytes ModelTypes ModelObject ModelHeader SpecHeader ModelText ModelHeap SpecHeap SpecIsolate.
From Verif Require Import ModelReadRules ModelReadOwn SpecRead ExamplesIsolate.
From Verif Require ProofHeap ExamplesHeap.
Import ListNotations.
Local Open Scope N_scope.

(** * Running a program *)

Definition expectedb (e : env) (s : state) (k : call) : bool :=
  forallb (fun x => ref_of false (snd x) + N.of_nat (size k) + 8 <=? max_refs false) (s_heap s) &&
  match k with KLiteral _ (Some d) => negb (d =? e_lang_string e) && negb (d =? e_plain_literal e) | _ => true end.
Lemma expectedb_ok e s k : expectedb e s k = true -> expected false e s k.
Proof.
  unfold expectedb. rewrite andb_true_iff, forallb_forall. intros [F L]. split.
  - intros a c E. apply ProofHeap.lookup_in in E. specialize (F (a, c) E). now apply N.leb_le in F.
  - destruct k; try exact I. destruct dt_or_lang as [d|]; [|exact I]. apply andb_true_iff in L. destruct L as [L1 L2].
    apply negb_true_iff, N.eqb_neq in L1, L2. intros [->| ->]; contradiction.
Qed.

(** [left]: the alternative taken; [handler]: the calls made for the objects passed, given the references of the program. *)
Fixpoint interp {A} (left : bool) (fineb : state -> call -> bool) (e : env) (lib : list N) (handler : list N -> list (list N -> call))
  (p : prog A) (s : state) (out : list N) : option (option (A * state * list N)) :=
  match p with
  | Ret x => Some (Some (x, s, out))
  | Stuck => Some None
  | Never => None
  | Do k c => if fineb s k then match exec false next e k s with Ok r s' => interp left fineb e lib handler (c r) s' out | Err _ => Some None end else None
  | Intern a c =>
      if fineb s (KIntern a) then
        match string_intern false e (Some a) s with
        | Ok (Some m) s' => interp left fineb e lib handler (c m) s' out
        | _ => None
        end
      else None
  | Look c => interp left fineb e lib handler (c s) s out
  | Hand passed rest c =>
      match job e (lib ++ passed) rest (handler passed) s out with
      | Some (s', out') => interp left fineb e lib handler c s' out'
      | None => None
      end
  | Choose c d => if left then interp left fineb e lib handler c s out else interp left fineb e lib handler d s out
  end.
Lemma interp_ok {A} left fineb (fine : state -> call -> Prop) e lib handler (p : prog A) : (forall s k, fineb s k = true -> fine s k) ->
  forall s out o, interp left fineb e lib handler p s out = Some o -> runs false next e fine (client false next e lib) p s out o.
Proof.
  intros F. induction p as [x| | |k c IH|a c IH|c IH|l r c IH|c IHc d IHd]; intros s out o E; cbn [interp] in E.
  - injection E as <-. constructor.
  - injection E as <-. constructor.
  - discriminate E.
  - destruct (fineb s k) eqn:B; [|discriminate E]. destruct (exec false next e k s) as [r s'|x] eqn:X.
    + eapply r_do; eauto.
    + injection E as <-. eapply r_do_err; eauto.
  - destruct (fineb s (KIntern a)) eqn:B; [|discriminate E]. destruct (string_intern false e (Some a) s) as [[m|] s'|x] eqn:X; try discriminate E.
    eapply r_intern; eauto. cbn. eauto.
  - apply r_look. auto.
  - destruct (job e (lib ++ l) r (handler l) s out) as [[s' out']|] eqn:J; [|discriminate E]. eapply r_hand; [apply (job_ok e (lib ++ l) r _ _ _ _ _ J)|auto].
  - destruct left; [apply r_left|apply r_right]; auto.
Qed.

(** * Documents *)

(** The number of a rule. *)
Fixpoint find (l : list rule) (lhs : string) (rhs : list string) (n : nat) : nat :=
  match l with
  | [] => n
  | (x, r, _) :: l' => if String.eqb x lhs && (if list_eq_dec string_dec r rhs then true else false) then n else find l' lhs rhs (S n)
  end.
Definition red (lhs : string) (rhs : list string) : move := Reduce (find rules lhs rhs 0).
Definition key (x : string) : move := Shift x VNone.
Local Open Scope string_scope.
Definition name (t : string) : list move := [Shift "PNAME_LN" (VText (bs t)); red "abbreviated_iri" ["PNAME_LN"]; red "iri" ["abbreviated_iri"]].
Definition full (t : string) : list move := [Shift "IRI_REF" (VText (bs t)); red "full_iri" ["IRI_REF"]; red "iri" ["full_iri"]].
Definition class (t : string) : list move := (name t ++ [red "class" ["iri"]; red "class_expression" ["class"]])%list.
Definition prefix (p n : string) : list move :=
  [key "PREFIX"; key "L_PAREN"; Shift "PNAME_NS" (VText (bs p)); red "prefix" ["PNAME_NS"]; key "EQUALS";
   Shift "IRI_REF" (VText (bs n)); red "namespace" ["IRI_REF"]; key "R_PAREN";
   red "prefix_declaration" ["PREFIX"; "L_PAREN"; "prefix"; "EQUALS"; "namespace"; "R_PAREN"];
   red "prefix_declarations" ["prefix_declarations"; "prefix_declaration"]].
Definition begin : list move :=
  ([red "prefix_declarations" []] ++ prefix "ex" "http://e.org/" ++ [key "ONTOLOGY"; key "L_PAREN"] ++ full "http://e.org/o" ++
   [red "ontology_id" ["iri"]; red "imports_and_annotations" []; red "axioms" []])%list.
Definition note : list move :=
  ([key "ANNOTATION"; key "L_PAREN"; red "annotation_star" []] ++ name "rdfs:comment" ++
   [red "annotation_property" ["iri"]; Shift "QUOTED_STRING" (VBuf (bs "hi")); red "quoted_string" ["QUOTED_STRING"];
    Shift "LANG_TAG" (VText (bs "en")); red "lang_tag" ["LANG_TAG"]; red "literal" ["quoted_string"; "lang_tag"];
    red "annotation_value" ["literal"]; key "R_PAREN";
    red "annotation" ["ANNOTATION"; "L_PAREN"; "annotation_star"; "annotation_property"; "annotation_value"; "R_PAREN"]])%list.
Definition both (a b : string) : list move :=
  ([key "OBJECT_INTERSECTION_OF"; key "L_PAREN"] ++ class a ++ [red "class_expression_list" ["class_expression"]] ++ class b ++
   [red "class_expression_2_list" ["class_expression_list"; "class_expression"]; key "R_PAREN";
    red "object_intersection_of" ["OBJECT_INTERSECTION_OF"; "L_PAREN"; "class_expression_2_list"; "R_PAREN"];
    red "class_expression" ["object_intersection_of"]])%list.
(** SubClassOf(Annotation(rdfs:comment "hi"@en) ObjectIntersectionOf(ex:A ex:B) ... *)
Definition half : list move :=
  ([key "SUB_CLASS_OF"; key "L_PAREN"; red "annotation_star" []] ++ note ++ [red "annotation_star" ["annotation_star"; "annotation"]] ++ both "ex:A" "ex:B")%list.
(** ... ex:C) *)
Definition sub_class : list move :=
  (half ++ class "ex:C" ++
   [key "R_PAREN"; red "sub_class_of" ["SUB_CLASS_OF"; "L_PAREN"; "annotation_star"; "class_expression"; "class_expression"; "R_PAREN"];
    red "class_axiom" ["sub_class_of"]; red "axiom" ["class_axiom"]; red "axioms" ["axioms"; "axiom"]])%list.
Definition finished : list move :=
  [key "R_PAREN"; red "ontology" ["ONTOLOGY"; "L_PAREN"; "ontology_id"; "imports_and_annotations"; "axioms"; "R_PAREN"];
   red "ontology_document" ["prefix_declarations"; "ontology"]].
Definition document : list move := (begin ++ sub_class ++ finished)%list.
(** The document ends after the first class expression. *)
Definition cut : list move := (begin ++ half)%list.
(** A quoted string where none is expected. *)
Definition stray : list move := (begin ++ [Shift "QUOTED_STRING" (VBuf (bs "hi"))])%list.
(** DataPropertyAssertion(... "x"^^rdf:langString *)
Definition untagged : list move :=
  (begin ++ [Shift "QUOTED_STRING" (VBuf (bs "x")); red "quoted_string" ["QUOTED_STRING"]; key "DOUBLE_CARET"] ++ name "rdf:langString" ++
   [red "datatype" ["iri"]; red "literal" ["quoted_string"; "DOUBLE_CARET"; "datatype"]])%list.
Local Close Scope string_scope.

(** The handler retains what it is given. *)
Definition keep (passed : list N) : list (list N -> call) := map (fun a _ => KRetain a) passed.

Definition start : res (env * list vocab) := lib_init false next s_zero.
Lemma start_ok (P : env -> list vocab -> list N -> state -> bool) :
  (match start with Ok (e, vs) s => P e vs (library e vs s) s | Err _ => false end) = true ->
  exists e vs lib s, history false next e vs lib s [] /\ P e vs lib s = true.
Proof.
  unfold start. remember (lib_init false next s_zero) as i eqn:E. destruct i as [[e vs] s|]; [|discriminate]. intros H.
  exists e, vs, (library e vs s), s. split; [constructor; auto|exact H].
Qed.

Lemma document_example : exists e vs lib s s' out',
  sound false next e vs lib s [] /\ global_map false lib s [] [] /\
  reads false next e vs lib [] document s [] (Some (0, s', out')) /\ List.length out' = 4%nat /\ s_heap s' <> s_heap s.
Proof.
  destruct (start_ok (fun e vs lib s =>
    match interp true (expectedb e) e lib keep (read_document vs [] document) s [] with
    | Some (Some (0, s', out')) => Nat.eqb (List.length out') 4 && negb (Nat.eqb (List.length (s_heap s')) (List.length (s_heap s)))
    | _ => false
    end)) as (e & vs & lib & s & H & P); [vm_compute; reflexivity|].
  destruct (interp true (expectedb e) e lib keep (read_document vs [] document) s []) as [[[[[|b] s'] out']|]|] eqn:R; try discriminate P.
  apply andb_true_iff in P. destruct P as [P1 P2]. exists e, vs, lib, s, s', out'.
  split; [exists []; auto|]. split; [constructor|]. split; [exact (interp_ok true _ _ e lib keep _ (expectedb_ok e) s [] _ R)|].
  split; [now apply Nat.eqb_eq|]. intros E. rewrite E, Nat.eqb_refl in P2. discriminate P2.
Qed.
Lemma cut_example : exists e vs lib s s' out',
  sound false next e vs lib s [] /\ reads false next e vs lib [] cut s [] (Some (0, s', out')) /\ List.length out' = 3%nat /\
  List.length (s_heap s') = (4 + List.length (s_heap s))%nat.
Proof.
  destruct (start_ok (fun e vs lib s =>
    match interp true (expectedb e) e lib keep (read_document vs [] cut) s [] with
    | Some (Some (0, s', out')) => Nat.eqb (List.length out') 3 && Nat.eqb (List.length (s_heap s')) (4 + List.length (s_heap s))
    | _ => false
    end)) as (e & vs & lib & s & H & P); [vm_compute; reflexivity|].
  destruct (interp true (expectedb e) e lib keep (read_document vs [] cut) s []) as [[[[[|b] s'] out']|]|] eqn:R; try discriminate P.
  apply andb_true_iff in P. destruct P as [P1 P2]. exists e, vs, lib, s, s', out'.
  split; [exists []; auto|]. split; [exact (interp_ok true _ _ e lib keep _ (expectedb_ok e) s [] _ R)|].
  split; now apply Nat.eqb_eq.
Qed.
Lemma stray_example : exists e vs lib s b s' out',
  sound false next e vs lib s [] /\ reads false next e vs lib [] stray s [] (Some (b, s', out')) /\ b = 1.
Proof.
  destruct (start_ok (fun e vs lib s =>
    match interp true (expectedb e) e lib keep (read_document vs [] stray) s [] with Some (Some (b, _, _)) => b =? 1 | _ => false end))
    as (e & vs & lib & s & H & P); [vm_compute; reflexivity|].
  destruct (interp true (expectedb e) e lib keep (read_document vs [] stray) s []) as [[[[b s'] out']|]|] eqn:R; try discriminate P.
  exists e, vs, lib, s, b, s', out'. split; [exists []; auto|]. split; [exact (interp_ok true _ _ e lib keep _ (expectedb_ok e) s [] _ R)|]. now apply N.eqb_eq.
Qed.
Lemma untagged_example : exists e vs lib s,
  sound false next e vs lib s [] /\ runs false next e (fun _ _ => True) (client false next e lib) (read_document vs [] untagged) s [] None.
Proof.
  destruct (start_ok (fun e vs lib s =>
    match interp true (fun _ _ => true) e lib keep (read_document vs [] untagged) s [] with Some None => true | _ => false end))
    as (e & vs & lib & s & H & P); [vm_compute; reflexivity|].
  destruct (interp true (fun _ _ => true) e lib keep (read_document vs [] untagged) s []) as [[x|]|] eqn:R; try discriminate P.
  exists e, vs, lib, s. split; [exists []; auto|]. exact (interp_ok true _ _ e lib keep _ (fun _ _ _ => I) s [] _ R).
Qed.
