(** Concrete cases for PropertiesFuncGrammar. *)

From Coq Require Import String NArith ZArith List Bool Lia.
From Verif Require Import Bytes ModelTypes ModelObject ModelText SpecObject SpecText ModelChange ModelPrtDecoder ModelFuncLex ModelFuncParser
  SpecFunc SpecFuncDoc SpecFuncGrammar ProofFuncGrammar ProofFuncDerive ProofFuncDocument ExamplesFunc ExamplesFuncRead.
Import ListNotations.
Local Open Scope N_scope.

(** An axiom with an annotation, a restriction and a cardinality. *)
Definition fg_map : pmap := [(bs "e", bs "http://ex.org/1#")].
Definition fg_text : bytes :=
  bs "SubClassOf(Annotation(e:p 'x'@en) e:C ObjectIntersectionOf(e:D ObjectMinCardinality(2 ObjectInverseOf(e:q) ObjectSomeValuesFrom(e:q e:D))))".
Definition fg_quoted : bytes := map (fun c => if c =? 39 then 34 else c) fg_text.
Definition fg_tokens : list token := Eval vm_compute in match lex 32 fg_quoted with Some ts => ts | None => [] end.
Definition fg_axiom : obj := Eval vm_compute in match parse_nt fg_map N_axiom fg_tokens with POk o _ => o | _ => OAnon [] end.
Lemma fg_lex : lex 32 fg_quoted = Some fg_tokens.
Proof. vm_compute. reflexivity. Qed.
Lemma fg_parse : parse_nt fg_map N_axiom (fg_tokens ++ [TRParen]) = POk fg_axiom [TRParen].
Proof. vm_compute. reflexivity. Qed.
Lemma fg_ok : Forall token_ok fg_tokens.
Proof. apply (lex_token_ok 32 fg_quoted). exact fg_lex. Qed.
Lemma fg_reads : reads fg_map SAxiom fg_tokens fg_axiom.
Proof. apply (parser_grammar fg_map SAxiom fg_tokens fg_axiom [TRParen]); [exact fg_ok|apply Forall_cons; [exact I|apply Forall_nil]|exact I|exact fg_parse]. Qed.
Lemma fg_case : Forall token_ok fg_tokens /\ List.length fg_tokens = 27%nat /\ Forall token_ok [TRParen] /\ calm [TRParen] /\ reads fg_map SAxiom fg_tokens fg_axiom.
Proof. split; [exact fg_ok|]. split; [reflexivity|]. split; [apply Forall_cons; [exact I|apply Forall_nil]|]. split; [exact I|exact fg_reads]. Qed.

(** An axiom that names a single individual as the same. *)
Definition fg_alone : list token := [TKw SAME_INDIVIDUAL; TLParen; TPnameLn (bs "e:a"); TRParen].
Lemma fg_not : ~ exists o, reads fg_map SAxiom fg_alone o.
Proof.
  intros [o H]. assert (E : parse_nt fg_map (nt_of SAxiom) (fg_alone ++ [TRParen]) = POk o [TRParen]).
  { apply parser_grammar; [|apply Forall_cons; [exact I|apply Forall_nil]|exact I|exact H].
    repeat (apply Forall_cons; [exact I|]). apply Forall_cons; [cbn; tauto|]. repeat (apply Forall_cons; [exact I|]). apply Forall_nil. }
  vm_compute in E. discriminate.
Qed.

(** A document. *)
Lemma fg_document : exists ts x ps, lex 32 fr_text = Some (ts ++ x) /\ document (initial_map fx_defaults) ts ps /\ ending true x /\
  fr_log = map (fun p => (CHANGE_ADD, p)) ps /\ List.length ps = 7%nat.
Proof.
  destruct (proj1 (reads_documents true 32 (initial_map fx_defaults) fr_text fr_log) fr_read) as (ts & x & ps & H1 & H2 & H3 & H4).
  exists ts, x, ps. repeat split; auto. apply (f_equal (@List.length _)) in H4. rewrite map_length in H4. rewrite <- H4. reflexivity.
Qed.
