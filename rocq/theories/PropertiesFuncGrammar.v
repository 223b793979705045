(** C63: the functional parser against the grammar of OWL 2. Statements use the models for the lexer and the parser, and
    SpecFuncGrammar.v for the grammar, which does not mention the parser. Texts, tokens, prefixes, the signedness of char
    and the width of ulib_uint are arbitrary. *)

From Coq Require Import String NArith ZArith List Bool.
From Verif Require Import Bytes ModelTypes ModelObject SpecObject ModelText SpecText ModelChange ModelPrtDecoder ModelFuncLex ModelFuncParser SpecFunc SpecFuncDoc
  SpecFuncGrammar.
From Verif Require Import ProofFuncGrammar ProofFuncDerive ProofFuncDocument ExamplesFunc ExamplesFuncRead ExamplesFuncGrammar.
Import ListNotations.
Local Open Scope N_scope.

(** ** C63 *)

(** The parser reads an object of any category off a sequence of tokens, and stops there, exactly when the grammar
    derives it. *)
Theorem C63_parser : forall m i ts o rest, Forall token_ok ts -> Forall token_ok rest -> calm rest ->
  (parse_nt m (nt_of i) (ts ++ rest) = POk o rest <-> reads m i ts o).
Proof. exact parser_grammar. Qed.
Print Assumptions C63_parser.

Example C63_parser_case : Forall token_ok fg_tokens /\ List.length fg_tokens = 27%nat /\ Forall token_ok [TRParen] /\ calm [TRParen] /\
  reads fg_map SAxiom fg_tokens fg_axiom.
Proof. exact fg_case. Qed.
(** The grammar rejects, too. *)
Example C63_parser_not : ~ exists o, reads fg_map SAxiom [TKw SAME_INDIVIDUAL; TLParen; TPnameLn (bs "e:a"); TRParen] o.
Proof. exact fg_not. Qed.

(** The conditions on tokens hold of every text. *)
Theorem C63_tokens : forall w b ts, lex w b = Some ts -> Forall token_ok ts.
Proof. exact lex_token_ok. Qed.
Print Assumptions C63_tokens.

Example C63_tokens_case : lex 32 fg_quoted = Some fg_tokens.
Proof. exact fg_lex. Qed.

(** A sequence of tokens stands for at most one construct of a category. *)
Theorem C63_unambiguous : forall m i ts o o', reads m i ts o -> reads m i ts o' -> o = o'.
Proof. exact grammar_unambiguous. Qed.
Print Assumptions C63_unambiguous.

Example C63_unambiguous_case : reads fg_map SAxiom fg_tokens fg_axiom.
Proof. exact fg_reads. Qed.

(** Reading a text succeeds, with a handler that accepts every change, exactly when the text is a document of the
    grammar, and then the changes are the parts of the document in their order. *)
Theorem C63_document : forall signed w m b log, func_read (fun _ => COWL_OK) signed w m b = FRet COWL_OK log <->
  exists ts x ps, lex w b = Some (ts ++ x) /\ document m ts ps /\ ending signed x /\ log = map (fun p => (CHANGE_ADD, p)) ps.
Proof. exact reads_documents. Qed.
Print Assumptions C63_document.

Example C63_document_case : exists ts x ps, lex 32 fr_text = Some (ts ++ x) /\ document (initial_map fx_defaults) ts ps /\ ending true x /\
  fr_log = map (fun p => (CHANGE_ADD, p)) ps /\ List.length ps = 7%nat.
Proof. exact fg_document. Qed.
