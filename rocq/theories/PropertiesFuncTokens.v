(** C64: the tokens of a text in functional syntax. Statements use the models for the lexer and the parser, SpecFuncTokens.v for
    what a token is and how a text is cut into tokens, SpecFuncGrammar.v for the grammar. Texts, prefixes, the signedness
    of char and the width of ulib_uint are arbitrary. *)

From Coq Require Import String NArith ZArith List Bool.
From Verif Require Import Bytes ModelTypes ModelObject ModelText SpecText ModelChange ModelPrtDecoder ModelFuncLex ModelFuncParser SpecFunc SpecFuncDoc
  SpecFuncGrammar SpecFuncTokens.
From Verif Require Import ProofFuncTokens ExamplesFunc ExamplesFuncRead ExamplesFuncTokens.
Import ListNotations.
Local Open Scope N_scope.

(** ** C64 *)

(** The lexer cuts every text as the specification says. *)
Theorem C64_lexer : forall w b ts, lex w b = Some ts <-> cut w None b ts.
Proof. exact lex_cut. Qed.
Print Assumptions C64_lexer.

Example C64_lexer_case : cut 32 None ft_text ft_tokens.
Proof. exact ft_cut. Qed.

(** There is exactly one way to cut a text. *)
Theorem C64_exists : forall w b, exists ts, cut w None b ts.
Proof. exact cut_exists. Qed.
Print Assumptions C64_exists.
Theorem C64_unique : forall w b ts ts', cut w None b ts -> cut w None b ts' -> ts = ts'.
Proof. exact cut_unique. Qed.
Print Assumptions C64_unique.

Example C64_unique_case : cut 32 None ft_text ft_tokens.
Proof. exact ft_cut. Qed.

(** From bytes to changes: with C63, reading succeeds exactly on the texts whose tokens are a document. *)
Theorem C64_document : forall signed w m b log, func_read (fun _ => COWL_OK) signed w m b = FRet COWL_OK log <->
  exists ts x ps, cut w None b (ts ++ x) /\ document m ts ps /\ ending signed x /\ log = map (fun p => (CHANGE_ADD, p)) ps.
Proof. exact text_documents. Qed.
Print Assumptions C64_document.

Example C64_document_case : exists ts x ps, cut 32 None fr_text (ts ++ x) /\ document (initial_map fx_defaults) ts ps /\ ending true x /\
  fr_log = map (fun p => (CHANGE_ADD, p)) ps /\ List.length ps = 7%nat.
Proof. exact ft_document. Qed.
