(** C72: white space and comments in texts in functional syntax. Statements use the models for the lexer and the parser,
    SpecFuncTokens.v for what a token is, SpecFuncLayout.v for texts laid out in any way. Texts, prefixes, the answers of
    the handler, the signedness of char and the width of ulib_uint are arbitrary. *)

From Coq Require Import String NArith ZArith List Bool.
From Verif Require Import Bytes ModelTypes ModelObject ModelText SpecText ModelChange ModelPrtDecoder ModelFuncLex ModelFuncParser SpecFunc SpecFuncTokens SpecFuncLayout.
From Verif Require Import ProofFuncLayout ExamplesFunc ExamplesFuncLayout.
Import ListNotations.
Local Open Scope N_scope.

(** ** C72 *)

(** However tokens are laid out, they are the tokens found. Missing from the full claim: comments that end with a
    carriage return alone, which the specification of OWL allows: see [C72_carriage_return_refuted]. *)
Theorem C72_tokens_partial : forall w ts b, laid w ts b -> lex w b = Some ts.
Proof. exact laid_lex. Qed.
Print Assumptions C72_tokens_partial.

Example C72_tokens_case : laid 32 fl_tokens fl_loose.
Proof. exact fl_laid. Qed.

(** So all texts with the same tokens are read alike: the same result and the same changes, whatever the handler
    answers. *)
Theorem C72_read_partial : forall h signed w m ts b b', laid w ts b -> laid w ts b' ->
  func_read h signed w m b = func_read h signed w m b'.
Proof. exact laid_read. Qed.
Print Assumptions C72_read_partial.

Example C72_read_case : func_read (fun _ => COWL_OK) true 32 (initial_map fx_defaults) fl_tight = func_read (fun _ => COWL_OK) true 32 (initial_map fx_defaults) fl_loose /\
  match func_read (fun _ => COWL_OK) true 32 (initial_map fx_defaults) fl_loose with FRet r log => r = COWL_OK /\ List.length log = 3%nat | _ => False end.
Proof. exact fl_read. Qed.

(** A comment that ends with a carriage return swallows what follows. *)
Theorem C72_carriage_return_refuted : exists a s b, ~ In 10 s /\ ~ In 13 s /\
  (exists log, func_read (fun _ => COWL_OK) true 32 (initial_map fx_defaults) (a ++ 35 :: s ++ 10 :: b) = FRet COWL_OK log) /\
  (exists log, func_read (fun _ => COWL_OK) true 32 (initial_map fx_defaults) (a ++ 35 :: s ++ 13 :: b) = FRet ERR_SYNTAX log).
Proof. exact cr_lost. Qed.
Print Assumptions C72_carriage_return_refuted.
