(** Concrete cases for PropertiesFuncTokens. *)

From Coq Require Import String NArith ZArith List Bool Lia.
From Verif Require Import Bytes ModelTypes ModelObject ModelText SpecText ModelChange ModelPrtDecoder ModelFuncLex ModelFuncParser
  SpecFunc SpecFuncDoc SpecFuncGrammar SpecFuncTokens ProofFuncTokens ProofFuncDocument ExamplesFunc ExamplesFuncRead ExamplesFuncGrammar.
Import ListNotations.
Local Open Scope N_scope.

(** A comment, words that start alike, a string with escapes, a tag, a node, a number, and bytes that start no token. *)
Definition ft_text : bytes :=
  bs "# (" ++ [10] ++ bs "DataPropertyDomain ClassX a:b. :c x: _:y " ++ [34; 97; 92; 34; 92; 92; 92; 110; 34] ++ bs "@en-GB ^^<http://e> 042".
Definition ft_tokens : list token :=
  [TKw DATA_PROPERTY_DOMAIN; TKw CLASS; TChar 88; TPnameLn (bs "a:b"); TChar 46; TPnameLn (bs ":c"); TPnameNs (bs "x"); TBlank (bs "y"); TChar 92;
   TQuoted [97; 34; 92; 110]; TLang (bs "en-GB"); TCaret; TIriRef (bs "http://e"); TInt 42].
Lemma ft_lex : lex 32 ft_text = Some ft_tokens.
Proof. vm_compute. reflexivity. Qed.
Lemma ft_cut : cut 32 None ft_text ft_tokens.
Proof. apply lex_cut. exact ft_lex. Qed.

Theorem text_documents signed w m b log : func_read (fun _ => COWL_OK) signed w m b = FRet COWL_OK log <->
  exists ts x ps, cut w None b (ts ++ x) /\ document m ts ps /\ ending signed x /\ log = map (fun p => (CHANGE_ADD, p)) ps.
Proof.
  rewrite (reads_documents signed w m b log). split; intros (ts & x & ps & H1 & H2); exists ts, x, ps; (split; [apply lex_cut; exact H1|exact H2]).
Qed.
Theorem cut_exists w b : exists ts, cut w None b ts.
Proof. exact (cut_L w _ None b (le_n _)). Qed.
Theorem cut_unique w b ts ts' : cut w None b ts -> cut w None b ts' -> ts = ts'.
Proof. intros H H'. apply lex_cut in H. apply lex_cut in H'. congruence. Qed.

Lemma ft_document : exists ts x ps, cut 32 None fr_text (ts ++ x) /\ document (initial_map fx_defaults) ts ps /\ ending true x /\
  fr_log = map (fun p => (CHANGE_ADD, p)) ps /\ List.length ps = 7%nat.
Proof.
  destruct fg_document as (ts & x & ps & H1 & H2 & H3 & H4 & H5). exists ts, x, ps. split; [apply lex_cut; exact H1|]. auto.
Qed.
