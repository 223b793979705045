(** Concrete cases for PropertiesFuncLayout. *)

From Coq Require Import String NArith ZArith List Bool Lia.
From Verif Require Import Bytes ModelTypes ModelObject ModelText SpecText ModelChange ModelPrtDecoder ModelFuncLex ModelFuncParser SpecFunc SpecFuncTokens SpecFuncLayout
  ProofFuncTokens ProofFuncLayout ExamplesFunc.
Import ListNotations.
Local Open Scope N_scope.

Definition fl_tokens : list token :=
  [TKw PREFIX; TLParen; TPnameNs (bs "e"); TEquals; TIriRef (bs "http://e#"); TRParen; TKw ONTOLOGY; TLParen;
   TKw ANNOTATION; TLParen; TPnameLn (bs "e:p"); TQuoted (bs "a""#b"); TLang (bs "en"); TRParen;
   TKw DECLARATION; TLParen; TKw CLASS; TLParen; TPnameLn (bs "e:C"); TRParen; TRParen; TRParen].
(** As tight as it can be. *)
Definition fl_tight : bytes := bs "Prefix(e:=<http://e#>)Ontology(Annotation(e:p""a\""#b""@en)Declaration(Class(e:C)))".
(** With a comment on its own line, one after a name, and one at the end. *)
Definition fl_loose : bytes :=
  ([10; 9] ++ bs "Prefix" ++ (bs " " ++ bs "(" ++ (bs " " ++ bs "e:" ++ (bs " " ++ bs "=" ++ ([13; 10] ++ (60 :: bs "http://e#" ++ [62]) ++ (bs " " ++ bs ")" ++
  ((35 :: bs " ( ""<" ++ 10 :: bs " ") ++ bs "Ontology" ++ (bs " " ++ bs "(" ++
  (bs " " ++ bs "Annotation" ++ (bs " " ++ bs "(" ++ (bs " " ++ (bs "e" ++ 58 :: bs "p") ++
  (bs " " ++ 34 :: bs "a\""#b" ++ 34 :: (bs " " ++ (64 :: bs "en") ++ (bs " " ++ bs ")" ++
  (bs " " ++ bs "Declaration" ++ ((35 :: bs "c" ++ 10 :: []) ++ bs "(" ++ (bs " " ++ bs "Class" ++ (bs " " ++ bs "(" ++
  (bs " " ++ (bs "e" ++ 58 :: bs "C") ++ ((35 :: bs "c" ++ 10 :: []) ++ bs ")" ++ (bs " " ++ bs ")" ++ (bs " " ++ bs ")" ++
  ([10] ++ 35 :: bs " end") ))) )))) ))) ))) )) )))))))%list.

Lemma fl_blanks g : Forall blank g -> layout g.
Proof. intros H. induction H; [apply lay_none|apply lay_blank; assumption]. Qed.
Ltac fl_layout := first
  [ apply fl_blanks; repeat constructor; vm_compute; solve [auto 9]
  | apply (lay_comment (bs " ( ""<") (bs " ")); [vm_compute; intuition discriminate|apply fl_blanks; repeat constructor; vm_compute; solve [auto 9]]
  | apply (lay_comment (bs "c") []); [vm_compute; intuition discriminate|exact lay_none] ].
Ltac fl_apart := first
  [ left; right; eexists; eexists; split; [reflexivity|]; first [left; unfold blank; vm_compute; solve [auto 9] | right; vm_compute; solve [auto 9]]
  | right; first [exists [], 40 | exists [], 41 | exists [], 61 | exists (60 :: bs "http://e#"), 62]; split; [reflexivity|cbn; solve [auto 9]] ].
Lemma fl_e : prefix_name (bs "e").
Proof. right. exists 101, []. split; [reflexivity|]. split; [left; unfold letter; lia|]. split; [constructor|]. intros [|a [|b u]] E; discriminate E. Qed.
Lemma fl_local c : letter c -> local_name [c].
Proof. intros H. exists c, []. split; [reflexivity|]. split; [auto|]. split; [constructor|]. intros [|a [|b u]] E; [injection E as ->; unfold letter in H; lia| |]; discriminate E. Qed.
Lemma fl_en : tag (bs "en").
Proof.
  exists (bs "en"), []. split; [reflexivity|]. split; [discriminate|]. split; [|constructor].
  apply (Forall_cons 101); [unfold letter; lia|]. apply (Forall_cons 110); [unfold letter; lia|constructor].
Qed.
Ltac fl_lexeme := first
  [ exact (lx_lparen 32) | exact (lx_rparen 32) | exact (lx_equals 32)
  | exact (lx_word 32 PREFIX) | exact (lx_word 32 ONTOLOGY) | exact (lx_word 32 ANNOTATION) | exact (lx_word 32 DECLARATION) | exact (lx_word 32 CLASS)
  | exact (lx_prefix 32 (bs "e") fl_e)
  | apply (lx_iri 32 (bs "http://e#")); repeat constructor; unfold iri_char; cbn; intuition lia
  | apply (lx_short 32 (bs "e") (bs "p") fl_e); apply (fl_local 112); unfold letter; lia
  | apply (lx_short 32 (bs "e") (bs "C") fl_e); apply (fl_local 67); unfold letter; lia
  | exact (lx_tag 32 (bs "en") fl_en) ].
Lemma fl_laid : laid 32 fl_tokens fl_loose.
Proof.
  unfold fl_tokens, fl_loose.
  do 11 (apply laid_token; [fl_layout|fl_lexeme|fl_apart|]).
  apply laid_string; [fl_layout| |].
  { apply esc_plain; [discriminate|discriminate|]. apply esc_special; [auto|]. apply esc_plain; [discriminate|discriminate|]. apply esc_plain; [discriminate|discriminate|]. apply esc_none. }
  do 10 (apply laid_token; [fl_layout|fl_lexeme|fl_apart|]).
  apply laid_last; [fl_layout|cbn; intuition discriminate].
Qed.
Lemma fl_read : func_read (fun _ => COWL_OK) true 32 (initial_map fx_defaults) fl_tight = func_read (fun _ => COWL_OK) true 32 (initial_map fx_defaults) fl_loose /\
  match func_read (fun _ => COWL_OK) true 32 (initial_map fx_defaults) fl_loose with FRet r log => r = COWL_OK /\ List.length log = 3%nat | _ => False end.
Proof. vm_compute. auto. Qed.

Theorem laid_read h signed w m ts b b' : laid w ts b -> laid w ts b' -> func_read h signed w m b = func_read h signed w m b'.
Proof. intros H H'. unfold func_read. rewrite (laid_lex w ts b H), (laid_lex w ts b' H'). reflexivity. Qed.

(** A comment that ends with a carriage return. *)
Lemma cr_lost : exists a s b, ~ In 10 s /\ ~ In 13 s /\
  (exists log, func_read (fun _ => COWL_OK) true 32 (initial_map fx_defaults) (a ++ 35 :: s ++ 10 :: b) = FRet COWL_OK log) /\
  (exists log, func_read (fun _ => COWL_OK) true 32 (initial_map fx_defaults) (a ++ 35 :: s ++ 13 :: b) = FRet ERR_SYNTAX log).
Proof.
  exists (bs "Ontology("), (bs "c"), (bs ")"). split; [vm_compute; intuition discriminate|]. split; [vm_compute; intuition discriminate|].
  split; eexists; vm_compute; reflexivity.
Qed.
