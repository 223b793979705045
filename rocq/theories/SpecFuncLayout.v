(** Texts in functional syntax laid out in any way: their tokens, with white space and comments between them. *)

From Coq Require Import NArith List.
From Verif Require Import Bytes ModelFuncLex SpecFunc SpecFuncTokens.
Import ListNotations.
Local Open Scope N_scope.

(** White space and whole comments, in any order and number. *)
Inductive layout : bytes -> Prop :=
| lay_none : layout []
| lay_blank c g : blank c -> layout g -> layout (c :: g)
| lay_comment s g : ~ In 10 s -> layout g -> layout (35 :: s ++ 10 :: g).

(** [escapes s e]: [e] is the string [s] with a backslash before each quotation mark and each backslash. *)
Inductive escapes : bytes -> bytes -> Prop :=
| esc_none : escapes [] []
| esc_plain c s e : c <> 34 -> c <> 92 -> escapes s e -> escapes (c :: s) (c :: e)
| esc_special c s e : c = 34 \/ c = 92 -> escapes s e -> escapes (c :: s) (92 :: c :: e).

(** Layout between the token written [x] and what follows may be left out if one of them is a bracket, an equals sign,
    a quoted string, or an IRI between angle brackets, or if [x] is the sign of a typed literal; a comment may follow
    immediately too. *)
Definition apart (x b : bytes) : Prop :=
  (b = [] \/ exists c r, b = c :: r /\ (blank c \/ In c [35; 40; 41; 61; 34; 60])) \/
  (exists u c, x = u ++ [c] /\ In c [40; 41; 61; 62; 94]).

(** [laid w ts b]: [b] writes the tokens [ts] one after the other. The last line may be a comment. *)
Inductive laid (w : N) : list token -> bytes -> Prop :=
| laid_end g : layout g -> laid w [] g
| laid_last g s : layout g -> ~ In 10 s -> laid w [] (g ++ 35 :: s)
| laid_token g x t ts b : layout g -> lexeme w x (Some t) -> apart x b -> laid w ts b -> laid w (t :: ts) (g ++ x ++ b)
| laid_string g s e ts b : layout g -> escapes s e -> laid w ts b -> laid w (TQuoted s :: ts) (g ++ 34 :: e ++ 34 :: b).
