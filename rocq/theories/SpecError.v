(** What the last error of a reader should say, and what it has to do with the errors met while reading. *)

From Coq Require Import NArith ZArith List Bool.
From Verif Require Import Bytes ModelText SpecText ModelError.
Import ListNotations.
Local Open Scope Z_scope.

(** The text of the message, if there is one. *)
Definition message (e : cerror) : option bytes := option_map snd (e_msg e).

(** After a reading that returned [ret]: if it failed, the error has the code returned; if not, there is no error, or
    at least one that is none: without error code, message or location. *)
Definition tells (ret : Z) (last : option cerror) : Prop :=
  if ret <? 0 then exists e, last = Some e /\ e_code e = ret
  else last = None \/
       exists e, last = Some e /\ 0 <= e_code e /\ message e = None /\ e_line e = 0%N /\ e_col e = 0%N /\ e_byte e = 0%N.

(** Readings one after the other with the same reader: the codes returned and the reader after them; None is undefined
    behaviour. *)
Inductive readings {A} (read : A -> reader -> option (Z * reader)) : list A -> reader -> list Z -> reader -> Prop :=
| no_readings r : readings read [] r [] r
| another_reading x h r c r1 cs r2 :
    read x r = Some (c, r1) -> readings read h r1 cs r2 -> readings read (x :: h) r (c :: cs) r2.

(** Steps of the functional reader with errors that it reports as it should: unknown prefixes, syntax errors and
    memory, the latter with a recent Bison. The others are errors of the handler and of the scanner's buffer. *)
Definition reported (yynomem : bool) (s : func_step) : Prop :=
  match s with
  | FResolve _ _ | FSyntax _ | FDepth _ => True
  | FMem _ => yynomem = true
  | FCode c _ => c = ERR_SYNTAX \/ c = ERR_MEM /\ yynomem = true
  | FScan _ | FRefused => False
  end.
(** What such a step says. *)
Definition said (s : func_step) : option bytes := match s with FResolve m _ => Some m | _ => None end.
(** The line at which such a step was made, if it records it. *)
Definition line_of (s : func_step) : option N :=
  match s with FResolve _ n | FSyntax n | FDepth n | FMem n => Some n | _ => None end.

(** A step in which the stream does not fail. *)
Definition no_stream_error (s : prt_step) : Prop := match s with PStream _ => False | _ => True end.
(** The first error met: its code and what was said. *)
Fixpoint first_error (l : list prt_step) : option (Z * option bytes) :=
  match l with
  | [] => None
  | PSyntax m :: _ => Some (ERR_SYNTAX, Some m)
  | PCode c :: l' => if c <? 0 then Some (c, None) else first_error l'
  | PStream _ :: l' => first_error l'
  end.

(** * Texts *)

(** The text has the part [name] followed by the decimal numeral of [n], and the numeral ends there. *)
Definition mentions (t name : bytes) (n : N) : Prop :=
  exists a d b, t = a ++ name ++ d ++ b /\ d <> [] /\ Forall is_digit d /\ dec_value d = n /\
    match b with [] => True | c :: _ => ~ is_digit c end.

(** Names of codes and messages that can be told from what follows: no colon in a name, no bracket in either. *)
Definition clear_name (s : bytes) : Prop := s <> [] /\ ~ In 58%N s /\ ~ In 40%N s.
(** A message without a bracket. *)
Definition clear_message (e : cerror) : Prop := forall m, message e = Some m -> m <> [] /\ ~ In 40%N m.
