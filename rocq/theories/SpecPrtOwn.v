(** Specification of the memory use of the ProtocOWL reader. *)

From Coq Require Import NArith List Bool.
From Verif Require Import Bytes ModelTypes ModelHeader ModelText ModelHeap SpecHeap SpecRead ModelReadOwn ModelPrtOwn.
Import ListNotations.
Local Open Scope N_scope.

(** The types of objects that the reader asks for with a NULL operand when it is given certain files (see C39). *)
Definition null_given : list otype :=
  [OT_CE_DATA_HAS_VALUE; OT_A_SUB_OBJ_PROP; OT_A_DATA_PROP_ASSERT; OT_A_NEG_DATA_PROP_ASSERT; OT_A_ANNOT_ASSERT].

(** What is assumed of the calls the reader makes: what is assumed of the calls of the other reader, and that none
    of the constructors of these objects is given NULL. *)
Definition foreseen (huge : bool) (e : env) (s : state) (k : call) : Prop :=
  expected huge e s k /\
  match k with KConstruct t fields _ _ => In t null_given -> ~ In None fields | _ => True end.

(** [decodes ... input s out o]: reading a stream that has the bytes [input], starting in memory s while the program
    has the references [out], ends with o: whether reading succeeded, memory and the references of the program, or
    [None] for an invalid access. [random] are the identifiers tried for individuals without one; [fuel] and
    [inner] bound the numbers of frames and of nested constructs. [fine]: what is assumed of the calls. *)
Definition decodes_if (fine : state -> call -> Prop) (huge : bool) (fresh : N -> heap -> N) (e : env) (vs : list vocab)
  (lib : list N) (random : nat -> list bytes) (fuel inner : nat) (input : bytes) (s : state) (out : list N)
  (o : option (bool * state * list N)) : Prop :=
  runs huge fresh e fine (client huge fresh e lib) (read_stream huge random vs fuel inner input) s out o.
Definition decodes (huge : bool) (fresh : N -> heap -> N) (e : env) :=
  decodes_if (foreseen huge e) huge fresh e.
