(** Specification of the memory use of the functional syntax reader. *)

From Coq Require Import NArith List Bool Permutation.
From Verif Require Import Bytes ModelTypes ModelHeader SpecHeader ModelText ModelHeap SpecHeap SpecIsolate ModelReadRules ModelReadOwn.
Import ListNotations.
Local Open Scope N_scope.

(** What is assumed of the calls the reader makes: no object has so many references that the call could
    exceed the documented limit; a text whose datatype is rdf:langString or rdf:PlainLiteral contains a
    language tag. *)
Definition expected (huge : bool) (e : env) (s : state) (k : call) : Prop :=
  (forall a c, lookup (s_heap s) a = Some c -> ref_of huge c + N.of_nat (size k) + 8 <= max_refs huge) /\
  match k with
  | KLiteral v (Some d) => (d = e_lang_string e \/ d = e_plain_literal e) ->
      forall t, has_text s v t -> snd (parse_lang t) <> None
  | _ => True
  end.

(** The handler: any calls that obey the ownership rule. It may use the objects it is given, but it
    has no references to them unless it makes some. *)
Definition client (huge : bool) (fresh : N -> heap -> N) (e : env) (lib : list N)
  (passed rest : list N) (s : state) (out : list N) (s' : state) (out' : list N) : Prop :=
  works huge fresh e (lib ++ passed) rest s out s' out'.

(** [reads ... s out o]: reading a document, starting in memory s while the program has the references [out],
    ends with o: the number of buffers left, memory and the references of the program, or [None] for an
    invalid access. *)
Definition reads (huge : bool) (fresh : N -> heap -> N) (e : env) (vs : list vocab) (lib : list N)
  (global : list (N * N)) (l : list move) (s : state) (out : list N) (o : option (N * state * list N)) : Prop :=
  runs huge fresh e (expected huge e) (client huge fresh e lib) (read_document vs global l) s out o.

(** Memory is as the ownership rule demands if the program has these references. *)
Definition sound (huge : bool) (fresh : N -> heap -> N) (e : env) (vs : list vocab) (lib : list N) (s : state) (out : list N) : Prop :=
  exists own, history huge fresh e vs lib s own /\ Permutation own out.

(** The entries of the global prefix map: strings the program has references to. *)
Definition global_map (huge : bool) (lib : list N) (s : state) (out : list N) (global : list (N * N)) : Prop :=
  Forall (fun x => In (fst x) (lib ++ out) /\ has_type huge s (fst x) OT_STRING /\
                   In (snd x) (lib ++ out) /\ has_type huge s (snd x) OT_STRING) global.
