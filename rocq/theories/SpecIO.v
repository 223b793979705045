(** What writing, reading and start-up should do. *)

From Coq Require Import NArith ZArith List Bool String.
From Verif Require Import Bytes ModelTypes ModelObject SpecObject ModelPrefixMap ModelOntology SpecOntology ModelChange
  ModelFuncWriter ModelIO.
Import ListNotations.
Local Open Scope Z_scope.

(** * Writing with any writer *)

(** What the writer answers to a call when it has already received [before]. *)
Definition answers (w : wimpl) (before : list wcall) (c : wcall) (r : ret) : Prop :=
  match c with
  | WHeader h => exists f, wi_header w = Some f /\ f before h = r
  | WAxiom a => exists f, wi_axiom w = Some f /\ f before a = r
  | WFooter => exists f, wi_footer w = Some f /\ f before = r
  | WOntology o => exists f, wi_ontology w = Some f /\ f before o = r
  end.

(** A writer that is given an ontology piece by piece. *)
Definition streaming (w : wimpl) : Prop :=
  wi_header w <> None /\ wi_axiom w <> None /\ wi_footer w <> None /\ wi_ontology w = None.

(** The pieces of an ontology: imports, annotations and axioms as the ontology reports them. *)
Record pieces (o : full) (imports annots axioms : list ref) : Prop := {
  pc_imports : delivers (fun S call s => iterate_imports call (x_onto o) s) imports;
  pc_annots : delivers (fun S call s => iterate_annot call (x_onto o) s) annots;
  pc_axioms : contains (x_onto o) axioms
}.

(** The header call of an ontology. *)
Definition header_call (o : full) (imports annots : list ref) : wcall :=
  WHeader (mkWHeader (x_pm o) (o_iri (x_onto o)) (o_version (x_onto o)) imports annots).

(** The calls that write an ontology. *)
Definition document_calls (o : full) (imports annots axioms : list ref) : list wcall :=
  header_call o imports annots :: map WAxiom axioms ++ [WFooter].

(** The calls [todo] are made in order, up to the first that does not answer OK; its answer is returned. *)
Inductive makes (w : wimpl) : list wcall -> list wcall -> list wcall -> ret -> Prop :=
| makes_all before : makes w before [] before COWL_OK
| makes_next before c todo after r :
    answers w before c COWL_OK -> makes w (before ++ [c]) todo after r -> makes w before (c :: todo) after r
| makes_stop before c todo r :
    answers w before c r -> r <> COWL_OK -> makes w before (c :: todo) (before ++ [c]) r.

(** A writer that answers OK or an error, nothing else. *)
Definition plain_answers (w : wimpl) : Prop := forall before c r, answers w before c r -> r <= 0.

(** A call handed to a writer that has received [before]: the writer gets it and its answer is returned, or
    the writer has no function for it (NULL) and an error is returned. *)
Definition handed {F : Type} (w : wimpl) (before : list wcall) (f : option F) (c : wcall) (result : list wcall * ret) : Prop :=
  (f <> None /\ fst result = before ++ [c] /\ answers w before c (snd result)) \/
  (f = None /\ fst result = before /\ snd result < 0).

(** * Reading with any reader *)

(** Every path through the reader ends with OK or an error. *)
Fixpoint plain_results (p : reading) : Prop :=
  match p with RReturn r => r <= 0 | RCall _ _ k => forall r, plain_results (k r) end.

(** * Histories of a functional writer *)

(** References the client owns, by address. *)
Definition owning : Type := N -> N.
Definition owns_more (own : owning) (id : N) (n : N) : owning := fun i => if N.eqb i id then n else own i.

(** What a client may do: use and release only prefix maps it owns, and use the writer until it frees it.
    New maps get an address that is not in use. *)
Inductive may (s : fwriter) (own : owning) : fop -> owning -> Prop :=
| may_new id pm : rc_get (fw_rc s) id = None -> may s own (FNew id pm) (owns_more own id 1)
| may_retain id : own id <> 0%N -> may s own (FRetain id) (owns_more own id (own id + 1))
| may_release id : own id <> 0%N -> may s own (FRelease id) (owns_more own id (own id - 1))
| may_edit id pm : own id <> 0%N -> may s own (FEdit id pm) own
| may_header pm iri version imports annot :
    (forall id, pm = Some id -> own id <> 0%N) -> fw_on s = true ->
    may s own (FHeader pm iri version imports annot) own
| may_axiom a : fw_on s = true -> may s own (FAxiom a) own
| may_footer : fw_on s = true -> may s own FFooter own
| may_free : fw_on s = true -> may s own FFree own.

(** States after a history of allowed steps that all went well. *)
Inductive session (visit : tbl -> tbl) : list fop -> fwriter -> owning -> Prop :=
| ss_start : session visit [] f_start (fun _ => 0%N)
| ss_step ops s own op own' s' b :
    session visit ops s own -> may s own op own' -> f_step visit s op = Some (s', b) ->
    session visit (ops ++ [op]) s' own'.

(** No header without a prefix map comes after one with a prefix map. *)
Definition maps_stay (ops : list fop) : Prop :=
  forall l1 id i v im an l2 i' v' im' an' l3,
  ops <> l1 ++ FHeader (Some id) i v im an :: l2 ++ FHeader None i' v' im' an' :: l3.

(** * Start-up *)

(** Allocations that cannot be made: none at all, or already the first one. *)
Definition none_or_first (op : gop) : Prop :=
  match op with GInit fails => fails KEmpty = true \/ (forall k, fails k = false) | GDeinit => True end.

(** Whether the library is running after some calls, if starting it fails only at the first allocation. *)
Definition running (ops : list gop) : bool :=
  fold_left (fun b op => match op with GInit fails => b || negb (fails KEmpty) | GDeinit => false end) ops false.
