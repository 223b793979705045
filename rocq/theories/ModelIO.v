(** Readers, writers and start-up: the code around the two formats.

    Models src/cowl_writer.c, src/cowl_reader.c, src/cowl_config.c and the context of the functional
    writer (src/formats/functional/writer/cowl_func_writer.c). A reader or writer supplied by the client
    is an arbitrary program: a writer's answers may depend on everything it was asked before, a reader
    makes any finite sequence of calls to the handler, depending on the answers. Simplification: the
    vector that collects the imports (cowl_writer.c:95-98) can be allocated. *)

From Coq Require Import NArith ZArith List Bool String.
From Verif Require Import Bytes ModelTypes ModelObject ModelPrefixMap ModelOntology ModelChange ModelPrtWriter ModelPrtDecoder ModelFuncWriter.
Import ListNotations.
Local Open Scope Z_scope.

(** include/cowl_ret.h cowl_is_err *)
Definition is_err (r : ret) : bool := r <? 0.

(** * Writing with any writer *)

(** include/cowl_ontology_header.h:27-44 struct CowlOntologyHeader *)
Record wheader := mkWHeader {
  wh_pm : pst;
  wh_iri : option ref;
  wh_version : option ref;
  wh_imports : list ref;
  wh_annot : list ref
}.

(** The calls a writer receives: include/cowl_writer.h:40-106 struct CowlWriterImpl. *)
Inductive wcall : Type :=
| WHeader (h : wheader)
| WAxiom (a : ref)
| WFooter
| WOntology (o : full).

(** include/cowl_writer.h:40-106 struct CowlWriterImpl: [None] is a NULL pointer. The answer may depend on
    the calls received before. *)
Record wimpl := mkWImpl {
  wi_header : option (list wcall -> wheader -> ret);
  wi_axiom : option (list wcall -> ref -> ret);
  wi_footer : option (list wcall -> ret);
  wi_ontology : option (list wcall -> full -> ret)
}.

(** src/cowl_writer.c:65-67 cowl_writer_can_write_stream *)
Definition can_write_stream (w : wimpl) : bool :=
  match wi_header w, wi_axiom w, wi_footer w with Some _, Some _, Some _ => true | _, _, _ => false end.

(** src/cowl_writer.c:143-146 cowl_writer_write_header *)
Definition write_header (w : wimpl) (s : list wcall) (h : wheader) : list wcall * ret :=
  match wi_header w with None => (s, ERR) | Some f => (s ++ [WHeader h], f s h) end.
(** src/cowl_writer.c:148-151 cowl_writer_write_axiom, and 82-85 axiom_writer *)
Definition write_axiom (w : wimpl) (s : list wcall) (a : ref) : list wcall * ret :=
  match wi_axiom w with None => (s, ERR) | Some f => (s ++ [WAxiom a], f s a) end.
(** src/cowl_writer.c:153-156 cowl_writer_write_footer *)
Definition write_footer (w : wimpl) (s : list wcall) : list wcall * ret :=
  match wi_footer w with None => (s, ERR) | Some f => (s ++ [WFooter], f s) end.

(** src/cowl_iterator.c:19-21 for_each_store_vec *)
Definition store_vec (l : list ref) (i : ref) : list ref * ret := (l ++ [i], COWL_OK).

(** src/cowl_writer.c:92-121 write_ontology_stream *)
Definition write_ontology_stream (w : wimpl) (s : list wcall) (o : full) : option (list wcall * ret) :=
  match iterate_imports store_vec (x_onto o) [] with
  | IUB => None
  | IRet imports r =>
      if is_err r then Some (s, r) else
      let (s, r) := write_header w s (mkWHeader (x_pm o) (o_iri (x_onto o)) (o_version (x_onto o)) imports
                                       (vec_data (o_annot (x_onto o)))) in
      if negb (r =? 0) then Some (s, r) else
      match iterate_axioms (write_axiom w) (x_onto o) s with
      | IUB => None
      | IRet s r => if is_err r then Some (s, r) else Some (write_footer w s)
      end
  end.

(** src/cowl_writer.c:123-131 cowl_writer_write_ontology *)
Definition write_ontology (w : wimpl) (s : list wcall) (o : full) : option (list wcall * ret) :=
  match wi_ontology w with
  | Some f => Some (s ++ [WOntology o], f s o)
  | None => if can_write_stream w then write_ontology_stream w s o else Some (s, ERR)
  end.

(** * Files *)

(** What happens to a file. *)
Inductive fevent (A : Type) : Type := FOpen | FUse (a : A) | FClose.
Arguments FOpen {A}. Arguments FUse {A} a. Arguments FClose {A}.

(** src/cowl_writer.c:133-141 cowl_writer_write_ontology_to_path; [opened] and [closed] are the results
    of uostream_to_path and uostream_deinit *)
Definition write_ontology_to_path (w : wimpl) (s : list wcall) (opened closed : ret) (o : full)
    : option (list (fevent (list wcall)) * ret) :=
  if is_err opened then Some ([], opened) else
  match write_ontology w s o with
  | None => None
  | Some (s, c) => Some ([FOpen; FUse s; FClose], if is_err c then c else closed)
  end.

(** * Reading with any reader *)

(** include/cowl_reader.h struct CowlReaderImpl: what the read function does with the handler, for some
    input: call it, go on depending on the answer, and finally return. *)
Inductive reading : Type :=
| RReturn (r : ret)
| RCall (t : change_type) (p : part) (k : ret -> reading).

Section Reading.
  Context {S : Type}.
  (** include/cowl_change_handler.h struct CowlChangeHandler *)
  Variable handle : change_type -> part -> S -> option (S * ret).
  (** src/cowl_reader.c:54-56 cowl_reader_read *)
  Fixpoint read (p : reading) (s : S) : option (S * ret) :=
    match p with
    | RReturn r => Some (s, r)
    | RCall t x k => match handle t x s with None => None | Some (s', r) => read (k r) s' end
    end.
  (** src/cowl_reader.c:58-62 read_deinit and 64-68 cowl_reader_read_path; [opened] and [closed] are the
      results of uistream_from_path and uistream_deinit *)
  Definition read_path (p : reading) (opened closed : ret) (s : S) : option (list (fevent S) * S * ret) :=
    if is_err opened then Some ([], s, opened) else
    match read p s with
    | None => None
    | Some (s', c) => Some ([FOpen; FUse s'; FClose], s', if is_err c then c else closed)
    end.
End Reading.

Section ReadOntology.
  (** Order in which hash tables are visited; width of ulib_uint. *)
  Variable visit : tbl -> tbl.
  Variable w : N.
  (** src/cowl_reader.c:70-85 cowl_reader_read_ontology; [fresh] is the result of cowl_ontology(). The
      result is the returned ontology, the code stored in *ret and the number of ontologies released. *)
  Definition read_ontology (p : reading) (fresh : option full) : option (option full * ret * nat) :=
    match fresh with
    | None => Some (None, ERR_MEM, O)
    | Some o =>
        match read (change_apply visit w) p o with
        | None => None
        | Some (o', r) => if is_err r then Some (None, r, 1%nat) else Some (Some o', r, O)
        end
    end.
  (** src/cowl_reader.c:87-102 cowl_reader_read_ontology_from_path *)
  Definition read_ontology_from_path (p : reading) (opened closed : ret) (fresh : option full)
      : option (option full * ret * nat) :=
    match fresh with
    | None => Some (None, ERR_MEM, O)
    | Some o =>
        match read_path (change_apply visit w) p opened closed o with
        | None => None
        | Some (_, o', r) => if is_err r then Some (None, r, 1%nat) else Some (Some o', r, O)
        end
    end.
End ReadOntology.

(** * The functional writer used for several documents *)

(** Reference counts of the live prefix maps, by address. *)
Definition counts : Type := list (N * N).

(** The count of a live object. *)
Fixpoint rc_get (c : counts) (id : N) : option N :=
  match c with [] => None | (i, n) :: c' => if N.eqb i id then Some n else rc_get c' id end.
(** The object is gone. *)
Fixpoint rc_drop (c : counts) (id : N) : counts :=
  match c with [] => [] | (i, n) :: c' => if N.eqb i id then c' else (i, n) :: rc_drop c' id end.
(** Another count. *)
Fixpoint rc_set (c : counts) (id n : N) : counts :=
  match c with [] => [] | (i, m) :: c' => if N.eqb i id then (i, n) :: c' else (i, m) :: rc_set c' id n end.
(** src/cowl_object.c:157-160 cowl_retain; a freed object is undefined behaviour. *)
Definition rc_retain (c : counts) (id : N) : option counts :=
  match rc_get c id with None => None | Some n => Some (rc_set c id (n + 1)) end.
(** src/cowl_object.c:171-190 cowl_release of an object that is not NULL *)
Definition rc_release (c : counts) (id : N) : option counts :=
  match rc_get c id with
  | None => None
  | Some n => Some (if N.eqb n 1 then rc_drop c id else rc_set c id (n - 1))
  end.

(** The client's prefix maps and the writer: cowl_func_writer.c:38-41 struct FuncEncoder. [fw_pm] is e->pm;
    [fw_on] says that the writer has not been freed. *)
Record fwriter := mkFW { fw_rc : counts; fw_maps : list (N * pst); fw_pm : option N; fw_on : bool }.

(** What a client does with prefix maps and one functional writer. *)
Inductive fop : Type :=
| FNew (id : N) (pm : pst)                                                  (* cowl_prefix_map, the allocator returns id *)
| FRetain (id : N)
| FRelease (id : N)
| FEdit (id : N) (pm : pst)                                                 (* any change of the contents *)
| FHeader (pm : option N) (iri version : option obj) (imports annot : list obj)
| FAxiom (a : obj)
| FFooter
| FFree.                                                                    (* the last cowl_release of the writer *)

Section FunctionalWriter.
  (** Order in which hash tables are visited. *)
  Variable visit : tbl -> tbl.

  (** Contents of the map at an address. *)
  Fixpoint map_at (l : list (N * pst)) (id : N) : option pst :=
    match l with [] => None | (i, pm) :: l' => if N.eqb i id then Some pm else map_at l' id end.
  (** The contents of a live map. *)
  Definition contents (s : fwriter) (id : N) : option pst :=
    match rc_get (fw_rc s) id with None => None | Some _ => map_at (fw_maps s) id end.
  (** cowl_func_writer.c:174-184 write_iri: what e->pm answers; asking a freed map is undefined. *)
  Definition fw_abbr (s : fwriter) : bytes -> option (option bytes) :=
    match fw_pm s with
    | None => no_map
    | Some id => match contents s id with Some pm => map_abbr visit pm | None => fun _ => None end
    end.
  (** cowl_func_writer.c:55-59 encoder_set_prefix_map *)
  Definition set_prefix_map (s : fwriter) (pm : option N) : option fwriter :=
    if match fw_pm s, pm with Some a, Some b => N.eqb a b | None, None => true | _, _ => false end then Some s else
    match (match fw_pm s with None => Some (fw_rc s) | Some id => rc_release (fw_rc s) id end) with
    | None => None
    | Some c =>
        match pm with
        | None => Some (mkFW c (fw_maps s) (fw_pm s) (fw_on s))
        | Some id =>
            match rc_retain c id with
            | None => None
            | Some c' => Some (mkFW c' (fw_maps s) (Some id) (fw_on s))
            end
        end
    end.

  (** One step: the new state and the text written; no state or no text is undefined behaviour. *)
  Definition f_step (s : fwriter) (op : fop) : option (fwriter * wt_out) :=
    match op with
    | FNew id pm =>
        match rc_get (fw_rc s) id with
        | Some _ => None
        | None => Some (mkFW ((id, 1%N) :: fw_rc s) ((id, pm) :: fw_maps s) (fw_pm s) (fw_on s), put [])
        end
    | FRetain id =>
        match rc_retain (fw_rc s) id with
        | None => None
        | Some c => Some (mkFW c (fw_maps s) (fw_pm s) (fw_on s), put [])
        end
    | FRelease id =>
        match rc_release (fw_rc s) id with
        | None => None
        | Some c => Some (mkFW c (fw_maps s) (fw_pm s) (fw_on s), put [])
        end
    | FEdit id pm =>
        match contents s id with
        | None => None
        | Some _ => Some (mkFW (fw_rc s) ((id, pm) :: fw_maps s) (fw_pm s) (fw_on s), put [])
        end
    | FHeader pm iri version imports annot =>
        (* cowl_func_writer.c:439-446 func_write_header *)
        if negb (fw_on s) then None else
        match set_prefix_map s pm with
        | None => None
        | Some s =>
            match pm with
            | None => Some (s, w_header_by visit (fw_abbr s) (mkFHeader None iri version imports annot))
            | Some id =>
                match contents s id with
                | None => None
                | Some c => Some (s, w_header_by visit (fw_abbr s) (mkFHeader (Some c) iri version imports annot))
                end
            end
        end
    | FAxiom a => (* cowl_func_writer.c:448-455 func_write_axiom *)
        if negb (fw_on s) then None else Some (s, w_axiom_by (fw_abbr s) a)
    | FFooter => (* cowl_func_writer.c:457-463 func_write_footer *)
        if negb (fw_on s) then None else Some (s, w_footer)
    | FFree => (* src/cowl_writer.c:52-55 cowl_writer_free; cowl_func_writer.c:465-468 func_free, 47-49 encoder_deinit *)
        if negb (fw_on s) then None else
        match (match fw_pm s with None => Some (fw_rc s) | Some id => rc_release (fw_rc s) id end) with
        | None => None
        | Some c => Some (mkFW c (fw_maps s) None false, put [])
        end
    end.

  (** Several steps and all the text written. *)
  Fixpoint f_run (s : fwriter) (ops : list fop) : option (fwriter * wt_out) :=
    match ops with
    | [] => Some (s, put [])
    | op :: ops' =>
        match f_step s op with
        | None => None
        | Some (s', b) => match f_run s' ops' with None => None | Some (s'', b') => Some (s'', wapp b b') end
        end
    end.
End FunctionalWriter.

(** cowl_func_writer.c:43-45 encoder_init, 470-484 cowl_writer_functional *)
Definition f_start : fwriter := mkFW [] [] None true.

(** * Start-up and shutdown *)

(** The globals that hold memory: the empty string (src/cowl_string.c:22), the five vocabularies
    (src/cowl_vocab.c:32-33) and the defaults (src/cowl_config.c:25-27). The static hash tables are empty
    until an object is interned and are not modelled here (ModelHeap.v has them). *)
Inductive component : Set :=
| KEmpty | KOwl | KRdf | KRdfs | KXml | KXsd | KReader | KWriter | KPrefixMap.

(** [g_holds k]: what the global of component [k] points to. [g_live]: what is allocated. *)
Record globals := mkGlobals {
  g_initialized : bool;
  g_holds : component -> option N;
  g_live : list N;
  g_next : N
}.

Definition component_eq_dec (a b : component) : {a = b} + {a <> b}.
Proof. decide equality. Defined.

(** Before the first call; static objects are zero. *)
Definition g_start : globals := mkGlobals false (fun _ => None) [] 0.

(** Assignment of a global. *)
Definition hold (g : globals) (k : component) (v : option N) : component -> option N :=
  fun j => if component_eq_dec j k then v else g_holds g j.

(** Creation of a component; [fails] says for which components the allocator gives up. The assignment
    overwrites what the global pointed to. Simplification: a vocabulary that is incomplete gives back its
    own parts (src/cowl_owl_vocab.c:81-83 and likewise in the others); when the missing part is an IRI
    that code already dereferences NULL. *)
Definition create (fails : component -> bool) (k : component) (g : globals) : globals * bool :=
  if fails k then (mkGlobals (g_initialized g) (hold g k None) (g_live g) (g_next g), false)
  else (mkGlobals (g_initialized g) (hold g k (Some (g_next g))) (g_next g :: g_live g) (g_next g + 1), true).

(** Vocabularies with IRIs: their deinit functions read the remainder of each IRI without a NULL check
    (src/cowl_vocab_private.h:35-39 cowl_iri_vocab_free, src/cowl_iri.c:164-166). *)
Definition has_iris (k : component) : bool :=
  match k with KOwl | KRdf | KRdfs | KXsd => true | _ => false end.

(** Release of what a global points to and assignment of NULL. [None]: a NULL pointer is dereferenced. *)
Definition dispose (k : component) (g : globals) : option globals :=
  match g_holds g k with
  | Some i => Some (mkGlobals (g_initialized g) (hold g k None) (remove N.eq_dec i (g_live g)) (g_next g))
  | None => if has_iris k then None else Some g
  end.

(** "a() || b() || ...": stops at the first failure. *)
Fixpoint create_all (fails : component -> bool) (ks : list component) (g : globals) : globals * bool :=
  match ks with
  | [] => (g, true)
  | k :: ks' => let (g', ok) := create fails k g in if ok then create_all fails ks' g' else (g', false)
  end.

(** Several disposals. *)
Fixpoint dispose_all (ks : list component) (g : globals) : option globals :=
  match ks with
  | [] => Some g
  | k :: ks' => match dispose k g with None => None | Some g' => dispose_all ks' g' end
  end.

(** Creation of some components and, on failure, disposal. *)
Definition create_or_undo (fails : component -> bool) (ks undo : list component) (g : globals)
    : option (globals * bool) :=
  let (g', ok) := create_all fails ks g in
  if ok then Some (g', true) else
  match dispose_all undo g' with None => None | Some g'' => Some (g'', false) end.

(** The vocabularies, in the order of src/cowl_vocab.c:32-33 and 49-53. *)
Definition vocabularies : list component := [KOwl; KRdf; KRdfs; KXml; KXsd].
(** The defaults, in the order of src/cowl_config.c:30-37 and 41-43. *)
Definition defaults : list component := [KReader; KWriter; KPrefixMap].

(** src/cowl_string.c:65-80 cowl_string_api_init, cowl_string_api_deinit *)
Definition string_init (fails : component -> bool) (g : globals) : option (globals * bool) :=
  create_or_undo fails [KEmpty] [KEmpty] g.
(** src/cowl_vocab.c:31-55 cowl_vocab_init, cowl_vocab_deinit *)
Definition vocab_init (fails : component -> bool) (g : globals) : option (globals * bool) :=
  create_or_undo fails vocabularies vocabularies g.
(** src/cowl_config.c:29-49 cowl_api_init, cowl_api_deinit *)
Definition api_init (fails : component -> bool) (g : globals) : option (globals * bool) :=
  create_or_undo fails defaults defaults g.

(** The next step, unless this one failed. *)
Definition and_then (r : option (globals * bool)) (k : globals -> option (globals * bool))
    : option (globals * bool) :=
  match r with
  | None => None
  | Some (g, true) => k g
  | Some (g, false) => Some (g, false)
  end.

(** src/cowl_config.c:68-78 cowl_deinit *)
Definition cowl_deinit (g : globals) : option globals :=
  if negb (g_initialized g) then Some g else
  match dispose_all (defaults ++ [KEmpty] ++ vocabularies) g with
  | None => None
  | Some g => Some (mkGlobals false (g_holds g) (g_live g) (g_next g))
  end.

(** src/cowl_config.c:51-66 cowl_init; the steps that cannot fail are left out *)
Definition cowl_init (fails : component -> bool) (g : globals) : option (globals * ret) :=
  if g_initialized g then Some (g, COWL_OK) else
  match and_then (and_then (string_init fails g) (vocab_init fails)) (api_init fails) with
  | None => None
  | Some (g, true) => Some (mkGlobals true (g_holds g) (g_live g) (g_next g), COWL_OK)
  | Some (g, false) => match cowl_deinit g with None => None | Some g => Some (g, ERR_MEM) end
  end.

(** Calls a client makes. *)
Inductive gop : Type := GInit (fails : component -> bool) | GDeinit.

(** A sequence of calls and the codes returned. *)
Fixpoint g_run (g : globals) (ops : list gop) : option (globals * list ret) :=
  match ops with
  | [] => Some (g, [])
  | GInit fails :: ops' =>
      match cowl_init fails g with
      | None => None
      | Some (g, r) => match g_run g ops' with None => None | Some (g', rs) => Some (g', r :: rs) end
      end
  | GDeinit :: ops' => match cowl_deinit g with None => None | Some g => g_run g ops' end
  end.
