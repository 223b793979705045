(** Model: the functional syntax reader as a user of the library's objects.

    The parser is the one bison generates: a stack of symbols with values, on which tokens are shifted and
    rules are reduced. Simplification: which of the two the parser does is left open, except that a rule is
    reduced only if its right side is on top of the stack; the tables of the automaton are not modelled, so
    every run of the real parser is one of the runs of the model. Values are texts, numbers and pointers
    to objects of ModelHeap.v. The handler is whatever code the client registered. *)

From Coq Require Import String.
From Coq Require Import NArith List Bool Arith.
From Verif Require Import Bytes ModelTypes ModelHeader ModelText ModelHeap ModelReadRules.
Import ListNotations.
Local Open Scope N_scope.

(** * Programs *)

(** What the reader does with the library. *)
Inductive prog (A : Type) : Type :=
| Ret (x : A)                                          (* ends *)
| Stuck                                                (* accesses memory that is not there, or of another type *)
| Never                                                (* not a run of the parser *)
| Do (k : call) (c : option N -> prog A)               (* calls a function, continues with the result *)
| Intern (a : N) (c : N -> prog A)                     (* calls cowl_string_intern, continues with the result *)
| Look (c : state -> prog A)                           (* reads memory *)
| Hand (passed rest : list N) (c : prog A)             (* calls the handler with these objects; [rest]: the other
                                                          references the reader has *)
| Choose (c d : prog A).                               (* either of the two *)
Arguments Ret {A}. Arguments Stuck {A}. Arguments Never {A}. Arguments Do {A}. Arguments Intern {A}.
Arguments Look {A}. Arguments Hand {A}. Arguments Choose {A}.

(** sequencing *)
Fixpoint after_that {A B} (p : prog A) (f : A -> prog B) : prog B :=
  match p with
  | Ret x => f x
  | Stuck => Stuck
  | Never => Never
  | Do k c => Do k (fun r => after_that (c r) f)
  | Intern a c => Intern a (fun m => after_that (c m) f)
  | Look c => Look (fun s => after_that (c s) f)
  | Hand l r c => Hand l r (after_that c f)
  | Choose c d => Choose (after_that c f) (after_that d f)
  end.

Section Runs.
Variable huge : bool.
Variable fresh : N -> heap -> N.
Variable e : env.
(** What is assumed of a call the reader makes; see SpecRead.v. *)
Variable fine : state -> call -> Prop.
(** What the handler does: [handler passed rest s out s' out'] if it can lead from memory s to s' when it is
    given the objects [passed]; [out] and [out'] are the references of the program outside the reader, [rest]
    those of the reader to other objects. *)
Variable handler : list N -> list N -> state -> list N -> state -> list N -> Prop.

(** [runs p s out o]: the program p, started with memory s and the references [out] outside the reader, ends
    with o: a result, memory and references outside the reader, or [None] for an invalid access. *)
Inductive runs {A} : prog A -> state -> list N -> option (A * state * list N) -> Prop :=
| r_ret x s out : runs (Ret x) s out (Some (x, s, out))
| r_stuck s out : runs Stuck s out None
| r_do k c s out r s' o : fine s k -> exec huge fresh e k s = Ok r s' -> runs (c r) s' out o -> runs (Do k c) s out o
| r_do_err k c s out x : fine s k -> exec huge fresh e k s = Err x -> runs (Do k c) s out None
| r_intern a c s out m s' o : fine s (KIntern a) -> string_intern huge e (Some a) s = Ok m s' ->
    runs (match m with Some m => c m | None => Stuck end) s' out o -> runs (Intern a c) s out o
| r_intern_err a c s out x : fine s (KIntern a) -> string_intern huge e (Some a) s = Err x -> runs (Intern a c) s out None
| r_look c s out o : runs (c s) s out o -> runs (Look c) s out o
| r_hand passed rest c s out s' out' o : handler passed rest s out s' out' -> runs c s' out' o ->
    runs (Hand passed rest c) s out o
| r_left c d s out o : runs c s out o -> runs (Choose c d) s out o
| r_right c d s out o : runs d s out o -> runs (Choose c d) s out o.
End Runs.

(** * Values *)

(** The value of a symbol (union YYSTYPE): nothing, a text inside the buffer of the scanner, a text in a
    buffer of its own (src/formats/functional/reader/cowl_functional.l, quoted strings), a number, a pointer. *)
Inductive value : Type :=
| VNone
| VText (t : bytes)
| VBuf (t : bytes)
| VNum (n : N)
| VObj (p : option N).

(** The C type of the value of a symbol, "" if it has none. *)
Fixpoint type_in (l : list (string * string)) (x : string) : string :=
  match l with
  | [] => ""%string
  | (y, t) :: l' => if String.eqb x y then t else type_in l' x
  end.
(** %token and %type of src/formats/functional/reader/cowl_functional.y:142-241 *)
Definition ctype (x : string) : string := type_in (token_types ++ symbol_types) x.
(** Whether the parser releases the value of the symbol when it discards it: %destructor of
    src/formats/functional/reader/cowl_functional.y:249-268 *)
Definition destroyed (x : string) : bool := existsb (String.eqb (ctype x)) destructors.
(** The values the scanner gives to tokens (src/formats/functional/reader/cowl_functional.l:62-200). The name
    of an abbreviated IRI contains a colon. *)
Definition token_value (x : string) (v : value) : bool :=
  existsb (fun y => String.eqb x (fst y)) token_types &&
  match v with
  | VNone => String.eqb (ctype x) ""
  | VText t => String.eqb (ctype x) "UString" && negb (String.eqb x "QUOTED_STRING") &&
               (negb (String.eqb x "PNAME_LN") || existsb (N.eqb 58) t)
  | VBuf _ => String.eqb x "QUOTED_STRING"
  | VNum _ => String.eqb (ctype x) "ulib_uint"
  | VObj _ => false
  end.

(** The references in a value and in a prefix map. *)
Definition refs (v : value) : list N := match v with VObj (Some a) => [a] | _ => [] end.
Definition map_refs (m : list (N * N)) : list N := flat_map (fun x => [fst x; snd x]) m.

(** The value $i. *)
Definition arg (args : list value) (i : nat) : value := nth (pred i) args VNone.
(** The pointer $i, if it is one. *)
Definition ptr (args : list value) (i : nat) : option (option N) :=
  match arg args i with VObj p => Some p | _ => None end.
(** The pointers in a list of arguments. *)
Fixpoint ptrs (args : list value) (l : list nat) : option (list (option N)) :=
  match l with
  | [] => Some []
  | i :: l' => match ptr args i, ptrs args l' with Some p, Some ps => Some (p :: ps) | _, _ => None end
  end.
(** The arguments that are not in a list, counted from n. *)
Fixpoint others (l : list nat) (n : nat) (args : list value) : list value :=
  match args with
  | [] => []
  | v :: args' => (if existsb (Nat.eqb n) l then [] else [v]) ++ others l (S n) args'
  end.

(** * The prefix map *)

(** The text of the string at an address. *)
Definition text (s : state) (a : N) : option bytes :=
  match lookup (s_heap s) a with
  | Some c => match c_body c with BStr t => Some t | _ => None end
  | None => None
  end.
(** ulib uhash_get on a table of strings: the value of the key with this text, if any; [None] if a key is
    not a string in memory. The model looks at every key, as a hash table might. *)
Fixpoint entry (s : state) (m : list (N * N)) (t : bytes) : option (option N) :=
  match m with
  | [] => Some None
  | (p, n) :: m' =>
      match text s p, entry s m' t with
      | Some u, Some r => Some (if bytes_eqb u t then Some n else r)
      | _, _ => None
      end
  end.
(** src/cowl_prefix_map.c:26-39 RESERVED_PN *)
Definition reserved (vs : list vocab) : list (N * N) :=
  match vs with
  | [owl; rdf; rdfs; _; _; xsd] => map (fun v => (v_prefix v, v_ns v)) [owl; rdf; rdfs; xsd]
  | _ => []
  end.
(** src/cowl_prefix_map.c:145-160 of cowl_prefix_map_add, overwrite false: an entry that is added retains
    prefix and namespace. Simplification: the object and the tables of the map are not in the heap. *)
Definition put (p n : N) (t : bytes) (m : list (N * N)) : prog (list (N * N)) :=
  Look (fun s =>
    match entry s m t with
    | None => Stuck
    | Some (Some _) => Ret m
    | Some None => Do (KRetain p) (fun _ => Do (KRetain n) (fun _ => Ret ((p, n) :: m)))
    end).
(** src/cowl_prefix_map.c:140-161 cowl_prefix_map_add with 133-138 intern_ns *)
Definition map_add (vs : list vocab) (p n : N) (m : list (N * N)) : prog (list (N * N)) :=
  Look (fun s =>
    match text s p with
    | None => Stuck
    | Some t =>
        match entry s (reserved vs) t with
        | None => Stuck
        | Some (Some r) => put p r t m
        | Some None => Intern n (fun r => put p r t m)
        end
    end).
(** src/cowl_prefix_map.c:82-88 register_reserved, 233-243 cowl_prefix_map_merge *)
Fixpoint map_merge (vs : list vocab) (l m : list (N * N)) : prog (list (N * N)) :=
  match l with
  | [] => Ret m
  | (p, n) :: l' => after_that (map_add vs p n m) (map_merge vs l')
  end.
(** src/cowl_prefix_map.c:106-110 cowl_prefix_map_free *)
Fixpoint map_free (m : list (N * N)) : prog unit :=
  match m with
  | [] => Ret tt
  | (p, n) :: m' => Do (KRelease p) (fun _ => Do (KRelease n) (fun _ => map_free m'))
  end.
(** The texts before and after the first colon. *)
Fixpoint at_colon (t : bytes) : option (bytes * bytes) :=
  match t with
  | [] => None
  | c :: t' => if c =? 58 then Some ([], t') else match at_colon t' with Some (p, r) => Some (c :: p, r) | None => None end
  end.
(** src/cowl_prefix_map.c:259-267 cowl_prefix_map_parse_short_iri, 245-257 cowl_prefix_map_get_iri *)
Definition short_iri (m : list (N * N)) (t : bytes) : prog (option N) :=
  match at_colon t with
  | None => Stuck
  | Some (p, rem) =>
      Look (fun s =>
        match entry s m p with
        | None => Stuck
        | Some None => Ret None
        | Some (Some ns) =>
            Do (match rem with [] => KEmpty | _ => KString rem false end) (fun r =>
              match r with
              | None => Ret None
              | Some q => Do (KIri ns q) (fun i => Do (KRelease q) (fun _ => Ret i))
              end)
        end)
  end.

(** * Actions *)

(** The library function called by a statement that assigns to $$. [None]: the arguments are not of the
    types in the signature, or NULL where this is not allowed. *)
Definition makes (st : stmt) (args : list value) : option call :=
  match st with
  | SIri i => match arg args i with VText t => Some (KIriText t) | _ => None end
  | SString i intern => match arg args i with VText t => Some (KString t intern) | _ => None end
  | SOwnString i => match arg args i with VBuf t => Some (KString t false) | _ => None end
  | SEntity t i => match arg args i with VObj (Some a) => Some (KEntity t a) | _ => None end
  | SAnon i => match arg args i with VText t => Some (KAnonText t) | _ => None end
  | SLiteral i None => match arg args i with VObj (Some a) => Some (KLiteral a None) | _ => None end
  | SLiteral i (Some j) =>
      match arg args i, arg args j with
      | VObj (Some a), VObj (Some b) => Some (KLiteral a (Some b))
      | _, _ => None
      end
  | SMake t fs opt val =>
      match ptrs args fs,
            match opt with None => Some None | Some i => ptr args i end,
            match val with None => Some 0 | Some i => match arg args i with VNum n => Some n | _ => None end end with
      | Some ps, Some o, Some n => Some (KConstruct t ps o n)
      | _, _, _ => None
      end
  | SChain i j k =>
      match arg args i, arg args j, ptr args k with
      | VObj (Some a), VObj (Some b), Some o => Some (KChain a b o)
      | _, _, _ => None
      end
  | SVector => Some (KVector [])
  | _ => None
  end.

(** The value of $$, the prefix map, the number of buffers of quoted strings that were not freed. *)
Record frame := mkFrame { f_dst : value; f_map : list (N * N); f_bufs : N }.
(** an assignment to $$ *)
Definition assign (d : value) (f : frame) : frame := mkFrame d (f_map f) (f_bufs f).
(** What follows a statement: the next one, or the end of the action by YYERROR, YYABORT or YYNOMEM. *)
Inductive step : Type :=
| Go (f : frame)
| Leave (f : frame).

(** A statement of an action with these values of $1, $2, ..., while the symbols below have the references
    [below]. *)
Definition do_stmt (vs : list vocab) (below : list N) (args : list value) (st : stmt) (f : frame) : prog step :=
  match st with
  | SNull => Ret (Go (assign (VObj None) f))
  | SMove i => Ret (Go (assign (arg args i) f))
  | SShortIri i =>
      match arg args i with
      | VText t => after_that (short_iri (f_map f) t) (fun r => Ret (Go (assign (VObj r) f)))
      | _ => Stuck
      end
  | SOwnString _ =>
      match makes st args with
      | Some k => Do k (fun r => Ret (Go (mkFrame (VObj r) (f_map f) (N.pred (f_bufs f)))))
      | None => Stuck
      end
  | SVectorUnless i =>
      match arg args i with
      | VObj (Some a) => Ret (Go (assign (VObj (Some a)) f))
      | VObj None =>
          Do (KVector []) (fun r => Ret (match r with
                                         | Some v => Go (assign (VObj (Some v)) f)
                                         | None => Leave f
                                         end))
      | _ => Stuck
      end
  | SPush i =>
      match f_dst f, arg args i with
      | VObj (Some v), VObj (Some x) => Do (KVectorPush v x) (fun _ => Ret (Go f))
      | _, _ => Stuck
      end
  | SRelease i =>
      match arg args i with
      | VObj (Some a) => Do (KRelease a) (fun _ => Ret (Go f))
      | VObj None => Ret (Go f)
      | _ => Stuck
      end
  (* cowl_vector_shrink accesses the vector after it was released *)
  | SFinalize i =>
      match arg args i with
      | VObj (Some v) =>
          Do (KRelease v) (fun _ => Look (fun s =>
            match lookup (s_heap s) v with
            | Some c => match c_body c with BVec _ => Ret (Go f) | _ => Stuck end
            | None => Stuck
            end))
      | VObj None => Ret (Go f)
      | _ => Stuck
      end
  | SCheck =>
      match f_dst f with
      | VObj (Some _) => Ret (Go f)
      | VObj None => Ret (Leave f)
      | _ => Stuck
      end
  | SHandle l =>
      match ptrs args l with
      | Some ps => Hand (flat_map opt_list ps) (flat_map refs (others l 1 args) ++ below ++ map_refs (f_map f)) (Ret (Go f))
      | None => Stuck
      end
  | SPrefixAdd i j =>
      match arg args i, arg args j with
      | VObj (Some p), VObj (Some n) =>
          after_that (map_add vs p n (f_map f)) (fun m => Ret (Go (mkFrame (f_dst f) m (f_bufs f))))
      | _, _ => Stuck
      end
  | SStop => Choose (Ret (Go f)) (Ret (Leave f))
  | _ =>
      match makes st args with
      | Some k => Do k (fun r => Ret (Go (assign (VObj r) f)))
      | None => Stuck
      end
  end.
(** An action. *)
Fixpoint do_action (vs : list vocab) (below : list N) (args : list value) (l : list stmt) (f : frame) : prog step :=
  match l with
  | [] => Ret (Go f)
  | st :: l' =>
      after_that (do_stmt vs below args st f) (fun r =>
        match r with
        | Go f' => do_action vs below args l' f'
        | Leave f' => Ret (Leave f')
        end)
  end.

(** * The parser *)

(** The stack of the parser, the top first. *)
Definition stack := list (string * value).
(** What the parser does next: shift a token, or reduce the n-th rule. *)
Inductive move : Type :=
| Shift (x : string) (v : value)
| Reduce (n : nat).

(** Takes the right side of a rule (its symbols in reverse order) off the stack: the values, $1 first,
    and the rest of the stack. *)
Fixpoint take (rhs : list string) (st : stack) (args : list value) : option (list value * stack) :=
  match rhs, st with
  | [], _ => Some (args, st)
  | x :: rhs', (y, v) :: st' => if String.eqb x y then take rhs' st' (v :: args) else None
  | _ :: _, [] => None
  end.
(** The references on a stack. *)
Definition stack_refs (st : stack) : list N := flat_map (fun x => refs (snd x)) st.

(** bison yydestruct on the symbols of the stack *)
Fixpoint discard (st : stack) : prog unit :=
  match st with
  | [] => Ret tt
  | (x, v) :: st' =>
      if destroyed x then
        match v with
        | VObj (Some a) => Do (KRelease a) (fun _ => discard st')
        | VObj None => discard st'
        | _ => Stuck
        end
      else discard st'
  end.
(** The end of the run, after success or an error: bison yyreturn (the symbols left on the stack
    are discarded), then src/formats/functional/reader/cowl_functional.y:76-79 cowl_func_state_deinit. Returns
    the number of buffers of quoted strings that were not freed. *)
Definition finish (st : stack) (m : list (N * N)) (b : N) : prog N :=
  after_that (discard st) (fun _ => after_that (map_free m) (fun _ => Ret b)).

(** bison yyparse. After the last move comes the end of the input or a syntax error; a token that was read
    and does not fit is, as far as memory is concerned, a token that was shifted. A token that was read before
    an action was left is not modelled: its value has no destructor. The value of a symbol without a type is
    never used. When an action is left, the values of the symbols on the right of its rule are popped
    without being released. *)
Fixpoint parse (vs : list vocab) (l : list move) (st : stack) (m : list (N * N)) (b : N) : prog N :=
  match l with
  | [] => finish st m b
  | Shift x v :: l' =>
      if token_value x v then parse vs l' ((x, v) :: st) m (match v with VBuf _ => b + 1 | _ => b end) else Never
  | Reduce n :: l' =>
      match nth_error rules n with
      | None => Never
      | Some (lhs, rhs, acts) =>
          match take (rev rhs) st [] with
          | None => Never
          | Some (args, st') =>
              after_that (do_action vs (stack_refs st') args acts (mkFrame (hd VNone args) m b)) (fun r =>
                match r with
                | Go f => parse vs l' ((lhs, if String.eqb (ctype lhs) "" then VNone else f_dst f) :: st') (f_map f) (f_bufs f)
                | Leave f => finish st' (f_map f) (f_bufs f)
                end)
          end
      end
  end.

(** src/formats/functional/reader/cowl_func_reader.c:28-43 func_read; src/cowl_prefix_map.c:90-104 cowl_prefix_map: the
    map of the reader starts with the reserved prefixes and the entries of the global map. *)
Definition read_document (vs : list vocab) (global : list (N * N)) (l : list move) : prog N :=
  after_that (map_merge vs (reserved vs ++ global) []) (fun m => parse vs l [] m 0).
