(** Model: the error information of readers. Models include/cowl_error.h, src/cowl_error.c, src/cowl_ret.c,
    cowl_write_error of src/cowl_writer.c, and the handling of errors in the two readers:
    src/formats/functional/reader/cowl_func_reader.c, cowl_functional.y and cowl_functional.l,
    src/formats/protocowl/reader/cowl_prt_decoder.c.

    Simplifications. What a reader does between two operations on its error is left open: a reading is any list of
    such operations, so that what holds for all lists holds for all inputs, streams and handlers. Numbers of
    lines and bytes are not cut to the width of ulib_uint. The error of a reader lives as long as the reader. *)

From Coq Require Import String NArith ZArith List Bool.
From Verif Require Import Bytes ModelText.
Import ListNotations.
Local Open Scope Z_scope.
Local Open Scope list_scope.

(** include/cowl_ret.h:36 *)
Definition OK : Z := 0.
(** include/cowl_ret.h:46 *)
Definition NO : Z := 1.
(** include/cowl_ret.h:49, the value of ulib *)
Definition ERR : Z := -1.
(** include/cowl_ret.h:52, the value of ulib *)
Definition ERR_MEM : Z := -2.
(** include/cowl_ret.h:62, the value of ulib *)
Definition ERR_IO : Z := -4.
(** include/cowl_ret.h:65 *)
Definition ERR_SYNTAX : Z := -32.
(** include/cowl_ret.h:83-85 cowl_ret_is_err: negative codes are errors *)
Definition is_err (c : Z) : bool := c <? 0.

(** include/cowl_error.h:22-39 CowlError; a message is its buffer and its text, None is ustring_null *)
Record cerror := mkError { e_code : Z; e_byte : N; e_line : N; e_col : N; e_msg : option (N * bytes) }.

(** A reader: its error, the next free buffer and the buffers allocated and not freed. *)
Record reader := mkReader { r_err : cerror; r_next : N; r_live : list N }.

(** Freeing a buffer: None if it is not allocated. *)
Fixpoint free_buf (b : N) (l : list N) : option (list N) :=
  match l with
  | [] => None
  | x :: l' => if N.eqb x b then Some l' else option_map (cons x) (free_buf b l')
  end.

(** src/cowl_error.c:16-27 cowl_error: the message is the formatted text, or ustring_null. Allocating the text
    succeeds. *)
Definition cowl_error (code : Z) (fmt : option bytes) (r : reader) : cerror * reader :=
  match fmt with
  | None => (mkError code 0 0 0 None, r)
  | Some t => (mkError code 0 0 0 (Some (r_next r, t)), mkReader (r_err r) (r_next r + 1) (r_next r :: r_live r))
  end.
(** include/cowl_error.h:78-80 cowl_error_deinit: frees the message *)
Definition error_deinit (r : reader) : option reader :=
  match e_msg (r_err r) with
  | None => Some r
  | Some (b, _) => option_map (mkReader (r_err r) (r_next r)) (free_buf b (r_live r))
  end.
(** cowl_functional.y:81-84 cowl_func_state_set_error, cowl_prt_decoder.c:58-61 decoder_set_error: the new error is
    made before the old one is freed *)
Definition set_error (code : Z) (fmt : option bytes) (r : reader) : option reader :=
  let (e, r1) := cowl_error code fmt r in
  option_map (fun r2 => mkReader e (r_next r2) (r_live r2)) (error_deinit r1).
(** "state->error->line = line" *)
Definition set_line (n : N) (r : reader) : reader :=
  let e := r_err r in mkReader (mkError (e_code e) (e_byte e) n (e_col e) (e_msg e)) (r_next r) (r_live r).
(** "err->byte = n" *)
Definition set_byte (n : N) (r : reader) : reader :=
  let e := r_err r in mkReader (mkError (e_code e) n (e_line e) (e_col e) (e_msg e)) (r_next r) (r_live r).
(** "error->code = c" *)
Definition set_code (c : Z) (r : reader) : reader :=
  let e := r_err r in mkReader (mkError c (e_byte e) (e_line e) (e_col e) (e_msg e)) (r_next r) (r_live r).
(** cowl_func_reader.c:54-57 cowl_reader_functional, cowl_prt_decoder.c:1305-1308 cowl_reader_protocowl *)
Definition new_reader : reader := mkReader (mkError OK 0 0 0 None) 0 [].
(** cowl_func_reader.c:49-52 and cowl_prt_decoder.c:1300-1303 free_error; src/cowl_reader.c:49-52 cowl_reader_free *)
Definition free_reader (r : reader) : option reader := error_deinit r.
(** cowl_func_reader.c:45-47 and cowl_prt_decoder.c:1296-1298 last_error; src/cowl_reader.c:106-109
    cowl_reader_last_error: never NULL *)
Definition last_error (r : reader) : option cerror := Some (r_err r).

(** * The functional reader *)

(** What happens to the error while a text is read. *)
Inductive func_step :=
| FScan (code : Z)                 (* cowl_functional.l:28-34 HANDLE_ERROR with an error: the input ends there *)
| FMem (line : N)                  (* cowl_functional.y:102-109 COWL_ERROR_MEM *)
| FCode (code : Z) (line : N)      (* cowl_functional.y:111-118 COWL_ERROR *)
| FResolve (msg : bytes) (line : N)(* cowl_functional.y:120-124 COWL_SYNTAX_ERROR *)
| FRefused                         (* cowl_functional.y:344, 351, 364, 369, 378: YYERROR after the handler's answer *)
| FSyntax (line : N)               (* Bison found no action for a token: yyerror("syntax error") *)
| FDepth (line : N).               (* Bison's stack cannot grow: yyerror("memory exhausted") *)

(** A call of func_read. *)
Inductive func_reading :=
| FNoMap                           (* cowl_func_reader.c:31 the prefix map cannot be allocated *)
| FNoScanner                       (* cowl_func_reader.c:34 cowl_func_yylex_init fails *)
| FParse (steps : list func_step).

Section Functional.
  (** Whether Bison defines YYNOMEM (recent versions do). *)
  Variable yynomem : bool.

  (** cowl_functional.y:90-100 cowl_func_yyerror *)
  Definition yyerror (exhausted : bool) (line : N) (r : reader) : option reader :=
    option_map (set_line line) (set_error (if exhausted then ERR_MEM else ERR_SYNTAX) None r).
  (** cowl_functional.y:102-109 COWL_ERROR_MEM; YYNOMEM calls yyerror("memory exhausted") and returns 2, YYABORT
      returns 1. *)
  Definition error_mem (line : N) (r : reader) : option (N * reader) :=
    if yynomem then option_map (pair 2%N) (yyerror true line r) else option_map (pair 1%N) (set_error ERR_MEM None r).
  (** Bison's cowl_func_yyparse as far as the error goes: 0 if the text was accepted, 1 after an error (the grammar
      has no error recovery), 2 if memory was exhausted. *)
  Fixpoint yyparse (l : list func_step) (r : reader) : option (N * reader) :=
    match l with
    | [] => Some (0%N, r)
    | FScan c :: l' => match set_error c None r with Some r' => yyparse l' r' | None => None end
    | FMem n :: _ => error_mem n r
    | FCode c n :: _ => if c =? ERR_MEM then error_mem n r else option_map (pair 1%N) (set_error c None r)
    | FResolve m n :: _ => option_map (fun r' => (1%N, set_line n r')) (set_error ERR_SYNTAX (Some m) r)
    | FRefused :: _ => Some (1%N, r)
    | FSyntax n :: _ => option_map (pair 1%N) (yyerror false n r)
    | FDepth n :: _ => option_map (pair 2%N) (yyerror true n r)
    end.
  (** cowl_func_reader.c:19-26 yyparse_to_cowl_ret *)
  Definition yyparse_to_cowl_ret (n : N) : Z :=
    match n with 0%N => OK | 1%N => ERR_SYNTAX | 2%N => ERR_MEM | _ => ERR end.
  (** cowl_func_reader.c:28-43 func_read, with cowl_functional.y:62-74 cowl_func_state_init *)
  Definition func_read (x : func_reading) (r : reader) : option (Z * reader) :=
    match set_error OK None r with
    | None => None
    | Some r1 =>
        match x with
        | FNoMap => Some (ERR_MEM, r1)
        | FNoScanner => Some (OK, r1)
        | FParse l => option_map (fun y => (yyparse_to_cowl_ret (fst y), snd y)) (yyparse l r1)
        end
    end.
End Functional.

(** * The ProtocOWL reader *)

(** What happens to the error and to the state of the stream while a stream is read. Reading without failure changes
    neither. *)
Inductive prt_step :=
| PStream (code : Z)                          (* a read fails: the stream's state becomes [code] *)
| PSyntax (msg : bytes)                       (* cowl_prt_decoder.c:63-71 decoder_handle_error, given by lines 88, 105,
                                                 125, 230, 241, 654, 714, 1065, 1130 and 1277 ERR_SYNTAX and a message *)
| PCode (code : Z).                           (* cowl_prt_decoder.c:71 decoder_handle_error_code, also with COWL_OK *)

(** A call of read_ontology: the result of cowl_prt_index_init, the steps, and how many bytes the stream has given. *)
Record prt_reading := mkPrt { p_init : Z; p_steps : list prt_step; p_bytes : N }.

(** cowl_prt_decoder.c:48-49 decoder_ok *)
Definition decoder_ok (stream : Z) (r : reader) : bool := negb (is_err stream) && negb (is_err (e_code (r_err r))).
(** cowl_prt_decoder.c:54-56 decoder_state *)
Definition decoder_state (stream : Z) (r : reader) : Z := if is_err stream then stream else e_code (r_err r).
(** cowl_prt_decoder.c:63-71 decoder_handle_error: the first error is kept *)
Definition handle_error (code : Z) (fmt : option bytes) (r : reader) : option reader :=
  if is_err (e_code (r_err r)) then Some r else set_error code fmt r.
(** The steps; nothing is read unless decoder_ok holds (cowl_prt_decoder.c:83, 95, 114, 1270). *)
Fixpoint prt_steps (l : list prt_step) (stream : Z) (r : reader) : option (Z * reader) :=
  match l with
  | [] => Some (stream, r)
  | PStream c :: l' => prt_steps l' (if decoder_ok stream r then c else stream) r
  | PSyntax m :: l' => match handle_error ERR_SYNTAX (Some m) r with Some r' => prt_steps l' stream r' | None => None end
  | PCode c :: l' => match handle_error c None r with Some r' => prt_steps l' stream r' | None => None end
  end.
(** cowl_prt_decoder.c:1280-1294 read_ontology, with 34-42 decoder_init, which sets the code and nothing else of the
    error. "if (decoder_init(...)) goto end" *)
Definition prt_read (x : prt_reading) (r : reader) : option (Z * reader) :=
  let r1 := set_code (p_init x) r in
  match (if p_init x =? OK then prt_steps (p_steps x) OK r1 else Some (OK, r1)) with
  | None => None
  | Some (stream, r2) =>
      let ret := decoder_state stream r2 in
      Some (ret, if is_err ret then set_byte (p_bytes x) r2 else r2)
  end.

(** * Texts *)

Section Text.
  (** src/cowl_ret.c:12-15 cowl_ret_to_string: "syntax error", or what ulib_ret_to_string says *)
  Variable ulib_ret_to_string : Z -> bytes.
  (** src/cowl_ret.c:12-15 cowl_ret_to_string *)
  Definition ret_to_string (c : Z) : bytes := if c =? ERR_SYNTAX then bs "syntax error" else ulib_ret_to_string c.

  (** include/cowl_error.h:90-92 cowl_error_has_message *)
  Definition has_message (e : cerror) : bool := match e_msg e with Some (_, []) | None => false | Some _ => true end.
  (** include/cowl_error.h:102-104 cowl_error_has_loc *)
  Definition has_loc (e : cerror) : bool := negb (N.eqb (e_line e) 0) || negb (N.eqb (e_col e) 0) || negb (N.eqb (e_byte e) 0).
  (** src/cowl_writer.c:231-237, the loop over the parts of the location *)
  Fixpoint write_locs (comma : bool) (l : list (N * bytes)) : option bytes :=
    match l with
    | [] => Some []
    | (v, name) :: l' =>
        if N.eqb v 0 then write_locs comma l' else
        match str_from_uint v, write_locs true l' with
        | Some n, Some rest => Some ((if comma then bs ", " else []) ++ name ++ n ++ rest)
        | _, _ => None
        end
    end.
  (** src/cowl_writer.c:205-243 cowl_write_error with src/cowl_error.c:29-35 cowl_error_to_string. The stream accepts
      everything. None: undefined behaviour. *)
  Definition error_text (error : option cerror) : option bytes :=
    match error with
    | None => Some []
    | Some e =>
        if negb (is_err (e_code e)) then Some [] else
        let msg := match e_msg e with Some (_, t) => if has_message e then bs ": " ++ t else [] | None => [] end in
        if has_loc e then
          match write_locs false [(e_line e, bs "line "); (e_col e, bs "col "); (e_byte e, bs "byte ")] with
          | Some l => Some (ret_to_string (e_code e) ++ msg ++ bs " (" ++ l ++ bs ")")
          | None => None
          end
        else Some (ret_to_string (e_code e) ++ msg)
    end.
End Text.
