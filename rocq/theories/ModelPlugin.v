(** Model: readers and writers supplied by clients and the defaults of the library. Models src/cowl_config.c, the
    constructors and destructors of src/cowl_reader.c and src/cowl_writer.c, and cowl_retain and cowl_release of
    src/cowl_object.c for these objects.

    Simplifications. Memory allocation succeeds, and reference counts do not overflow (C10_limit_refuted). The context
    and the functions of a reader or writer are opaque: only when its free function is called is recorded. The
    free function does not call the library. The default prefix map is left out. *)

From Coq Require Import NArith List Bool.
Import ListNotations.
Local Open Scope N_scope.

(** src/cowl_config.c:25-26: the two globals, and the two types of objects *)
Inductive slot : Set := Reader | Writer.
(** Equality. *)
Definition slot_eqb (a b : slot) : bool := match a, b with Reader, Reader | Writer, Writer => true | _, _ => false end.

(** Objects are numbered as they are made. [p_count]: the reference count of an object in memory, 0 if it is not in
    memory. [p_kind]: its type. [p_default]: the globals. [p_init]: cowl_initialized. [p_freed]: the objects whose
    context was freed, the last first. *)
Record plugins := mkPlugins {
  p_next : N; p_count : N -> N; p_kind : N -> slot; p_default : slot -> option N; p_init : bool; p_freed : list N }.

(** Assignment. *)
Definition set_at {A} (f : N -> A) (i : N) (x : A) : N -> A := fun j => if j =? i then x else f j.
(** Assignment of a global. *)
Definition set_slot (f : slot -> option N) (k : slot) (x : option N) : slot -> option N :=
  fun j => if slot_eqb j k then x else f j.

(** Before the first call: static objects are zero. *)
Definition start : plugins := mkPlugins 0 (fun _ => 0) (fun _ => Reader) (fun _ => None) false [].

(** src/cowl_reader.c:29-39 cowl_reader, src/cowl_writer.c:40-50 cowl_writer: the reference count is 1 *)
Definition make (k : slot) (s : plugins) : N * plugins :=
  (p_next s, mkPlugins (p_next s + 1) (set_at (p_count s) (p_next s) 1) (set_at (p_kind s) (p_next s) k) (p_default s) (p_init s) (p_freed s)).
(** src/cowl_object.c:157-160 cowl_retain. None: NULL or an object not in memory is accessed. *)
Definition retain (p : option N) (s : plugins) : option plugins :=
  match p with
  | None => None
  | Some i =>
      if p_count s i =? 0 then None
      else Some (mkPlugins (p_next s) (set_at (p_count s) i (p_count s i + 1)) (p_kind s) (p_default s) (p_init s) (p_freed s))
  end.
(** src/cowl_object.c:171-194 cowl_release, src/cowl_reader.c:49-52 cowl_reader_free, src/cowl_writer.c:52-55
    cowl_writer_free *)
Definition release (p : option N) (s : plugins) : option plugins :=
  match p with
  | None => Some s
  | Some i =>
      if p_count s i =? 0 then None
      else Some (mkPlugins (p_next s) (set_at (p_count s) i (p_count s i - 1)) (p_kind s) (p_default s) (p_init s)
                   (if p_count s i =? 1 then i :: p_freed s else p_freed s))
  end.
(** A use of an object: src/cowl_reader.c:54-56 cowl_reader_read, src/cowl_writer.c:158-161 cowl_writer_write and the
    like read the object *)
Definition use (p : option N) (s : plugins) : option plugins :=
  match p with None => None | Some i => if p_count s i =? 0 then None else Some s end.
(** Assignment of a global. *)
Definition assign (k : slot) (p : option N) (s : plugins) : plugins :=
  mkPlugins (p_next s) (p_count s) (p_kind s) (set_slot (p_default s) k p) (p_init s) (p_freed s).
(** cowl_initialized *)
Definition with_init (b : bool) (s : plugins) : plugins :=
  mkPlugins (p_next s) (p_count s) (p_kind s) (p_default s) b (p_freed s).

(** Comparison of pointers. *)
Definition same (p q : option N) : bool :=
  match p, q with None, None => true | Some a, Some b => a =? b | _, _ => false end.

(** src/cowl_config.c:84-88 cowl_set_reader, 94-98 cowl_set_writer *)
Definition set_default (k : slot) (p : option N) (s : plugins) : option plugins :=
  if same p (p_default s k) then Some s else
  match release (p_default s k) s with
  | None => None
  | Some s1 => match retain p s1 with None => None | Some s2 => Some (assign k p s2) end
  end.
(** src/cowl_config.c:80-82 cowl_get_reader, 90-92 cowl_get_writer *)
Definition get_default (k : slot) (s : plugins) : option N := p_default s k.

(** src/cowl_config.c:40-48 cowl_api_init, 51-66 cowl_init *)
Definition cowl_init (s : plugins) : plugins :=
  if p_init s then s else
  let (r, s1) := make Reader s in
  let s2 := assign Reader (Some r) s1 in
  let (w, s3) := make Writer s2 in
  with_init true (assign Writer (Some w) s3).
(** src/cowl_config.c:29-38 cowl_api_deinit, 68-78 cowl_deinit *)
Definition cowl_deinit (s : plugins) : option plugins :=
  if negb (p_init s) then Some s else
  match release (p_default s Reader) s with
  | None => None
  | Some s1 =>
      let s2 := assign Reader None s1 in
      match release (p_default s2 Writer) s2 with
      | None => None
      | Some s3 => Some (with_init false (assign Writer None s3))
      end
  end.

(** The calls of a client. *)
Inductive call : Type :=
| CMake (k : slot)
| CRetain (i : N)
| CRelease (i : N)
| CUse (i : N)
| CSet (k : slot) (p : option N)
| CInit
| CDeinit.

(** A call; None is undefined behaviour. *)
Definition exec (c : call) (s : plugins) : option plugins :=
  match c with
  | CMake k => Some (snd (make k s))
  | CRetain i => retain (Some i) s
  | CRelease i => release (Some i) s
  | CUse i => use (Some i) s
  | CSet k p => set_default k p s
  | CInit => Some (cowl_init s)
  | CDeinit => cowl_deinit s
  end.
