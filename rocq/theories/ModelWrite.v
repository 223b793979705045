(** Model: writing single objects (cowl_write, cowl_to_string). *)

From Coq Require Import NArith List Bool.
From Verif Require Import Bytes ModelTypes ModelObject ModelPrefixMap ModelFuncWriter.
Import ListNotations.
Local Open Scope N_scope.

(** src/formats/functional/writer/cowl_func_writer.c:431-437 func_write: IRIs are abbreviated with the global
    prefix map (src/cowl_prefix_map.c cowl_get_prefix_map). Simplification: the stream accepts everything. *)
Definition func_write (visit : tbl -> tbl) (pm : pst) (o : obj) : wt_out := w_obj (map_abbr visit pm) o.

(** src/cowl_writer.c:163-167 cowl_write. The default writer: [None] if there is none, [Some None] if it
    cannot write single objects (the ProtocOWL writer). [debug] is what cowl_write_debug (169-175) writes: the
    type, the address and the count of references. *)
Definition cowl_write (writer : option (option (obj -> wt_out))) (debug : obj -> bytes) (o : obj) : wt_out :=
  match writer with
  | Some (Some write) => write o
  | _ => put (debug o)
  end.
(** src/cowl_object.c:280-296 cowl_to_string_impl, cowl_to_string. Simplification: memory does not run out. *)
Definition to_string (writer : option (option (obj -> wt_out))) (debug : obj -> bytes) (o : obj) : wt_out :=
  cowl_write writer debug o.
(** src/formats/functional/writer/cowl_func_writer.c:470-485 cowl_writer_functional, as the default writer *)
Definition functional (visit : tbl -> tbl) (pm : pst) : option (option (obj -> wt_out)) := Some (Some (func_write visit pm)).
