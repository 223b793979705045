(** Prefix maps. Models src/cowl_prefix_map.c.

    String objects have an identity ([sid], the address) besides their text, because the map
    compares pointers (line 193), retains and releases strings, and its reverse table holds
    pointers it does not own. [rc] gives the current number of references to each string; using a
    string without references is undefined behaviour ([None]).

    Simplifications: hash tables are lists with content-compared keys, visited in an order given by
    [visit]; a look-up dereferences the matching stored key only (ulib may also read other keys of
    the same probe sequence). Memory allocation succeeds. *)

From Coq Require Import NArith ZArith List Bool String.
From Verif Require Import Bytes ModelTypes ModelObject ModelText.
Import ListNotations.
Local Open Scope N_scope.

(** src/cowl_string_private.h struct CowlString: address and text. *)
Record str : Type := { sid : N; stx : bytes }.

(** Contents of a CowlTable from strings to strings (src/cowl_table_private.h). *)
Definition tbl := list (str * str).

(** src/cowl_prefix_map_private.h:22-26 struct CowlPrefixMap; [dirty] is the flag bit
    (src/cowl_prefix_map.c:45-55). [rc]: reference counts of all strings. *)
Record pst : Type := { fwd : tbl; rev_tbl : tbl; dirty : bool; rc : N -> N }.

(** src/cowl_vocab.c / cowl_*_vocab.c: the vocabulary strings, alive as long as the library. *)
Definition vstr (i : N) (b : bytes) : str := {| sid := i; stx := b |}.
(** src/cowl_prefix_map.c:26-39 RESERVED_PN *)
Definition reserved : list (str * str) :=
  [ (vstr 1 (bs "owl"), vstr 2 owl_ns); (vstr 3 (bs "rdf"), vstr 4 rdf_ns);
    (vstr 5 (bs "rdfs"), vstr 6 rdfs_ns); (vstr 7 (bs "xsd"), vstr 8 xsd_ns) ].

(** A string can be read. *)
Definition alive (r : N -> N) (s : str) : bool := negb (r (sid s) =? 0).
(** src/cowl_object.c:157-160 cowl_retain *)
Definition retain (r : N -> N) (s : str) : option (N -> N) :=
  if alive r s then Some (fun i => if i =? sid s then r i + 1 else r i) else None.
(** src/cowl_object.c:171-194 cowl_release, on a string *)
Definition release (r : N -> N) (s : str) : option (N -> N) :=
  if alive r s then Some (fun i => if i =? sid s then r i - 1 else r i) else None.

(** ulib uhash_get with cowl_string_equals (src/cowl_table.c:37) *)
Definition find_entry (t : tbl) (key : bytes) : option (str * str) :=
  find (fun e => bytes_eqb (stx (fst e)) key) t.
(** ulib uhmap_set_val on the entry found *)
Definition set_val (t : tbl) (key : bytes) (v : str) : tbl :=
  map (fun e => if bytes_eqb (stx (fst e)) key then (fst e, v) else e) t.
(** ulib uhash_delete on the entry found *)
Definition del_entry (t : tbl) (key : bytes) : tbl :=
  filter (fun e => negb (bytes_eqb (stx (fst e)) key)) t.

(** Order in which a hash table is visited. *)
Section Visit.
  Variable visit : tbl -> tbl.

  (** src/cowl_prefix_map.c:63-76, the loop of update_reverse_map *)
  Fixpoint update_loop (r : N -> N) (es : tbl) (h2 : tbl) : option tbl :=
    match es with
    | [] => Some h2
    | (k, v) :: es' =>
        if negb (alive r v) then None else
        match find_entry h2 (stx v) with
        | None => update_loop r es' (h2 ++ [(v, k)])
        | Some (n, ex) =>
            if negb (alive r n && alive r k && alive r ex) then None else
            if Nat.ltb (List.length (stx k)) (List.length (stx ex))
            then update_loop r es' (set_val h2 (stx v) k)
            else update_loop r es' h2
        end
    end.

  (** src/cowl_prefix_map.c:57-80 update_reverse_map, as called by cowl_prefix_map_get_table(map,
      true) (lines 112-123) *)
  Definition reverse_table (s : pst) : option pst :=
    if negb (dirty s) then Some s else
    match update_loop (rc s) (visit (fwd s)) (rev_tbl s) with
    | None => None
    | Some h2 => Some {| fwd := fwd s; rev_tbl := h2; dirty := false; rc := rc s |}
    end.

  (** src/cowl_prefix_map.c:125-127 cowl_prefix_map_get_ns *)
  Definition get_ns (s : pst) (prefix : bytes) : option (option str) :=
    match find_entry (fwd s) prefix with
    | None => Some None
    | Some (k, v) => if alive (rc s) k then Some (Some v) else None
    end.

  (** src/cowl_prefix_map.c:129-131 cowl_prefix_map_get_prefix *)
  Definition get_prefix (s : pst) (ns : bytes) : option (pst * option str) :=
    match reverse_table s with
    | None => None
    | Some s' =>
        match find_entry (rev_tbl s') ns with
        | None => Some (s', None)
        | Some (k, v) => if alive (rc s') k then Some (s', Some v) else None
        end
    end.

  (** src/cowl_prefix_map.c:133-138 intern_ns; [ns] is the string cowl_string_intern returned. *)
  Definition intern_ns (prefix ns : str) : str :=
    match find_entry reserved (stx prefix) with Some (_, v) => v | None => ns end.

  (** src/cowl_prefix_map.c:140-161 cowl_prefix_map_add; [ns] after interning. On overwrite the old
      value is released before the new one is retained. *)
  Definition pm_add (s : pst) (prefix ns : str) (overwrite : bool) : option (pst * ret) :=
    let ns := intern_ns prefix ns in
    match find_entry (fwd s) (stx prefix) with
    | Some (k, old) =>
        if negb (alive (rc s) k) then None else
        if negb overwrite then Some (s, COWL_NO) else
        match release (rc s) old with
        | None => None
        | Some r1 =>
            match retain r1 ns with
            | None => None
            | Some r2 =>
                Some ({| fwd := set_val (fwd s) (stx prefix) ns; rev_tbl := rev_tbl s; dirty := true; rc := r2 |}, COWL_OK)
            end
        end
    | None =>
        match retain (rc s) prefix with
        | None => None
        | Some r1 =>
            match retain r1 ns with
            | None => None
            | Some r2 =>
                Some ({| fwd := fwd s ++ [(prefix, ns)]; rev_tbl := rev_tbl s; dirty := true; rc := r2 |}, COWL_OK)
            end
        end
    end.

  (** src/cowl_prefix_map.c:181-204 cowl_prefix_map_remove_prefix *)
  Definition pm_remove_prefix (s : pst) (prefix : bytes) : option (pst * ret) :=
    match find_entry (fwd s) prefix with
    | None => Some (s, COWL_NO)
    | Some (ex_key, ex_value) =>
        if negb (alive (rc s) ex_key) then None else
        let s1 := {| fwd := del_entry (fwd s) prefix; rev_tbl := rev_tbl s; dirty := dirty s; rc := rc s |} in
        match reverse_table s1 with
        | None => None
        | Some s2 =>
            let found :=
              match find_entry (rev_tbl s2) (stx ex_value) with
              | None => Some s2
              | Some (n, p) =>
                  if negb (alive (rc s2) n) then None else
                  if sid ex_key =? sid p
                  then Some {| fwd := fwd s2; rev_tbl := del_entry (rev_tbl s2) (stx ex_value); dirty := true; rc := rc s2 |}
                  else Some s2
              end in
            match found with
            | None => None
            | Some s3 =>
                match release (rc s3) ex_key with
                | None => None
                | Some r1 =>
                    match release r1 ex_value with
                    | None => None
                    | Some r2 => Some ({| fwd := fwd s3; rev_tbl := rev_tbl s3; dirty := dirty s3; rc := r2 |}, COWL_OK)
                    end
                end
            end
        end
    end.

  (** src/cowl_prefix_map.c:216-222, the loop of cowl_prefix_map_remove_ns: remaining entries,
      reference counts, whether something was removed. *)
  Fixpoint remove_ns_loop (r : N -> N) (es : tbl) (ns : str) : option (tbl * (N -> N) * bool) :=
    match es with
    | [] => Some ([], r, false)
    | (k, v) :: es' =>
        if negb (alive r v && alive r ns) then None else
        if bytes_eqb (stx v) (stx ns) then
          match release r k with
          | None => None
          | Some r1 =>
              match release r1 v with
              | None => None
              | Some r2 =>
                  match remove_ns_loop r2 es' ns with
                  | None => None
                  | Some (es'', r3, _) => Some (es'', r3, true)
                  end
              end
          end
        else
          match remove_ns_loop r es' ns with
          | None => None
          | Some (es'', r3, b) => Some ((k, v) :: es'', r3, b)
          end
    end.

  (** src/cowl_prefix_map.c:211-231 cowl_prefix_map_remove_ns. The final uhmap_remove reads [ns] and
      the matching key of the reverse table. *)
  Definition pm_remove_ns (s : pst) (ns : str) : option (pst * ret) :=
    match remove_ns_loop (rc s) (visit (fwd s)) ns with
    | None => None
    | Some (es, r, b) =>
        match reverse_table {| fwd := es; rev_tbl := rev_tbl s; dirty := dirty s; rc := r |} with
        | None => None
        | Some s2 =>
            if negb (alive (rc s2) ns) then None else
            match find_entry (rev_tbl s2) (stx ns) with
            | None => Some (s2, if b then COWL_OK else COWL_NO)
            | Some (n, _) =>
                if negb (alive (rc s2) n) then None else
                Some ({| fwd := fwd s2; rev_tbl := del_entry (rev_tbl s2) (stx ns); dirty := dirty s2; rc := rc s2 |},
                      if b then COWL_OK else COWL_NO)
            end
        end
    end.

  (** src/cowl_prefix_map.c:237-241, the loop of cowl_prefix_map_merge *)
  Fixpoint merge_loop (s : pst) (es : tbl) (overwrite : bool) (r : ret) : option (pst * ret) :=
    match es with
    | [] => Some (s, r)
    | (k, v) :: es' =>
        match pm_add s k v overwrite with
        | None => None
        | Some (s', lret) => merge_loop s' es' overwrite (if Z.eqb lret COWL_OK then COWL_OK else r)
        end
    end.

  (** src/cowl_prefix_map.c:233-243 cowl_prefix_map_merge *)
  Definition pm_merge (s : pst) (src : tbl) (overwrite : bool) : option (pst * ret) :=
    merge_loop s (visit src) overwrite COWL_NO.

  (** src/cowl_prefix_map.c:82-104: register_reserved on an empty map (cowl_prefix_map without a
      default map; with one, a merge follows). *)
  Definition pm_init (r : N -> N) : option (pst * ret) :=
    merge_loop {| fwd := []; rev_tbl := []; dirty := false; rc := r |} reserved false COWL_NO.

  (** src/cowl_prefix_map.c:245-257 cowl_prefix_map_get_iri: namespace and remainder of the IRI. *)
  Definition pm_get_iri (s : pst) (prefix rem : bytes) : option (option (bytes * bytes)) :=
    match get_ns s prefix with
    | None => None
    | Some None => Some None
    | Some (Some ns) => Some (Some (iri_of_parts (stx ns) rem))
    end.

  (** src/cowl_prefix_map.c:259-267 cowl_prefix_map_parse_short_iri. Without a colon the length of
      the remainder, str_length - (ns_length + 1), underflows and the buffer starts past the
      terminator: undefined behaviour as soon as the remainder is used, i.e. if the prefix is
      bound. *)
  Definition pm_parse_short_iri (s : pst) (short : bytes) : option (option (bytes * bytes)) :=
    let ns_length := index_of short 58 in
    let ns := firstn ns_length short in
    if Nat.ltb ns_length (List.length short) then pm_get_iri s ns (skipn (S ns_length) short)
    else match get_ns s ns with
         | Some None => Some None
         | _ => None
         end.

  (** src/cowl_prefix_map.c:269-272 cowl_prefix_map_parse_iri *)
  Definition pm_parse_iri (s : pst) (t : bytes) : option (option (bytes * bytes)) :=
    match pm_parse_short_iri s t with
    | None => None
    | Some (Some iri) => Some (Some iri)
    | Some None => Some (iri_from_string t)
    end.

  (** One call of the API. *)
  Inductive pop : Type :=
  | PAdd (prefix ns : str) (overwrite : bool)
  | PRemovePrefix (prefix : bytes)
  | PRemoveNs (ns : str)
  | PMerge (src : tbl) (overwrite : bool)
  | PGetPrefix (ns : bytes)
  | PRelease (s : str).        (** the client gives back a reference of its own *)

  (** Dispatch of a call; look-ups return COWL_OK here. *)
  Definition pm_step (s : pst) (o : pop) : option (pst * ret) :=
    match o with
    | PAdd p n ow => pm_add s p n ow
    | PRemovePrefix p => pm_remove_prefix s p
    | PRemoveNs n => pm_remove_ns s n
    | PMerge src ow => pm_merge s src ow
    | PGetPrefix n => match get_prefix s n with Some (s', _) => Some (s', COWL_OK) | None => None end
    | PRelease x => match release (rc s) x with
                    | Some r => Some ({| fwd := fwd s; rev_tbl := rev_tbl s; dirty := dirty s; rc := r |}, COWL_OK)
                    | None => None
                    end
    end.

  (** A history of calls with the code returned by each. *)
  Fixpoint pm_run (s : pst) (ops : list pop) : option (pst * list ret) :=
    match ops with
    | [] => Some (s, [])
    | o :: ops' =>
        match pm_step s o with
        | None => None
        | Some (s', r) => match pm_run s' ops' with
                          | None => None
                          | Some (s'', rs) => Some (s'', r :: rs)
                          end
        end
    end.
End Visit.
