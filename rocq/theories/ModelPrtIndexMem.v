(** Model: the index of a ProtocOWL writer and the references it holds. Models the encoding side of
    src/formats/protocowl/cowl_prt_index.c; ModelPrtEncoder.v has the numbers it gives, by value.

    Simplifications. Memory allocation succeeds (so the results are COWL_OK), except in [prefix_add_nomem]. Objects are pointers (numbers); [key]
    tells which are equal (cowl_equals), and the tables compare by it (assumption about ulib's tables). The hash order
    of tables matters only for the order of releases. *)

From Coq Require Import NArith List Bool.
Import ListNotations.

Section Index.
  Variable key : N -> N.

  (** A call of cowl_retain or cowl_release. *)
  Inductive ev := Retain (x : N) | Release (x : N).

  (** cowl_prt_index.h:17-30 CowlPRTPrefixMap without _ns_to_prefix, and CowlPRTIdMap: the vector, the table from objects
      to indices ([None]: not set yet), _encode_idx and _sep *)
  Record nmap := mkN { n_vec : list N; n_idx : list (N * option nat); n_enc : nat; n_sep : nat }.
  (** cowl_prt_index.h:32-35 CowlPRTIndex; [x_pre] is _ns_to_prefix *)
  Record index := mkX { x_ns : nmap; x_pre : list (N * N); x_ids : nmap }.

  (** uhash_get by equality: [None] is UHASH_NOT_FOUND *)
  Fixpoint lookup {V} (x : N) (t : list (N * V)) : option V :=
    match t with
    | [] => None
    | (k, v) :: t' => if N.eqb (key k) (key x) then Some v else lookup x t'
    end.
  (** uhash_get and uhmap_set_val: [None] if the key is not there, which the code does not check *)
  Fixpoint set_val {V} (x : N) (v : V) (t : list (N * V)) : option (list (N * V)) :=
    match t with
    | [] => None
    | (k, u) :: t' => if N.eqb (key k) (key x) then Some ((k, v) :: t') else option_map (cons (k, u)) (set_val x v t')
    end.
  (** uvec_set *)
  Fixpoint set_item (l : list N) (i : nat) (x : N) : list N :=
    match l, i with
    | [], _ => []
    | _ :: l', O => x :: l'
    | y :: l', S i' => y :: set_item l' i' x
    end.

  (** cowl_prt_index.c:173-179 id_map_init, 118-123 *)
  Definition nmap_empty : nmap := mkN [] [] 0 0.
  (** cowl_prt_index.c:58-76 prefix_map_add_encoding up to the prefix, and 232-256 id_map_add_encoding: [first] tells
      whether the object belongs before the separator (a namespace with a prefix, an IRI). The flag says whether the
      object was added. *)
  Definition nmap_add (x : N) (first : bool) (m : nmap) : nmap * bool :=
    match lookup x (n_idx m) with
    | Some _ => (m, false)
    | None =>
        let idx := (x, None) :: n_idx m in
        if first then
          let vec := if Nat.ltb (n_sep m) (length (n_vec m)) then set_item (n_vec m ++ [nth (n_sep m) (n_vec m) 0%N]) (n_sep m) x
                     else n_vec m ++ [x] in
          (mkN vec idx (n_enc m) (S (n_sep m)), true)
        else (mkN (n_vec m ++ [x]) idx (n_enc m) (n_sep m), true)
    end.
  (** The loops of cowl_prt_index.c:42-49 prefix_map_sync_unencoded and 206-213 id_map_sync_unencoded *)
  Fixpoint sync_loop (l : list N) (i : nat) (t : list (N * option nat)) : option (list (N * option nat)) :=
    match l with
    | [] => Some t
    | x :: l' => match set_val x (Some i) t with None => None | Some t' => sync_loop l' (S i) t' end
    end.
  (** cowl_prt_index.c:41-52 prefix_map_sync_unencoded, 205-216 id_map_sync_unencoded *)
  Definition nmap_sync (m : nmap) : option nmap :=
    option_map (fun t => mkN (n_vec m) t (length (n_vec m)) (length (n_vec m))) (sync_loop (skipn (n_enc m) (n_vec m)) (n_enc m) (n_idx m)).

  (** cowl_prt_index.c:54-87 prefix_map_add_encoding *)
  Definition prefix_add (ns : N) (prefix : option N) (s : index) : index * list ev :=
    let first := match prefix with Some _ => true | None => false end in
    let (m, added) := nmap_add ns first (x_ns s) in
    if added then
      match prefix with
      | Some p =>
          let pre := match set_val ns p (x_pre s) with Some t => t | None => (ns, p) :: x_pre s end in
          (mkX m pre (x_ids s), [Retain p; Retain ns])
      | None => (mkX m (x_pre s) (x_ids s), [Retain ns])
      end
    else (s, []).
  (** cowl_prt_index.c:54-87 prefix_map_add_encoding with a prefix, when the second uhash_put (line 80) runs out of memory:
      it returns before any cowl_retain *)
  Definition prefix_add_nomem (ns : N) (s : index) : index := mkX (fst (nmap_add ns true (x_ns s))) (x_pre s) (x_ids s).
  (** cowl_prt_index.c:232-256 id_map_add_encoding *)
  Definition id_add (id : N) (is_iri : bool) (s : index) : index * list ev :=
    let (m, added) := nmap_add id is_iri (x_ids s) in
    if added then (mkX (x_ns s) (x_pre s) m, [Retain id]) else (s, []).
  (** cowl_prt_index.c:29-39 prefix_map_deinit *)
  Definition prefix_deinit (s : index) : list ev := map (fun e => Release (snd e)) (x_pre s) ++ map Release (n_vec (x_ns s)).
  (** cowl_prt_index.c:181-187 id_map_deinit *)
  Definition id_deinit (s : index) : list ev := map Release (n_vec (x_ids s)).
  (** cowl_prt_index.c:100-115 prefix_map_add_standard_prefixes; [std] are the five namespaces and prefixes of the
      vocabulary *)
  Fixpoint add_standard (std : list (N * N)) (s : index) : index * list ev :=
    match std with
    | [] => (s, [])
    | (ns, p) :: std' => let (s1, l1) := prefix_add ns (Some p) s in let (s2, l2) := add_standard std' s1 in (s2, l1 ++ l2)
    end.
  (** cowl_prt_index.c:117-132 prefix_map_init with [encode] *)
  Definition prefix_init (std : list (N * N)) (s : index) : option (index * list ev) :=
    let (s1, l) := add_standard std (mkX nmap_empty [] (x_ids s)) in
    option_map (fun m => (mkX m (x_pre s1) (x_ids s1), l)) (nmap_sync (x_ns s1)).

  (** What a writer does to its index. *)
  Inductive op :=
  | OPrefix (ns : N) (prefix : option N)     (* cowl_prt_index.c:337-339 cowl_prt_index_add_prefix *)
  | OIri (iri ns : N)                        (* cowl_prt_index.c:341-360 cowl_prt_index_add_primitive, an IRI or entity *)
  | OAnon (id : N)                           (* the same, an anonymous individual *)
  | ODeclareNs                               (* cowl_prt_index.c:371-374 cowl_prt_index_unencoded_prefixes *)
  | ODeclareIds                              (* cowl_prt_index.c:376-379 cowl_prt_index_unencoded_ids *)
  | OResetPrefixes                           (* cowl_prt_index.c:362-364, 134-138 cowl_prt_index_reset_prefixes *)
  | OResetIds.                               (* cowl_prt_index.c:366-369, 189-193 cowl_prt_index_reset_ids *)

  (** An operation. None: a key is not found. *)
  Definition run_op (std : list (N * N)) (o : op) (s : index) : option (index * list ev) :=
    match o with
    | OPrefix ns p => Some (prefix_add ns p s)
    | OIri iri ns => let (s1, l1) := prefix_add ns None s in let (s2, l2) := id_add iri true s1 in Some (s2, l1 ++ l2)
    | OAnon id => Some (id_add id false s)
    | ODeclareNs => option_map (fun m => (mkX m (x_pre s) (x_ids s), [])) (nmap_sync (x_ns s))
    | ODeclareIds => option_map (fun m => (mkX (x_ns s) (x_pre s) m, [])) (nmap_sync (x_ids s))
    | OResetPrefixes => option_map (fun r => (fst r, prefix_deinit s ++ snd r)) (prefix_init std s)
    | OResetIds => Some (mkX (x_ns s) (x_pre s) nmap_empty, id_deinit s)
    end.
  (** Any number of them. *)
  Fixpoint run_ops (std : list (N * N)) (l : list op) (s : index) : option (index * list ev) :=
    match l with
    | [] => Some (s, [])
    | o :: l' =>
        match run_op std o s with
        | None => None
        | Some (s1, e1) => option_map (fun r => (fst r, e1 ++ snd r)) (run_ops std l' s1)
        end
    end.
  (** cowl_prt_index.c:295-298 cowl_prt_index_init with [encode], then any operations *)
  Definition run_index (std : list (N * N)) (l : list op) : option (index * list ev) :=
    match prefix_init std (mkX nmap_empty [] nmap_empty) with
    | None => None
    | Some (s, e) => option_map (fun r => (fst r, e ++ snd r)) (run_ops std l s)
    end.
  (** cowl_prt_index.c:300-303 cowl_prt_index_deinit *)
  Definition index_deinit (s : index) : list ev := prefix_deinit s ++ id_deinit s.
  (** cowl_prt_index.c:161-165 prefix_map_get_idx, 226-230 id_map_get_idx: [None] is COWL_PRT_NOT_FOUND, [Some None] a
      value that was not set *)
  Definition get_idx (x : N) (m : nmap) : option (option nat) := lookup x (n_idx m).
  (** cowl_prt_index.c:144-150 prefix_map_unencoded and 218-224 id_map_unencoded: the objects to declare, first those
      before the separator (namespaces with a prefix, IRIs), then the others *)
  Definition first_view (m : nmap) : list N := firstn (n_sep m - n_enc m) (skipn (n_enc m) (n_vec m)).
  (** The same lines, the second view *)
  Definition rest_view (m : nmap) : list N := skipn (n_sep m) (n_vec m).
  (** cowl_prt_index.c:157-159 prefix_map_get_prefix: [None] is NULL *)
  Definition get_prefix (ns : N) (s : index) : option N := lookup ns (x_pre s).
End Index.
