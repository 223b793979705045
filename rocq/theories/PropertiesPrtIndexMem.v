(** C83: the index of a ProtocOWL writer holds exactly the references it needs. *)

From Coq Require Import NArith List Bool.
From Verif Require Import ModelPrtIndexMem SpecPrtIndexMem ProofPrtIndexMem.
Import ListNotations.

(** The table lookups of the writer never miss, whatever it was given to write before. Missing: memory suffices. *)
Theorem C83_found_partial : forall key std l, run_index key std l <> None.
Proof. exact index_found. Qed.
Print Assumptions C83_found_partial.

(** At any time an object was retained as often more than released as the index holds it. Missing: memory suffices. *)
Theorem C83_balance_partial : forall key std l s e x, run_index key std l = Some (s, e) ->
  retains x e = releases x e + times x (map snd (x_pre s)) + times x (n_vec (x_ns s)) + times x (n_vec (x_ids s)).
Proof. exact index_balance. Qed.
Print Assumptions C83_balance_partial.

(** Once the writer is freed every reference was given back. Missing: memory suffices. *)
Theorem C83_end_partial : forall key std l s e x, run_index key std l = Some (s, e) ->
  retains x (e ++ index_deinit s) = releases x (e ++ index_deinit s).
Proof. exact index_end. Qed.
Print Assumptions C83_end_partial.

(** No reference is given back that was not taken before, up to and in the freeing of the writer. Missing: memory suffices. *)
Theorem C83_order_partial : forall key std l s e x e1 e2, run_index key std l = Some (s, e) -> e ++ index_deinit s = e1 ++ e2 ->
  releases x e1 <= retains x e1.
Proof. exact index_order. Qed.
Print Assumptions C83_order_partial.

(** Every key of every table is an object the index has a reference to, so that no lookup touches a freed one. Missing:
    memory suffices. *)
Theorem C83_keys_partial : forall key std l s e k, run_index key std l = Some (s, e) ->
  In k (map fst (x_pre s)) \/ In k (map fst (n_idx (x_ns s))) \/ In k (map fst (n_idx (x_ids s))) -> releases k e < retains k e.
Proof. exact index_keys. Qed.
Print Assumptions C83_keys_partial.

(** What is added is known. Missing: memory suffices. *)
Theorem C83_known_partial : forall key std l s e iri ns, run_index key std (l ++ [OIri iri ns]) = Some (s, e) ->
  get_idx key iri (x_ids s) <> None /\ get_idx key ns (x_ns s) <> None.
Proof. exact index_known. Qed.
Print Assumptions C83_known_partial.

(** What is known when the namespaces are declared has a number, which leads to an equal namespace. Missing: memory
    suffices. *)
Theorem C83_number_ns_partial : forall key std l s e x, run_index key std (l ++ [ODeclareNs]) = Some (s, e) -> get_idx key x (x_ns s) <> None ->
  exists i y, get_idx key x (x_ns s) = Some (Some i) /\ nth_error (n_vec (x_ns s)) i = Some y /\ key y = key x.
Proof. exact index_number_ns. Qed.
Print Assumptions C83_number_ns_partial.

(** The same for IRIs and anonymous individuals. Missing: memory suffices. *)
Theorem C83_number_id_partial : forall key std l s e x, run_index key std (l ++ [ODeclareIds]) = Some (s, e) -> get_idx key x (x_ids s) <> None ->
  exists i y, get_idx key x (x_ids s) = Some (Some i) /\ nth_error (n_vec (x_ids s)) i = Some y /\ key y = key x.
Proof. exact index_number_id. Qed.
Print Assumptions C83_number_id_partial.

(** A number that was given stays until the prefixes are reset. Missing: memory suffices. *)
Theorem C83_stable_ns_partial : forall key std l o s e s' e' x i,
  run_index key std l = Some (s, e) -> run_index key std (l ++ [o]) = Some (s', e') ->
  o <> OResetPrefixes -> get_idx key x (x_ns s) = Some (Some i) -> get_idx key x (x_ns s') = Some (Some i).
Proof. exact index_stable_ns. Qed.
Print Assumptions C83_stable_ns_partial.

(** The same for IRIs and anonymous individuals, until they are reset. Missing: memory suffices. *)
Theorem C83_stable_id_partial : forall key std l o s e s' e' x i,
  run_index key std l = Some (s, e) -> run_index key std (l ++ [o]) = Some (s', e') ->
  o <> OResetIds -> get_idx key x (x_ids s) = Some (Some i) -> get_idx key x (x_ids s') = Some (Some i).
Proof. exact index_stable_id. Qed.
Print Assumptions C83_stable_id_partial.

(** An IRI and an anonymous individual are declared before another IRI is added and declared. *)
Example C83_stable_case : exists s e s' e',
  run_index (fun x => x) [(1, 2)]%N [OAnon 30; OIri 10 20; ODeclareNs; ODeclareIds; OIri 11 21]%N = Some (s, e) /\
  run_index (fun x => x) [(1, 2)]%N ([OAnon 30; OIri 10 20; ODeclareNs; ODeclareIds; OIri 11 21] ++ [ODeclareIds])%N = Some (s', e') /\
  get_idx (fun x => x) 30%N (x_ids s) = Some (Some 1) /\ get_idx (fun x => x) 11%N (x_ids s) = Some None /\
  get_idx (fun x => x) 30%N (x_ids s') = Some (Some 1) /\ get_idx (fun x => x) 11%N (x_ids s') = Some (Some 2).
Proof. do 4 eexists. split; [vm_compute; reflexivity|]. split; [vm_compute; reflexivity|]. vm_compute. repeat split. Qed.

(** What is declared: the first view has namespaces with a prefix, so that the writer finds one for each, and the second
    those without. Missing: memory suffices. *)
Theorem C83_view_ns_partial : forall key std l s e x, run_index key std l = Some (s, e) ->
  (In x (first_view (x_ns s)) -> exists p, get_prefix key x s = Some p) /\ (In x (rest_view (x_ns s)) -> get_prefix key x s = None).
Proof. exact index_views_ns. Qed.
Print Assumptions C83_view_ns_partial.

(** The first view of identifiers has IRIs only, the second anonymous individuals only, if the writer was given IRIs as
    IRIs. Missing: memory suffices. *)
Theorem C83_view_id_partial : forall key iri std l s e x, Forall (typed iri) l -> run_index key std l = Some (s, e) ->
  (In x (first_view (x_ids s)) -> iri x = true) /\ (In x (rest_view (x_ids s)) -> iri x = false).
Proof. exact index_views_id. Qed.
Print Assumptions C83_view_id_partial.

(** The two views are all that is not declared yet. Missing: memory suffices. *)
Theorem C83_view_all_partial : forall key std l s e, run_index key std l = Some (s, e) ->
  n_vec (x_ns s) = firstn (n_enc (x_ns s)) (n_vec (x_ns s)) ++ first_view (x_ns s) ++ rest_view (x_ns s) /\
  n_vec (x_ids s) = firstn (n_enc (x_ids s)) (n_vec (x_ids s)) ++ first_view (x_ids s) ++ rest_view (x_ids s).
Proof. exact index_views_all. Qed.
Print Assumptions C83_view_all_partial.

(** Two namespaces, one of them with a prefix, and three identifiers to declare. *)
Example C83_view_case : exists s e,
  run_index (fun x => x) [(1, 2)]%N [OAnon 30; OIri 10 20; OPrefix 21 (Some 22); OIri 11 20]%N = Some (s, e) /\
  Forall (typed (fun x => N.ltb x 30)) [OAnon 30; OIri 10 20; OPrefix 21 (Some 22); OIri 11 20]%N /\
  first_view (x_ns s) = [21]%N /\ rest_view (x_ns s) = [20]%N /\ first_view (x_ids s) = [10; 11]%N /\ rest_view (x_ids s) = [30]%N.
Proof. do 2 eexists. split; [vm_compute; reflexivity|]. split; [repeat constructor|]. vm_compute. repeat split. Qed.

(** When memory runs out as a prefix is added, a reference is given back that was never taken. *)
Theorem C83_memory_refuted : exists std l s e ns x, run_index (fun z => z) std l = Some (s, e) /\
  retains x (e ++ index_deinit (prefix_add_nomem (fun z => z) ns s)) < releases x (e ++ index_deinit (prefix_add_nomem (fun z => z) ns s)).
Proof. exact index_nomem. Qed.
Print Assumptions C83_memory_refuted.

(** A writer given IRIs of two namespaces, an anonymous individual, a prefix whose namespace goes before one already
    there, an equal namespace in another object (40 equals 20), and a reset of the identifiers. *)
Example C83_case : exists s e,
  run_index (fun x => if N.eqb x 40 then 20 else x)%N [(1, 2); (3, 4)]%N
    [OAnon 30; OIri 10 20; OPrefix 21 (Some 22); OIri 11 40; ODeclareNs; ODeclareIds; OResetIds; OIri 11 40]%N = Some (s, e) /\
  n_vec (x_ns s) = [1; 3; 21; 20]%N /\ x_pre s = [(21, 22); (3, 4); (1, 2)]%N /\ n_vec (x_ids s) = [11]%N /\
  get_idx (fun x => if N.eqb x 40 then 20 else x)%N 40%N (x_ns s) = Some (Some 3) /\
  retains 10 e = 1 /\ releases 10 e = 1 /\ retains 11 e = 2 /\ releases 11 e = 1 /\ retains 40 e = 0.
Proof. do 2 eexists. split; [vm_compute; reflexivity|]. vm_compute. repeat split. Qed.
