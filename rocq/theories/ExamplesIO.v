(** Concrete cases about readers, writers and start-up. *)

From Coq Require Import String NArith ZArith List Bool Lia.
From Verif Require Import Bytes ModelTypes ModelObject SpecObject ModelPrefixMap SpecPrefixMap ModelOntology SpecOntology ModelChange SpecChange
  ModelPrtDecoder ModelFuncWriter ModelIO SpecIO.
From Verif Require Import ProofObject ProofOntology ProofOntologyQuery ProofChange ExamplesPrefix ExamplesOntology ExamplesChange ExamplesFunc ProofIO.
Import ListNotations.
Local Open Scope Z_scope.

(** * Writing with any writer *)

(** An ontology with a prefix, three axioms, an annotation and two imports. *)
Definition io_onto : full := mkFull rich (ex_map src_ops) [].
Definition io_axioms : list ref := [at_ 1; at_ 3; at_ 4].

Lemma io_reached : full_reached ex_heap id_visit 32 io_onto.
Proof. split; [exact rich_reached|]. apply ex_map_reached. repeat constructor. Qed.
Lemma io_pieces : pieces io_onto [at_ 8; at_ 10] [at_ 6] io_axioms.
Proof.
  constructor.
  - replace [at_ 8; at_ 10] with (vec_data (o_imports (x_onto io_onto))) by (vm_compute; reflexivity). apply deliver_imports.
  - replace [at_ 6] with (vec_data (o_annot (x_onto io_onto))) by (vm_compute; reflexivity). apply deliver_annot.
  - exact rich_contains.
Qed.

(** A writer that accepts all but the axiom with the given identity, to which it answers [r]. *)
Definition io_writer (id : N) (r : ret) : wimpl :=
  mkWImpl (Some (fun _ _ => 0)) (Some (fun _ a => if N.eqb (r_id a) id then r else 0)) (Some (fun _ => 0)) None.

Lemma io_streaming id r : streaming (io_writer id r).
Proof. repeat split; discriminate. Qed.
Lemma io_plain id r : r <= 0 -> plain_answers (io_writer id r).
Proof.
  intros Hr before [h|a| |o] x (f & Hf & <-); cbn in Hf; try discriminate Hf; injection Hf as <-; try lia.
  destruct (r_id a =? id)%N; lia.
Qed.

Lemma io_fails : streaming (io_writer 3 (-7)) /\ plain_answers (io_writer 3 (-7)).
Proof. split; [apply io_streaming|apply io_plain; discriminate]. Qed.

Definition io_header : wcall := header_call io_onto [at_ 8; at_ 10] [at_ 6].

(** Every piece is written. *)
Lemma io_complete : write_ontology (io_writer 0 0) [] io_onto =
  Some ([io_header; WAxiom (at_ 1); WAxiom (at_ 3); WAxiom (at_ 4); WFooter], 0).
Proof. vm_compute. reflexivity. Qed.

(** The second axiom cannot be written. *)
Lemma io_error : write_ontology (io_writer 3 (-7)) [] io_onto = Some ([io_header; WAxiom (at_ 1); WAxiom (at_ 3)], -7).
Proof. vm_compute. reflexivity. Qed.

(** The writer asks to stop at the second axiom: the third is not written, but the footer is and the result is OK. *)
Lemma io_stop : write_ontology (io_writer 3 1) [] io_onto = Some ([io_header; WAxiom (at_ 1); WAxiom (at_ 3); WFooter], COWL_OK).
Proof. vm_compute. reflexivity. Qed.

Lemma axiom_lost : exists w o imports annots axioms calls a,
  full_reached ex_heap id_visit 32 o /\ streaming w /\ pieces o imports annots axioms /\
  write_ontology w [] o = Some (calls, COWL_OK) /\ In a axioms /\ ~ In (WAxiom a) calls.
Proof.
  eexists (io_writer 3 1), io_onto, _, _, io_axioms, _, (at_ 4).
  split; [exact io_reached|]. split; [apply io_streaming|]. split; [exact io_pieces|]. split; [exact io_stop|]. split; [now right; right; left|].
  intros H. assert (G : In 4%N (map (fun c => match c with WAxiom a => r_id a | _ => 0%N end) [io_header; WAxiom (at_ 1); WAxiom (at_ 3); WFooter])).
  { change 4%N with ((fun c => match c with WAxiom a => r_id a | _ => 0%N end) (WAxiom (at_ 4))). now apply in_map. }
  cbn in G. destruct G as [G|[G|[G|[G|[]]]]]; discriminate.
Qed.

Lemma io_saved : write_ontology_to_path (io_writer 0 0) [] 0 0 io_onto =
  Some ([FOpen; FUse [io_header; WAxiom (at_ 1); WAxiom (at_ 3); WAxiom (at_ 4); WFooter]; FClose], 0).
Proof. vm_compute. reflexivity. Qed.

(** * Reading with any reader *)

(** A reader that adds an axiom and, if that works, an import. *)
Definition io_reader : reading :=
  RCall CHANGE_ADD (PAxiom (at_ 1)) (fun r => if is_err r then RReturn r else RCall CHANGE_ADD (PImport (at_ 8)) (fun r => RReturn (if is_err r then r else 0))).
Lemma io_reader_plain : plain_results io_reader.
Proof. intros r. destruct (is_err r) eqn:E; unfold is_err in E; cbn; [lia|]. intros r'. destruct (is_err r') eqn:E'; unfold is_err in E'; lia. Qed.

Definition io_fresh : full := mkFull (o_empty true) (ex_map []) [].
Definition io_seen (r : option (option full * ret * nat)) : option (option (list ref * list ref) * ret * nat) :=
  match r with
  | Some (Some o, r, n) => Some (Some (all_ax (x_onto o), vec_data (o_imports (x_onto o))), r, n)
  | Some (None, r, n) => Some (None, r, n)
  | None => None
  end.

Lemma io_read : io_seen (read_ontology_from_path id_visit 32 io_reader 0 0 (Some io_fresh)) = Some (Some ([at_ 1], [at_ 8]), 0, 0%nat).
Proof. vm_compute. reflexivity. Qed.
Lemma io_read_some : exists o, read_ontology_from_path id_visit 32 io_reader 0 0 (Some io_fresh) = Some (Some o, 0, 0%nat).
Proof.
  pose proof io_read as H. destruct (read_ontology_from_path id_visit 32 io_reader 0 0 (Some io_fresh)) as [[[[o|] r] n]|]; cbn in H; try discriminate.
  injection H as _ _ -> ->. eauto.
Qed.
Lemma io_not_closed : read_ontology_from_path id_visit 32 io_reader 0 (-9) (Some io_fresh) = Some (None, -9, 1%nat).
Proof. vm_compute. reflexivity. Qed.
Lemma io_not_opened : read_ontology_from_path id_visit 32 io_reader (-8) 0 (Some io_fresh) = Some (None, -8, 1%nat).
Proof. vm_compute. reflexivity. Qed.

(** A reader that returns a code that is not an error: reading from a stream hands it on, from a path does not. *)
Lemma code_lost : exists p fresh o, read_ontology id_visit 32 p (Some fresh) = Some (Some o, COWL_NO, O) /\
  read_ontology_from_path id_visit 32 p 0 0 (Some fresh) = Some (Some o, COWL_OK, O).
Proof. exists (RReturn COWL_NO), io_fresh, io_fresh. split; reflexivity. Qed.

(** * The functional writer used for several documents *)

Definition io_pm1 : pst := ex_map src_ops.
Definition io_pm2 : pst := ex_map dst_ops.
Definition io_decl : obj := fx_decl "http://ex.org/1#" "A".


(** Whether a client may do a step, and what it owns then. *)
Definition may_b (s : fwriter) (own : owning) (op : fop) : option owning :=
  let owned id := negb (own id =? 0)%N in
  match op with
  | FNew id _ => match rc_get (fw_rc s) id with None => Some (owns_more own id 1) | Some _ => None end
  | FRetain id => if owned id then Some (owns_more own id (own id + 1)) else None
  | FRelease id => if owned id then Some (owns_more own id (own id - 1)) else None
  | FEdit id _ => if owned id then Some own else None
  | FHeader pm _ _ _ _ => if match pm with None => true | Some id => owned id end && fw_on s then Some own else None
  | FAxiom _ | FFooter | FFree => if fw_on s then Some own else None
  end.
Lemma may_b_sound s own op own' : may_b s own op = Some own' -> may s own op own'.
Proof.
  destruct op as [id pm|id|id|id pm|pm iri version imports annot|a| |]; cbn.
  - destruct (rc_get (fw_rc s) id) eqn:E; [discriminate|]. intros H. injection H as <-. now constructor.
  - destruct (own id =? 0)%N eqn:E; [discriminate|]. apply N.eqb_neq in E. intros H. injection H as <-. now constructor.
  - destruct (own id =? 0)%N eqn:E; [discriminate|]. apply N.eqb_neq in E. intros H. injection H as <-. now constructor.
  - destruct (own id =? 0)%N eqn:E; [discriminate|]. apply N.eqb_neq in E. intros H. injection H as <-. now constructor.
  - destruct (_ && _) eqn:E; [|discriminate]. intros H. injection H as <-. apply andb_prop in E as (E & On). constructor; [|exact On].
    intros i ->. destruct (own i =? 0)%N eqn:G; [discriminate|]. now apply N.eqb_neq in G.
  - destruct (fw_on s) eqn:E; [|discriminate]. intros H. injection H as <-. now constructor.
  - destruct (fw_on s) eqn:E; [|discriminate]. intros H. injection H as <-. now constructor.
  - destruct (fw_on s) eqn:E; [|discriminate]. intros H. injection H as <-. now constructor.
Qed.

(** The state after some allowed steps. *)
Fixpoint run_b (s : fwriter) (own : owning) (ops : list fop) : option (fwriter * owning) :=
  match ops with
  | [] => Some (s, own)
  | op :: ops' =>
      match may_b s own op, f_step id_visit s op with Some own', Some (s', _) => run_b s' own' ops' | _, _ => None end
  end.
Lemma run_b_sound : forall ops done s own s' own', session id_visit done s own -> run_b s own ops = Some (s', own') -> session id_visit (done ++ ops) s' own'.
Proof.
  induction ops as [|op ops IH]; cbn [run_b]; intros done s own s' own' H E.
  - injection E as <- <-. now rewrite app_nil_r.
  - destruct (may_b s own op) as [own1|] eqn:M; [|discriminate]. destruct (f_step id_visit s op) as [[s1 b]|] eqn:F; [|discriminate].
    replace (done ++ op :: ops) with ((done ++ [op]) ++ ops) by (rewrite <- app_assoc; reflexivity).
    refine (IH _ _ _ _ _ _ E). exact (ss_step _ _ _ _ _ _ _ _ H (may_b_sound _ _ _ _ M) F).
Qed.

Definition io_run (ops : list fop) : option (fwriter * owning) := run_b f_start (fun _ => 0%N) ops.
Lemma io_session ops s own : io_run ops = Some (s, own) -> session id_visit ops s own.
Proof. intros E. exact (run_b_sound ops [] _ _ _ _ (ss_start _) E). Qed.

(** The state and what is owned, when there is one. *)
Lemma io_some ops (P : fwriter -> owning -> bool) :
  match io_run ops with Some (s, own) => P s own | None => false end = true ->
  exists s own, session id_visit ops s own /\ P s own = true.
Proof. destruct (io_run ops) as [[s own]|] eqn:E; [|discriminate]. intros H. exists s, own. split; [now apply io_session|exact H]. Qed.

(** Two documents with different prefix maps that the client gives up as soon as it can. *)
Definition io_two : list fop :=
  [FNew 1 io_pm1; FHeader (Some 1%N) None None [] []; FRelease 1; FAxiom io_decl; FFooter;
   FNew 2 io_pm2; FHeader (Some 2%N) None None [] []; FRelease 2; FAxiom io_decl; FFooter].

Fixpoint no_none (ops : list fop) : bool :=
  match ops with FHeader None _ _ _ _ :: _ => false | _ :: ops' => no_none ops' | [] => true end.
Fixpoint stay_b (ops : list fop) : bool :=
  match ops with [] => true | FHeader (Some _) _ _ _ _ :: ops' => no_none ops' | _ :: ops' => stay_b ops' end.
Lemma no_none_sound : forall l2 i v im an l3, no_none (l2 ++ FHeader None i v im an :: l3) = false.
Proof. induction l2 as [|op l2 IH]; intros; [reflexivity|]. cbn. destruct op; try apply IH. destruct pm; [apply IH|reflexivity]. Qed.
Lemma stay_b_sound ops : stay_b ops = true -> maps_stay ops.
Proof.
  intros H l1 id i v im an l2 i' v' im' an' l3 ->. revert H. induction l1 as [|op l1 IH]; cbn.
  - now rewrite no_none_sound.
  - destruct op; try exact IH. destruct pm; [|exact IH]. intros H.
    enough (E : forall l, no_none (l ++ FHeader (Some id) i v im an :: l2 ++ FHeader None i' v' im' an' :: l3) = false) by (rewrite E in H; discriminate).
    induction l as [|x l IHl]; cbn; [apply no_none_sound|]. destruct x; try exact IHl. destruct pm; [exact IHl|reflexivity].
Qed.

Lemma io_two_stay : maps_stay io_two.
Proof. apply stay_b_sound. reflexivity. Qed.

(** The first map is gone, the second is held by the writer. *)
Lemma io_two_session : exists s own, session id_visit io_two s own /\
  match contents s 1, contents s 2 with None, Some _ => true | _, _ => false end && fw_on s = true.
Proof. apply (io_some io_two (fun s own => match contents s 1, contents s 2 with None, Some _ => true | _, _ => false end && fw_on s)). vm_compute. reflexivity. Qed.

(** After the writer is freed nothing is left. *)
Lemma io_two_freed : exists s own, session id_visit (io_two ++ [FFree]) s own /\ maps_stay (io_two ++ [FFree]) /\ fw_on s = false /\ fw_rc s = [].
Proof.
  destruct (io_some (io_two ++ [FFree]) (fun s _ => negb (fw_on s) && match fw_rc s with [] => true | _ => false end)) as (s & own & H & E); [vm_compute; reflexivity|].
  exists s, own. split; [exact H|]. split; [apply stay_b_sound; reflexivity|]. apply andb_prop in E as (E1 & E2).
  split; [now destruct (fw_on s)|]. now destruct (fw_rc s).
Qed.

(** The text of the two documents. *)
Definition nl : bytes := [10%N].
Lemma io_two_text : match f_run id_visit f_start io_two with Some (_, b) => b | None => None end = Some (
  bs "Prefix(ex:=<http://ex.org/1#>)" ++ nl ++ bs "Ontology(" ++ nl ++ bs "Declaration(Class(ex:A))" ++ nl ++ bs ")" ++ nl ++
  bs "Prefix(ex:=<http://ex.org/2#>)" ++ nl ++ bs "Prefix(e:=<http://ex.org/1#>)" ++ nl ++ bs "Ontology(" ++ nl ++
  bs "Declaration(Class(e:A))" ++ nl ++ bs ")" ++ nl)%list.
Proof. vm_compute. reflexivity. Qed.

(** A header without prefix map after one with a map: the map is released and still used. The client gave
    its own reference up before. *)
Definition io_dangling : list fop :=
  [FNew 1 io_pm1; FHeader (Some 1%N) None None [] []; FRelease 1; FFooter; FHeader None None None [] []].

Lemma dangling : exists ops s own op own', session id_visit ops s own /\ may s own op own' /\ f_step id_visit s op = None.
Proof.
  destruct (io_some io_dangling (fun s own => fw_on s && match f_step id_visit s FFree with None => true | Some _ => false end)) as (s & own & H & E); [vm_compute; reflexivity|].
  apply andb_prop in E as (On & E). exists io_dangling, s, own, FFree, own. split; [exact H|]. split; [now constructor|].
  destruct (f_step id_visit s FFree); [discriminate|reflexivity].
Qed.

(** While the client keeps the map, the writer gives back a reference it does not have: the client's map is freed. *)
Lemma stolen : exists ops s own id, session id_visit ops s own /\ own id <> 0%N /\ contents s id = None.
Proof.
  destruct (io_some [FNew 1 io_pm1; FHeader (Some 1%N) None None [] []; FFooter; FHeader None None None [] []; FFooter; FFree]
    (fun s own => negb (own 1 =? 0)%N && match contents s 1 with None => true | Some _ => false end)) as (s & own & H & E); [vm_compute; reflexivity|].
  apply andb_prop in E as (Ow & E). eexists _, s, own, 1%N. split; [exact H|].
  split; [now destruct (N.eqb_spec (own 1%N) 0)|]. now destruct (contents s 1).
Qed.

(** The document without prefix map uses the prefixes of the one before. *)
Lemma stale_prefixes : exists ops s own a s' b, session id_visit ops s own /\ fw_on s = true /\
  f_run id_visit s [FHeader None None None [] []; FAxiom a; FFooter] = Some (s', Some b) /\
  b = (bs "Ontology(" ++ nl ++ bs "Declaration(Class(ex:A))" ++ nl ++ bs ")" ++ nl)%list /\
  w_document id_visit (mkFHeader None None None [] []) [a] =
    Some (bs "Ontology(" ++ nl ++ bs "Declaration(Class(<http://ex.org/1#A>))" ++ nl ++ bs ")" ++ nl)%list.
Proof.
  set (b := (bs "Ontology(" ++ nl ++ bs "Declaration(Class(ex:A))" ++ nl ++ bs ")" ++ nl)%list).
  destruct (io_some [FNew 1 io_pm1; FHeader (Some 1%N) None None [] []; FFooter]
    (fun s own => fw_on s && match f_run id_visit s [FHeader None None None [] []; FAxiom io_decl; FFooter] with
       Some (_, Some x) => bytes_eqb x b | _ => false end)) as (s & own & H & E); [vm_compute; reflexivity|].
  apply andb_prop in E as (On & E). destruct (f_run id_visit s _) as [[s' [x|]]|] eqn:F; try discriminate.
  apply bytes_eqb_eq in E. subst x. eexists _, s, own, io_decl, s', b. split; [exact H|]. split; [exact On|]. split; [exact F|].
  split; [reflexivity|]. vm_compute. reflexivity.
Qed.

(** * Start-up *)

Definition only (k : component) : component -> bool := fun j => if component_eq_dec j k then true else false.
Definition never : component -> bool := fun _ => false.

(** Starting, starting again, failing to start, stopping twice. *)
Definition io_calls : list gop := [GInit (only KEmpty); GInit never; GInit never; GDeinit; GDeinit; GInit never].
Lemma io_calls_ok : Forall none_or_first io_calls /\ running io_calls = true.
Proof. split; [|reflexivity]. unfold io_calls. repeat (apply Forall_cons; [cbn; auto|]). apply Forall_nil. Qed.

(** No memory for a part of the XML vocabulary. *)
Lemma vocabulary_crash : exists fails, cowl_init fails g_start = None.
Proof. exists (only KXml). reflexivity. Qed.

(** No memory for the default prefix map: what was created is never given back, not by cowl_init, not by
    cowl_deinit, not by starting again. *)
Definition io_g (r : option (globals * list ret)) : globals := match r with Some (g, _) => g | None => g_start end.
Definition io_rs (r : option (globals * list ret)) : list ret := match r with Some (_, rs) => rs | None => [0; 0; 0] end.
Lemma io_g_eq r : match r with Some _ => true | None => false end = true -> r = Some (io_g r, io_rs r).
Proof. destruct r as [[g rs]|]; [reflexivity|discriminate]. Qed.

Lemma startup_leak : exists fails g1 g2 rs2,
  g_run g_start [GInit fails; GDeinit] = Some (g1, [ERR_MEM]) /\ g_live g1 <> [] /\
  g_run g1 [GInit (fun _ => false); GDeinit] = Some (g2, rs2) /\ rs2 = [COWL_OK] /\ g_live g2 = g_live g1.
Proof.
  set (r1 := g_run g_start [GInit (only KPrefixMap); GDeinit]). set (r2 := g_run (io_g r1) [GInit never; GDeinit]).
  exists (only KPrefixMap), (io_g r1), (io_g r2), (io_rs r2).
  split; [replace [ERR_MEM] with (io_rs r1) by (vm_compute; reflexivity); apply io_g_eq; vm_compute; reflexivity|].
  split; [vm_compute; discriminate|].
  split; [apply io_g_eq; vm_compute; reflexivity|]. split; vm_compute; reflexivity.
Qed.
