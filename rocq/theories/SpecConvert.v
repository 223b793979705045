(** Specification of conversions between the formats. *)

From Coq Require Import NArith List Bool Permutation.
From Verif Require Import Bytes ModelTypes ModelObject SpecObject ModelPrefixMap ModelOntology SpecOntology ModelChange SpecChange
  ModelPrtEncoder ModelPrtDecoder ModelPrtWriter SpecPrt SpecPrtStream SpecPrtStore ModelFuncParser ModelFuncWriter SpecFunc SpecFuncDoc SpecFuncRead.
Import ListNotations.
Local Open Scope N_scope.

(** The ontology has exactly what was delivered: the axioms with their multiplicity, the annotations and imports in
    order, the IRI and the version. *)
Record has_contents (o : onto) (log : list dchange) : Prop := {
  hc_axioms : forall l, contains o l -> Permutation (map r_obj l) (axioms_in log);
  hc_annots : forall l, delivers (fun S call s => iterate_annot call o s) l -> map r_obj l = annots_in log;
  hc_imports : forall l, delivers (fun S call s => iterate_imports call o s) l -> map r_obj l = imports_in log;
  hc_iri : opt_list (option_map r_obj (o_iri o)) = iris_in log;
  hc_version : opt_list (option_map r_obj (o_version o)) = versions_in log
}.
(** All objects that were delivered. *)
Definition objects_in (log : list dchange) : list obj :=
  iris_in log ++ versions_in log ++ imports_in log ++ annots_in log ++ axioms_in log.
(** Contents that ProtocOWL can store (see SpecPrt.v and SpecPrtStream.v), delivered while these prefixes were
    known. *)
Record convertible (w : N) (prefixes : list (bytes * bytes)) (log : list dchange) : Prop := {
  cv_storable : forall o, In o (annots_in log ++ axioms_in log) -> storable w o;
  cv_portable : forall o p, In o (objects_in log) -> mentions p o -> portable w p;
  cv_prefix : forall p ns, In (p, ns) prefixes -> fits w p /\ fits w ns;
  cv_room : room w prefixes (objects_in log) (map (fun d => (CHANGE_ADD, DPrefix (fst d) (snd d))) prefixes ++ log)
}.
(** The text [b] is read with the changes [log] into a new ontology, which a new writer writes in ProtocOWL without
    error; reading the bytes gives [r]. The default prefix map is empty. *)
Definition converted (visit : tbl -> tbl) (w : N) (anon_id : nat -> bytes) (b : bytes) (log : list dchange) (r : dres unit) : Prop :=
  func_read (fun _ => COWL_OK) true w (initial_map []) b = FRet COWL_OK log /\
  exists heap ps x0 x e', Forall2 stands_for ps (map snd log) /\ Forall (part_in_heap heap) ps /\ x_onto x0 = o_empty true /\
    new_map visit [] (x_pm x0) /\ receives (change_apply visit w CHANGE_ADD) ps x0 (Some (x, COWL_OK)) /\
    w_run visit (fun l => l) (fun _ => true) w [WOntology x] (e_init w) = Some ([COWL_OK], e') /\ read_ontology w anon_id (fun _ => COWL_OK) (e_out e') = r.
(** The bytes [b] are read without error with the changes [log], all additions, into a new ontology, which is written as
    text; reading the text gives [r]. *)
Definition converted_back (visit : tbl -> tbl) (w : N) (anon_id : nat -> bytes) (b : bytes) (log : list dchange) (r : fres) : Prop :=
  exists s heap ps x0 x t, read_ontology w anon_id (fun _ => COWL_OK) b = DRet tt s /\ d_code s = COWL_OK /\ d_log s = log /\
    Forall (fun c => fst c = CHANGE_ADD) log /\ Forall2 stands_for ps (map snd log) /\ Forall (part_in_heap heap) ps /\ x_onto x0 = o_empty true /\
    map_reached visit (x_pm x0) /\ receives (change_apply visit w CHANGE_ADD) ps x0 (Some (x, COWL_OK)) /\
    w_ontology visit x = Some t /\ func_read (fun _ => COWL_OK) true w (initial_map []) t = r.
