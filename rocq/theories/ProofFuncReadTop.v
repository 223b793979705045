(** What reading any text can do. *)

From Coq Require Import String NArith ZArith List Bool Lia.
From Coq Require Import ZifyBool ZifyNat ZifyN.
From Verif Require Import Bytes ModelTypes ModelObject ModelText SpecObject SpecText ModelChange ModelPrtDecoder ModelFuncLex ModelFuncParser
  SpecFunc SpecFuncDoc SpecFuncRead ProofFuncLex ProofFuncSafe ProofFuncRead.
Import ListNotations.
Local Open Scope N_scope.

Theorem read_safe handler signed w m b : func_read handler signed w m b <> FFuel /\
  (forall c log, func_read handler signed w m b = FRet c log -> c = COWL_OK \/ c = ERR_SYNTAX \/ c = ERR_MEM) /\
  (forall log, func_read handler signed w m b = FCrash log -> exists ds body, lex w b = Some (flat_map decl_tokens ds ++ body) /\
     (forall e rest, body <> decl_tokens e ++ rest) /\ untagged (m ++ ds) body).
Proof.
  destruct (read_outcome handler signed w m b) as (ts0 & ds0 & body0 & _ & _ & H).
  split; [intros E; rewrite E in H; exact H|]. split; [intros c log E; rewrite E in H; apply H|].
  intros log E. clear H. destruct (lex_total w b) as [ts El]. unfold func_read in E. rewrite El in E.
  destruct (document_split handler signed (List.length ts) m [] ts) as (ds & body & Ets & H); [lia|]. exists ds, body.
  split; [rewrite El, Ets; reflexivity|].
  destruct H as [(e & ds' & c & _ & H & _)|(Hu & _ & [(r & Eb & H)|[H _]])]; [rewrite H in E; discriminate| |rewrite H in E; discriminate].
  split; [exact Hu|]. rewrite E in H. pose proof (id_outcome handler signed (m ++ ds) ([] ++ adds ds) r) as Ho. rewrite <- H in Ho.
  destruct Ho as [Ho _]. apply (untagged_tail (m ++ ds) body r); [|exact Ho]. rewrite Eb. exists [TKw ONTOLOGY; TLParen]. reflexivity.
Qed.

Theorem read_sound handler signed w m b log : (exists c, func_read handler signed w m b = FRet c log) \/ func_read handler signed w m b = FCrash log ->
  Forall sound_change log /\ in_document_order log.
Proof.
  destruct (read_outcome handler signed w m b) as (ts0 & ds0 & body0 & _ & _ & H).
  intros [[c E]|E]; rewrite E in H; destruct H as (_ & new & E' & H1 & _ & H2 & _); cbn in E'; subst new; auto.
Qed.

Theorem read_obeys handler signed w m b log : (exists c, func_read handler signed w m b = FRet c log) \/ func_read handler signed w m b = FCrash log ->
  forall a x later, log = a ++ x :: later -> (handler (a ++ [x]) < 0)%Z ->
    (exists c, func_read handler signed w m b = FRet c log /\ (c < 0)%Z) /\ (later = [] \/ exists i v, snd x = DIri i /\ map snd later = [DVersion v]).
Proof.
  destruct (read_outcome handler signed w m b) as (ts0 & ds0 & body0 & _ & _ & H). intros Hr a x later Ea Hn.
  destruct Hr as [[c E]|E]; rewrite E in *; destruct H as (_ & new & E' & _ & _ & _ & H2); cbn in E'; subst new;
    destruct (H2 a x later Ea Hn) as [Hc Hl].
  - split; [|exact Hl]. exists c. split; [reflexivity|]. destruct Hc as [->| ->]; reflexivity.
  - destruct Hc; discriminate.
Qed.
