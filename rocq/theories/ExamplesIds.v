(** A history with identifiers. *)

From Coq Require Import NArith List Bool.
From Verif Require Import ModelTypes ModelIds SpecIds.
Import ListNotations.
Local Open Scope N_scope.

(** Four calls: two entities with the same IRI, a failed allocation, and the release of the first entity. *)
Definition id_calls : list (iop * option N) :=
  [(IGet OT_CE_CLASS 7 true (Some 100) true, Some 100); (IGet OT_I_NAMED 7 true (Some 200) false, None);
   (IGet OT_I_NAMED 7 true (Some 200) true, Some 200); (IRelease 100, None)].
(** The state afterwards. *)
Definition id_state : ids :=
  mkIds [(200, mkEntity OT_I_NAMED 7 1 2); (100, mkEntity OT_CE_CLASS 7 0 1)] [200; 100] [100; 200].
Lemma id_case : history id_calls id_state [200] /\ entity_get_id id_state 100 = Some 0 /\ entity_with_id id_state 1 = Some 200 /\
  entity_with_id id_state 2 = None /\ was_given id_calls OT_CE_CLASS 7 100.
Proof.
  split; [ | split; [reflexivity | split; [reflexivity | split; [reflexivity | exists true, (Some 100), true; left; reflexivity]]]].
  change id_calls with (((([] ++ [nth 0 id_calls (IRelease 0, None)]) ++ [nth 1 id_calls (IRelease 0, None)]) ++
    [nth 2 id_calls (IRelease 0, None)]) ++ [nth 3 id_calls (IRelease 0, None)]).
  change [200] with (holds (holds (holds (holds [] (IGet OT_CE_CLASS 7 true (Some 100) true) (Some 100)) (IGet OT_I_NAMED 7 true (Some 200) false) None)
    (IGet OT_I_NAMED 7 true (Some 200) true) (Some 200)) (IRelease 100) None).
  eapply h_step; [eapply h_step; [eapply h_step; [eapply h_step; [exact h_start | | reflexivity] | | reflexivity] | | reflexivity] | | reflexivity]; simpl.
  - split; [reflexivity | reflexivity].
  - split; [reflexivity | ]. intros a H. inversion H. reflexivity.
  - split; [reflexivity | ]. intros a H. inversion H. reflexivity.
  - right. left. reflexivity.
Qed.
