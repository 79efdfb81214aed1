(** C98: opening an HDF file takes place on exactly the processes that are active. *)
From Coq Require Import List Arith.
From Verif Require Import GroupModel GroupSpec GroupProofs GroupExamples.
Import ListNotations.

(** Input streams: proved if the processes call [setActive] together, and the first open before which
    they do not is one of all processes (or of none). *)
Theorem C98_input_partial n rounds calls :
  0 < n -> all_or_none n rounds calls ->
  (forall r, r < rounds -> no_call n calls r -> (forall r', r' < r -> ~ no_call n calls r') ->
     participants n calls r = seq 0 n \/ participants n calls r = []) ->
  opens_work Input n rounds calls.
Proof. exact (input_works n rounds calls). Qed.
Print Assumptions C98_input_partial.

Example C98_input_case :
  0 < 3 /\ all_or_none 3 3 in_calls /\
  (forall r, r < 3 -> no_call 3 in_calls r -> (forall r', r' < r -> ~ no_call 3 in_calls r') ->
     participants 3 in_calls r = seq 0 3 \/ participants 3 in_calls r = []) /\
  expected 3 3 in_calls = [[0; 1; 2]; [0; 2]; [0; 2]].
Proof. exact in_calls_ok. Qed.

(** Output streams: proved if the processes call [setActive] together, and the active processes are the
    same in all opens. *)
Theorem C98_output_partial n rounds calls :
  0 < n -> all_or_none n rounds calls ->
  (forall r, r < rounds -> participants n calls r = participants n calls 0) ->
  opens_work Output n rounds calls.
Proof. exact (output_works n rounds calls). Qed.
Print Assumptions C98_output_partial.

Example C98_output_case :
  0 < 3 /\ all_or_none 3 3 out_calls /\
  (forall r, r < 3 -> participants 3 out_calls r = participants 3 out_calls 0) /\
  expected 3 3 out_calls = [[2]; [2]; [2]].
Proof. exact out_calls_ok. Qed.

(** The second open of an input stream waits for the processes that are not active. *)
Theorem C98_second_open_refuted :
  exists n rounds calls, all_or_none n rounds calls /\ deadlock Input n rounds calls.
Proof. exact (ex_intro _ 2 (ex_intro _ 2 (ex_intro _ again_calls (conj again_together again_deadlock)))). Qed.
Print Assumptions C98_second_open_refuted.

(** An output stream goes on with the processes of its first open. *)
Theorem C98_change_refuted :
  exists n rounds calls, all_or_none n rounds calls /\ deadlock Output n rounds calls.
Proof. exact (ex_intro _ 2 (ex_intro _ 2 (ex_intro _ change_calls (conj change_together change_deadlock)))). Qed.
Print Assumptions C98_change_refuted.

(** A process that alone calls [setActive] waits for the others for ever. *)
Theorem C98_one_call_refuted kd :
  exists n rounds calls, (forall p r, is_active calls p r = true) /\ deadlock kd n rounds calls.
Proof. exact (ex_intro _ 2 (ex_intro _ 1 (ex_intro _ one_calls (conj one_all (one_deadlock kd))))). Qed.
Print Assumptions C98_one_call_refuted.
