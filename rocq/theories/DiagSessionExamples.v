(** A run with four diagnostics, one of them added later. *)
From Coq Require Import ZArith List Bool String.
From Verif Require Import DiagModel DiagSpec DiagExamples DiagSessionSpec.
Import ListNotations.
Local Open Scope Z_scope.

Definition four : list (moment ticks) :=
  [Do (SetTimeCounter ticks 0); Do (SetPhysicalTime ticks 0); Do (SetRank ticks 3); Do (AddInterval ticks each 2);
   Do (AddDelta ticks each 3 1); Run; Do (Counter ticks 1); Do (Time ticks 2); Do (AddInterval ticks log 3); Run;
   Do (Counter ticks 3); Do (Time ticks 4); Do (AddDelta ticks log 5 5); Run; Do (Counter ticks (-1)); Do (Time ticks 5); Run].

Lemma session_runs : exists res m,
  session false four (new_manager ticks) = Some (res, m) /\
  map (fun o => (map wrote (fst o), map wrote (snd o))) res =
    [([true], [false]); ([false; false], [true]); ([false; true], [true; false]); ([true; true], [false; true])] /\
  added_intervals four = [(0%nat, (each, 2)); (1%nat, (log, 3))] /\ map fst (added_deltas four) = [0; 2]%nat /\
  map s_counter (seen four (at_start ticks)) = [Some 0; Some 1; Some 3; Some (-1)] /\
  Forall (fun g => s_master g = true /\ s_rank g = 3) (skipn 0 (seen four (at_start ticks))).
Proof.
  eexists. eexists. split; [vm_compute; reflexivity|]. repeat split; try reflexivity.
  repeat constructor.
Qed.
