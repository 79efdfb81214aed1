(** C58, C59: what every diagnostic does in a whole run of a program. *)
From Coq Require Import ZArith List Bool String.
From Verif Require Import DiagModel DiagSpec DiagExamples DiagSessionSpec DiagSessionProofs DiagSessionExamples.
Import ListNotations.
Local Open Scope Z_scope.

(** C58.  Whatever a program does with the manager: at every call of [execute], each of the interval diagnostics added so
    far writes exactly if the counter, as the program has last set it, is negative or a multiple of its interval. *)
Theorem C58_every_diagnostic : forall (parallel : bool) (T : clock) (l : list (moment T)) res m',
  session parallel l (new_manager T) = Some (res, m') ->
  List.length res = List.length (seen l (at_start T)) /\
  forall j k c i, nth_error (added_intervals l) j = Some (k, (c, i)) ->
  forall e g ei ed, nth_error (seen l (at_start T)) e = Some g -> nth_error res e = Some (ei, ed) ->
    ((e < k)%nat -> nth_error ei j = None) /\
    ((k <= e)%nat -> exists n es, s_counter g = Some n /\ nth_error ei j = Some es /\
       (wrote es = true <-> active (s_master g) c /\ (n < 0 \/ (i | n)))).
Proof. exact whole_intervals. Qed.
Print Assumptions C58_every_diagnostic.

(** C59.  Each of the other diagnostics goes through its own schedule, as if it were alone, at the times at which [execute]
    is called after it was added.  C59_numbered and the theorems beside it say what that schedule is. *)
Theorem C59_every_diagnostic : forall (parallel : bool) (T : clock) (l : list (moment T)) res m',
  session parallel l (new_manager T) = Some (res, m') ->
  forall j k c s, nth_error (added_deltas l) j = Some (k, (c, s)) -> forall master rank,
  Forall (fun g => s_master g = master /\ s_rank g = rank) (skipn k (seen l (at_start T))) ->
  exists times, map s_time (skipn k (seen l (at_start T))) = map Some times /\
    map (fun o => nth_error (snd o) j) (firstn k res) = repeat None (List.length (firstn k res)) /\
    map (fun o => nth_error (snd o) j) (skipn k res) = map Some (executed parallel master rank c s times).
Proof. exact whole_deltas. Qed.
Print Assumptions C59_every_diagnostic.

Example C58_session_hypotheses : exists res m,
  session false four (new_manager ticks) = Some (res, m) /\
  map (fun o => (map wrote (fst o), map wrote (snd o))) res =
    [([true], [false]); ([false; false], [true]); ([false; true], [true; false]); ([true; true], [false; true])] /\
  added_intervals four = [(0%nat, (each, 2)); (1%nat, (log, 3))] /\ map fst (added_deltas four) = [0; 2]%nat /\
  map s_counter (seen four (at_start ticks)) = [Some 0; Some 1; Some 3; Some (-1)] /\
  Forall (fun g => s_master g = true /\ s_rank g = 3) (skipn 0 (seen four (at_start ticks))).
Proof. exact session_runs. Qed.
