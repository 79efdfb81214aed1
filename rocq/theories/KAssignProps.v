(** Further theorems for C13: arbitrary assignments between Kokkos-backed grids. *)
From Verif Require Import Vec GridSpec StorageModel GridModel ShareModel ShareSpec ShareProofs ShareExamples
  KokkosModel KokkosSpec KokkosProofs AssignSpec KAssignProofs KAssignExamples.

(** C13, what holds of all assignments: a program may assign any grid to any other at any time.  All it observes is what
    [ShareSpec] says as long as each resize is of a grid that its group knows, and that is alone in its group
    ([k_orderly]; nothing is asked of other operations).  Missing from the full property: all other resizes, see the next theorems. *)
Theorem C13_any_assignment_partial : forall V (zero : V) rank os,
  k_orderly FOrder os ainit (fun _ => []) ->
  exists s obs, krun zero rank os (kinit zero) = Some (s, obs) /\ aobs_run rank os ainit obs.
Proof. exact @k_any_assignment. Qed.
Print Assumptions C13_any_assignment_partial.

(** Any other resize.  If a grid that is told has been destroyed, it is undefined behaviour. *)
Theorem C13_dangling_resize : forall V (zero : V) rank os h lo hi a t,
  k_orderly FOrder os ainit (fun _ => []) -> k_end_of os ainit (fun _ => []) = (a, t) -> In h (a_live a) ->
  forall y, In y (t (a_grp a h)) -> ~ In y (a_live a) ->
  krun zero rank (os ++ [Resize h lo hi]) (kinit zero) = None.
Proof. exact @k_dangling. Qed.
Print Assumptions C13_dangling_resize.

(** Otherwise those that are told report the new bounds, even if they have long belonged to another group ... *)
Theorem C13_told_bounds : forall V (zero : V) rank os h lo hi a t,
  k_orderly FOrder os ainit (fun _ => []) -> k_end_of os ainit (fun _ => []) = (a, t) -> In h (a_live a) ->
  (forall z, In z (t (a_grp a h)) -> In z (a_live a)) ->
  forall y, In y (t (a_grp a h)) ->
  exists s obs, krun zero rank (os ++ [Resize h lo hi; Bounds y]) (kinit zero) = Some (s, obs ++ [OBounds lo hi]) /\
                aobs_run rank os ainit obs.
Proof. exact @k_told. Qed.
Print Assumptions C13_told_bounds.

(** ... those that are not told report the bounds they had, as if there had been no resize, even the grid that was resized ... *)
Theorem C13_untold_bounds : forall V (zero : V) rank os h lo hi a t,
  k_orderly FOrder os ainit (fun _ => []) -> k_end_of os ainit (fun _ => []) = (a, t) -> In h (a_live a) ->
  (forall z, In z (t (a_grp a h)) -> In z (a_live a)) ->
  forall y, In y (a_live a) -> ~ In y (t (a_grp a h)) ->
  exists s obs o, krun zero rank (os ++ [Resize h lo hi; Bounds y]) (kinit zero) = Some (s, obs ++ o) /\
                  aobs_run rank (os ++ [Bounds y]) ainit (obs ++ o).
Proof. exact @k_untold. Qed.
Print Assumptions C13_untold_bounds.

(** ... and nobody else sees what is written through the resized grid. *)
Theorem C13_separate_values : forall V (zero : V) rank os h lo hi a t,
  k_orderly FOrder os ainit (fun _ => []) -> k_end_of os ainit (fun _ => []) = (a, t) -> In h (a_live a) ->
  (forall z, In z (t (a_grp a h)) -> In z (a_live a)) ->
  forall y idx, In y (a_live a) -> y <> h ->
  exists r, forall v,
    option_map snd (krun zero rank (os ++ [Resize h lo hi; Write h idx v; Read y idx]) (kinit zero)) = r.
Proof. exact @k_separate. Qed.
Print Assumptions C13_separate_values.

Example C13_any_hypotheses :
  k_orderly FOrder kex_gone ainit (fun _ => []) /\ ~ alegal_run FOrder k_careful kex_leave ainit /\
  option_map snd (krun 0 1 kex_gone (kinit 0)) = Some [OVal 5; OVal 7; OBounds [2] [6]; OBounds [0] [3]] /\
  (let (a, t) := k_end_of kex_gone ainit (fun _ => []) in
   In 2%nat (a_live a) /\ In 1%nat (t (a_grp a 2%nat)) /\ ~ In 1%nat (a_live a)) /\
  k_orderly FOrder kex_leave ainit (fun _ => []) /\
  (let (a, t) := k_end_of kex_leave ainit (fun _ => []) in
   In 2%nat (a_live a) /\ In 1%nat (t (a_grp a 2%nat)) /\ a_grp a 1%nat <> a_grp a 2%nat /\
   (forall z, In z (t (a_grp a 2%nat)) -> In z (a_live a)) /\
   In 1%nat (a_live a) /\ ~ In 1%nat (t (a_grp a 1%nat)) /\ (forall z, In z (t (a_grp a 1%nat)) -> In z (a_live a))) /\
  option_map snd (krun 0 1 (kex_leave ++ [Resize 1 [5] [8]; Bounds 1; Bounds 3]) (kinit 0)) =
  Some [OVal 5; OVal 7; OBounds [0] [9]; OBounds [5] [8]].
Proof.
  split; [apply kex_gone_orderly|]. split; [apply kex_careless|]. split; [vm_compute; reflexivity|].
  split; [vm_compute; intuition congruence|]. split; [apply kex_leave_orderly|].
  split; [vm_compute; intuition congruence|]. vm_compute; reflexivity.
Qed.
