(** Further theorems for C11 and C12: arbitrary assignments between grids. *)
From Coq Require Import QArith.
From Verif Require Import Vec GridSpec StorageModel GridModel ShareModel ShareSpec ShareProofs ShareExamples
  AssignSpec AssignProofs AssignExamples.
Open Scope Z_scope.

(** C11, what holds of all assignments: a program may assign any grid to any other.  It runs without
    undefined behaviour and observes what [ShareSpec] says as long as each resize finds that all grids it
    tells are alive and members of the group ([orderly]; nothing is asked of other operations).  Missing
    from the full property: resizes of a group that a grid has left by assignment, see the next two theorems. *)
Theorem C11_any_assignment_partial : forall V A (junk : V) (avg0 : A) rank ord os,
  orderly ord false os ainit no_traces ->
  exists s obs, run junk avg0 rank ord (@Instant A) os (init avg0) = Some (s, obs) /\ aobs_run rank os ainit obs.
Proof. exact any_assign_instant. Qed.
Print Assumptions C11_any_assignment_partial.

(** The condition cannot be weakened.  If a grid that is told has been destroyed, resizing is undefined behaviour, whatever
    the policy and the new bounds ... *)
Theorem C11_dangling_resize : forall V A (junk : V) (avg0 : A) rank ord pol, policy_ok pol ->
  forall os h lo hi y a t, orderly ord (lazily pol) os ainit no_traces -> end_of os ainit no_traces = (a, t) ->
  In h (a_live a) -> In y (told t (a_grp a h)) -> ~ In y (a_live a) ->
  run junk avg0 rank ord pol (os ++ [Resize h lo hi]) (init avg0) = None.
Proof. exact dangling. Qed.
Print Assumptions C11_dangling_resize.

(** ... and if all are alive, each of them reports the new bounds, even if it has long belonged to another group. *)
Theorem C11_foreign_resize : forall V A (junk : V) (avg0 : A) rank ord pol, policy_ok pol ->
  forall os h lo hi y a t, orderly ord (lazily pol) os ainit no_traces -> end_of os ainit no_traces = (a, t) ->
  In h (a_live a) -> shape_ok ord lo hi -> (forall z, In z (told t (a_grp a h)) -> In z (a_live a)) ->
  In y (told t (a_grp a h)) ->
  exists s obs, run junk avg0 rank ord pol (os ++ [Resize h lo hi; Bounds y]) (init avg0) =
                Some (s, obs ++ [OBounds lo hi]) /\ aobs_run rank os ainit obs.
Proof. exact foreign. Qed.
Print Assumptions C11_foreign_resize.

(** A grid leaves its copy; the theorems apply to the program up to there.  Resizing the copy that was left is foreign to
    the grid that left, and dangling when that one is gone. *)
Example C11_any_hypotheses :
  orderly COrder false ex_leave ainit no_traces /\
  ~ alegal_run COrder (assign_safe false) ex_leave ainit /\
  option_map snd (run 0 tt 1 COrder Instant ex_leave (init tt)) =
  Some [OVal 5; OVal 7; OVal 8; OBounds [2] [6]; OBounds [0] [3]] /\
  (let (a, t) := end_of ex_leave ainit no_traces in
   In 2%nat (a_live a) /\ In 1%nat (told t (a_grp a 2%nat)) /\ a_grp a 1%nat <> a_grp a 2%nat /\
   forall z, In z (told t (a_grp a 2%nat)) -> In z (a_live a)) /\
  orderly COrder true ex_resize_left ainit no_traces /\
  (let (a, t) := end_of ex_resize_left ainit no_traces in
   In 2%nat (a_live a) /\ In 1%nat (told t (a_grp a 2%nat)) /\ ~ In 1%nat (a_live a)).
Proof.
  split; [apply ex_leave_orderly|]. split.
  { unfold ex_leave. cbn [alegal_run]. intros H. decompose [and] H.
    match goal with K : assign_safe _ (Assign _ _) _ |- _ => clear - K; rename K into Q end; destruct Q as [Q|[Q _]].
    - vm_compute in Q. discriminate.
    - specialize (Q 2%nat). vm_compute in Q. intuition congruence. }
  split; [vm_compute; reflexivity|].
  split; [vm_compute; intuition congruence|].
  split; [apply ex_resize_left_orderly|]. vm_compute. intuition congruence.
Qed.

(** C12, what holds of all assignments: with lazy allocation, whatever its heuristics, a program may assign any grid to
    any other, as long as each resize finds that all grids it tells are alive and members of the group, and is
    asked of a grid that has not kept the buffer size of another group.  Missing from the full property: resizes of such grids. *)
Theorem C12_any_assignment_partial : forall V A (junk : V) (avg0 : A) rank ord next shrink extra,
  (forall a, 0 <= extra a) -> forall os, orderly ord true os ainit no_traces ->
  exists s obs, run junk avg0 rank ord (Lazy next shrink extra) os (init avg0) = Some (s, obs) /\
                aobs_run rank os ainit obs.
Proof. exact any_assign_lazy. Qed.
Print Assumptions C12_any_assignment_partial.

Example C12_any_hypotheses :
  orderly COrder true ex_resize_left ainit no_traces /\
  ~ alegal_run COrder (assign_safe true) ex_resize_left ainit /\
  option_map snd (run 0 (0%Q, 0%Q) 1 COrder lz ex_resize_left (init (0%Q, 0%Q))) =
  Some [OVal 5; OVal 7; OVal 8; OBounds [2] [6]; OBounds [0] [3]; OBounds [1] [2]].
Proof.
  split; [apply ex_resize_left_orderly|]. split; [|vm_compute; reflexivity].
  unfold ex_resize_left, ex_leave. cbn [app alegal_run]. intros H. decompose [and] H.
  match goal with K : assign_safe _ (Assign _ _) _ |- _ => clear - K; rename K into Q end; destruct Q as [Q|[_ Q]].
  - vm_compute in Q. discriminate.
  - specialize (Q eq_refl). vm_compute in Q. discriminate.
Qed.
