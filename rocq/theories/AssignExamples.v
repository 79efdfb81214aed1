(** Programs that assign to grids with copies, for the theorems in [AssignProps]. *)
From Coq Require Import QArith.
From Verif Require Import Vec GridSpec StorageModel GridModel ShareModel ShareSpec ShareProofs ShareExamples
  AssignSpec AssignProofs.
Open Scope Z_scope.

Lemma any_assign_instant V A (junk : V) (avg0 : A) rank ord os :
  orderly ord false os ainit no_traces ->
  exists s obs, run junk avg0 rank ord (@Instant A) os (init avg0) = Some (s, obs) /\ aobs_run rank os ainit obs.
Proof. apply (orderly_ok junk avg0 rank ord Instant). discriminate. Qed.

Lemma any_assign_lazy V A (junk : V) (avg0 : A) rank ord next shrink extra :
  (forall a, 0 <= extra a) -> forall os, orderly ord true os ainit no_traces ->
  exists s obs, run junk avg0 rank ord (Lazy next shrink extra) os (init avg0) = Some (s, obs) /\
                aobs_run rank os ainit obs.
Proof. intros H. apply (orderly_ok junk avg0 rank ord (Lazy next shrink extra)). intros n s e E. inversion E; subst. exact H. Qed.

Definition lazily {A} (pol : policy A) : bool := match pol with Instant => false | Lazy _ _ _ => true end.

Lemma dangling V A (junk : V) (avg0 : A) rank ord pol : policy_ok pol ->
  forall os h lo hi y a t, orderly ord (lazily pol) os ainit no_traces -> end_of os ainit no_traces = (a, t) ->
  In h (a_live a) -> In y (told t (a_grp a h)) -> ~ In y (a_live a) ->
  run junk avg0 rank ord pol (os ++ [Resize h lo hi]) (init avg0) = None.
Proof. intros Hp os h lo hi y a t H E. exact (dead_resize junk avg0 rank ord pol Hp os h lo hi y H a t E). Qed.

Lemma foreign V A (junk : V) (avg0 : A) rank ord pol : policy_ok pol ->
  forall os h lo hi y a t, orderly ord (lazily pol) os ainit no_traces -> end_of os ainit no_traces = (a, t) ->
  In h (a_live a) -> shape_ok ord lo hi -> (forall z, In z (told t (a_grp a h)) -> In z (a_live a)) ->
  In y (told t (a_grp a h)) ->
  exists s obs, run junk avg0 rank ord pol (os ++ [Resize h lo hi; Bounds y]) (init avg0) =
                Some (s, obs ++ [OBounds lo hi]) /\ aobs_run rank os ainit obs.
Proof. intros Hp os h lo hi y a t H E. exact (foreign_resize junk avg0 rank ord pol Hp os h lo hi y H a t E). Qed.

(** Grid 1 leaves its copy 2 for grid 3, which is then resized. *)
Definition ex_leave : list (op Z) :=
  [New 1; Resize 1 [0] [3]; Write 1 [2] 7; Copy 2 1; New 3; Resize 3 [0] [9]; Assign 1 3;
   Write 3 [4] 5; Read 1 [4]; Read 2 [2]; Resize 3 [2] [6]; Write 1 [6] 8; Read 3 [6]; Bounds 1; Bounds 2].
(** Then the grid that was assigned to resizes its new group and is destroyed. *)
Definition ex_resize_left : list (op Z) := ex_leave ++ [Resize 1 [1] [2]; Bounds 3; Destroy 1].

Ltac orderly_step :=
  cbn [orderly];
  match goal with
  | |- True => exact I
  | |- _ /\ _ /\ _ =>
      split; [|split];
      [ cbn [alegal]; try (split; [|apply shape_ok_1; lia]);
        first [ vm_compute; tauto
              | split; [vm_compute; tauto|eexists _, _, _; split; [vm_compute; reflexivity|simpl; lia]]
              | vm_compute; intuition congruence ]
      | cbn [in_order]; first [ exact I | split; [intros y Hy; vm_compute in Hy; vm_compute; intuition (subst; auto)
                                                 |intros _; vm_compute; intuition congruence] ]
      | ]
  end.

Lemma ex_leave_orderly ord lazy : orderly ord lazy ex_leave ainit no_traces.
Proof. unfold ex_leave. repeat orderly_step. Qed.

Lemma ex_resize_left_orderly ord lazy : orderly ord lazy ex_resize_left ainit no_traces.
Proof. unfold ex_resize_left, ex_leave. cbn [app]. repeat orderly_step. Qed.
