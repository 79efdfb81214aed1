(** Programs that assign Kokkos-backed grids, for the theorems in [KAssignProps]. *)
From Verif Require Import Vec GridSpec StorageModel GridModel ShareModel ShareSpec ShareProofs ShareExamples
  KokkosModel KokkosSpec KokkosProofs AssignSpec KAssignProofs.

(** Grid 1 leaves its copy 2 for grid 3; it is destroyed, and grid 3 resized. *)
Definition kex_leave : list (op Z) :=
  [New 1; Resize 1 [0] [3]; Write 1 [2] 7; Copy 2 1; New 3; Resize 3 [0] [9]; Assign 1 3;
   Write 3 [4] 5; Read 1 [4]; Read 2 [2]].
Definition kex_gone : list (op Z) := kex_leave ++ [Destroy 1; Resize 3 [2] [6]; Bounds 3; Bounds 2].

Ltac korderly_step :=
  cbn [k_orderly];
  match goal with
  | |- True => exact I
  | |- _ /\ _ /\ _ =>
      split; [|split];
      [ cbn [alegal]; try (split; [|apply shape_ok_1; lia]);
        first [ vm_compute; tauto
              | split; [vm_compute; tauto|eexists _, _, _; split; [vm_compute; reflexivity|simpl; lia]]
              | vm_compute; intuition congruence ]
      | cbn [k_in_order]; first [ exact I | split; [vm_compute; tauto|split; intros y Hy; vm_compute in Hy; vm_compute; intuition (subst; auto; try congruence)] ]
      | ]
  end.

Lemma kex_leave_orderly : k_orderly FOrder kex_leave ainit (fun _ => []).
Proof. unfold kex_leave. repeat korderly_step. Qed.
Lemma kex_gone_orderly : k_orderly FOrder kex_gone ainit (fun _ => []).
Proof. unfold kex_gone, kex_leave. cbn [app]. repeat korderly_step. Qed.

Lemma kex_careless : ~ alegal_run FOrder k_careful kex_leave ainit.
Proof.
  unfold kex_leave. cbn [alegal_run]. intros H. decompose [and] H.
  match goal with K : k_careful (Assign _ _) _ |- _ => clear - K; rename K into Q end.
  vm_compute in Q. discriminate.
Qed.
