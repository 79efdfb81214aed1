(** Property theorems C10-C13: grids that share their data. *)
From Coq Require Import QArith Qround.
From Verif Require Import Vec GridSpec StorageModel GridModel ShareModel ShareSpec ShareProofs
  KokkosModel KokkosSpec KokkosProofs ShareExamples.
Open Scope Z_scope.

(** C10.  Every program of constructions, copies, resizes, destructions, reads and writes that
    respects the interface ([alegal]) runs without undefined behaviour, under either allocation
    policy and storage order, and all it observes is what [ShareSpec] says: the copies of a grid
    form a group with one shape and one set of values. *)
Theorem C10_copies_share : forall V A (junk : V) (avg0 : A) rank ord pol, policy_ok pol ->
  forall os, alegal_run ord no_assign os ainit ->
  exists s obs, run junk avg0 rank ord pol os (init avg0) = Some (s, obs) /\ aobs_run rank os ainit obs.
Proof. exact copies_share. Qed.
Print Assumptions C10_copies_share.

Example C10_hypotheses :
  alegal_run COrder no_assign ex_share ainit /\
  option_map snd (run 0 tt 2 COrder Instant ex_share (init tt)) =
  Some [OVal 7; OBounds [-5; 0] [5; 9]; OVal 8].
Proof.
  split; [|vm_compute; reflexivity].
  assert (S1 : shape_ok COrder [0; 0] [3; 1]).
  { split; [discriminate|]. split; [simpl; lia|]. split; [vm_compute; reflexivity|]. intros _. vm_compute. discriminate. }
  assert (S2 : shape_ok COrder [-5; 0] [5; 9]).
  { split; [discriminate|]. split; [simpl; lia|]. split; [vm_compute; reflexivity|]. intros _. vm_compute. discriminate. }
  repeat split; auto; try (simpl; intuition congruence); try (eexists _, _, _; split; [reflexivity|simpl; lia]); try lia;
    intros _; vm_compute; discriminate.
Qed.

(** C11 is false of the code.  First witness: [a] and [b] share data, [a] is assigned from [c] and
    then [b] is resized: [a] reports the shape of [b].  Second witness: as before, but [a] is
    destroyed before [b] is resized: a call through a dangling pointer. *)
Theorem C11_assignment_detaches_refuted :
  (alegal_run COrder (fun _ _ => True) c11_prog1 ainit /\
   exists s obs, run 0 tt 1 COrder Instant c11_prog1 (init tt) = Some (s, obs) /\
                 ~ aobs_run 1 c11_prog1 ainit obs) /\
  (alegal_run COrder (fun _ _ => True) c11_prog2 ainit /\
   run 0 tt 1 COrder Instant c11_prog2 (init tt) = None).
Proof. exact c11_refuted. Qed.
Print Assumptions C11_assignment_detaches_refuted.

(** C11, what holds: the full specification, assignment included, for programs that only assign to
    grids that do not share their data with other grids or already share it with the source. *)
Theorem C11_assignment_partial : forall V A (junk : V) (avg0 : A) rank ord os,
  alegal_run ord (assign_safe false) os ainit ->
  exists s obs, run junk avg0 rank ord (@Instant A) os (init avg0) = Some (s, obs) /\
                aobs_run rank os ainit obs.
Proof. exact assign_partial. Qed.
Print Assumptions C11_assignment_partial.

Example C11_hypotheses :
  alegal_run FOrder (assign_safe false)
    [New 1; Resize 1 [0] [1]; New 3; Resize 3 [0] [9]; Assign 1 3; Resize 3 [2] [4]; Write 3 [4] 5; Read 1 [4]]
    (@ainit Z) /\
  option_map snd (run 0 tt 1 FOrder Instant
    [New 1; Resize 1 [0] [1]; New 3; Resize 3 [0] [9]; Assign 1 3; Resize 3 [2] [4]; Write 3 [4] 5; Read 1 [4]]
    (init tt)) = Some [OVal 5].
Proof.
  split; [|vm_compute; reflexivity]. legal.
  right. split; [|discriminate]. simpl. intros y [<-|[<-|[]]]; vm_compute; congruence.
Qed.

(** C12, what holds: lazy allocation always has room for programs that do not assign to a grid
    that has had a size before; whatever the heuristics for growing and shrinking. *)
Theorem C12_lazy_has_room_partial : forall V A (junk : V) (avg0 : A) rank ord next shrink extra,
  (forall a, 0 <= extra a) ->
  forall os, alegal_run ord (assign_safe true) os ainit ->
  exists s obs, run junk avg0 rank ord (Lazy next shrink extra) os (init avg0) = Some (s, obs) /\
                aobs_run rank os ainit obs.
Proof. exact lazy_partial. Qed.
Print Assumptions C12_lazy_has_room_partial.

Example C12_hypotheses :
  alegal_run COrder (assign_safe true) ex_lazy ainit /\
  option_map snd (run 0 (0%Q, 0%Q) 1 COrder lz ex_lazy (init (0%Q, 0%Q))) =
  Some [OVal 4; OBounds [0] [9]].
Proof.
  split; [|vm_compute; reflexivity]. legal.
  right. split; [|reflexivity]. simpl. intros y [<-|[<-|[<-|[]]]]; vm_compute; congruence.
Qed.

(** C12 is false of the code with assignment: [bufSize] of the target survives, so that a later
    resize does not reallocate, and a write inside the reported bounds leaves the allocation. *)
Theorem C12_lazy_assign_overrun_refuted :
  alegal_run COrder (fun _ _ => True) c12_prog ainit /\
  run 0 (0%Q, 0%Q) 1 COrder lz c12_prog (init (0%Q, 0%Q)) = None /\
  (exists s obs, run 0 (0%Q, 0%Q) 1 COrder lz (removelast c12_prog) (init (0%Q, 0%Q)) = Some (s, obs)).
Proof. exact c12_refuted. Qed.
Print Assumptions C12_lazy_assign_overrun_refuted.

(** C13 is false of the code: resizing one of two copies changes the bounds of both but the view
    of one only.  First witness: a write to the resized copy is not seen by the other.  Second
    witness: a write inside the reported bounds of the other copy is outside its view. *)
Theorem C13_kokkos_copies_refuted :
  (alegal_run FOrder no_assign c13_prog1 ainit /\
   exists s obs, krun 0 1 c13_prog1 (kinit 0) = Some (s, obs) /\ ~ aobs_run 1 c13_prog1 ainit obs) /\
  (alegal_run FOrder no_assign c13_prog2 ainit /\ krun 0 1 c13_prog2 (kinit 0) = None).
Proof. exact c13_copies. Qed.
Print Assumptions C13_kokkos_copies_refuted.

(** ... nor does assignment work.  First witness: a grid that has been assigned keeps its bounds when
    it is resized.  Second witness: a grid is assigned and destroyed, then a former copy is resized:
    a call through a dangling pointer. *)
Theorem C13_kokkos_assignment_refuted :
  (alegal_run FOrder (fun _ _ => True) c13_prog3 ainit /\
   exists s obs, krun 0 1 c13_prog3 (kinit 0) = Some (s, obs) /\ ~ aobs_run 1 c13_prog3 ainit obs) /\
  (alegal_run FOrder (fun _ _ => True) c13_prog4 ainit /\ krun 0 1 c13_prog4 (kinit 0) = None).
Proof. exact c13_assign. Qed.
Print Assumptions C13_kokkos_assignment_refuted.

(** C13, what holds: Kokkos-backed grids behave as [ShareSpec] says in programs that first resize only
    grids without copies, assigning only between copies, and then assign freely but do not resize. *)
Theorem C13_kokkos_partial : forall V (zero : V) rank os1 os2,
  alegal_run FOrder k_careful os1 ainit -> alegal_run FOrder k_no_resize os2 (arun os1 ainit) ->
  exists s obs, krun zero rank (os1 ++ os2) (kinit zero) = Some (s, obs) /\ aobs_run rank (os1 ++ os2) ainit obs.
Proof. exact @k_partial. Qed.
Print Assumptions C13_kokkos_partial.

Example C13_hypotheses :
  alegal_run FOrder k_careful ex_kokkos1 ainit /\ alegal_run FOrder k_no_resize ex_kokkos2 (arun ex_kokkos1 ainit) /\
  option_map snd (krun 0 1 (ex_kokkos1 ++ ex_kokkos2) (kinit 0)) =
  Some [OVal 4; OVal 6; OBounds [0] [0]; OVal 6; OVal 6].
Proof.
  split; [|split]; [legal|legal|vm_compute; reflexivity].
Qed.
