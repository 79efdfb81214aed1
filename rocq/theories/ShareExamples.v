(** Example programs and the concrete heuristics used in [ShareProps]. *)
From Coq Require Import QArith Qround.
From Verif Require Import Vec GridSpec StorageModel GridModel ShareModel ShareSpec ShareProofs
  KokkosModel KokkosSpec KokkosProofs.
Open Scope Z_scope.

(** A program without grid assignment. *)
Definition no_assign {V} (o : op V) (_ : @ast V) : Prop :=
  match o with Assign _ _ => False | _ => True end.

(** The extra room of the lazy policy is never negative (it is an unsigned number). *)
Definition policy_ok {A} (pol : policy A) : Prop :=
  forall next shrink extra, pol = Lazy next shrink extra -> forall a, 0 <= extra a.

Definition ex_share : list (op Z) :=
  [New 1; Resize 1 [0; 0] [3; 1]; Copy 2 1; Write 2 [3; 1] 7; Read 1 [3; 1]; Resize 2 [-5; 0] [5; 9];
   Bounds 1; Write 1 [5; 9] 8; Destroy 1; Read 2 [5; 9]].

Definition c11_prog1 : list (op Z) :=
  [New 1; Resize 1 [0] [1]; Copy 2 1; New 3; Resize 3 [0] [9]; Assign 1 3; Resize 2 [0] [4]; Bounds 1].
Definition c11_prog2 : list (op Z) :=
  [New 1; Resize 1 [0] [1]; Copy 2 1; New 3; Resize 3 [0] [9]; Assign 1 3; Destroy 1; Resize 2 [0] [4]].

(** The heuristics of the code in exact arithmetic: running mean and variance with r = 0.05,
    shrink when newSize + 32 sqrt(var) < bufSize and bufSize > 100, room for 4 sqrt(var) more. *)
Definition lz_next (n : Z) (a : Q * Q) : Q * Q :=
  let avg := Qred ((1 # 20) * inject_Z n + (19 # 20) * fst a)%Q in
  let e := (inject_Z n - avg)%Q in
  let diff := Z.quot (Qnum e) (Zpos (Qden e)) in
  (avg, Qred ((1 # 20) * inject_Z (diff * diff) + (19 # 20) * snd a)%Q).
Definition lz_shrink (n buf : Z) (a : Q * Q) : bool :=
  (100 <? buf) && (n <? buf) &&
  negb (Qle_bool (inject_Z ((buf - n) * (buf - n))) (1024 * snd a)%Q).
Definition lz_extra (a : Q * Q) : Z := Z.sqrt (Qfloor (16 * snd a)%Q).
Definition lz := Lazy lz_next lz_shrink lz_extra.

Definition ex_lazy : list (op Z) :=
  [New 1; Resize 1 [0] [999]; Copy 2 1; Resize 2 [0] [499]; Write 1 [499] 3; New 3; Assign 3 1;
   Resize 3 [0] [3999]; Write 1 [3999] 4; Read 3 [3999]; Resize 1 [0] [9]; Bounds 2].

Definition c12_prog : list (op Z) :=
  [New 1; Resize 1 [0] [999]; New 2; Resize 2 [0] [9]; Assign 1 2; Resize 1 [0] [499]; Write 1 [499] 1].


Lemma shape_ok_1 ord l h : -10000 <= l <= h -> h < 10000 -> shape_ok ord [l] [h].
Proof.
  intros H1 H2. split; [discriminate|]. split; [simpl; lia|]. split; [simpl; lia|].
  intros _. unfold c_fast. simpl. unfold s64.
  destruct (- 2 ^ 63 <=? - l) eqn:E1; [|apply Z.leb_gt in E1; lia].
  destruct (- l <? 2 ^ 63) eqn:E2; [discriminate|apply Z.ltb_ge in E2; lia].
Qed.

Ltac legal := repeat split; try (apply shape_ok_1; lia); try (simpl; intuition congruence);
    try (eexists _, _, _; split; [reflexivity|simpl; lia]); try lia.

Lemma copies_share V A (junk : V) (avg0 : A) rank ord pol : policy_ok pol ->
  forall os, alegal_run ord no_assign os ainit ->
  exists s obs, run junk avg0 rank ord pol os (init avg0) = Some (s, obs) /\ aobs_run rank os ainit obs.
Proof.
  intros Hpol os Hl. apply (run_refines junk avg0 rank ord pol Hpol os); [apply R_init|].
  eapply alegal_run_weaken; [|exact Hl]. intros [] a; simpl; tauto.
Qed.

Lemma assign_partial V A (junk : V) (avg0 : A) rank ord os :
  alegal_run ord (assign_safe false) os ainit ->
  exists s obs, run junk avg0 rank ord (@Instant A) os (init avg0) = Some (s, obs) /\
                aobs_run rank os ainit obs.
Proof. intros Hl. apply (run_refines junk avg0 rank ord Instant); [discriminate|apply R_init|exact Hl]. Qed.

Lemma lazy_partial V A (junk : V) (avg0 : A) rank ord next shrink extra :
  (forall a, 0 <= extra a) ->
  forall os, alegal_run ord (assign_safe true) os ainit ->
  exists s obs, run junk avg0 rank ord (Lazy next shrink extra) os (init avg0) = Some (s, obs) /\
                aobs_run rank os ainit obs.
Proof.
  intros Hx os Hl. apply (run_refines junk avg0 rank ord (Lazy next shrink extra)); [|apply R_init|exact Hl].
  intros n s e E a. inversion E. subst. apply Hx.
Qed.

Lemma c11_refuted :
  (alegal_run COrder (fun _ _ => True) c11_prog1 ainit /\
   exists s obs, run 0 tt 1 COrder Instant c11_prog1 (init tt) = Some (s, obs) /\
                 ~ aobs_run 1 c11_prog1 ainit obs) /\
  (alegal_run COrder (fun _ _ => True) c11_prog2 ainit /\
   run 0 tt 1 COrder Instant c11_prog2 (init tt) = None).
Proof.
  split; split.
  - legal.
  - eexists _, [OBounds [0] [4]]. split; [vm_compute; reflexivity|].
    intros H. simpl in H.
    repeat match goal with
           | H : exists _, _ |- _ => destruct H
           | H : _ /\ _ |- _ => destruct H
           end. subst. discriminate.
  - legal.
  - vm_compute. reflexivity.
Qed.

Lemma c12_refuted :
  alegal_run COrder (fun _ _ => True) c12_prog ainit /\
  run 0 (0%Q, 0%Q) 1 COrder lz c12_prog (init (0%Q, 0%Q)) = None /\
  (exists s obs, run 0 (0%Q, 0%Q) 1 COrder lz (removelast c12_prog) (init (0%Q, 0%Q)) = Some (s, obs)).
Proof. split; [legal|]. split; [vm_compute; reflexivity|]. 
  destruct (run 0 (0%Q, 0%Q) 1 COrder lz (removelast c12_prog) (init (0%Q, 0%Q))) as [[s obs]|] eqn:E; [eauto|].
  exfalso. vm_compute in E. discriminate E. Qed.

Ltac wrong_obs := let H := fresh in intros H; simpl in H;
  repeat match goal with
         | H : exists _, _ |- _ => destruct H
         | H : _ /\ _ |- _ => destruct H
         end; subst; discriminate.

Definition c13_prog1 : list (op Z) := [New 1; Resize 1 [0] [1]; Copy 2 1; Resize 1 [0] [9]; Write 1 [0] 7; Read 2 [0]].
Definition c13_prog2 : list (op Z) := [New 1; Resize 1 [0] [1]; Copy 2 1; Resize 1 [0] [9]; Write 2 [5] 7].
Definition c13_prog3 : list (op Z) := [New 1; New 2; Resize 2 [0] [9]; Assign 1 2; Destroy 2; Resize 1 [3] [5]; Bounds 1].
Definition c13_prog4 : list (op Z) := [New 1; Resize 1 [0] [1]; Copy 2 1; New 3; Assign 1 3; Destroy 1; Resize 2 [0] [4]].

Lemma c13_copies :
  (alegal_run FOrder no_assign c13_prog1 ainit /\
   exists s obs, krun 0 1 c13_prog1 (kinit 0) = Some (s, obs) /\ ~ aobs_run 1 c13_prog1 ainit obs) /\
  (alegal_run FOrder no_assign c13_prog2 ainit /\ krun 0 1 c13_prog2 (kinit 0) = None).
Proof.
  split; split.
  - legal.
  - eexists _, [OVal 0]. split; [vm_compute; reflexivity|]. wrong_obs.
  - legal.
  - vm_compute. reflexivity.
Qed.

Lemma c13_assign :
  (alegal_run FOrder (fun _ _ => True) c13_prog3 ainit /\
   exists s obs, krun 0 1 c13_prog3 (kinit 0) = Some (s, obs) /\ ~ aobs_run 1 c13_prog3 ainit obs) /\
  (alegal_run FOrder (fun _ _ => True) c13_prog4 ainit /\ krun 0 1 c13_prog4 (kinit 0) = None).
Proof.
  split; split.
  - legal.
  - eexists _, [OBounds [0] [9]]. split; [vm_compute; reflexivity|]. wrong_obs.
  - legal.
  - vm_compute. reflexivity.
Qed.

Definition ex_kokkos1 : list (op Z) :=
  [New 1; Resize 1 [0] [1]; Resize 1 [-3] [9]; Copy 2 1; Write 1 [-3] 4; Destroy 1; Read 2 [-3]; Resize 2 [0] [4]; Copy 3 2].
Definition ex_kokkos2 : list (op Z) :=
  [Write 3 [4] 6; Read 2 [4]; New 4; Assign 2 4; Bounds 2; Assign 4 3; Read 4 [4]; Destroy 3; Read 4 [4]].
