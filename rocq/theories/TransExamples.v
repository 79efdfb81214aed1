(** Cases that meet the hypotheses of the theorems in [TransProps], and the case that refutes the full statement. *)
From Coq Require Import ZArith List Bool.
Import ListNotations.
From Verif Require Import TransModel TransSpec TransProofs.

Lemma prompt_run {B T} (bs : nat -> base B) (f0 : B -> T) zero l es :
  prompt l None -> expected bs f0 l [] = Some es -> exists w, run l (start bs f0 zero) = Some (w, es).
Proof.
  intros Hp E. destruct (run_prompt bs f0 l _ [] None es (agrees_start bs f0 zero) I Hp E) as (w & R & _). eauto.
Qed.

Local Open Scope Z_scope.
Definition grids : nat -> base Z := fun _ => mkBase [0; 0] [2; 2] (fun i => match i with [x; y] => 10 * x + y | _ => 0 end).
Definition square (x : Z) : Z := x * x.

(** Two views of one grid; the grid and the second view change in between. *)
Definition two_views : list (op Z Z) :=
  [SetBase 0 5; Make 1 Z.opp; SetBase 1 5; Value 0 [1; 2]; Value 1 [1; 2]; Store 5 [1; 2] 3; Value 0 [1; 2]; Refer 1 [1; 2] 7; Follow 7;
   Through 7 100; Follow 7; Value 1 [1; 2]; SetTrans 1 Z.succ; Resize 5 [0; 0] [9; 9] (fun _ => 4); Bounds 0; Refer 1 [8; 8] 8; Follow 8].
Example two_views_prompt : prompt two_views None /\
  expected grids square two_views [] = Some [Saw 144; Saw (-12); Saw 9; Saw (-3); Saw 100; Saw (-3); SawBounds [0; 0] [9; 9]; Saw 5].
Proof. split; [cbn; tauto|vm_compute; reflexivity]. Qed.

(** Two references at once. *)
Definition two_references : list (op Z Z) := [SetBase 0 5; Refer 0 [1; 1] 0; Refer 0 [2; 2] 1; Follow 0; Follow 1].
Lemma two_references_refute : ~ forall (bs : nat -> base Z) (f0 : Z -> Z) zero l es,
  expected bs f0 l [] = Some es -> exists w, run l (start bs f0 zero) = Some (w, es).
Proof.
  intros H. destruct (H grids square 0 two_references [Saw 121; Saw 484] eq_refl) as (w & E). vm_compute in E. discriminate.
Qed.

Lemma trans_hypotheses :
  (prompt two_views None /\
   expected grids square two_views [] = Some [Saw 144; Saw (-12); Saw 9; Saw (-3); Saw 100; Saw (-3); SawBounds [0; 0] [9; 9]; Saw 5]) /\
  (exists w, run [SetBase 0 5] (start grids square 0) = Some (w, [])) /\
  shown grids square (rev [SetBase 0%nat 5%nat]) 0 [1; 1] = Some 121 /\ shown grids square (rev [SetBase 0%nat 5%nat]) 0 [2; 2] = Some 484.
Proof. split; [exact two_views_prompt|]. split; [eexists; reflexivity|]. split; vm_compute; reflexivity. Qed.
