(** Examples for the ways to give a grid its extent. *)
From Verif Require Import Vec GridSpec StorageModel GridModel ShareModel ShareSpec ShareProofs ShareExamples
  ExtentModel ExtentSpec ExtentProofs.

Definition ex_extent : list (xop Z) :=
  [Make 1 (Size (Given [3; 4])); Plain (Bounds 1); Plain (Copy 2 1);
   Make 3 (Between (HiOf 1) (Given [7; 9])); Plain (Bounds 3);
   ResizeBy 1 (Between (LoOf 1) (HiOf 3)); Plain (Bounds 2); Plain (Write 2 [7; 9] 5); Plain (Read 1 [7; 9]);
   ResizeBy 2 (Size (HiOf 2)); Plain (Bounds 1); ResizeBy 3 (Like 2); Plain (Bounds 3);
   Make 4 (RangeOf 3); ResizeBy 4 (OfRange [-1; -1] [1; 1]); Plain (Bounds 4); ResizeBy 1 (RangeOf 1); Plain (Bounds 1)].
Definition ex_extent_plain : list (op Z) :=
  [New 1; Resize 1 [0; 0] [2; 3]; Bounds 1; Copy 2 1; New 3; Resize 3 [2; 3] [7; 9]; Bounds 3;
   Resize 1 [0; 0] [7; 9]; Bounds 2; Write 2 [7; 9] 5; Read 1 [7; 9]; Resize 2 [0; 0] [6; 8]; Bounds 1;
   Resize 3 [0; 0] [6; 8]; Bounds 3; New 4; Resize 4 [0; 0] [6; 8]; Resize 4 [-1; -1] [1; 1]; Bounds 4;
   Resize 1 [0; 0] [6; 8]; Bounds 1].

(** A grid [2..5] is resized to begin where it ended: [grid.resize(grid.getHi(), high)]. *)
Definition swap_prog : list (xop Z) :=
  [Make 1 (Between (Given [2]) (Given [5])); ResizeBy 1 (Between (HiOf 1) (Given [9])); Plain (Bounds 1)].
Definition swap_plain : list (op Z) := [New 1; Resize 1 [2] [5]; Resize 1 [5] [9]; Bounds 1].
(** It is resized to end where it began. *)
Definition swap_prog2 : list (xop Z) :=
  [Make 1 (Between (Given [2]) (Given [5])); ResizeBy 1 (Between (Given [0]) (LoOf 1)); Plain (Write 1 [1] 4)].
Definition swap_plain2 : list (op Z) := [New 1; Resize 1 [2] [5]; Resize 1 [0] [2]; Write 1 [1] 4].

Ltac shape := split; [discriminate|]; split; [simpl; lia|]; split; [vm_compute; reflexivity|]; intros _; vm_compute; discriminate.
Ltac legal2 := repeat match goal with
  | |- _ /\ _ => split
  | |- shape_ok _ _ _ => shape
  | |- exists _ _ _, _ => eexists _, _, _
  | |- alegal_run _ _ [] _ => exact I
  | |- alegal_run _ _ (_ :: _) _ => cbn [alegal_run]
  | |- alegal _ _ _ => cbn [alegal]
  | |- assign_safe _ _ _ => exact I
  | |- True => exact I
  | |- In _ _ => simpl; tauto
  | |- ~ In _ _ => simpl; lia
  | |- a_arr _ _ = _ => reflexivity
  | |- in_box _ _ _ => simpl; lia
  end.

Lemma ex_extent_ok :
  program 2 (by_value 2) ex_extent ainit = ex_extent_plain /\
  all_steps 2 (by_value 2) no_swap ex_extent ainit /\ alegal_run COrder (assign_safe false) ex_extent_plain ainit /\
  option_map snd (xrun 0 tt 2 COrder Instant ex_extent (init tt)) =
    Some [OBounds [0; 0] [2; 3]; OBounds [2; 3] [7; 9]; OBounds [0; 0] [7; 9]; OVal 5; OBounds [0; 0] [6; 8];
          OBounds [0; 0] [6; 8]; OBounds [-1; -1] [1; 1]; OBounds [0; 0] [6; 8]].
Proof.
  split; [vm_compute; reflexivity|]. split; [|split; [|vm_compute; reflexivity]].
  - vm_compute. repeat match goal with
    | |- _ /\ _ => split
    | |- True => exact I
    | |- _ -> False => first [intros []; fail|intros [? | ?]; discriminate]
    | |- _ \/ _ => tauto
    end.
  - unfold ex_extent_plain. legal2.
Qed.

Lemma extents_hold V A (junk : V) (avg0 : A) rank ord pol : policy_ok pol ->
  forall os, all_steps rank (by_value rank) no_swap os ainit ->
  alegal_run ord (assign_safe (is_lazy pol)) (program rank (by_value rank) os ainit) ainit ->
  exists s obs, xrun junk avg0 rank ord pol os (init avg0) = Some (s, obs) /\
    aobs_run rank (program rank (by_value rank) os ainit) ainit obs.
Proof. intros P os. exact (extents junk avg0 rank ord pol P os). Qed.
Lemma extents_hold_exactly V A (junk : V) (avg0 : A) rank ord pol : policy_ok pol ->
  forall os, all_steps rank (got rank) refers os ainit ->
  alegal_run ord (assign_safe (is_lazy pol)) (program rank (got rank) os ainit) ainit ->
  exists s obs, xrun junk avg0 rank ord pol os (init avg0) = Some (s, obs) /\
    aobs_run rank (program rank (got rank) os ainit) ainit obs.
Proof. intros P os. exact (extents_exact junk avg0 rank ord pol P os). Qed.

Lemma swap_refuted :
  (program 1 (by_value 1) swap_prog ainit = swap_plain /\ alegal_run COrder (fun _ _ => True) swap_plain ainit /\
   all_steps 1 (by_value 1) refers swap_prog ainit /\
   exists s obs, xrun 0 tt 1 COrder Instant swap_prog (init tt) = Some (s, obs) /\ obs = [OBounds [9] [9]] /\
                 ~ aobs_run 1 swap_plain ainit obs) /\
  (program 1 (by_value 1) swap_prog2 ainit = swap_plain2 /\ alegal_run COrder (fun _ _ => True) swap_plain2 ainit /\
   all_steps 1 (by_value 1) refers swap_prog2 ainit /\
   xrun 0 tt 1 COrder Instant swap_prog2 (init tt) = None).
Proof.
  split.
  - split; [vm_compute; reflexivity|]. split; [unfold swap_plain; legal2; exact I|]. split; [cbn; tauto|].
    assert (E : option_map snd (xrun 0 tt 1 COrder Instant swap_prog (init tt)) = Some [OBounds [9] [9]]) by (vm_compute; reflexivity).
    destruct (xrun 0 tt 1 COrder Instant swap_prog (init tt)) as [[s obs]|]; [|discriminate].
    exists s, obs. split; [reflexivity|]. injection E as ->. split; [reflexivity|].
    intros H. cbn in H. destruct H as (? & ? & H & ? & ? & ? & H1 & ? & ? & ? & H2 & ? & ? & ? & H3 & H4 & ?). subst. cbn in *. subst. cbn in *. congruence.
  - split; [vm_compute; reflexivity|]. split; [unfold swap_plain2; legal2; exact I|]. split; [cbn; tauto|]. vm_compute. reflexivity.
Qed.

Lemma same_as_resize V A (junk : V) (avg0 : A) rank ord pol h e (s : @st V A) : live_extent s e ->
  (~ swaps h e -> op_resize_by junk rank ord pol h e s = op_resize junk ord pol h (fst (now rank s e)) (snd (now rank s e)) s) /\
  (forall s', op_new avg0 rank h s = Some s' ->
    op_make junk avg0 rank ord pol h e s = op_resize junk ord pol h (fst (now rank s e)) (snd (now rank s e)) s').
Proof. intros L. split; [intros N; apply resize_same; auto|intros s' E; apply make_same; auto]. Qed.
