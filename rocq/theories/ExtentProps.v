(** C106: the ways to give a grid its extent. *)
From Verif Require Import Vec GridSpec StorageModel GridModel ShareModel ShareSpec ShareProofs ShareExamples
  ExtentModel ExtentSpec ExtentExamples.

(** C106, what holds.  A program may construct and resize grids by a size, by two bounds, by a range or like another
    grid, and may pass for a bound a reference to the bound of any grid, even of the grid that is resized, in its own
    place.  It observes what [ShareSpec] says of the program that resizes to the bounds asked for ([asked]). *)
Theorem C106_extents_partial : forall V A (junk : V) (avg0 : A) rank ord pol, policy_ok pol ->
  forall os, all_steps rank (by_value rank) no_swap os ainit ->
  alegal_run ord (assign_safe (is_lazy pol)) (program rank (by_value rank) os ainit) ainit ->
  exists s obs, xrun junk avg0 rank ord pol os (init avg0) = Some (s, obs) /\
    aobs_run rank (program rank (by_value rank) os ainit) ainit obs.
Proof. exact extents_hold. Qed.
Print Assumptions C106_extents_partial.

(** In any state, such a call does nothing but what [resize] to the bounds asked for does to the grids and the memory;
    a constructor does what default construction and [resize] do. *)
Theorem C106_same : forall V A (junk : V) (avg0 : A) rank ord pol h e (s : @st V A), live_extent s e ->
  (~ swaps h e -> op_resize_by junk rank ord pol h e s = op_resize junk ord pol h (fst (now rank s e)) (snd (now rank s e)) s) /\
  (forall s', op_new avg0 rank h s = Some s' ->
    op_make junk avg0 rank ord pol h e s = op_resize junk ord pol h (fst (now rank s e)) (snd (now rank s e)) s').
Proof. exact same_as_resize. Qed.
Print Assumptions C106_same.

(** C106, exactly.  With any references: where a grid is resized with its own upper bound for the lower one, or
    with its own lower bound for the upper one, the other argument takes the place of that bound ([got]). *)
Theorem C106_exact : forall V A (junk : V) (avg0 : A) rank ord pol, policy_ok pol ->
  forall os, all_steps rank (got rank) refers os ainit ->
  alegal_run ord (assign_safe (is_lazy pol)) (program rank (got rank) os ainit) ainit ->
  exists s obs, xrun junk avg0 rank ord pol os (init avg0) = Some (s, obs) /\
    aobs_run rank (program rank (got rank) os ainit) ainit obs.
Proof. exact extents_hold_exactly. Qed.
Print Assumptions C106_exact.

(** C106 is false of the code for such references.  First witness: a grid [2..5] is resized with
    [grid.resize(grid.getHi(), {9})] and becomes [9..9], not [5..9].  Second witness: it is resized with
    [grid.resize({0}, grid.getLo())], which asks for [0..2], and a write at index 1 leaves the memory of the grid. *)
Theorem C106_own_bounds_refuted :
  (program 1 (by_value 1) swap_prog ainit = swap_plain /\ alegal_run COrder (fun _ _ => True) swap_plain ainit /\
   all_steps 1 (by_value 1) refers swap_prog ainit /\
   exists s obs, xrun 0 tt 1 COrder Instant swap_prog (init tt) = Some (s, obs) /\ obs = [OBounds [9] [9]] /\
                 ~ aobs_run 1 swap_plain ainit obs) /\
  (program 1 (by_value 1) swap_prog2 ainit = swap_plain2 /\ alegal_run COrder (fun _ _ => True) swap_plain2 ainit /\
   all_steps 1 (by_value 1) refers swap_prog2 ainit /\
   xrun 0 tt 1 COrder Instant swap_prog2 (init tt) = None).
Proof. exact swap_refuted. Qed.
Print Assumptions C106_own_bounds_refuted.

Example C106_hypotheses :
  program 2 (by_value 2) ex_extent ainit = ex_extent_plain /\
  all_steps 2 (by_value 2) no_swap ex_extent ainit /\ alegal_run COrder (assign_safe false) ex_extent_plain ainit /\
  option_map snd (xrun 0 tt 2 COrder Instant ex_extent (init tt)) =
    Some [OBounds [0; 0] [2; 3]; OBounds [2; 3] [7; 9]; OBounds [0; 0] [7; 9]; OVal 5; OBounds [0; 0] [6; 8];
          OBounds [0; 0] [6; 8]; OBounds [-1; -1] [1; 1]; OBounds [0; 0] [6; 8]].
Proof. exact ex_extent_ok. Qed.
