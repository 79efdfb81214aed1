(** Property theorems C01-C04: ranges and iteration. *)
From Verif Require Import Vec GridSpec RangeModel RangeProofs.

(** C01.  The loop over [begin()..end()] ends and visits exactly the box, each index once, in
    lexicographic order (any fuel from the number of cells on gives the same result). *)
Theorem C01_range_iteration_exact : forall lo hi,
  box_ok lo hi ->
  exists l, (forall fuel, (Z.to_nat (box_size lo hi) <= fuel)%nat ->
                          range_visits fuel (mkRange lo hi) = Some l)
            /\ enumerates lex_lt lo hi l
            /\ Z.of_nat (length l) = box_size lo hi.
Proof. exact range_iteration_exact. Qed.
Print Assumptions C01_range_iteration_exact.

Example C01_hypotheses : box_ok [-1; 0; 5] [1; 2; 5] /\
  range_visits 9 (mkRange [-1; 0; 5] [1; 2; 5]) =
  Some [[-1;0;5]; [-1;1;5]; [-1;2;5]; [0;0;5]; [0;1;5]; [0;2;5]; [1;0;5]; [1;1;5]; [1;2;5]].
Proof. split; [simpl; lia|reflexivity]. Qed.

(** C02.  The property "an empty range is never visited" is false of the code: for *every* range,
    empty or not, the loop body is executed at least once. *)
Theorem C02_empty_range_iteration_refuted :
  (exists lo hi, length hi = length lo /\ (forall p, ~ in_box lo hi p) /\
     exists fuel l, range_visits fuel (mkRange lo hi) = Some l /\ l <> []) /\
  (forall lo hi fuel l, length hi = length lo ->
     range_visits fuel (mkRange lo hi) = Some l -> l <> []).
Proof. exact (conj empty_range_witness range_iteration_never_empty). Qed.
Print Assumptions C02_empty_range_iteration_refuted.

(** C02, what does hold: the loop ends for every range, and an empty dimension is treated as if
    it consisted of the single coordinate [lo]. *)
Theorem C02_range_iteration_terminates_partial : forall lo hi,
  length hi = length lo ->
  exists fuel l, range_visits fuel (mkRange lo hi) = Some l /\
                 enumerates lex_lt lo (vmap2 Z.max lo hi) l.
Proof. exact range_iteration_any_enumerates. Qed.
Print Assumptions C02_range_iteration_terminates_partial.

(** C03.  [forEach] of either policy is the fold of the function over the indices of the box, each
    exactly once, in row-major / column-major order; for an empty box the list is empty. *)
Theorem C03_forEach_C_exact : forall (S : Type) (func : vec -> S -> S) lo hi (s : S),
  length hi = length lo ->
  exists l, enumerates lex_lt lo hi l /\
            c_forEach func (mkRange lo hi) s = fold_left (fun s p => func p s) l s.
Proof. exact @c_forEach_exact. Qed.
Print Assumptions C03_forEach_C_exact.

Theorem C03_forEach_Fortran_exact : forall (S : Type) (func : vec -> S -> S) lo hi (s : S),
  length hi = length lo ->
  exists l, enumerates colex_lt lo hi l /\
            f_forEach func (mkRange lo hi) s = fold_left (fun s p => func p s) l s.
Proof. exact @f_forEach_exact. Qed.
Print Assumptions C03_forEach_Fortran_exact.

(** An enumeration of an empty box is the empty list: no call at all. *)
Theorem C03_forEach_empty : forall (S : Type) (func : vec -> S -> S) lo hi (s : S),
  length hi = length lo -> (forall p, ~ in_box lo hi p) ->
  c_forEach func (mkRange lo hi) s = s /\ f_forEach func (mkRange lo hi) s = s.
Proof. exact @forEach_empty. Qed.
Print Assumptions C03_forEach_empty.

Example C03_example :
  c_forEach (fun p l => p :: l) (mkRange [0; 3] [1; 4]) [] = [[1;4]; [1;3]; [0;4]; [0;3]] /\
  f_forEach (fun p l => p :: l) (mkRange [0; 3] [1; 4]) [] = [[1;4]; [0;4]; [1;3]; [0;3]] /\
  (forall p, ~ in_box [0; 3] [1; 2] p) /\
  c_forEach (fun p l => p :: l) (mkRange [0; 3] [1; 2]) [] = [].
Proof.
  repeat split; try reflexivity. intros [|x [|y [|]]]; simpl; try tauto; lia.
Qed.

(** C04. *)
Theorem C04_inside : forall lo hi p,
  length hi = length lo -> length p = length lo ->
  range_inside (mkRange lo hi) p = true <-> in_box lo hi p.
Proof. exact range_inside_spec. Qed.
Print Assumptions C04_inside.

(** Growing (one amount per dimension, or the same for all): [p] is inside the grown range iff some
    cell of the original range is within that distance. *)
Theorem C04_growv : forall ds lo hi p,
  box_ok lo hi -> length ds = length lo -> Forall (fun d => 0 <= d) ds ->
  in_box (r_lo (range_growv ds (mkRange lo hi))) (r_hi (range_growv ds (mkRange lo hi))) p <->
  exists q, in_box lo hi q /\ within ds p q.
Proof. exact in_box_growv. Qed.
Print Assumptions C04_growv.

Theorem C04_grow : forall s lo hi p,
  box_ok lo hi -> 0 <= s ->
  in_box (r_lo (range_grow s (mkRange lo hi))) (r_hi (range_grow s (mkRange lo hi))) p <->
  exists q, in_box lo hi q /\ within (map (fun _ => s) lo) p q.
Proof. exact in_box_grow. Qed.
Print Assumptions C04_grow.

(** Negative amounts shrink: [p] stays inside iff its whole neighbourhood was inside. *)
Theorem C04_shrinkv : forall ds lo hi p,
  length hi = length lo -> length ds = length lo -> Forall (fun d => 0 <= d) ds -> length p = length lo ->
  in_box (r_lo (range_growv (map Z.opp ds) (mkRange lo hi)))
         (r_hi (range_growv (map Z.opp ds) (mkRange lo hi))) p <->
  (forall q, within ds p q -> in_box lo hi q).
Proof. exact in_box_shrinkv. Qed.
Print Assumptions C04_shrinkv.

Theorem C04_projectDim : forall d lo hi p,
  length hi = length lo -> length p = length lo -> (d < length lo)%nat ->
  in_box (r_lo (range_projectDim d (mkRange lo hi))) (r_hi (range_projectDim d (mkRange lo hi)))
         (array_projectDim d p) <->
  (forall i, (i < length lo)%nat -> i <> d -> vget lo i <= vget p i <= vget hi i).
Proof. exact projectDim_spec. Qed.
Print Assumptions C04_projectDim.

Theorem C04_project : forall n lo hi p,
  length hi = length lo -> length p = length lo -> (n <= length lo)%nat ->
  in_box (r_lo (range_project n (mkRange lo hi))) (r_hi (range_project n (mkRange lo hi)))
         (array_project n p) <->
  (forall i, (i < n)%nat -> vget lo i <= vget p i <= vget hi i).
Proof. exact project_spec. Qed.
Print Assumptions C04_project.

Example C04_example :
  range_inside (mkRange [0; 0; 0] [3; 4; 5]) [3; 0; 5] = true /\
  range_inside (mkRange [0; 0; 0] [3; 4; 5]) [3; 5; 5] = false /\
  range_grow 2 (mkRange [0; 0] [3; 4]) = mkRange [-2; -2] [5; 6] /\
  range_growv [1; 2] (mkRange [0; 0] [3; 4]) = mkRange [-1; -2] [4; 6] /\
  range_projectDim 1 (mkRange [0; 1; 2] [3; 4; 5]) = mkRange [0; 2] [3; 5].
Proof. repeat split. Qed.
