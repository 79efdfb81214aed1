(** Property theorems C83 (means), C84 (iteration with Kokkos), C85 (unique numbers and singletons). *)
From Coq Require Import ZArith QArith List.
From Verif Require Import Vec GridSpec RangeModel UtilModel UtilSpec UtilProofs UtilExamples.
Import ListNotations.
Local Open Scope Z_scope.

(** C83, exact numbers: the mean of some values is their sum divided by their number and lies between
    every lower and every upper bound of them.
    Missing from the full property: no values at all, and rounding of floating point values. *)
Theorem C83_exact_partial : forall xs, xs <> [] -> Z.of_nat (length xs) < 2 ^ 31 ->
  exists m, q_mean xs = Some m /\ (m == qsum xs / inject_Z (Z.of_nat (length xs)))%Q /\
    (forall lo, Forall (fun x => lo <= x)%Q xs -> (lo <= m)%Q) /\ (forall hi, Forall (fun x => x <= hi)%Q xs -> (m <= hi)%Q).
Proof. exact mean_exact. Qed.
Print Assumptions C83_exact_partial.
(** Integers: the division goes through doubles, yet the result is the exact quotient, rounded towards
    zero, if no partial sum overflows. *)
Theorem C83_integers_partial : forall xs, xs <> [] -> Z.of_nat (length xs) < 2 ^ 31 -> sums_fit xs ->
  int_mean xs = Some (Z.quot (zsum xs) (Z.of_nat (length xs))).
Proof. exact mean_int_ok. Qed.
Print Assumptions C83_integers_partial.
Theorem C83_sum_partial : forall xs, sums_fit xs -> calcsum int_add xs 0 = Some (zsum xs).
Proof. exact calcsum_int. Qed.
Print Assumptions C83_sum_partial.
Example C83_case : q_mean [1; 2; 4 # 3]%Q = Some ((0 + 1 + 2 + (4 # 3)) / 3)%Q /\ sums_fit [5; -7; -9] /\ int_mean [5; -7; -9] = Some (-3).
Proof. exact (conj ex_mean (conj (proj1 ex_sums) ex_int_mean)). Qed.
(** The mean of no values, and of integers whose sum does not fit, is undefined. *)
Theorem C83_empty_refuted : q_mean [] = None /\ int_mean [] = None.
Proof. exact mean_none. Qed.
Print Assumptions C83_empty_refuted.
Theorem C83_overflow_refuted : int_mean [2 ^ 31 - 1; 1] = None.
Proof. exact mean_overflow. Qed.
Print Assumptions C83_overflow_refuted.

(** C84.  Whatever order Kokkos chooses, the function is called exactly once for each index of the range ... *)
Theorem C84_calls : forall lo hi blo bhi calls, length hi = length lo -> kokkos_bounds (mkRange lo hi) = Some (blo, bhi) ->
  kokkos_calls blo bhi calls -> NoDup calls /\ (forall p, In p calls <-> in_box lo hi p).
Proof. exact kokkos_each. Qed.
Print Assumptions C84_calls.
(** ... and if calls for different indices commute, the result is that of the serial policy. *)
Theorem C84_order : forall (S : Type) (func : vec -> S -> S) lo hi blo bhi calls s, length hi = length lo ->
  kokkos_bounds (mkRange lo hi) = Some (blo, bhi) -> kokkos_calls blo bhi calls ->
  (forall p q s, in_box lo hi p -> in_box lo hi q -> func p (func q s) = func q (func p s)) ->
  kokkos_forEach func calls s = c_forEach func (mkRange lo hi) s.
Proof. exact kokkos_order. Qed.
Print Assumptions C84_order.
Example C84_case : kokkos_bounds (mkRange [0; -1] [1; 0]) = Some ([0; -1], [2; 1]) /\ kokkos_calls [0; -1] [2; 1] [[1; 0]; [0; -1]; [0; 0]; [1; -1]].
Proof. exact ex_kokkos. Qed.

(** C85.  After any sequence of constructions every object has a number, and different objects of
    one class have different numbers. *)
Theorem C85_unique : forall l c o1 o2 i, uid (ubuild l) c o1 = Some i -> uid (ubuild l) c o2 = Some i -> o1 = o2.
Proof. exact unique_ids. Qed.
Print Assumptions C85_unique.
Theorem C85_numbered : forall l c o, In (c, o) l -> exists i, uid (ubuild l) c o = Some i.
Proof. exact unique_has. Qed.
Print Assumptions C85_numbered.
(** In every program all requests for the instance of a class give the same object, and objects are created
    only at the first request of each class. *)
Theorem C85_singleton : forall (W : Type) (create : nat -> W -> nat * W) cs w,
  let (xs, w') := instances create cs (fun _ => None) w in
  length xs = length cs /\ w' = fold_left (fun w c => snd (create c w)) (firsts [] cs) w /\
  (forall i j c, nth_error cs i = Some c -> nth_error cs j = Some c -> nth_error xs i = nth_error xs j).
Proof. exact @singleton. Qed.
Print Assumptions C85_singleton.
Theorem C85_once : forall cs seen, NoDup (firsts seen cs) /\ forall c, In c (firsts seen cs) <-> In c cs /\ ~ In c seen.
Proof. exact firsts_spec. Qed.
Print Assumptions C85_once.
Example C85_case : map (fun x => uid (ubuild [(0, 0); (0, 1); (1, 0); (0, 2)]%nat) (fst x) (snd x)) [(0, 0); (0, 1); (1, 0); (0, 2); (1, 1)]%nat =
  [Some 0; Some 1; Some 0; Some 2; None] /\
  instances ex_create [3; 5; 3; 3; 5; 7]%nat (fun _ => None) [] = ([0; 1; 0; 0; 1; 2]%nat, [3; 5; 7]%nat).
Proof. exact (conj (proj2 ex_ids) ex_single). Qed.
