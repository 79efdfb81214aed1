(** Property theorems C89 (reductions over all processes) and C83 (means of doubles). *)
From Coq Require Import ZArith Reals List SpecFloat.
From Verif Require Import MpiFloatModel UtilModel UtilSpec ReduceModel ReduceSpec Reduce ReduceExamples.
Import ListNotations.

(** C89, integers.  Whatever the order in which the values of the processes are combined: if the absolute values
    add up to less than 2^31, [sumReduce] gives the sum and [avgReduce] the exact average rounded towards zero. *)
Theorem C89_sum_integers : forall vals res, (zabs_total vals < 2 ^ 31)%Z -> sumReduce int_add vals res -> res = Some (zsum vals).
Proof. exact reduce_int_sum. Qed.
Print Assumptions C89_sum_integers.
Theorem C89_average_integers : forall vals res, vals <> [] -> (Z.of_nat (length vals) < 2 ^ 31)%Z -> (zabs_total vals < 2 ^ 31)%Z ->
  avgReduce int_add int_divide vals res -> res = Some (Z.quot (zsum vals) (Z.of_nat (length vals))).
Proof. exact reduce_int_avg. Qed.
Print Assumptions C89_average_integers.
(** The largest and the smallest value are found in any order. *)
Theorem C89_max_integers : forall vals res, maxReduce Z.ltb vals res ->
  exists m, res = Some m /\ In m vals /\ forall x, In x vals -> (x <= m)%Z.
Proof. exact ints_max. Qed.
Print Assumptions C89_max_integers.
Theorem C89_min_integers : forall vals res, minReduce Z.ltb vals res ->
  exists m, res = Some m /\ In m vals /\ forall x, In x vals -> (m <= x)%Z.
Proof. exact ints_min. Qed.
Print Assumptions C89_min_integers.
(** Without the bound the order decides: the sum of 2^31-1, 1 and -5 is an [int], but may be undefined. *)
Theorem C89_order_integers : sumReduce int_add [2 ^ 31 - 1; 1; -5]%Z None /\ sumReduce int_add [2 ^ 31 - 1; 1; -5]%Z (Some (2 ^ 31 - 5)%Z).
Proof. exact sum_order. Qed.
Print Assumptions C89_order_integers.

(** C89, doubles. *)
Theorem C89_sum_doubles : forall vals res, Forall is_double vals -> sumReduce r_add vals res ->
  exists s, res = Some s /\ nearly_total vals s.
Proof. exact reduce_double_sum. Qed.
Print Assumptions C89_sum_doubles.
Theorem C89_average_doubles : forall vals res, vals <> [] -> (Z.of_nat (length vals) < 2 ^ 31)%Z -> Forall is_double vals ->
  avgReduce r_add r_divide vals res -> exists s, nearly_total vals s /\ res = Some (rnd64 (s / INR (length vals))).
Proof. exact reduce_double_avg. Qed.
Print Assumptions C89_average_doubles.
Theorem C89_max_doubles : forall vals res, maxReduce r_smaller vals res ->
  exists m, res = Some m /\ In m vals /\ forall x, In x vals -> (x <= m)%R.
Proof. exact doubles_max. Qed.
Print Assumptions C89_max_doubles.
Theorem C89_min_doubles : forall vals res, minReduce r_smaller vals res ->
  exists m, res = Some m /\ In m vals /\ forall x, In x vals -> (m <= x)%R.
Proof. exact doubles_min. Qed.
Print Assumptions C89_min_doubles.
(** Sums of doubles may differ from run to run. *)
Theorem C89_order_doubles : exists a b, sumReduce r_add [IZR (2 ^ 53); 1; 1]%R (Some a) /\
  sumReduce r_add [IZR (2 ^ 53); 1; 1]%R (Some b) /\ (a < b)%R.
Proof. exact sum_differs. Qed.
Print Assumptions C89_order_doubles.

(** Every reduction over one process gives what the serial version gives, and every reduction has a result. *)
Theorem C89_serial : forall (T : Type) (op : T -> T -> option T) v res, allreduce op [v] res -> res = Some (serial_reduce v).
Proof. exact @serial_is_one. Qed.
Print Assumptions C89_serial.
Theorem C89_result : forall (T : Type) (op : T -> T -> option T) vals, vals <> [] -> exists res, allreduce op vals res.
Proof. exact @reduce_exists. Qed.
Print Assumptions C89_result.

Example C89_hypotheses : (zabs_total [5; -7; -9] < 2 ^ 31)%Z /\ sumReduce int_add [5; -7; -9]%Z (Some (-11)%Z) /\
  maxReduce Z.ltb [5; -7; -9]%Z (Some 5%Z) /\ minReduce Z.ltb [5; -7; -9]%Z (Some (-9)%Z).
Proof. exact ex_ints. Qed.
Example C89_doubles_case : Forall is_double [1; 3; -4]%R /\ [1; 3; -4]%R <> [].
Proof. exact ex_doubles. Qed.

(** C83, doubles: the mean is the rounded quotient of a sum that carries the rounding errors of the additions.
    Missing from the full property: no values at all; overflow. *)
Theorem C83_doubles_partial : forall xs, xs <> [] -> (Z.of_nat (length xs) < 2 ^ 31)%Z -> Forall is_double xs ->
  exists s, nearly_total xs s /\ r_mean xs = Some (rnd64 (s / INR (length xs))).
Proof. exact mean_double. Qed.
Print Assumptions C83_doubles_partial.
(** The mean may lie outside the values: the mean of ten times 0.1, which is 7205759403792794 / 2^56, is the
    number before it. *)
Theorem C83_doubles_between_refuted : exists m, b64_mean (repeat tenth 10) = Some m /\ SFltb m tenth = true /\
  m = S754_finite false 7205759403792793 (-56).
Proof. exact mean_of_tenths. Qed.
Print Assumptions C83_doubles_between_refuted.
