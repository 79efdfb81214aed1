(** C59: the numbers of the theorems on doubles are those of the machine. *)
From Coq Require Import ZArith Reals Floats.SpecFloat.
From Flocq Require Import Core IEEE754.BinarySingleNaN.
From Verif Require Import MpiFloatModel MpiFloat DiagModel DiagFloatModel DiagDoubleProofs.

(** C59.  On finite doubles the time computed with bit patterns, as by the machine, is the time computed with
    rounded real numbers, as long as no sum or difference overflows: comparisons, sums and differences
    are those of the numbers the patterns stand for. *)
Theorem C59_double_arithmetic : forall x y : binary_float 53 1024, is_finite x = true -> is_finite y = true ->
  (teqb double64 (B2SF x) (B2SF y) = teqb clock64 (B2R x) (B2R y) /\
   tleb double64 (B2SF x) (B2SF y) = tleb clock64 (B2R x) (B2R y) /\
   tltb double64 (B2SF x) (B2SF y) = tltb clock64 (B2R x) (B2R y)) /\
  ((Rabs (tadd clock64 (B2R x) (B2R y)) < bpow radix2 1024)%R ->
   exists z : binary_float 53 1024, is_finite z = true /\
     tadd double64 (B2SF x) (B2SF y) = B2SF z /\ tadd clock64 (B2R x) (B2R y) = B2R z) /\
  ((Rabs (tsub clock64 (B2R x) (B2R y)) < bpow radix2 1024)%R ->
   exists z : binary_float 53 1024, is_finite z = true /\
     tsub double64 (B2SF x) (B2SF y) = B2SF z /\ tsub clock64 (B2R x) (B2R y) = B2R z).
Proof. exact double_clock. Qed.
Print Assumptions C59_double_arithmetic.

Example C59_double_hypotheses : is_finite one64 = true /\
  (Rabs (tadd clock64 (B2R one64) (B2R zero64)) < bpow radix2 1024)%R.
Proof. exact ex_double_clock. Qed.
