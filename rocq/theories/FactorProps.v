(** Property theorems C29, C86: factorisation of the number of processes. *)
From Coq Require Import Floats.SpecFloat QArith Znumtheory.
From Verif Require Import Vec FactorModel FactorSpec FactorFloat FactorExamples.
Local Open Scope Z_scope.

(** C29.  For every number and every number of factors, whatever the floating point operations and
    the weights, [equalFactors] terminates with positive factors whose product is the number. *)
Theorem C29_equal_factors : forall (F : Type) (fdiv : Z -> Z -> F) fmul fsum fltb isqrt number nfact weights,
  1 <= number -> (1 <= nfact)%nat ->
  exists v, (exists N, forall fuel, (N <= fuel)%nat ->
               equalFactors fdiv fmul fsum fltb fuel isqrt number nfact weights = Some v) /\
    length v = nfact /\ fold_right Z.mul 1 v = number /\ Forall (fun f => 1 <= f) v.
Proof. exact equalFactors_exact. Qed.
Print Assumptions C29_equal_factors.

Example C29_hypotheses :
  equalFactors b64_fdiv b64_fmul b64_fsum SFltb 100 Z.sqrt 64 3 [32; 32; 256] = Some [2; 2; 16] /\
  equalFactors b64_fdiv b64_fmul b64_fsum SFltb 100 Z.sqrt 60 2 [100; 70] = Some [10; 6].
Proof. exact ex_factors. Qed.

(** C86.  In exact arithmetic [equalFactors] gives, of all ways to divide the processes in which the
    smallest prime factor goes to the first dimension, one with the smallest communication.
    Missing from the full property: all other ways, see the refutation; rounding. *)
Theorem C86_balanced_partial : forall isqrt number nfact w, 1 <= number -> (1 <= nfact)%nat -> isqrt number = Z.sqrt number ->
  length w = nfact -> Forall (fun x => 1 <= x) w ->
  exists v, (exists N, forall fuel, (N <= fuel)%nat -> equalFactors q_fdiv q_fmul q_fsum q_fltb fuel isqrt number nfact w = Some v) /\
    divides_among nfact number v /\ (forall p, smallest_prime number p -> (p | vget v 0)) /\
    forall u, divides_among nfact number u -> (forall p, smallest_prime number p -> (p | vget u 0)) -> (surface v w <= surface u w)%Q.
Proof. exact balanced. Qed.
Print Assumptions C86_balanced_partial.

(** The square root is computed in doubles; for every [int] it has the right integral part. *)
Theorem C86_square_root : forall n, 0 <= n < 2 ^ 31 -> b64_isqrt n = Z.sqrt n.
Proof. exact b64_isqrt_exact. Qed.
Print Assumptions C86_square_root.

(** The code violates the full property: two processes on 10 x 1000 cells always halve the 10 cells. *)
Theorem C86_first_dimension_refuted : exists number nfact w u, 1 <= number /\ length w = nfact /\ Forall (fun x => 1 <= x) w /\ divides_among nfact number u /\
  forall (F : Type) (fdiv : Z -> Z -> F) fmul fsum fltb, exists v,
    (exists N, forall fuel, (N <= fuel)%nat -> equalFactors fdiv fmul fsum fltb fuel Z.sqrt number nfact w = Some v) /\ (surface u w < surface v w)%Q.
Proof. exact lopsided. Qed.
Print Assumptions C86_first_dimension_refuted.

Example C86_case : equalFactors q_fdiv q_fmul q_fsum q_fltb 100 Z.sqrt 60 3 [100; 70; 10] = Some [10; 6; 1] /\ smallest_prime 60 2.
Proof. exact ex_balanced. Qed.
