(** The numbers of type double used for the physical time (src/diagnostic/diagnostic.hpp:87-93): sums
    and differences rounded to nearest even.  [clock64] works with real numbers and has no largest
    number; [double64] works with bit patterns, as in IEEE 754 binary64. *)
From Coq Require Import ZArith Reals Floats.SpecFloat.
From Flocq Require Import Core.
From Verif Require Import MpiFloatModel DiagModel.

(** [physicalTime >= nextOutput], [nextOutput += deltaTime], [getNextOutput() - physicalTime] —
    diagnostic.cpp:136, 141, 230-231. *)
Definition clock64 : clock := mkClock R 0%R (fun a b => rnd64 (a + b)) (fun a b => rnd64 (a - b)) Req_bool Rle_bool Rlt_bool.
Definition double64 : clock := mkClock spec_float (S754_zero false) (SFadd 53 1024) (SFsub 53 1024) SFeqb SFleb SFltb.
(** A real number that is a double (but for overflow). *)
Definition is_double (x : R) : Prop := generic_format radix2 (FLT_exp (-1074) 53) x.
