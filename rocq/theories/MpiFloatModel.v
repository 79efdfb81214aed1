(** The cut positions of the distributed subdivision in binary64 arithmetic. *)
From Coq Require Import Reals.
From Flocq Require Import Core.
Local Open Scope R_scope.

(** Rounding to the nearest binary64 number, ties to even; overflow is not modelled (the values here
    are far from it). *)
Definition rnd64 (x : R) : R := round radix2 (FLT_exp (-1074) 53) ZnearestE x.

(** [int(width*c)] with [width = (high-1.)/double(n)] — mpisubdivision.t:108-120. *)
Definition b64_cut (high n c : Z) : Z :=
  Ztrunc (rnd64 (rnd64 (rnd64 (IZR high - 1) / IZR n) * IZR c)).
