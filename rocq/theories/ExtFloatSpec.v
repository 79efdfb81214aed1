(** Specification: how near the computed edge of an extent lies to the exact one. *)
From Coq Require Import ZArith Reals.
From Flocq Require Import Core.
Local Open Scope R_scope.

(** [x] is [y] up to 2^-49 of the sizes of the ends of the extent (eight units in the last place of a double of that size), apart
    from underflow. *)
Definition near_edge (elo ehi x y : R) : Prop :=
  Rabs (x - y) <= bpow radix2 (-49) * (Rabs elo + Rabs ehi) + bpow radix2 (-1041).
