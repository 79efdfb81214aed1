(** Specification of reductions. *)
From Coq Require Import ZArith Reals List.
From Flocq Require Import Core.
Import ListNotations.

Definition total (xs : list R) : R := fold_right Rplus 0%R xs.
Definition total_abs (xs : list R) : R := fold_right (fun x s => Rabs x + s)%R 0%R xs.
(** A number that a [double] can hold. *)
Definition is_double (x : R) : Prop := generic_format radix2 (FLT_exp (-1074) 53) x.
(** [s] is the sum of [xs] up to the rounding errors of one addition less than there are numbers. *)
Definition nearly_total (xs : list R) (s : R) : Prop :=
  (Rabs (s - total xs) <= ((1 + / 2 ^ 53) ^ (length xs - 1) - 1) * total_abs xs)%R.
Definition zabs_total (xs : list Z) : Z := fold_right (fun x s => Z.abs x + s)%Z 0%Z xs.
