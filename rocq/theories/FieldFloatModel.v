(** The arithmetic of field.t:146-161, 260-301 in [double], as rounded real numbers. *)
From Coq Require Import ZArith Reals.
From Flocq Require Import Core.
From Verif Require Import FieldModel MpiFloatModel.

(** Every operation is rounded to the nearest binary64 number; overflow is not modelled.  [int] is
    converted to [double] — field.t:154-158, 299-300. *)
Definition r64_arith : pos_arith R :=
  mkPA R (fun x y => rnd64 (x + y)) (fun x y => rnd64 (x - y)) (fun x y => rnd64 (x * y)) (fun x y => rnd64 (x / y))
    (fun z => rnd64 (IZR z)) (/ 2)%R (fun x => Some (Zfloor x)).
