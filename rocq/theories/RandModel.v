(** Model of the random numbers in src/functions.cpp. *)
From Coq Require Import ZArith QArith Qround Reals Floats.SpecFloat.
From Flocq Require Import Core.
From Verif Require Import MpiFloatModel.
Local Open Scope Z_scope.

(** The operations on [double] used there. *)
Record real_ops := mkOps {
  num : Type;
  of_int : Z -> num;
  add : num -> num -> num;
  mul : num -> num -> num;
  quotient : num -> num -> num;
  trunc : num -> Z  (** conversion to an integer, towards zero *)
}.

(** [drand] — functions.cpp:33-38; [M] is [RAND_MAX], [r1] and [r2] are the results of the two calls of
    [rand], in the order in the text (C++ may make the calls in either order). *)
Definition drand (A : real_ops) (M r1 r2 : Z) : num A :=
  quotient A (add A (of_int A r1) (mul A (of_int A M) (of_int A r2))) (mul A (of_int A M) (of_int A M)).
(** [irand] — functions.cpp:40-43; [None]: the conversion to [int] overflows, undefined behaviour. *)
Definition irand (A : real_ops) (M r1 r2 range : Z) : option Z :=
  let v := trunc A (mul A (drand A M r1 r2) (of_int A range)) in
  if (-(2 ^ 31) <=? v) && (v <? 2 ^ 31) then Some v else None.

(** Exact arithmetic. *)
Definition exact_ops : real_ops := mkOps Q inject_Z Qplus Qmult Qdiv (fun x => Z.quot (Qnum x) (Zpos (Qden x))).
(** Real numbers rounded as binary64 after each operation. *)
Definition rounded_ops : real_ops :=
  mkOps R (fun z => rnd64 (IZR z)) (fun a b => rnd64 (a + b)) (fun a b => rnd64 (a * b)) (fun a b => rnd64 (a / b)) Ztrunc.
(** Bit patterns. *)
Definition trunc754 (x : spec_float) : Z :=
  match x with
  | S754_finite s m e => let v := if 0 <=? e then Zpos m * 2 ^ e else Zpos m / 2 ^ (- e) in if s then - v else v
  | _ => 0
  end.
Definition bits_ops : real_ops :=
  mkOps spec_float (fun z => binary_normalize 53 1024 z 0 false) (SFadd 53 1024) (SFmul 53 1024) (SFdiv 53 1024) trunc754.
