(** Property C96: the functions supplied for expressions.  The documented functions, which
    registration counts and what an order of doubles is are in BuiltinSpec.v. *)
From Coq Require Import String ZArith Reals List Bool SpecFloat.
From Flocq Require Import Core IEEE754.BinarySingleNaN.
From Verif Require Import FieldModel ExprModel ExprSyntax ExprSpec ExprBuildModel ExprExamples BuiltinModel BuiltinSpec BuiltinProofs BuiltinFloat BuiltinExamples.
Import ListNotations.
Local Open Scope string_scope.

(** A registry finds the function that was registered last under the name by any registry that
    shared its functions at the time. *)
Theorem C96_last_registration :
  forall (program : list reg_op) (r : nat) (name : string),
    reg_lookup (reg_run regs0 program) r name =
    match group (rev program) r with
    | Some g => last_registered (rev program) g name
    | None => None
    end.
Proof. exact lookup_history. Qed.
Print Assumptions C96_last_registration.

(** Each of the four functions that register functions adds the documented functions with their
    documented parameters, whatever was registered before, and nothing else. *)
Theorem C96_registered :
  forall (program : list reg_op) (r : nat),
    let s := reg_run regs0 program in
    (r < List.length (handles s))%nat ->
    adds documented_cmath (reg_lookup s r) (reg_lookup (registerCMath s r) r) /\
    adds documented_utility (reg_lookup s r) (reg_lookup (registerUtilityFunctions s r) r) /\
    adds documented_special (reg_lookup s r) (reg_lookup (registerSpecialFunctions s r) r) /\
    adds documented (reg_lookup s r) (reg_lookup (registerAllFunctions s r) r).
Proof. exact (fun program r L => registers _ r (reg_valid program r L)). Qed.
Print Assumptions C96_registered.

(** A call of a documented function is accepted iff it has the documented number of arguments; it
    has type float, is constant if its arguments are, and its value is that of the function at the
    values of the arguments, in order, each converted to the type of its parameter. *)
Theorem C96_calls :
  forall (A : arith) (M : mathlib A) vars reg old name ps f args (es : list (expr A)),
    adds documented old reg -> In (name, ps, f) documented ->
    Forall2 (fun s e => build_sum A vars reg s = Built e) args es ->
    (List.length args <> List.length ps -> build_atom A vars reg (ACall name args) = Failed WrongArity) /\
    (List.length args = List.length ps ->
     exists e, build_atom A vars reg (ACall name args) = Built e /\ etype e = TFloat /\
     (forall st, is_constant st e = forallb (is_constant st) es) /\
     forall st app, (forall f args v, app f args = Ok v -> type_of v = fs_ret f) -> s_fun st = builtin_fun A M app ->
       eval st e = rbind (arg_values A ps (map (eval st) es)) (call A M f) /\
       forall vs, arg_values A ps (map (eval st) es) = Ok vs -> exists c, eval st e = Ok (VFloat c) /\ gives M f vs c).
Proof. exact documented_calls. Qed.
Print Assumptions C96_calls.

(** [minI] and [maxI] of whole numbers. *)
Theorem C96_integers :
  forall (A : arith) (M : mathlib A) vars old reg, adds documented old reg ->
  forall s1 s2 e1 e2 st a b, calls_library M st ->
    build_sum A vars reg s1 = Built e1 -> build_sum A vars reg s2 = Built e2 ->
    eval st e1 = Ok (VInt a) -> eval st e2 = Ok (VInt b) ->
    (exists e, build_atom A vars reg (ACall "minI" [s1; s2]) = Built e /\ eval st e = Ok (VFloat (f_of_int A (Z.min a b)))) /\
    (exists e, build_atom A vars reg (ACall "maxI" [s1; s2]) = Built e /\ eval st e = Ok (VFloat (f_of_int A (Z.max a b)))).
Proof. exact min_integers. Qed.
Print Assumptions C96_integers.

(** Their result is a double; it is the whole number exactly, and an [int] variable assigned with it
    holds the whole number. *)
Theorem C96_integers_exact :
  forall z, (- 2 ^ 31 <= z < 2 ^ 31)%Z ->
    B2R (double_of_int z) = IZR z /\ is_finite (double_of_int z) = true /\ int_of_double (double_of_int z) = z.
Proof.
  exact (fun z H => conj (proj1 (double_of_int_exact z (ints_small z H)))
    (conj (proj2 (double_of_int_exact z (ints_small z H))) (int_round_trip z H))).
Qed.
Print Assumptions C96_integers_exact.

(** [min] and [max] of numbers: one of the arguments, and not above (below) either. *)
Theorem C96_numbers_partial :
  forall (A : arith) (M : mathlib A) vars old reg, adds documented old reg ->
  forall num s1 s2 e1 e2 st a b, calls_library M st -> float_order (m_lt M) num ->
    build_sum A vars reg s1 = Built e1 -> build_sum A vars reg s2 = Built e2 ->
    eval st e1 = Ok (VFloat a) -> eval st e2 = Ok (VFloat b) -> num a = true -> num b = true ->
    (exists e c, build_atom A vars reg (ACall "min" [s1; s2]) = Built e /\ eval st e = Ok (VFloat c) /\
       (c = a \/ c = b) /\ at_most (m_lt M) c a /\ at_most (m_lt M) c b) /\
    (exists e c, build_atom A vars reg (ACall "max" [s1; s2]) = Built e /\ eval st e = Ok (VFloat c) /\
       (c = a \/ c = b) /\ at_most (m_lt M) a c /\ at_most (m_lt M) b c).
Proof. exact min_floats. Qed.
Print Assumptions C96_numbers_partial.

(** The comparison of binary64 numbers is such an order, of all that is not NaN; for finite doubles
    [min] and [max] are those of the real numbers. *)
Theorem C96_binary64 :
  float_order SFltb (fun x => match x with S754_nan => false | _ => true end) /\
  forall x y : double, is_finite x = true -> is_finite y = true ->
    B2R (c_min Bltb x y) = Rmin (B2R x) (B2R y) /\ B2R (c_max Bltb x y) = Rmax (B2R x) (B2R y).
Proof. exact (conj order_double min_real). Qed.
Print Assumptions C96_binary64.

(** With NaN the result depends on the order of the arguments: [min(x, y)] is NaN and [min(y, x)]
    is 1 for [x] NaN and [y] 1. *)
Theorem C96_nan_refuted :
  let reg := reg_lookup lib_regs 0 in
  let one := sf_of_Z 1 in
  exists e e',
    build_atom b64 lib_vars reg (ACall "min" [of_atom (AId "x"); of_atom (AId "y")]) = Built e /\
    build_atom b64 lib_vars reg (ACall "min" [of_atom (AId "y"); of_atom (AId "x")]) = Built e' /\
    eval (lib_store S754_nan one) e = Ok (VFloat (A := b64) S754_nan) /\
    eval (lib_store S754_nan one) e' = Ok (VFloat (A := b64) one).
Proof. exact nan_order. Qed.
Print Assumptions C96_nan_refuted.

(** What they return then: if neither argument is below the other, both [min] and [max] return the first
    one; so they do if an argument is NaN, which is not below or above anything. *)
Theorem C96_unordered :
  (forall (A : arith) (M : mathlib A) vars old reg, adds documented old reg ->
   forall s1 s2 e1 e2 st a b, calls_library M st -> m_lt M a b = false -> m_lt M b a = false ->
    build_sum A vars reg s1 = Built e1 -> build_sum A vars reg s2 = Built e2 ->
    eval st e1 = Ok (VFloat a) -> eval st e2 = Ok (VFloat b) ->
    (exists e, build_atom A vars reg (ACall "min" [s1; s2]) = Built e /\ eval st e = Ok (VFloat a)) /\
    (exists e, build_atom A vars reg (ACall "max" [s1; s2]) = Built e /\ eval st e = Ok (VFloat a))) /\
  forall x, SFltb S754_nan x = false /\ SFltb x S754_nan = false.
Proof. exact (conj min_unordered nan_unordered). Qed.
Print Assumptions C96_unordered.

(** [pow(x, y)] is [x ^ y] for floats; for integers [n ^ m] is [pow(n, m)] cut to an integer. *)
Theorem C96_pow :
  forall (A : arith) (M : mathlib A) vars old reg, adds documented old reg ->
  forall x y nx ny st, calls_library M st ->
    (vars x = Some (nx, TFloat) -> vars y = Some (ny, TFloat) ->
     forall a b, s_val st nx = VFloat a -> s_val st ny = VFloat b ->
     exists e e', build_atom A vars reg (ACall "pow" [of_atom (AId x); of_atom (AId y)]) = Built e /\
                  build_sum A vars reg (power (AId x) (AId y)) = Built e' /\
                  eval st e = eval st e' /\ eval st e = Ok (VFloat (f_pow A a b))) /\
    (vars x = Some (nx, TInt) -> vars y = Some (ny, TInt) ->
     forall a b, s_val st nx = VInt a -> s_val st ny = VInt b ->
     exists e e', build_atom A vars reg (ACall "pow" [of_atom (AId x); of_atom (AId y)]) = Built e /\
                  build_sum A vars reg (power (AId x) (AId y)) = Built e' /\
                  eval st e = Ok (VFloat (f_pow A (f_of_int A a) (f_of_int A b))) /\
                  eval st e' = rbind (eval st e) (cast_to TInt)).
Proof.
  exact (fun A M vars old reg R x y nx ny st S =>
    conj (powers A M vars old reg R x y nx ny st S) (powers_integers A M vars old reg R x y nx ny st S)).
Qed.
Print Assumptions C96_pow.

(** [normal(x, sigma, m)] in exact arithmetic: the bell curve of height 1 around [m]. *)
Theorem C96_normal :
  forall (M : mathlib exact) (x sigma m : R),
    (forall y, m_one M Fexp y = exp y) -> sigma <> 0%R ->
    let n := c_normal exact M in
    n x sigma m = exp (- ((x - m) / sigma) ^ 2 / 2)%R /\
    (0 < n x sigma m <= 1)%R /\ (n x sigma m = 1%R <-> x = m) /\
    (forall d, n (m + d)%R sigma m = n (m - d)%R sigma m) /\
    (forall d e, (Rabs d <= Rabs e)%R -> (n (m + e) sigma m <= n (m + d) sigma m)%R).
Proof. exact normal_exact. Qed.
Print Assumptions C96_normal.

(** The hypotheses are met: a registry filled through its copy and the store above. *)
Theorem C96_hypotheses :
  adds documented (fun _ => None) (reg_lookup lib_regs 1) /\
  (forall x y, calls_library b64_math (lib_store x y)) /\
  exists M : mathlib exact, forall y, m_one M Fexp y = exp y.
Proof. exact (conj lib_adds (conj lib_store_calls exact_library)). Qed.
Print Assumptions C96_hypotheses.
