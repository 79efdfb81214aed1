(** Model of the function registry of src/variables/function_expression.hpp and of the functions
    that src/variables/function_expression.cpp registers with it. *)
From Coq Require Import ZArith List Bool String.
From Verif Require Import ExprModel.
Import ListNotations.
Local Open Scope string_scope.

(** * The registry *)

(** The table behind a registry, [std::map<std::string, pEntryBase>] —
    function_expression.hpp:226-227, with the assignment [funcs->operator[](fname) = eB] and [funcs->count(fname)] with
    the following look-up — function_expression.hpp:236-237, 242-243. *)
Definition table := list (string * fsig).
Fixpoint t_put (t : table) (name : string) (f : fsig) : table :=
  match t with
  | [] => [(name, f)]
  | (n, g) :: t' => if String.eqb n name then (n, f) :: t' else (n, g) :: t_put t' name f
  end.
Fixpoint t_get (t : table) (name : string) : option fsig :=
  match t with
  | [] => None
  | (n, g) :: t' => if String.eqb n name then Some g else t_get t' name
  end.

(** All registries of a program and the tables they share: a registry is a [shared_ptr] to a
    table, here the number of the table. *)
Record regs := mkRegs { tables : list table; handles : list nat }.
Definition regs0 : regs := mkRegs [] [].

(** [FunctionRegistry()], the copy constructor and the assignment supplied by the compiler —
    function_expression.hpp:230-231; [registerFunction] — function_expression.hpp:233-238.
    Operations on registries that do not exist do nothing. *)
Inductive reg_op :=
| RNew                                          (* FunctionRegistry r *)
| RCopy (r : nat)                               (* FunctionRegistry s(r) *)
| RAssign (r s : nat)                           (* r = s *)
| RRegister (r : nat) (name : string) (f : fsig).  (* r.registerFunction(name, f) *)

Fixpoint set_nth {X : Type} (l : list X) (i : nat) (x : X) : list X :=
  match l, i with
  | [], _ => []
  | _ :: l', 0%nat => x :: l'
  | y :: l', S i' => y :: set_nth l' i' x
  end.

Definition reg_step (s : regs) (op : reg_op) : regs :=
  match op with
  | RNew => mkRegs (tables s ++ [[]])%list (handles s ++ [List.length (tables s)])%list
  | RCopy r =>
      match nth_error (handles s) r with
      | Some h => mkRegs (tables s) (handles s ++ [h])%list
      | None => s
      end
  | RAssign r q =>
      match nth_error (handles s) q with
      | Some h => mkRegs (tables s) (set_nth (handles s) r h)
      | None => s
      end
  | RRegister r name f =>
      match nth_error (handles s) r with
      | Some h => match nth_error (tables s) h with
                  | Some t => mkRegs (set_nth (tables s) h (t_put t name f)) (handles s)
                  | None => s
                  end
      | None => s
      end
  end.
Definition reg_run (s : regs) (ops : list reg_op) : regs := fold_left reg_step ops s.

(** The function that [getExpression] of registry [r] finds under a name —
    function_expression.hpp:240-244. *)
Definition reg_lookup (s : regs) (r : nat) (name : string) : option fsig :=
  match nth_error (handles s) r with
  | Some h => match nth_error (tables s) h with Some t => t_get t name | None => None end
  | None => None
  end.

(** * The functions registered *)

(** The C++ functions whose addresses are taken — function_expression.cpp:39-47, 55-83, 88-91,
    97-104. *)
Inductive cfun :=
| Fcos | Fsin | Ftan | Facos | Fasin | Fatan | Fatan2 | Fcosh | Fsinh | Ftanh | Fexp | Fldexp | Flog
| Flog10 | Fpow | Fsqrt | Fceil | Ffabs | Ffloor | Ffmod
| Fmin | Fmax | FminI | FmaxI
| Ftgamma | Flgamma | Fdigamma | Fcyl_bessel_j | Fcyl_neumann | Fnormal.

Definition cfuns : list cfun :=
  [Fcos; Fsin; Ftan; Facos; Fasin; Fatan; Fatan2; Fcosh; Fsinh; Ftanh; Fexp; Fldexp; Flog; Flog10;
   Fpow; Fsqrt; Fceil; Ffabs; Ffloor; Ffmod; Fmin; Fmax; FminI; FmaxI; Ftgamma; Flgamma; Fdigamma;
   Fcyl_bessel_j; Fcyl_neumann; Fnormal].

Definition cfun_eqb (a b : cfun) : bool :=
  match a, b with
  | Fcos, Fcos | Fsin, Fsin | Ftan, Ftan | Facos, Facos | Fasin, Fasin | Fatan, Fatan
  | Fatan2, Fatan2 | Fcosh, Fcosh | Fsinh, Fsinh | Ftanh, Ftanh | Fexp, Fexp | Fldexp, Fldexp
  | Flog, Flog | Flog10, Flog10 | Fpow, Fpow | Fsqrt, Fsqrt | Fceil, Fceil | Ffabs, Ffabs
  | Ffloor, Ffloor | Ffmod, Ffmod | Fmin, Fmin | Fmax, Fmax | FminI, FminI | FmaxI, FmaxI
  | Ftgamma, Ftgamma | Flgamma, Flgamma | Fdigamma, Fdigamma | Fcyl_bessel_j, Fcyl_bessel_j
  | Fcyl_neumann, Fcyl_neumann | Fnormal, Fnormal => true
  | _, _ => false
  end.

(** The number of a function ([fs_name]) is its place in the list. *)
Fixpoint place (f : cfun) (l : list cfun) : nat :=
  match l with [] => 0 | g :: l' => if cfun_eqb f g then 0 else S (place f l') end.
Definition code (f : cfun) : nat := place f cfuns.
Definition decode (n : nat) : option cfun := nth_error cfuns n.

(** The types of the pointers passed to [registerFunction] — function_expression.cpp:39-47, 55-83,
    88-91, 97-104; all of them return [double], and [updateAlways] has its default [false]. *)
Definition params (f : cfun) : list ty :=
  match f with
  | Fatan2 | Fpow | Ffmod | Fmin | Fmax => [TFloat; TFloat]
  | Fldexp => [TFloat; TInt]
  | FminI | FmaxI => [TInt; TInt]
  | Fcyl_bessel_j | Fcyl_neumann => [TInt; TFloat]
  | Fnormal => [TFloat; TFloat; TFloat]
  | _ => [TFloat]
  end.
Definition cfun_sig (f : cfun) : fsig := mkFsig (code f) (params f) TFloat false.

(** [registerCMath] — function_expression.cpp:53-84, in the order of the calls. *)
Definition cmath_calls : list (string * cfun) :=
  [("cos", Fcos); ("sin", Fsin); ("tan", Ftan); ("acos", Facos); ("asin", Fasin); ("atan", Fatan);
   ("atan2", Fatan2); ("cosh", Fcosh); ("sinh", Fsinh); ("tanh", Ftanh); ("exp", Fexp);
   ("ldexp", Fldexp); ("log", Flog); ("log10", Flog10); ("pow", Fpow); ("sqrt", Fsqrt);
   ("ceil", Fceil); ("fabs", Ffabs); ("floor", Ffloor); ("fmod", Ffmod)].
(** [registerUtilityFunctions] — function_expression.cpp:86-92. *)
Definition utility_calls : list (string * cfun) :=
  [("min", Fmin); ("max", Fmax); ("minI", FminI); ("maxI", FmaxI)].
(** [registerSpecialFunctions] — function_expression.cpp:95-105. *)
Definition special_calls : list (string * cfun) :=
  [("gamma", Ftgamma); ("lgamma", Flgamma); ("digamma", Fdigamma); ("besselj", Fcyl_bessel_j);
   ("bessely", Fcyl_neumann); ("normal", Fnormal)].

Definition register_calls (r : nat) (l : list (string * cfun)) : list reg_op :=
  map (fun nf => RRegister r (fst nf) (cfun_sig (snd nf))) l.
Definition registerCMath (s : regs) (r : nat) : regs := reg_run s (register_calls r cmath_calls).
Definition registerUtilityFunctions (s : regs) (r : nat) : regs := reg_run s (register_calls r utility_calls).
Definition registerSpecialFunctions (s : regs) (r : nat) : regs := reg_run s (register_calls r special_calls).
(** [registerAllFunctions] — function_expression.cpp:108-113. *)
Definition registerAllFunctions (s : regs) (r : nat) : regs :=
  registerSpecialFunctions (registerUtilityFunctions (registerCMath s r) r) r.

(** * What they compute *)

(** The functions of the C library and of boost, and the comparison [<] of doubles.  [m_pow] is the
    [pow] that also the operator [^] calls — operators.hpp:174-180. *)
Record mathlib (A : arith) := mkMath {
  m_lt : F A -> F A -> bool;
  m_one : cfun -> F A -> F A;              (* functions of one double *)
  m_atan2 : F A -> F A -> F A;
  m_fmod : F A -> F A -> F A;
  m_ldexp : F A -> Z -> F A;
  m_bessel : cfun -> Z -> F A -> F A
}.
Arguments m_lt {A} m.
Arguments m_one {A} m.
Arguments m_atan2 {A} m.
Arguments m_fmod {A} m.
Arguments m_ldexp {A} m.
Arguments m_bessel {A} m.

(** [std::min(a, b)] is [b < a ? b : a] and [std::max(a, b)] is [a < b ? b : a] (C++ standard,
    [alg.min.max]); [schnek::internal::min] and [max] — function_expression.cpp:39-40. *)
Definition c_min {X : Type} (lt : X -> X -> bool) (a b : X) : X := if lt b a then b else a.
Definition c_max {X : Type} (lt : X -> X -> bool) (a b : X) : X := if lt a b then b else a.

Section Calls.
Variable A : arith.
Variable M : mathlib A.

(** [schnek::internal::minI] and [maxI] — function_expression.cpp:41-42.  They return [double]. *)
Definition c_minI (a b : Z) : F A := f_of_int A (c_min Z.ltb a b).
Definition c_maxI (a b : Z) : F A := f_of_int A (c_max Z.ltb a b).

(** [schnek::internal::normal] — function_expression.cpp:43-47; [-y*y/2.0] is [((-y)*y)/2.0]. *)
Definition c_normal (x sigma m : F A) : F A :=
  let y := f_div A (f_sub A x m) sigma in
  m_one M Fexp (f_div A (f_mul A (f_neg A y) y) (f_of_int A 2)).

(** Calling the function through its pointer — [fusion::invoke], function_expression.hpp:114-118.
    The compiler admits no other types of arguments: [BadGet]. *)
Definition call (f : cfun) (args : list (value A)) : result (value A) :=
  match f, args with
  | Fatan2, [VFloat a; VFloat b] => Ok (VFloat (m_atan2 M a b))
  | Fpow, [VFloat a; VFloat b] => Ok (VFloat (f_pow A a b))
  | Ffmod, [VFloat a; VFloat b] => Ok (VFloat (m_fmod M a b))
  | Fmin, [VFloat a; VFloat b] => Ok (VFloat (c_min (m_lt M) a b))
  | Fmax, [VFloat a; VFloat b] => Ok (VFloat (c_max (m_lt M) a b))
  | Fldexp, [VFloat a; VInt b] => Ok (VFloat (m_ldexp M a b))
  | FminI, [VInt a; VInt b] => Ok (VFloat (c_minI a b))
  | FmaxI, [VInt a; VInt b] => Ok (VFloat (c_maxI a b))
  | (Fcyl_bessel_j | Fcyl_neumann), [VInt a; VFloat b] => Ok (VFloat (m_bessel M f a b))
  | Fnormal, [VFloat x; VFloat s; VFloat m] => Ok (VFloat (c_normal x s m))
  | (Fatan2 | Fpow | Ffmod | Fmin | Fmax | Fldexp | FminI | FmaxI | Fcyl_bessel_j | Fcyl_neumann | Fnormal), _ => BadGet
  | _, [VFloat a] => Ok (VFloat (m_one M f a))
  | _, _ => BadGet
  end.

(** The functions as an expression calls them ([s_fun]): a pointer that is none of the above goes
    to the functions of the application. *)
Definition builtin_fun (app : fsig -> list (value A) -> result (value A)) (f : fsig) (args : list (value A)) : result (value A) :=
  match decode (fs_name f) with
  | Some g => if ty_eqb (fs_ret f) TFloat then call g args else app f args
  | None => app f args
  end.

End Calls.
