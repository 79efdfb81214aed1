(** What the documentation of the function registry says (the comments of
    /repo/src/variables/function_expression.hpp:248-269), independently of the model of the
    registry. *)
From Coq Require Import ZArith List Bool String.
From Verif Require Import ExprModel BuiltinModel.
Import ListNotations.
Local Open Scope string_scope.

(** * Which registration counts *)

(** Which registries share their functions, after a history given newest first: a new registry
    starts a group of its own, a copy is in the group of its original, an assigned registry moves
    to the group of the other. *)
Fixpoint created (h : list reg_op) : nat :=
  match h with
  | [] => 0
  | RNew :: h' => S (created h')
  | _ :: h' => created h'
  end.
Fixpoint groups (h : list reg_op) : list nat :=
  match h with
  | [] => []
  | RNew :: h' => (groups h' ++ [created h'])%list
  | RCopy r :: h' => (groups h' ++ match nth_error (groups h') r with Some g => [g] | None => [] end)%list
  | RAssign r q :: h' =>
      match nth_error (groups h') q with
      | Some g => map (fun i => if Nat.eqb i r then g else nth i (groups h') 0) (seq 0 (List.length (groups h')))
      | None => groups h'
      end
  | RRegister _ _ _ :: h' => groups h'
  end.
Definition group (h : list reg_op) (r : nat) : option nat := nth_error (groups h) r.

(** The last function registered under the name by a registry that was in the group at the time. *)
Fixpoint last_registered (h : list reg_op) (g : nat) (name : string) : option fsig :=
  match h with
  | [] => None
  | RRegister r n f :: h' =>
      if String.eqb n name && match group h' r with Some g' => Nat.eqb g' g | None => false end
      then Some f else last_registered h' g name
  | _ :: h' => last_registered h' g name
  end.

(** * The documented functions *)

(** name, types of the arguments, and the mathematical function; the result is a [double]. *)
Definition documented_cmath : list (string * list ty * cfun) :=
  [("cos", [TFloat], Fcos); ("sin", [TFloat], Fsin); ("tan", [TFloat], Ftan);
   ("acos", [TFloat], Facos); ("asin", [TFloat], Fasin); ("atan", [TFloat], Fatan);
   ("atan2", [TFloat; TFloat], Fatan2);
   ("cosh", [TFloat], Fcosh); ("sinh", [TFloat], Fsinh); ("tanh", [TFloat], Ftanh);
   ("exp", [TFloat], Fexp); ("ldexp", [TFloat; TInt], Fldexp);
   ("log", [TFloat], Flog); ("log10", [TFloat], Flog10);
   ("pow", [TFloat; TFloat], Fpow); ("sqrt", [TFloat], Fsqrt);
   ("ceil", [TFloat], Fceil); ("fabs", [TFloat], Ffabs); ("floor", [TFloat], Ffloor);
   ("fmod", [TFloat; TFloat], Ffmod)].
Definition documented_utility : list (string * list ty * cfun) :=
  [("min", [TFloat; TFloat], Fmin); ("max", [TFloat; TFloat], Fmax);
   ("minI", [TInt; TInt], FminI); ("maxI", [TInt; TInt], FmaxI)].
Definition documented_special : list (string * list ty * cfun) :=
  [("gamma", [TFloat], Ftgamma); ("lgamma", [TFloat], Flgamma); ("digamma", [TFloat], Fdigamma);
   ("besselj", [TInt; TFloat], Fcyl_bessel_j); ("bessely", [TInt; TFloat], Fcyl_neumann);
   ("normal", [TFloat; TFloat; TFloat], Fnormal)].
Definition documented : list (string * list ty * cfun) :=
  (documented_cmath ++ documented_utility ++ documented_special)%list.

Definition names (l : list (string * list ty * cfun)) : list string := map (fun e => fst (fst e)) l.

(** [reg] finds the functions of the list [l] and otherwise what [old] finds. *)
Definition adds (l : list (string * list ty * cfun)) (old reg : string -> option fsig) : Prop :=
  (forall name ps f, In (name, ps, f) l -> reg name = Some (mkFsig (code f) ps TFloat false)) /\
  (forall name, ~ In name (names l) -> reg name = old name).

(** * The values of the functions *)

(** The value of the function at arguments given in the order of the call, in the arithmetic [A]. *)
Inductive gives {A : arith} (M : mathlib A) : cfun -> list (value A) -> F A -> Prop :=
| gives_one f x :                        (* cos(x), exp(x), gamma(x), ... *)
    In f [Fcos; Fsin; Ftan; Facos; Fasin; Fatan; Fcosh; Fsinh; Ftanh; Fexp; Flog; Flog10; Fsqrt; Fceil; Ffabs; Ffloor;
          Ftgamma; Flgamma; Fdigamma] -> gives M f [VFloat x] (m_one M f x)
| gives_atan2 y x : gives M Fatan2 [VFloat y; VFloat x] (m_atan2 M y x)          (* the angle of the point (x, y) *)
| gives_fmod x y : gives M Ffmod [VFloat x; VFloat y] (m_fmod M x y)              (* x modulo y *)
| gives_pow x y : gives M Fpow [VFloat x; VFloat y] (f_pow A x y)                 (* x to the power of y *)
| gives_ldexp x n : gives M Fldexp [VFloat x; VInt n] (m_ldexp M x n)             (* x times 2 to the power of n *)
| gives_min x y : gives M Fmin [VFloat x; VFloat y] (if m_lt M y x then y else x)
| gives_max x y : gives M Fmax [VFloat x; VFloat y] (if m_lt M x y then y else x)
| gives_minI n m : gives M FminI [VInt n; VInt m] (f_of_int A (Z.min n m))
| gives_maxI n m : gives M FmaxI [VInt n; VInt m] (f_of_int A (Z.max n m))
| gives_besselj n x : gives M Fcyl_bessel_j [VInt n; VFloat x] (m_bessel M Fcyl_bessel_j n x)
| gives_bessely n x : gives M Fcyl_neumann [VInt n; VFloat x] (m_bessel M Fcyl_neumann n x)
| gives_normal x sigma m y :             (* exp(-y*y/2) for y = (x-m)/sigma *)
    y = f_div A (f_sub A x m) sigma ->
    gives M Fnormal [VFloat x; VFloat sigma; VFloat m] (m_one M Fexp (f_div A (f_mul A (f_neg A y) y) (f_of_int A 2))).

(** * Order of doubles *)

(** A comparison [<] of numbers some of which are no numbers (NaN): a strict weak order of the
    numbers, and false as soon as one operand is not a number. *)
Record float_order {X : Type} (lt : X -> X -> bool) (num : X -> bool) : Prop := {
  fo_irrefl : forall a, lt a a = false;
  fo_trans : forall a b c, lt a b = true -> lt b c = true -> lt a c = true;
  fo_total : forall a b c, num b = true -> lt a c = true -> lt a b = true \/ lt b c = true;
  fo_nan : forall a b, lt a b = true -> num a = true /\ num b = true
}.
(** [a <= b]. *)
Definition at_most {X : Type} (lt : X -> X -> bool) (a b : X) : Prop := lt b a = false.
