(** Model of fixed-length arrays and array expressions: src/grid/array.t,
    src/grid/arrayexpression.hpp, and [crossProduct] of src/functions.hpp. *)
From Verif Require Import Vec GridModel ShareModel.

(** ** Element types

    Array components are [int] or a floating point type.  [int] is unbounded [Z] (no overflow);
    the floating point type [F] and its operations are arbitrary. *)
Inductive ty := TI | TF.
Definition ty_eqb (a b : ty) : bool := match a, b with TI, TI | TF, TF => true | _, _ => false end.

Inductive bop := Plus | Minus | Mult | Div.

Record fops (F : Type) := mkFops {
  f_bin : bop -> F -> F -> F;
  f_neg : F -> F;
  f_of_int : Z -> F;
  f_to_int : F -> Z }.
Arguments f_bin {F}. Arguments f_neg {F}. Arguments f_of_int {F}. Arguments f_to_int {F}.

Section Arrays.
  Context {F : Type}.
  Variable fo : fops F.

  Inductive num := NI (z : Z) | NF (f : F).
  Definition num_ty (v : num) : ty := match v with NI _ => TI | NF _ => TF end.

  (** Implicit conversion of a scalar to type [t] (C++ standard conversions). *)
  Definition conv (t : ty) (v : num) : num :=
    match t, v with
    | TI, NF f => NI (f_to_int fo f)
    | TF, NI z => NF (f_of_int fo z)
    | _, _ => v
    end.

  (** Built-in arithmetic on two operands of the same type; [None]: integer division by zero,
      undefined behaviour. *)
  Definition arith (op : bop) (a b : num) : option num :=
    match a, b with
    | NI x, NI y =>
        match op with
        | Plus => Some (NI (x + y)) | Minus => Some (NI (x - y)) | Mult => Some (NI (x * y))
        | Div => if y =? 0 then None else Some (NI (Z.quot x y))
        end
    | NF x, NF y => Some (NF (f_bin fo op x y))
    | _, _ => None
    end.
  Definition neg (a : num) : num := match a with NI x => NI (- x) | NF x => NF (f_neg fo x) end.

  (** The usual arithmetic conversions of C++: [int op int] is [int], otherwise floating. *)
  Definition common (a b : ty) : ty := match a, b with TI, TI => TI | _, _ => TF end.
  Definition cpp_op (op : bop) (a b : num) : option num :=
    let t := common (num_ty a) (num_ty b) in arith op (conv t a) (conv t b).

  (** [ArrayOpPlus<T>::apply], [ArrayOpMinus<T>::apply], ... — src/grid/arrayexpression.hpp:139-179:
      the parameters and the result have type [T], whatever the operands are. *)
  Definition op_apply (op : bop) (t : ty) (a b : num) : option num := arith op (conv t a) (conv t b).
  (** [ArrayOpUnaryPlus<T>], [ArrayOpUnaryMinus<T>] — arrayexpression.hpp:181-199. *)
  Definition un_apply (minus : bool) (t : ty) (a : num) : num :=
    if minus then neg (conv t a) else conv t a.

  (** ** Expression objects

      [ArrayExpression], [ArrayUnaryOp], [ArrayBinaryOp], [ArrayConstantExp] —
      arrayexpression.hpp:36-137.  All of them hold their operands by value, so an array operand
      is a copy of the array. *)
  Inductive aobj :=
    | OArr (t : ty) (l : list num)
    | OConst (v : num)
    | OUn (minus : bool) (t : ty) (o : aobj)
    | OBin (op : bop) (t : ty) (o1 o2 : aobj).

  (** [value_type] of an expression object. *)
  Definition otype (o : aobj) : ty :=
    match o with OArr t _ => t | OConst v => num_ty v | OUn _ t _ => t | OBin _ t _ _ => t end.

  Definition obind {A B} (x : option A) (f : A -> option B) : option B :=
    match x with Some a => f a | None => None end.

  (** [operator[](i)] of an expression object — arrayexpression.hpp:66-70,95,124-126,136.
      [None]: undefined behaviour. *)
  Fixpoint obj_get (o : aobj) (i : nat) : option num :=
    match o with
    | OArr _ l => nth_error l i
    | OConst v => Some v
    | OUn m t o' => obind (obj_get o' i) (fun v => Some (un_apply m t v))
    | OBin op t o1 o2 => obind (obj_get o1 i) (fun a => obind (obj_get o2 i) (fun b => op_apply op t a b))
    end.

  (** ** Client programs *)

  (** A scalar argument: a value or a component of an array (an lvalue that may alias). *)
  Inductive sarg := SLit (v : num) | SElem (x i : nat).

  (** Expressions as written by the client: array variables, stored expression objects
      ([auto e = a+b;]), scalars combined with arrays, unary operators on arrays, binary
      operators.  (Unary operators on an ArrayExpression are declared with template parameters
      that cannot be deduced, arrayexpression.hpp:442-467, and cannot be called.) *)
  Inductive aexp :=
    | AArr (x : nat)
    | AObj (k : nat)
    | AScalL (op : bop) (s : sarg) (e : aexp)
    | AScalR (op : bop) (e : aexp) (s : sarg)
    | AUn (minus : bool) (x : nat)
    | ABin (op : bop) (e1 e2 : aexp).

  Inductive astmt :=
    | StAssign (x : nat) (e : aexp)               (* x = e *)
    | StCompound (op : bop) (x : nat) (e : aexp)  (* x op= e *)
    | StScal (op : bop) (x : nat) (s : sarg)      (* x op= s *)
    | StFill (x : nat) (s : sarg)                 (* x.fill(s) *)
    | StLet (k : nat) (e : aexp).                 (* auto k = e *)

  (** Arrays (with their component type) and stored expression objects.  All arrays of one
      program that meet in an expression have the same length; arrays of different length do not
      compile together. *)
  Record ast_ := mkAst { a_arr : nat -> ty * list num; a_obj : nat -> option aobj }.

  Definition is_arr (e : aexp) : bool := match e with AArr _ => true | _ => false end.

  Definition sarg_get (st : ast_) (s : sarg) : option num :=
    match s with SLit v => Some v | SElem x i => nth_error (snd (a_arr st x)) i end.

  (** The overload set of the operators — arrayexpression.hpp:205-525: which operands are wrapped
      and which [T] the operator type gets.  [None]: the program does not compile (ARR_ARR,
      ARR_SCAL and SCAL_ARR deduce one [T] from both operands), or a scalar operand is read out of
      bounds. *)
  Fixpoint build (st : ast_) (e : aexp) : option aobj :=
    match e with
    | AArr x => Some (OArr (fst (a_arr st x)) (snd (a_arr st x)))
    | AObj k => a_obj st k
    | AScalL op s e' =>
        obind (sarg_get st s) (fun v => obind (build st e') (fun o =>
          if is_arr e' && negb (ty_eqb (num_ty v) (otype o)) then None
          else Some (OBin op (num_ty v) (OConst v) o)))
    | AScalR op e' s =>
        obind (sarg_get st s) (fun v => obind (build st e') (fun o =>
          if is_arr e' && negb (ty_eqb (num_ty v) (otype o)) then None
          else Some (OBin op (num_ty v) o (OConst v))))
    | AUn m x => Some (OUn m (fst (a_arr st x)) (OArr (fst (a_arr st x)) (snd (a_arr st x))))
    | ABin op e1 e2 =>
        obind (build st e1) (fun o1 => obind (build st e2) (fun o2 =>
          if is_arr e1 && is_arr e2 && negb (ty_eqb (otype o1) (otype o2)) then None
          else Some (OBin op (if is_arr e2 && negb (is_arr e1) then otype o2 else otype o1) o1 o2)))
    end.

  (** [data[i] = v] of array [x] with conversion to the component type. *)
  Definition set_elem (st : ast_) (x i : nat) (v : num) : option ast_ :=
    let '(t, l) := a_arr st x in
    if Nat.ltb i (length l)
    then Some (mkAst (upd (a_arr st) x (t, list_set l i (conv t v))) (a_obj st))
    else None.

  (** [for (size_t i=0; i<Length; ++i) body(i)]. *)
  Fixpoint iloop (n i : nat) (body : nat -> ast_ -> option ast_) (st : ast_) : option ast_ :=
    match n with
    | O => Some st
    | S n' => obind (body i st) (iloop n' (S i) body)
    end.

  Definition len_of (st : ast_) (x : nat) : nat := length (snd (a_arr st x)).

  (** [Array::operator=(expr)], [Array::operator=(Array)] — arrayexpression.hpp:540-549,
      array.t:218-225.  (For an array argument the code reads the argument itself, not a copy;
      reading [val[i]] at step [i] is modelled by [StCompound]/[StAssign] on the live array.) *)
  Definition src_get (st : ast_) (e : aexp) (o : aobj) (i : nat) : option num :=
    match e with
    | AArr y => nth_error (snd (a_arr st y)) i
    | _ => obj_get o i
    end.

  Definition step_a (st : ast_) (s : astmt) : option ast_ :=
    match s with
    | StAssign x e =>
        obind (build st e) (fun o =>
          iloop (len_of st x) 0 (fun i st' => obind (src_get st' e o i) (set_elem st' x i)) st)
    | StCompound op x e =>
        (* operator+=(Array), operator+=(expr), ... — array.t:227-261, arrayexpression.hpp:551-585 *)
        obind (build st e) (fun o =>
          iloop (len_of st x) 0
            (fun i st' => obind (src_get st' e o i) (fun b =>
                          obind (nth_error (snd (a_arr st' x)) i) (fun a =>
                          obind (cpp_op op a b) (set_elem st' x i)))) st)
    | StScal op x s =>
        (* operator+=(const T2 val), ... — array.t:263-297: [val] is passed by value *)
        obind (sarg_get st s) (fun b =>
          iloop (len_of st x) 0
            (fun i st' => obind (nth_error (snd (a_arr st' x)) i) (fun a =>
                          obind (cpp_op op a b) (set_elem st' x i))) st)
    | StFill x s =>
        (* fill(const T &value) — array.t:309-315: [value] is a reference, read in every step *)
        iloop (len_of st x) 0 (fun i st' => obind (sarg_get st' s) (set_elem st' x i)) st
    | StLet k e =>
        obind (build st e) (fun o => Some (mkAst (a_arr st) (upd (a_obj st) k (Some o))))
    end.

  Fixpoint run_a (st : ast_) (p : list astmt) : option ast_ :=
    match p with [] => Some st | s :: p' => obind (step_a st s) (fun st' => run_a st' p') end.
End Arrays.
Arguments num : clear implicits.
Arguments sarg : clear implicits.
Arguments aexp : clear implicits.
Arguments astmt : clear implicits.
Arguments ast_ : clear implicits.
Arguments aobj : clear implicits.

(** ** Comparison, product, sum — src/grid/array.t:358-440.

    Generic in the component type; [c_ne], [c_ge], [c_gt] are its built-in [!=], [>=], [>].  The
    loops return at the first component for which the test holds. *)
Record comparisons (T : Type) := mkCmp { c_ne : T -> T -> bool; c_ge : T -> T -> bool; c_gt : T -> T -> bool }.
Arguments mkCmp {T}.
Arguments c_ne {T}.
Arguments c_ge {T}.
Arguments c_gt {T}.

Section Compare.
  Context {T : Type}.
  Variable c : comparisons T.

  Fixpoint scan_false (test : T -> T -> bool) (a b : list T) : bool :=
    match a, b with
    | x :: a', y :: b' => if test x y then false else scan_false test a' b'
    | _, _ => true
    end.
  Fixpoint scan_true (test : T -> T -> bool) (a b : list T) : bool :=
    match a, b with
    | x :: a', y :: b' => if test x y then true else scan_true test a' b'
    | _, _ => false
    end.

  (** array.t:386-398 *)
  Definition arr_eq := scan_false (c_ne c).
  (** array.t:400-412 *)
  Definition arr_ne := scan_true (c_ne c).
  (** array.t:414-426: [if (arr1[i]>=arr2[i]) return false] *)
  Definition arr_lt := scan_false (c_ge c).
  (** array.t:428-440: [if (arr1[i]>arr2[i]) return false] *)
  Definition arr_le := scan_false (c_gt c).
End Compare.

(** [product], [sum], [sqr] on integer arrays — array.t:358-380 (no overflow modelled). *)
Definition arr_product (a : list Z) : Z := fold_left (fun p x => p * x) a 1.
Definition arr_sum (a : list Z) : Z := fold_left (fun s x => s + x) a 0.
Definition arr_sqr (a : list Z) : Z := fold_left (fun s v => s + v * v) a 0.

(** ** [crossProduct(result, a, b)] — src/functions.hpp:48-54.

    [result], [a], [b] are references to arrays of a store; three assignments in order.
    Components are elements of a ring ([mul], [sub] arbitrary). *)
Section Cross.
  Context {T : Type}.
  Variables (mul sub : T -> T -> T).
  Definition store3 := nat -> (T * T * T).
  Definition c0 (v : T * T * T) := fst (fst v).
  Definition c1 (v : T * T * T) := snd (fst v).
  Definition c2 (v : T * T * T) := snd v.
  Definition cross_product (r a b : nat) (s : store3) : store3 :=
    let s := upd s r (sub (mul (c1 (s a)) (c2 (s b))) (mul (c2 (s a)) (c1 (s b))), c1 (s r), c2 (s r)) in
    let s := upd s r (c0 (s r), sub (mul (c2 (s a)) (c0 (s b))) (mul (c0 (s a)) (c2 (s b))), c2 (s r)) in
    upd s r (c0 (s r), c1 (s r), sub (mul (c0 (s a)) (c1 (s b))) (mul (c1 (s a)) (c0 (s b)))).
End Cross.
