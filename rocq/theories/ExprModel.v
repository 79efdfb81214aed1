(** Model of the expression trees of src/variables/expression.hpp, operators.hpp and
    function_expression.hpp, and of the token operations of src/parser/parsertoken.t and
    parsertoken.cpp that build them.

    Templates are modelled by a type tag in the tree node, [shared_ptr] by sharing of immutable
    trees, exceptions and undefined behaviour by distinct outcomes. *)
From Coq Require Import ZArith List Bool String.
Import ListNotations.
Local Open Scope Z_scope.

(** [Variable::VariableTypeInfo], and the three value types of [ValueVariant] —
    variables.hpp:62, types.hpp. *)
Inductive ty := TInt | TFloat | TString.

Definition ty_eqb (a b : ty) : bool :=
  match a, b with
  | TInt, TInt | TFloat, TFloat | TString, TString => true
  | _, _ => false
  end.

(** Outcome of evaluating an expression.  [BadCast]: [TypeCastException]; [BadGet]:
    [boost::bad_get]; [Undefined]: undefined behaviour (integer overflow, integer division by
    zero, conversion of a floating point number outside the range of [int]). *)
Inductive result (A : Type) := Ok (a : A) | BadCast | BadGet | Undefined.
Arguments Ok {A} a.
Arguments BadCast {A}.
Arguments BadGet {A}.
Arguments Undefined {A}.

Definition rbind {A B : Type} (x : result A) (f : A -> result B) : result B :=
  match x with
  | Ok a => f a
  | BadCast => BadCast
  | BadGet => BadGet
  | Undefined => Undefined
  end.

(** Floating point arithmetic and the conversions supplied by the platform and by boost: all
    theorems hold for every interpretation.  [f_to_int] is [static_cast<int>(double)] (undefined
    outside the range of [int]); [str_to_int], [str_to_float] are [boost::lexical_cast], which may
    fail; [int_to_str], [float_to_str] are [boost::lexical_cast<std::string>]. *)
Record arith := mkArith {
  F : Type;
  f_add : F -> F -> F;
  f_sub : F -> F -> F;
  f_mul : F -> F -> F;
  f_div : F -> F -> F;
  f_pow : F -> F -> F;
  f_neg : F -> F;
  f_of_int : Z -> F;
  f_to_int : F -> option Z;
  int_to_str : Z -> string;
  float_to_str : F -> string;
  str_to_int : string -> option Z;
  str_to_float : string -> option F
}.

(** The operators that occur as template arguments of [UnaryOp] and [BinaryOp] —
    operators.hpp:42-124. *)
Inductive unop := ONeg | OId | OInv.
Inductive bop := OAdd | OSub | OMul | ODiv | OExp.

(** [oper::isPositive], [oper::Inverted], [oper::Positive], [oper::Negative] —
    operators.hpp:60-124. *)
Definition is_positive (o : bop) : bool :=
  match o with OAdd | OMul | OExp => true | OSub | ODiv => false end.
Definition inverted (o : bop) : bop :=
  match o with OAdd => OSub | OSub => OAdd | OMul => ODiv | ODiv => OMul | OExp => OExp end.
Definition positive_op (o : bop) : bop :=
  match o with OAdd | OSub => OAdd | OMul | ODiv => OMul | OExp => OExp end.
Definition negative_op (o : bop) : bop :=
  match o with OAdd | OSub => OSub | OMul | ODiv => ODiv | OExp => OExp end.

Definition bop_eqb (a b : bop) : bool :=
  match a, b with
  | OAdd, OAdd | OSub, OSub | OMul, OMul | ODiv, ODiv | OExp, OExp => true
  | _, _ => false
  end.

(** The signature of a registered function — function_expression.hpp:206-238: parameter types and
    result type of the C++ function pointer, and the [updateAlways] flag. *)
Record fsig := mkFsig {
  fs_name : nat;           (* which C++ function *)
  fs_params : list ty;
  fs_ret : ty;
  fs_always : bool
}.

Section Model.

Variable A : arith.

(** [ValueVariant = boost::variant<int, double, std::string>]. *)
Inductive value := VInt (z : Z) | VFloat (f : F A) | VStr (s : string).

Definition type_of (v : value) : ty :=
  match v with VInt _ => TInt | VFloat _ => TFloat | VStr _ => TString end.

(** Result of an [int] operation: overflow is undefined. *)
Definition int32 (z : Z) : result value :=
  if (- 2 ^ 31 <=? z) && (z <? 2 ^ 31) then Ok (VInt z) else Undefined.

Definition of_opt_int (z : option Z) : result value :=
  match z with Some n => Ok (VInt n) | None => Undefined end.

(** [oper<vtype>::eval(val)] — operators.hpp:126-145, 214-218.  [1/val] for [vtype = int] is
    integer division. *)
Definition un_apply (o : unop) (v : value) : result value :=
  match o, v with
  | OId, _ => Ok v
  | ONeg, VInt a => int32 (- a)
  | ONeg, VFloat a => Ok (VFloat (f_neg A a))
  | ONeg, VStr _ => Ok (VStr "")
  | OInv, VInt a => if a =? 0 then Undefined else int32 (Z.quot 1 a)
  | OInv, VFloat a => Ok (VFloat (f_div A (f_of_int A 1) a))
  | OInv, VStr _ => Ok (VStr "")
  end.

(** [oper<vtype>::eval(val1, val2)] — operators.hpp:147-180, 220-230.  The two arguments have the
    same C++ type; [BadGet] for any other combination (no such call can be compiled).
    [pow(int,int)] is computed in [double] and converted to [int]. *)
Definition bin_apply (o : bop) (v w : value) : result value :=
  match v, w with
  | VInt a, VInt b =>
      match o with
      | OAdd => int32 (a + b)
      | OSub => int32 (a - b)
      | OMul => int32 (a * b)
      | ODiv => if b =? 0 then Undefined else int32 (Z.quot a b)
      | OExp => of_opt_int (f_to_int A (f_pow A (f_of_int A a) (f_of_int A b)))
      end
  | VFloat a, VFloat b =>
      Ok (VFloat match o with
                 | OAdd => f_add A a b
                 | OSub => f_sub A a b
                 | OMul => f_mul A a b
                 | ODiv => f_div A a b
                 | OExp => f_pow A a b
                 end)
  | VStr a, VStr b => Ok (VStr match o with OAdd => (a ++ b)%string | _ => ""%string end)
  | _, _ => BadGet
  end.

(** [StaticCast], [LexicalCast] and [FastCast] — expression.hpp:353-401: all three convert in the
    same way where they are used ([StaticCast] between numbers, [LexicalCast] where one side is a
    string, [FastCast] for function arguments).  A failing [lexical_cast] is turned into
    [TypeCastException] by [TypecastOp::eval] — expression.hpp:416-424. *)
Definition cast_to (t : ty) (v : value) : result value :=
  match t, v with
  | TInt, VInt _ | TFloat, VFloat _ | TString, VStr _ => Ok v
  | TInt, VFloat f => of_opt_int (f_to_int A f)
  | TInt, VStr s => match str_to_int A s with Some z => Ok (VInt z) | None => BadCast end
  | TFloat, VInt z => Ok (VFloat (f_of_int A z))
  | TFloat, VStr s => match str_to_float A s with Some f => Ok (VFloat f) | None => BadCast end
  | TString, VInt z => Ok (VStr (int_to_str A z))
  | TString, VFloat f => Ok (VStr (float_to_str A f))
  end.

(** The classes derived from [Expression<vtype>] — expression.hpp:124-434,
    function_expression.hpp:63-95.  A reference holds a [pVariable] (here: its number), an
    external value a pointer (here: its number).  The elements of a [BinaryOp] are its
    [std::list<ExpressionInfo>] of (positive, expression). *)
Inductive expr :=
| EValue (v : value)
| ERef (t : ty) (var : nat)
| EExt (t : ty) (x : nat)
| EUn (o : unop) (t : ty) (e : expr)
| EBin (o : bop) (t : ty) (l : list (bool * expr))
| ECast (t t0 : ty) (e : expr)
| EFun (f : fsig) (args : list expr).

(** The type [vtype] of an [Expression<vtype>] (the alternative held by an
    [ExpressionVariant]). *)
Definition etype (e : expr) : ty :=
  match e with
  | EValue v => type_of v
  | ERef t _ | EExt t _ | EUn _ t _ | EBin _ t _ | ECast t _ _ => t
  | EFun f _ => fs_ret f
  end.

(** Everything an evaluation can read: the value stored in each variable, whether it is a
    constant ([fixed]), its unique id, the external memory, and the behaviour of the registered
    C++ functions (which may depend on the outside world). *)
Record store := mkStore {
  s_val : nat -> value;
  s_fixed : nat -> bool;
  s_id : nat -> Z;
  s_ext : nat -> value;
  s_fun : fsig -> list value -> result value
}.

(** [boost::get<vtype>(v)]. *)
Definition get (t : ty) (v : value) : result value :=
  if ty_eqb (type_of v) t then Ok v else BadGet.

(** [eval()] — expression.hpp:137-141, 162-173, 199-203, 225, 314-328, 416-424;
    function_expression.hpp:114-118, 140-147, 158-162 (the arguments are evaluated first to last). *)
Fixpoint eval (st : store) (e : expr) : result value :=
  match e with
  | EValue v => Ok v
  | ERef t x => get t (s_val st x)
  | EExt t x => get t (s_ext st x)
  | EUn o _ e => rbind (eval st e) (un_apply o)
  | EBin o _ l =>
      match l with
      | [] => Undefined
      | (_, e0) :: l' =>
          rbind (eval st e0)
            ((fix fold (l : list (bool * expr)) (v : value) : result value :=
                match l with
                | [] => Ok v
                | (p, e) :: l' =>
                    rbind (eval st e) (fun w =>
                    rbind (bin_apply (if p : bool then positive_op o else negative_op o) v w)
                          (fold l'))
                end) l')
      end
  | ECast t _ e => rbind (eval st e) (cast_to t)
  | EFun f args =>
      rbind ((fix evals (l : list expr) : result (list value) :=
                match l with
                | [] => Ok []
                | e :: l' => rbind (eval st e) (fun v => rbind (evals l') (fun r => Ok (v :: r)))
                end) args)
            (s_fun st f)
  end.

(** [isConstant()] — expression.hpp:143, 175, 206, 228, 331-337, 427;
    function_expression.hpp:164-176. *)
Fixpoint is_constant (st : store) (e : expr) : bool :=
  match e with
  | EValue _ => true
  | ERef _ x => s_fixed st x
  | EExt _ _ => false
  | EUn _ _ e | ECast _ _ e => is_constant st e
  | EBin _ _ l => forallb (fun pe => is_constant st (snd pe)) l
  | EFun f args => if fs_always f then false else forallb (is_constant st) args
  end.

(** [getDependencies()] — expression.hpp:110, 178-183, 231-234, 340-350, 430-433;
    function_expression.hpp:178-191.  The [std::set<long>] is modelled by a list of ids. *)
Fixpoint dependencies (st : store) (e : expr) : list Z :=
  match e with
  | EValue _ | EExt _ _ => []
  | ERef _ x => [s_id st x]
  | EUn _ _ e | ECast _ _ e => dependencies st e
  | EBin _ _ l => flat_map (fun pe => dependencies st (snd pe)) l
  | EFun f args => flat_map (dependencies st) args ++ (if fs_always f then [-1] else [])
  end.

(** [std::dynamic_pointer_cast<BinaryOp<oper,vtype>>] or [BinaryOp<oper::Inverted,vtype>], and
    the list of the node found — expression.hpp:268-281, 287-306. *)
Definition chain_of (o : bop) (t : ty) (e : expr) : option (list (bool * expr)) :=
  match e with
  | EBin o' t' l => if (bop_eqb o' o || bop_eqb o' (inverted o)) && ty_eqb t' t then Some l else None
  | _ => None
  end.

(** The constructor [BinaryOp<oper,vtype>(expr1, expr2)] — expression.hpp:264-311.
    Simplification: dereferencing [begin()] of an empty list cannot happen since every list has at
    least two elements; here it gives the empty list. *)
Definition binary_op (o : bop) (t : ty) (e1 e2 : expr) : expr :=
  EBin o t
    ((match chain_of o t e1 with Some l => l | None => [(true, e1)] end) ++
     (match chain_of o t e2 with
      | Some l => if is_positive o then l
                  else match l with (p, e) :: l' => (negb p, e) :: l' | [] => [] end
      | None => [(is_positive o, e2)]
      end)).

(** [TypePromoter::operator()] — parsertoken.t:33-86. *)
Definition promote (e1 e2 : expr) : expr * expr :=
  match etype e1, etype e2 with
  | TInt, TFloat => (ECast TFloat TInt e1, e2)
  | TFloat, TInt => (e1, ECast TFloat TInt e2)
  | TInt, TString => (ECast TString TInt e1, e2)
  | TString, TInt => (e1, ECast TString TInt e2)
  | TFloat, TString => (ECast TString TFloat e1, e2)
  | TString, TFloat => (e1, ECast TString TFloat e2)
  | _, _ => (e1, e2)
  end.

(** [ParserToken::assignBinaryOperator] with [BinaryOperatorVisitor] — parsertoken.t:161-180,
    193-204.  [None]: [boost::get<ExpressionPointer>(arg2)] throws [bad_get]. *)
Definition assign_binary (o : bop) (e1 e2 : expr) : option expr :=
  let (a1, a2) := promote e1 e2 in
  if ty_eqb (etype a1) (etype a2) then Some (binary_op o (etype a1) a1 a2) else None.

(** [ParserToken::assignUnaryOperator] — parsertoken.t:146-159, 182-191. *)
Definition assign_unary (o : unop) (e : expr) : expr := EUn o (etype e) e.

(** [TypePromoterAssign::operator()] — parsertoken.t:94-140: the new expression is converted to
    the type of the stored one. *)
Definition promote_assign (t : ty) (e : expr) : expr :=
  if ty_eqb t (etype e) then e else ECast t (etype e) e.

(** [ExpressionConverterVisitor] — function_expression.hpp:45-61. *)
Definition convert_arg (t : ty) (e : expr) : expr :=
  if ty_eqb t (etype e) then e else ECast t (etype e) e.

(** [FunctionExpressionConverter::makeList] — function_expression.hpp:109-112, 128-138.
    [None]: [WrongNumberOfArgsException]. *)
Fixpoint make_list (params : list ty) (args : list expr) : option (list expr) :=
  match params, args with
  | [], [] => Some []
  | [], _ :: _ => None
  | _ :: _, [] => None
  | t :: params', e :: args' =>
      match make_list params' args' with
      | Some l => Some (convert_arg t e :: l)
      | None => None
      end
  end.

(** What can go wrong when an expression is built: [UndefinedVariable] is the [ParserError] of
    parsertoken.cpp:178-181; [UndefinedFunction] is [FunctionNotFoundException] and [WrongArity]
    is [WrongNumberOfArgsException] — expression.hpp:67-77; [BadLiteral] is the
    [boost::bad_lexical_cast] of an integer or floating point literal that is out of range —
    parsertoken.cpp:99, 113; [BadVariant] is [boost::bad_get]. *)
Inductive build_error := UndefinedVariable | UndefinedFunction | WrongArity | BadLiteral | BadVariant.
Inductive built (X : Type) := Built (x : X) | Failed (e : build_error).
Arguments Built {X} x.
Arguments Failed {X} e.

Definition bbind {X Y : Type} (x : built X) (f : X -> built Y) : built Y :=
  match x with Built a => f a | Failed e => Failed e end.

(** [FunctionRegistry::getExpression] — function_expression.hpp:240-244 with
    [FunctionExpression]'s constructor :151-156.  The registry maps a name to the signature. *)
Definition get_expression (reg : string -> option fsig) (name : string) (args : list expr) : built expr :=
  match reg name with
  | None => Failed UndefinedFunction
  | Some f => match make_list (fs_params f) args with
              | None => Failed WrongArity
              | Some l => Built (EFun f l)
              end
  end.

(** [ParserToken::assignInteger/assignFloat/assignString] — parsertoken.cpp:91-131. *)
Definition assign_integer (s : string) : built expr :=
  match str_to_int A s with Some z => Built (EValue (VInt z)) | None => Failed BadLiteral end.
Definition assign_float (s : string) : built expr :=
  match str_to_float A s with Some f => Built (EValue (VFloat f)) | None => Failed BadLiteral end.
Definition assign_string (s : string) : built expr := Built (EValue (VStr s)).

(** [ParserToken::assignIdentifier] — parsertoken.cpp:133-185: the variable found from the
    current block, with its type. *)
Definition assign_identifier (vars : string -> option (nat * ty)) (s : string) : built expr :=
  match vars s with
  | Some (x, t) => Built (ERef t x)
  | None => Failed UndefinedVariable
  end.

(** The token chain of an expression list: [expressionlist ::= expressionlist COMMA expression]
    appends the earlier tokens behind the newer one ([append], parsertoken.cpp:84-89), so the
    chain holds the arguments last to first; [assignFunction] (parsertoken.cpp:196-217) pushes
    them to the front of the argument list while following the chain. *)
Definition append_token (chain : list expr) (e : expr) : list expr := e :: chain.
Definition function_args (chain : list expr) : list expr := fold_left (fun l e => e :: l) chain [].

(** [ParserToken::assignFunction]. *)
Definition assign_function (reg : string -> option fsig) (name : string) (chain : list expr) : built expr :=
  get_expression reg name (function_args chain).

End Model.

Arguments VInt {A} z.
Arguments VFloat {A} f.
Arguments VStr {A} s.
Arguments Built {X} x.
Arguments Failed {X} e.
Arguments EValue {A} v.
Arguments ERef {A} t var.
Arguments EExt {A} t x.
Arguments EUn {A} o t e.
Arguments EBin {A} o t l.
Arguments ECast {A} t t0 e.
Arguments EFun {A} f args.
Arguments type_of {A} v.
Arguments etype {A} e.
Arguments un_apply {A} o v.
Arguments bin_apply {A} o v w.
Arguments cast_to {A} t v.
Arguments get {A} t v.
Arguments eval {A} st e.
Arguments is_constant {A} st e.
Arguments dependencies {A} st e.
Arguments s_val {A} s.
Arguments s_fixed {A} s.
Arguments s_id {A} s.
Arguments s_ext {A} s.
Arguments s_fun {A} s.
Arguments chain_of {A} o t e.
Arguments binary_op {A} o t e1 e2.
Arguments promote {A} e1 e2.
Arguments assign_binary {A} o e1 e2.
Arguments assign_unary {A} o e.
Arguments promote_assign {A} t e.
Arguments convert_arg {A} t e.
Arguments make_list {A} params args.
Arguments get_expression {A} reg name args.
Arguments assign_integer {A} s.
Arguments assign_float {A} s.
Arguments assign_string {A} s.
Arguments assign_identifier {A} vars s.
Arguments append_token {A} chain e.
Arguments function_args {A} chain.
Arguments assign_function {A} reg name chain.
Arguments bbind {X Y} x f.
