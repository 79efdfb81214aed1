(** Properties C32-C35, C57 and C87: deck expressions.  The syntax is defined in ExprSyntax.v, the
    conventional value [svalue] and type [stype] of an expression in ExprSpec.v. *)
From Coq Require Import String ZArith List Bool.
From Coq Require Import SpecFloat.
From Verif Require Import ExprModel ExprSyntax ExprSpec ExprBuildModel ExprProofs ExprGroupSpec ExprGroup ExprExamples FieldModel.
Import ListNotations.

(** C32: an expression in which the operands joined by operators of one level have one type
    evaluates to its conventional reading. *)
Theorem C32_conventional_reading :
  forall (A : arith) vars reg (st : store A) (s : sum) (e : expr A),
    functions_typed st -> schains vars reg one_type s ->
    build_sum A vars reg s = Built e ->
    eval st e = svalue A vars reg st s.
Proof. exact (fun A vars reg => value_uniform A vars reg). Qed.
Print Assumptions C32_conventional_reading.

(** An expression is accepted iff its names are known, its calls have the right number of
    arguments and its literals are in range. *)
Theorem C32_accepted :
  forall (A : arith) vars reg (s : sum),
    (exists e, build_sum A vars reg s = Built e) <-> swf A vars reg s.
Proof. exact accepted. Qed.
Print Assumptions C32_accepted.

(** C33, part: also when types are mixed, if one of the last two operands of every chain has the
    largest type.  Missing: chains whose last two operands both have a smaller type than an
    earlier one; for these the property is false (see C33_left_to_right_refuted). *)
Theorem C33_mixed_types_partial :
  forall (A : arith) vars reg (st : store A) (s : sum) (e : expr A),
    functions_typed st -> schains vars reg late_largest s ->
    build_sum A vars reg s = Built e ->
    eval st e = svalue A vars reg st s.
Proof. exact (fun A vars reg => value_mixed A vars reg). Qed.
Print Assumptions C33_mixed_types_partial.

(** [1.5 - 3 - 2] evaluates to 0.5 instead of -3.5; [10.0/4/2] to 5 instead of 1.25. *)
Theorem C33_left_to_right_refuted :
  exists e e',
    build_sum b64 ex_vars ex_reg
      (Sum None (tm (AFloat "1.5")) [(false, tm (AInt "3")); (false, tm (AInt "2"))]) = Built e /\
    eval st0 e = Ok (VFloat (A := b64) (binary_normalize 53 1024 1 (-1) false)) /\
    svalue b64 ex_vars ex_reg st0 ex_wrong = Ok (VFloat (A := b64) (binary_normalize 53 1024 (-7) (-1) false)) /\
    build_sum b64 ex_vars ex_reg
      (Sum None (Term (FAtom (AFloat "10.0")) [(false, FAtom (AInt "4")); (false, FAtom (AInt "2"))]) []) = Built e' /\
    eval st0 e' = Ok (VFloat (A := b64) (sf_of_Z 5)) /\
    svalue b64 ex_vars ex_reg st0 ex_wrong_div = Ok (VFloat (A := b64) (binary_normalize 53 1024 5 (-2) false)).
Proof. exact wrong_values. Qed.
Print Assumptions C33_left_to_right_refuted.

(** C34: the type of a binary expression is the larger type; building it never fails. *)
Theorem C34_larger_type :
  forall (A : arith) o (e1 e2 : expr A),
    exists e, assign_binary o e1 e2 = Some e /\ etype e = ty_max (etype e1) (etype e2).
Proof. exact (fun A o e1 e2 => ex_intro _ _ (conj (assign_binary_eq A o e1 e2) eq_refl)). Qed.
Print Assumptions C34_larger_type.

(** The type of a whole expression, and of its value. *)
Theorem C34_expression_type :
  forall (A : arith) vars reg s (e : expr A), build_sum A vars reg s = Built e -> etype e = stype vars reg s.
Proof. exact built_type. Qed.
Print Assumptions C34_expression_type.

Theorem C34_value_type :
  forall (A : arith) vars reg (st : store A) s e v,
    functions_typed st -> build_sum A vars reg s = Built e -> eval st e = Ok v -> type_of v = stype vars reg s.
Proof. exact (fun A vars reg => built_value_type A vars reg). Qed.
Print Assumptions C34_value_type.

(** Promotion of two operands that have values never fails and converts both to the larger type. *)
Theorem C34_promotion_never_fails :
  forall (A : arith) vars reg (st : store A) s1 s2 e1 e2 v1 v2,
    functions_typed st -> build_sum A vars reg s1 = Built e1 -> build_sum A vars reg s2 = Built e2 ->
    eval st e1 = Ok v1 -> eval st e2 = Ok v2 ->
    exists w1 w2, converted A (ty_max (type_of v1) (type_of v2)) v1 = Ok w1 /\
                  converted A (ty_max (type_of v1) (type_of v2)) v2 = Ok w2 /\
                  eval st (fst (promote e1 e2)) = Ok w1 /\ eval st (snd (promote e1 e2)) = Ok w2.
Proof. exact (fun A vars reg => promotion_total A vars reg). Qed.
Print Assumptions C34_promotion_never_fails.

(** Assignment converts to the declared type. *)
Theorem C34_assignment_converts :
  forall (A : arith) vars reg (st : store A) s e t,
    functions_typed st -> build_sum A vars reg s = Built e ->
    etype (promote_assign t e) = t /\ eval st (promote_assign t e) = rbind (eval st e) (converted A t).
Proof. exact (fun A vars reg => assignment_converts A vars reg). Qed.
Print Assumptions C34_assignment_converts.

(** C35: a constant expression has the same value in all states that differ only in external
    memory, changeable variables and always-changing functions. *)
Theorem C35_constants :
  forall (A : arith) (st st' : store A) (e : expr A),
    is_constant st e = true -> same_constants st st' -> eval st' e = eval st e.
Proof. exact constant_only. Qed.
Print Assumptions C35_constants.

(** The value of an expression depends only on the variables reported as dependencies (and on
    external memory read by the expression itself)... *)
Theorem C35_dependencies :
  forall (A : arith) (st st' : store A) (e : expr A),
    agree_on (dependencies st e) st st' -> (forall x, s_ext st' x = s_ext st x) ->
    eval st' e = eval st e.
Proof. exact dependencies_only. Qed.
Print Assumptions C35_dependencies.

(** ... and an expression written in a deck does not read external memory itself. *)
Theorem C35_deck_expressions :
  forall (A : arith) vars reg (st st' : store A) s e,
    build_sum A vars reg s = Built e -> agree_on (dependencies st e) st st' -> eval st' e = eval st e.
Proof. exact built_dependencies. Qed.
Print Assumptions C35_deck_expressions.

(** C57: a call of a function: unknown names and wrong numbers of arguments are rejected,
    otherwise the function is applied to the values of the arguments, in order, each converted to
    the type of its parameter. *)
Theorem C57_calls :
  forall (A : arith) vars reg f args (es : list (expr A)),
    Forall2 (fun s e => build_sum A vars reg s = Built e) args es ->
    match reg f with
    | None => build_atom A vars reg (ACall f args) = Failed UndefinedFunction
    | Some sig =>
        (List.length args <> List.length (fs_params sig) ->
         build_atom A vars reg (ACall f args) = Failed WrongArity) /\
        (List.length args = List.length (fs_params sig) ->
         exists e, build_atom A vars reg (ACall f args) = Built e /\
         forall st, functions_typed st ->
           eval st e = rbind (arg_values A (fs_params sig) (map (eval st) es)) (s_fun st sig))
    end.
Proof. exact call_outcome. Qed.
Print Assumptions C57_calls.

(** C87: every expression, whatever the types of its operands, has the conventional value of the
    expression with parentheses around the rest of a chain after every operand whose type is
    larger than the types of all that follow ([parenthesised], ExprGroupSpec.v). *)
Theorem C87_grouped_by_type :
  forall (A : arith) vars reg (st : store A) (s : sum) (e : expr A),
    functions_typed st -> build_sum A vars reg s = Built e ->
    eval st e = svalue A vars reg st (parenthesised vars reg s).
Proof. exact value_grouped. Qed.
Print Assumptions C87_grouped_by_type.
