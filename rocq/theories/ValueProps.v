(** C104: the value of a variable of an input deck is that of the expression written last for it.
    The vocabulary is in [ValueSpec]. *)
From Coq Require Import ZArith List Bool String Ascii.
From Verif Require Import ExprModel ExprSyntax ExprSpec DeckModel DeckSyntax DeckMeaning DeckSpec DeckExamples TextSpec ValueSpec ValueProofs ValueExamples.
Import ListNotations.
Local Open Scope string_scope.

(** C104, part.  A declaration or an assignment determines the value its variable has at the end of
    the deck, if no later statement gives it another expression: the value of the expression for the
    variables as they are where it is written if all of these have values there, else for the
    variables as they are at the end; converted to the type of the variable.  Missing: expressions
    whose value at the end cannot be converted; for these the property is false (see
    C104_unconverted_refuted). *)
Theorem C104_value_partial :
  forall A reg funs restricted, typed_functions A funs ->
  forall s d d1 d2 d' x e vars, history A reg funs restricted d -> scope A d vars ->
  exec A reg funs restricted s d = inr d1 -> writes A d d1 s x e ->
  unwritten A reg funs restricted x d1 d2 -> finish A funs d2 = Accepted A d' ->
  exists v, nth_error (d_vars d') x = Some v /\ owes A reg funs d d' vars e v /\
    match s with
    | SDecl t _ _ => v_type v = t /\ stype vars reg e = t
    | _ => exists w, nth_error (d_vars d) x = Some w /\ v_type v = v_type w
    end.
Proof. exact value_at_end. Qed.
Print Assumptions C104_value_partial.

(** This settles the values of all variables of an accepted text: each has a last statement that
    gives it an expression, or is a parameter that no statement gives one, which keeps the value the
    program registered (or, if it is required, stays uninitialised). *)
Theorem C104_every_variable_partial :
  forall A reg funs restricted, typed_functions A funs ->
  forall classes, NoDup (map fst classes) -> typed_classes A classes ->
  forall root rootclass text d', accepts A reg funs restricted text (new_deck A root rootclass classes) d' ->
  let d0 := start A (new_deck A root rootclass classes) in
  exists p, stands_for text p /\ forall b n x, declares (d_blocks d') b n x ->
  exists v, nth_error (d_vars d') x = Some v /\
    ((exists d e, last_writer A reg funs restricted p d0 x d e /\ forall vars, scope A d vars -> owes A reg funs d d' vars e v) \/
     (no_writer A reg funs restricted p d0 x /\ exists k, parameter A classes d' b n k /\ left_alone A k v)).
Proof. exact text_every_variable. Qed.
Print Assumptions C104_every_variable_partial.

(** Names have exactly one meaning at every statement ... *)
Theorem C104_scope :
  forall A reg funs restricted, typed_functions A funs ->
  forall d, history A reg funs restricted d ->
  exists vars, scope A d vars /\ forall vars', scope A d vars' -> forall n, vars' n = vars n.
Proof. exact scope_exists. Qed.
Print Assumptions C104_scope.

(** ... and the value is the conventional one if types are not mixed in the way of C33. *)
Theorem C104_conventional :
  forall A reg funs, typed_functions A funs ->
  forall d vars s t, swf A vars reg s -> schains vars reg late_largest s ->
  value_in A reg funs d vars s t = rbind (svalue A vars reg (store_of A funs d) s) (converted A t).
Proof. exact plain_value. Qed.
Print Assumptions C104_conventional.

(** [int i = 3; i = title;], where the program sets [title] to "abc": the deck is accepted, and [i]
    is 0. *)
Theorem C104_unconverted_refuted : exists p d d' x v vars,
  accepts strict_arith no_fun strict_eval true "int i = 3; i = title;" (new_deck strict_arith "main" "main" titled) d' /\
  consists "int i = 3; i = title;" p /\
  last_writer strict_arith no_fun strict_eval true p (start strict_arith (new_deck strict_arith "main" "main" titled)) x d sx_title /\
  scope strict_arith d vars /\ declares (d_blocks d') 0 "i" x /\ nth_error (d_vars d') x = Some v /\ v_type v = TInt /\
  value_in strict_arith no_fun strict_eval d' vars sx_title TInt = BadCast /\ v_val v = VInt 0.
Proof. exact unconverted. Qed.
Print Assumptions C104_unconverted_refuted.
