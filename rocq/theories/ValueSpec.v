(** What the author of a deck expects of the value of a variable: it is the value of the expression
    written last for it.  The operators and conversions on values are those of [ExprSpec], the names
    and histories those of [DeckSpec]; neither expression trees nor lookup functions are used. *)
From Coq Require Import ZArith List Bool String Ascii.
From Verif Require Import ExprModel ExprSyntax ExprSpec ExprGroupSpec DeckModel DeckSyntax DeckMeaning DeckSpec.
Import ListNotations.
Local Open Scope nat_scope.

(** The names of variables and functions in an expression. *)
Inductive mention := Var (name : string) | Fun (name : string).
Fixpoint amentions (a : atom) : list mention :=
  match a with
  | AInt _ | AFloat _ | AStr _ => []
  | AId x => [Var x]
  | APar e => smentions e
  | ACall f args => Fun f :: flat_map smentions args
  end
with fmentions (f : factor) : list mention :=
  match f with
  | FAtom a => amentions a
  | FPow a _ b => amentions a ++ amentions b
  end
with tmentions (t : term) : list mention :=
  match t with Term f rest => fmentions f ++ flat_map (fun x => fmentions (snd x)) rest end
with smentions (s : sum) : list mention :=
  match s with Sum _ t rest => tmentions t ++ flat_map (fun x => tmentions (snd x)) rest end.

Section Spec.
  Variable A : arith.
  Variable reg : string -> option fsig.
  Variable funs : fsig -> list (value A) -> result (value A).
  Variable restricted : bool.
  Notation deck := (deck A).

  (** [vars] gives every name its meaning in the current block of [d]. *)
  Definition scope (d : deck) (vars : string -> option (nat * ty)) : Prop :=
    forall name path, components ":" name path -> forall x t,
      vars name = Some (x, t) <->
      means (d_blocks d) (d_cursor d) path x /\ exists v, nth_error (d_vars d) x = Some v /\ v_type v = t.

  (** An expression whose value is known where it is written: its variables have values (not
      expressions of their own), its functions are not called anew at every evaluation. *)
  Definition settled (d : deck) (vars : string -> option (nat * ty)) (s : sum) : Prop :=
    (forall n x t v, In (Var n) (smentions s) -> vars n = Some (x, t) -> nth_error (d_vars d) x = Some v -> v_fixed v = true) /\
    (forall f g, In (Fun f) (smentions s) -> reg f = Some g -> fs_always g = false).

  (** The value of an expression, converted to type [t], for the values the variables have in [d].
      (Chains of operands of different types group as [ExprGroupSpec] says.) *)
  Definition value_in (d : deck) (vars : string -> option (nat * ty)) (s : sum) (t : ty) : result (value A) :=
    rbind (svalue A vars reg (store_of A funs d) (parenthesised vars reg s)) (converted A t).

  (** Statement [s], executed in state [d] with the result [d1], gives variable [x] the expression
      [e]. *)
  Definition writes (d d1 : deck) (s : statement) (x : nat) (e : sum) : Prop :=
    match s with
    | SDecl _ y rest => exists n, In (n, Some e) (y :: rest) /\ declares (d_blocks d1) (d_cursor d) n x
    | SAssign n e' => e' = e /\ exists path, components ":" n path /\ means (d_blocks d) (d_cursor d) path x
    | _ => False
    end.

  (** Statements none of which gives [x] an expression. *)
  Inductive unwritten (x : nat) : deck -> deck -> Prop :=
  | u_same d : unwritten x d d
  | u_exec s d d1 d' : exec A reg funs restricted s d = inr d1 -> (forall e, ~ writes d d1 s x e) ->
      unwritten x d1 d' -> unwritten x d d'.

  (** What [v], the variable at the end, owes to the expression [e] written in state [d]. *)
  Definition owes (d d' : deck) (vars : string -> option (nat * ty)) (e : sum) (v : vrec A) : Prop :=
    (settled d vars e -> value_in d vars e (v_type v) = Ok (v_val v)) /\
    (~ settled d vars e ->
       value_in d' vars e (v_type v) = Ok (v_val v) \/ value_in d' vars e (v_type v) = BadCast \/ value_in d' vars e (v_type v) = BadGet).

  (** [w] is what a variable of type [t] is to be given by the expression [e] written in state [d],
      in a deck that ends in state [d']. *)
  Definition due (d d' : deck) (vars : string -> option (nat * ty)) (e : sum) (t : ty) (w : value A) : Prop :=
    (settled d vars e -> value_in d vars e t = Ok w) /\ (~ settled d vars e -> value_in d' vars e t = Ok w).

  (** The program registers a parameter [n] of kind [k] for the object whose block of variables is
      [b]. *)
  Definition parameter (classes : list (string * class A)) (d : deck) (b : nat) (n : string) (k : pkind A) : Prop :=
    exists o c l, In o (d_objs d) /\ o_vars o = b /\ In (o_class o, c) classes /\ c_impl A c = Some l /\ In (n, k) l.

  (** A parameter no statement gives an expression, by its kind. *)
  Definition left_alone (k : pkind A) (v : vrec A) : Prop :=
    match k with
    | Required _ t => v_init v = false /\ v_ro v = false
    | Default _ _ w => v_val v = w /\ v_init v = true /\ v_ro v = false
    | ReadOnly _ t o => v_val v = match o with Some w => w | None => t end /\ v_init v = true /\ v_ro v = true
    | Constant _ w => v_val v = w /\ v_init v = true /\ v_ro v = true
    end.
  (** The last statement that gives [x] an expression; there is none. *)
  Definition last_writer (p : list statement) (d0 : deck) (x : nat) (d : deck) (e : sum) : Prop :=
    exists p1 s p2 d1 d2, p = p1 ++ s :: p2 /\ run A reg funs restricted p1 d0 = inr d /\ exec A reg funs restricted s d = inr d1 /\
      run A reg funs restricted p2 d1 = inr d2 /\ writes d d1 s x e /\ unwritten x d1 d2.
  Definition no_writer (p : list statement) (d0 : deck) (x : nat) : Prop :=
    forall p1 s p2 d d1 e, p = p1 ++ s :: p2 -> run A reg funs restricted p1 d0 = inr d -> exec A reg funs restricted s d = inr d1 ->
      ~ writes d d1 s x e.
End Spec.

(** What the C++ variables of the program hold after a deck with the statements [p] has been read and
    the parameters of an object and those within it have been evaluated, with the contents [mem] of
    the C++ variables.  Parameter [n] of kind [k] of object [j] with C++ variable [m]: *)
Section Program.
  Variable A : arith.
  Variable reg : string -> option fsig.
  Variable funs : fsig -> list (value A) -> result (value A).
  Variable restricted : bool.
  Variables (p : list statement) (d0 d' : deck A).
  Definition holds (mem : list (value A)) (x : nat) (m : option nat) (k : pkind A) : Prop :=
    let written t w := exists d e, last_writer A reg funs restricted p d0 x d e /\
      forall vars, scope A d vars -> due A reg funs d d' vars e t w in
    match k with
    | Required _ t => exists c w, m = Some c /\ nth_error mem c = Some w /\ written (type_of t) w
    | Default _ t w0 => exists c w, m = Some c /\ nth_error mem c = Some w /\ (written (type_of t) w \/ (no_writer A reg funs restricted p d0 x /\ w = w0))
    | ReadOnly _ t o => exists c, m = Some c /\ nth_error mem c = Some (match o with Some w => w | None => t end)
    | Constant _ _ => m = None
    end.
End Program.
