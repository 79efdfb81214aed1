(** Model of the semantic actions of the deck grammar for expressions:
    /repo/parser/deckgrammar.y:44-80, as generated in src/parser/deckgrammar.inc:730-1016
    ([yy_reduce]).  The parser performs the actions bottom-up and left to right. *)
From Coq Require Import ZArith List Bool String.
From Verif Require Import ExprModel ExprSyntax.
Import ListNotations.

Section Build.
  Variable A : arith.
  Variable vars : string -> option (nat * ty).
  Variable reg : string -> option fsig.

  Definition of_option (e : option (expr A)) : built (expr A) :=
    match e with Some e => Built e | None => Failed BadVariant end.

  (** [x ::= y OP x] productions (right-recursive): deckgrammar.y:44-50, 56-57.  The operands are
      built first to last, the operators applied last to first. *)
  Fixpoint build_right (x : expr A) (rest : list (bop * expr A)) : built (expr A) :=
    match rest with
    | [] => Built x
    | (o, y) :: rest' => bbind (build_right y rest') (fun e => of_option (assign_binary o x e))
    end.

  (** [signed_term_expression] and [signed_atomic_expression] — deckgrammar.y:52-54, 62-64. *)
  Definition build_signed (s : option bool) (e : expr A) : expr A :=
    match s with Some false => assign_unary ONeg e | _ => e end.

  Definition binop_mul (times : bool) : bop := if times then OMul else ODiv.
  Definition binop_add (plus : bool) : bop := if plus then OAdd else OSub.

  (** [atomic_expression], [value], [expressionlist] — deckgrammar.y:66-80: an identifier,
      a literal and a parenthesised expression are wrapped in [OperatorId]. *)
  Fixpoint build_atom (a : atom) : built (expr A) :=
    match a with
    | AInt s => bbind (assign_integer s) (fun e => Built (assign_unary OId e))
    | AFloat s => bbind (assign_float s) (fun e => Built (assign_unary OId e))
    | AStr s => bbind (assign_string s) (fun e => Built (assign_unary OId e))
    | AId x => bbind (assign_identifier vars x) (fun e => Built (assign_unary OId e))
    | APar e => bbind (build_sum e) (fun e => Built (assign_unary OId e))
    | ACall f args =>
        bbind ((fix list (chain : list (expr A)) (l : list sum) : built (list (expr A)) :=
                  match l with
                  | [] => Built chain
                  | e :: l' => bbind (build_sum e) (fun e => list (append_token chain e) l')
                  end) [] args)
              (assign_function reg f)
    end
  (** [exp_expression] — deckgrammar.y:59-60. *)
  with build_factor (f : factor) : built (expr A) :=
    match f with
    | FAtom a => build_atom a
    | FPow a s b => bbind (build_atom a) (fun x => bbind (build_atom b) (fun y =>
                    of_option (assign_binary OExp x (build_signed s y))))
    end
  (** [term_expression] — deckgrammar.y:56-58. *)
  with build_term (t : term) : built (expr A) :=
    match t with
    | Term f rest =>
        bbind (build_factor f) (fun x =>
        bbind ((fix all (l : list (bool * factor)) : built (list (bop * expr A)) :=
                  match l with
                  | [] => Built []
                  | (o, y) :: l' => bbind (build_factor y) (fun e => bbind (all l') (fun r => Built ((binop_mul o, e) :: r)))
                  end) rest)
              (build_right x))
    end
  (** [expression], [unsigned_expression] — deckgrammar.y:44-54. *)
  with build_sum (s : sum) : built (expr A) :=
    match s with
    | Sum sg t rest =>
        bbind (build_term t) (fun x =>
        bbind ((fix all (l : list (bool * term)) : built (list (bop * expr A)) :=
                  match l with
                  | [] => Built []
                  | (o, y) :: l' => bbind (build_term y) (fun e => bbind (all l') (fun r => Built ((binop_add o, e) :: r)))
                  end) rest)
              (build_right (build_signed sg x)))
    end.
End Build.
