(** How chains of operands of different types group.  Refers to the syntax and the types of
    expressions only. *)
From Coq Require Import String List Bool PeanoNat.
From Verif Require Import ExprModel ExprSyntax ExprSpec.
Import ListNotations.

Definition ty_less (a b : ty) : bool := Nat.ltb (ty_rank a) (ty_rank b).
Definition largest (x : ty) (l : list ty) : ty := fold_left ty_max l x.

(** Put parentheses into the chain [x op y op ...], where [x] has the type [x]: whenever all
    operands that follow an operand have smaller types, the rest of the chain is put in
    parentheses ([paren y l] is [(y op ...)]). *)
Section Group.
  Context {X : Type} (type : X -> ty) (paren : X -> list (bool * X) -> X).
  Fixpoint group (x : ty) (l : list (bool * X)) : list (bool * X) :=
    match l with
    | [] => []
    | (o, y) :: l' =>
        if ty_less (largest (type y) (map (fun z => type (snd z)) l')) x
        then [(o, paren y (group (type y) l'))]
        else (o, y) :: group (type y) l'
    end.
End Group.

Definition paren_factors (f : factor) (l : list (bool * factor)) : factor := FAtom (APar (Sum None (Term f l) [])).
Definition paren_terms (t : term) (l : list (bool * term)) : term := Term (FAtom (APar (Sum None t l))) [].

(** The same in all chains of an expression. *)
Section Parenthesised.
  Variable vars : string -> option (nat * ty).
  Variable reg : string -> option fsig.
  Fixpoint patom (a : atom) : atom :=
    match a with
    | APar e => APar (parenthesised e)
    | ACall f args => ACall f (map parenthesised args)
    | _ => a
    end
  with pfactor (f : factor) : factor :=
    match f with
    | FAtom a => FAtom (patom a)
    | FPow a s b => FPow (patom a) s (patom b)
    end
  with pterm (t : term) : term :=
    match t with
    | Term f rest =>
        Term (pfactor f) (group (ftype vars reg) paren_factors (ftype vars reg f) (map (fun x => (fst x, pfactor (snd x))) rest))
    end
  with parenthesised (s : sum) : sum :=
    match s with
    | Sum sg t rest =>
        Sum sg (pterm t) (group (ttype vars reg) paren_terms (ttype vars reg t) (map (fun x => (fst x, pterm (snd x))) rest))
    end.
End Parenthesised.
