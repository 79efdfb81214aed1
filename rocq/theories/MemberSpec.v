(** What being in a group of variables means, without ids. *)
From Coq Require Import ZArith List Bool String.
From Verif Require Import ExprModel ExprSyntax DeckModel DeckSyntax DeckMeaning DeckSpec ValueSpec MemberModel.
Import ListNotations.

Section Spec.
  Variable A : arith.
  Variable reg : string -> option fsig.
  Variable funs : fsig -> list (value A) -> result (value A).
  Variable restricted : bool.

  (** The statements among the events. *)
  Fixpoint statements (p : list event) : list statement :=
    match p with
    | [] => []
    | Added _ :: p' => statements p'
    | Statement s :: p' => s :: statements p'
    end.
  (** None of the statements, executed from [d] on, gives [x] an expression. *)
  Fixpoint kept (x : nat) (l : list statement) (d : deck A) : Prop :=
    match l with
    | [] => True
    | s :: l' => forall d1, exec A reg funs restricted s d = inr d1 -> (forall e, ~ writes A d d1 s x e) /\ kept x l' d1
    end.
  (** The program added [x] at some time. *)
  Definition was_added (p : list event) (x : nat) : Prop := exists xs, In (Added xs) p /\ In x xs.
  (** ... and the deck did not write it afterwards. *)
  Definition added_since (p : list event) (d0 : deck A) (x : nat) : Prop :=
    exists p1 xs p2 d1, p = p1 ++ Added xs :: p2 /\ In x xs /\ run A reg funs restricted (statements p1) d0 = inr d1 /\ kept x (statements p2) d1.
End Spec.
