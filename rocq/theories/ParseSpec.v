(** The published grammar of input decks (parser/deckgrammar.y:20-84), derivation trees, and the
    meaning of a derivation tree.  Nothing here refers to the parser. *)
From Coq Require Import ZArith List.
From Verif Require Import ScanModel.
Import ListNotations.

(** The pseudo-terminal [error] of the two error rules.  No token has this code. *)
Definition ERROR : Z := 22.

Inductive nonterm :=
| Deck | StatementList | Statement | TypeDecl | DeclList | Assignment | StartBlock | Declaration
| Expression | SignedTerm | UnsignedExpression | TermExpression | ExpExpression
| AtomicExpression | SignedAtomic | ExpressionList | Value.
Inductive sym := T (code : Z) | N (n : nonterm).

(** The productions, in the order of the file. *)
Definition grammar : list (nonterm * list sym) :=
  [(Deck, [N StatementList]);
   (StatementList, [N StatementList; N Statement]);
   (StatementList, [N Statement]);
   (Statement, [N TypeDecl; N DeclList; T SEMICOLON]);
   (Statement, [N Assignment; T SEMICOLON]);
   (Statement, [T INCLUDE; T STRING; T SEMICOLON]);
   (Statement, [N StartBlock]);
   (Statement, [T RBRACE]);
   (Statement, [T ERROR]);
   (StartBlock, [T IDENTIFIER; T IDENTIFIER; T LBRACE]);
   (StartBlock, [T IDENTIFIER; T LBRACE]);
   (DeclList, [N DeclList; T COMMA; N Declaration]);
   (DeclList, [N Declaration]);
   (Declaration, [T IDENTIFIER]);
   (Declaration, [N Assignment]);
   (Declaration, [T ERROR]);
   (Assignment, [T IDENTIFIER; T EQUAL; N Expression]);
   (Expression, [N SignedTerm; T PLUS; N UnsignedExpression]);
   (Expression, [N SignedTerm; T MINUS; N UnsignedExpression]);
   (Expression, [N SignedTerm]);
   (UnsignedExpression, [N TermExpression; T PLUS; N UnsignedExpression]);
   (UnsignedExpression, [N TermExpression; T MINUS; N UnsignedExpression]);
   (UnsignedExpression, [N TermExpression]);
   (SignedTerm, [T PLUS; N TermExpression]);
   (SignedTerm, [T MINUS; N TermExpression]);
   (SignedTerm, [N TermExpression]);
   (TermExpression, [N ExpExpression; T TIMES; N TermExpression]);
   (TermExpression, [N ExpExpression; T DIVIDE; N TermExpression]);
   (TermExpression, [N ExpExpression]);
   (ExpExpression, [N AtomicExpression; T EXPONENT; N SignedAtomic]);
   (ExpExpression, [N AtomicExpression]);
   (SignedAtomic, [T PLUS; N AtomicExpression]);
   (SignedAtomic, [T MINUS; N AtomicExpression]);
   (SignedAtomic, [N AtomicExpression]);
   (AtomicExpression, [T LBRACKET; N Expression; T RBRACKET]);
   (AtomicExpression, [T IDENTIFIER; T LBRACKET; N ExpressionList; T RBRACKET]);
   (AtomicExpression, [T IDENTIFIER; T LBRACKET; T RBRACKET]);
   (AtomicExpression, [N Value]);
   (ExpressionList, [N ExpressionList; T COMMA; N Expression]);
   (ExpressionList, [N Expression]);
   (Value, [T PATHIDENTIFIER]);
   (Value, [T IDENTIFIER]);
   (Value, [T INTEGER]);
   (Value, [T FLOAT]);
   (Value, [T STRING]);
   (TypeDecl, [T INT_DECL]);
   (TypeDecl, [T FLOAT_DECL]);
   (TypeDecl, [T STRING_DECL])].

Section Trees.
  (** The values of the tokens. *)
  Context {V : Type}.

  (** Derivation trees: tokens, and uses of the production with the given number. *)
  Inductive tree := Leaf (code : Z) (v : V) | Node (rule : nat) (kids : list tree).

  (** [derives X t]: [t] is a derivation of the symbol [X]. *)
  Inductive derives : sym -> tree -> Prop :=
  | derives_token : forall c v, derives (T c) (Leaf c v)
  | derives_rule : forall r A rhs kids,
      nth_error grammar r = Some (A, rhs) -> derives_all rhs kids -> derives (N A) (Node r kids)
  with derives_all : list sym -> list tree -> Prop :=
  | derives_none : derives_all [] []
  | derives_some : forall X rhs t kids,
      derives X t -> derives_all rhs kids -> derives_all (X :: rhs) (t :: kids).

  (** The tokens of a tree. *)
  Fixpoint yield (t : tree) : list (Z * V) :=
    match t with
    | Leaf c v => [(c, v)]
    | Node _ kids => flat_map yield kids
    end.

  (** Tokens have codes 1 to 21 (deckgrammar.hpp). *)
  Definition is_token (x : Z * V) : Prop := (0 < fst x < ERROR)%Z.
  Definition token_list (l : list (Z * V)) : Prop := Forall is_token l.

  (** A sentence of the grammar. *)
  Definition sentence (toks : list (Z * V)) : Prop := exists t, derives (N Deck) t /\ yield t = toks.

  (** A beginning of a sentence. *)
  Definition begins_sentence (toks : list (Z * V)) : Prop :=
    exists t rest, derives (N Deck) t /\ token_list (yield t) /\ yield t = toks ++ rest.

  (** For every token, how many symbols are pending when a bottom-up parser has read it: the token
      itself and all symbols to its left that have not been combined yet. *)
  Fixpoint pending (t : tree) : list nat :=
    match t with
    | Leaf _ _ => [1]
    | Node _ kids =>
        (fix all (i : nat) (l : list tree) : list nat :=
           match l with [] => [] | k :: l' => map (Nat.add i) (pending k) ++ all (S i) l' end) 0 kids
    end.
  (** At most [n] symbols are pending at any time. *)
  Definition pending_below (n : nat) (t : tree) : Prop := Forall (fun d => d <= n) (pending t).
  (** At most [n] symbols are pending in any beginning of [toks] that is also the beginning of a
      sentence. *)
  Definition shallow (n : nat) (toks : list (Z * V)) : Prop :=
    forall t p q q', derives (N Deck) t -> token_list (yield t) -> toks = p ++ q -> yield t = p ++ q' ->
                     Forall (fun d => d <= n) (firstn (length p) (pending t)).

  (** Statements end with a semicolon or a brace. *)
  Definition ends_statement (c : Z) : Prop := In c [SEMICOLON; LBRACE; RBRACE].
  (** No more than [n] tokens in a row without the end of a statement. *)
  Definition short_statements (n : nat) (toks : list (Z * V)) : Prop :=
    forall p m q, toks = p ++ m ++ q -> Forall (fun x => ~ ends_statement (fst x)) m -> length m <= n.
End Trees.
Arguments tree : clear implicits.

(** The effect of a derivation: the actions of the productions used, performed bottom-up and from
    left to right, each on the values of the symbols of its right-hand side, until one throws. *)
Section Perform.
  Context {V St E : Type}.
  Variable act : nat -> list V -> St -> E + (V * St).
  Fixpoint perform (t : tree V) (s : St) : E + (V * St) :=
    match t with
    | Leaf _ v => inr (v, s)
    | Node r kids =>
        match (fix all (l : list (tree V)) (s : St) : E + (list V * St) :=
                 match l with
                 | [] => inr ([], s)
                 | k :: l' =>
                     match perform k s with
                     | inl e => inl e
                     | inr (v, s') => match all l' s' with inl e => inl e | inr (vs, s'') => inr (v :: vs, s'') end
                     end
                 end) kids s with
        | inl e => inl e
        | inr (vs, s') => act r vs s'
        end
    end.
End Perform.
