(** Positions of errors in a deck given as text. *)
From Coq Require Import ZArith List String Ascii.
From Verif Require Import ScanModel ScanSpec DeckModel.
Import ListNotations.

(** Tokens that end a statement. *)
Definition closing (t : token) : Prop := In (t_code t) [SEMICOLON; LBRACE; RBRACE].
(** The tokens belong to one statement: none but the last ends it. *)
Definition one_statement (l : list token) : Prop := forall u t v, l = u ++ t :: v -> closing t -> v = [].
(** The characters [w] at some place of the text, the last of which is in line number [line] (the first
    line has number 1), are read as the token [a]. *)
Definition stands_in (text : string) (a : token) : Prop :=
  exists u w v k, list_ascii_of_string text = u ++ w ++ v /\ longest (w ++ v) w k /\
    token_of k (1 + newlines (u ++ w))%Z w = [a].

(** The kind of token that each error is reported at. *)
Definition blamed (k : reason) (a : token) : Prop :=
  match k with
  | UnknownVariable | EmptyExpression | Redeclaration | NotDeclared | AssignedReadOnly
  | BlockNotAllowed | DuplicateBlock | UnknownClass => t_code a = IDENTIFIER
  | WrongType => In (t_code a) [INT_DECL; FLOAT_DECL; STRING_DECL]
  | ExtraBrace => t_code a = RBRACE
  | _ => True
  end.
