(** The statements of an input deck as a user writes them, and their spelling as tokens, following
    /repo/parser/deckgrammar.y:20-84 and the expressions of ExprSyntax. *)
From Coq Require Import ZArith List String Ascii.
From Verif Require Import ScanModel ExprModel ExprSyntax.
Import ListNotations.
Local Open Scope Z_scope.

(** A declared name, with or without a value. *)
Definition decl := (string * option sum)%type.

Inductive statement :=
| SDecl (t : ty) (x : decl) (rest : list decl)      (* int x = e, y = f; *)
| SAssign (name : string) (e : sum)                 (* x = e; *)
| SInclude (file : string)                          (* #include "file"; *)
| SOpen (cls : string) (name : option string)       (* cls name {    or    cls { *)
| SClose.                                           (* } *)

(** A token: its code, and its text where that matters. *)
Definition word := (Z * option string)%type.
Definition mark (c : Z) : word := (c, None).
Definition ident (s : string) : word := (IDENTIFIER, Some s).

(** Lists with separators. *)
Definition separated {X : Type} (w : word) (f : X -> list word) : list X -> list word :=
  fix all (l : list X) : list word :=
    match l with
    | [] => []
    | x :: l' => f x ++ match l' with [] => [] | _ :: _ => w :: all l' end
    end.

Definition spell_sign (s : option bool) : list word :=
  match s with None => [] | Some true => [mark PLUS] | Some false => [mark MINUS] end.
Fixpoint spell_atom (a : atom) : list word :=
  match a with
  | AInt s => [(INTEGER, Some s)]
  | AFloat s => [(FLOAT, Some s)]
  | AStr s => [(STRING, Some s)]
  | AId s => [ident s]
  | APar e => mark LBRACKET :: spell_sum e ++ [mark RBRACKET]
  | ACall f args => ident f :: mark LBRACKET :: separated (mark COMMA) spell_sum args ++ [mark RBRACKET]
  end
with spell_factor (f : factor) : list word :=
  match f with
  | FAtom a => spell_atom a
  | FPow a s b => spell_atom a ++ mark EXPONENT :: spell_sign s ++ spell_atom b
  end
with spell_term (t : term) : list word :=
  match t with
  | Term f rest => spell_factor f ++ flat_map (fun x : bool * factor => mark (if fst x then TIMES else DIVIDE) :: spell_factor (snd x)) rest
  end
with spell_sum (s : sum) : list word :=
  match s with
  | Sum sg t rest => spell_sign sg ++ spell_term t ++ flat_map (fun x : bool * term => mark (if fst x then PLUS else MINUS) :: spell_term (snd x)) rest
  end.

Definition spell_type (t : ty) : word := mark (match t with TInt => INT_DECL | TFloat => FLOAT_DECL | TString => STRING_DECL end).
Definition spell_decl (x : decl) : list word :=
  ident (fst x) :: match snd x with None => [] | Some e => mark EQUAL :: spell_sum e end.
Definition spell (s : statement) : list word :=
  match s with
  | SDecl t x rest => spell_type t :: separated (mark COMMA) spell_decl (x :: rest) ++ [mark SEMICOLON]
  | SAssign x e => ident x :: mark EQUAL :: spell_sum e ++ [mark SEMICOLON]
  | SInclude f => [mark INCLUDE; (STRING, Some f); mark SEMICOLON]
  | SOpen c (Some n) => [ident c; ident n; mark LBRACE]
  | SOpen c None => [ident c; mark LBRACE]
  | SClose => [mark RBRACE]
  end.

(** The tokens are those of the words. *)
Definition is_word (a : token) (w : word) : Prop :=
  t_code a = fst w /\ match snd w with Some s => string_of_list_ascii (t_text a) = s | None => True end.
Definition spells (toks : list token) (ws : list word) : Prop := Forall2 is_word toks ws.
(** The tokens are the given statements. *)
Definition written (toks : list token) (p : list statement) : Prop := spells toks (flat_map spell p).
