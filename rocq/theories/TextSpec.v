(** Decks given as text. *)
From Coq Require Import ZArith List String Ascii.
From Verif Require Import ScanModel ParseModel ParseSpec ExprModel DeckModel DeckSyntax DeckMeaning DeckSpec.
Import ListNotations.

(** The text is scanned, and parsing it with the parser [d] returns with [d']. *)
Definition accepts (A : arith) reg funs restricted (text : string) (d d' : deck A) : Prop :=
  exists toks, read text toks /\ parses_to A reg funs restricted toks d (Accepted A d').
(** The text consists of the statements. *)
Definition consists (text : string) (p : list statement) : Prop := exists toks, read text toks /\ written toks p.
(** The same, but for what the stack of the parser is too small for. *)
Definition stands_for (text : string) (p : list statement) : Prop := exists toks, read text toks /\ reads_as toks p.
