(** The theorems about the places of errors. *)
From Coq Require Import ZArith List String Ascii.
From Verif Require Import ScanModel ScanSpec ParseSpec ExprModel DepModel DeckModel DeckSyntax DeckMeaning DeckSpec DeckExamples PlaceSpec PlaceProofs PlaceExamples.
Import ListNotations.

(** C103.  An error of a statement is reported at a token of that statement, of the kind that the
    error is about, with the line of that token in the text; the statements before it are those
    of the text before it, all executed.  (Only if the stack of the parser has overflowed before,
    on 100 tokens or more, statements may have been skipped.) *)
Theorem C103_place_partial :
  forall A reg funs restricted text toks d k a, read text toks -> parses_to A reg funs restricted toks d (Rejected A (ParserErr k a)) ->
  exists lost before st after p, toks = lost ++ before ++ st ++ after /\ one_statement st /\ In a st /\ blamed k a /\ stands_in text a /\ written before p /\
    (lost = [] /\ (exists d', run A reg funs restricted p (start A d) = inr d') \/ (100 <= List.length lost)%nat /\ ~ shallow 99 (tokens A toks)).
Proof. exact place_text. Qed.
Print Assumptions C103_place_partial.

(** A syntax error is reported at the first token that cannot follow those before it, with the line
    of that token in the text. *)
Theorem C103_syntax :
  forall A reg funs restricted text toks d a, read text toks -> shallow 99 (tokens A toks) -> parses_to A reg funs restricted toks d (SyntaxErr A a) ->
  exists before after, toks = before ++ a :: after /\ stands_in text a /\ begins_sentence (tokens A before) /\ ~ begins_sentence (tokens A (before ++ [a])).
Proof. exact syntax_place. Qed.
Print Assumptions C103_syntax.

(** An unknown function is reported without a place. *)
Theorem C103_no_place_refuted :
  exists toks, read "int a = f(1);" toks /\
    parses_to deck_arith no_fun no_eval false toks (new_deck deck_arith "main" "main" bodies) (Rejected _ NoSuchFunction).
Proof. exact no_place. Qed.
Print Assumptions C103_no_place_refuted.
