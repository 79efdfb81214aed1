(** Properties of the parser for input decks. *)
From Coq Require Import ZArith List.
From Verif Require Import ScanModel ParseModel ParseSpec ParseExamples.
Import ListNotations.
Local Open Scope Z_scope.

(** C40.  If the parser accepts a list of tokens in which it never has more than 99 symbols pending,
    they are a sentence, and the state reached is that of the actions of its only derivation,
    bottom-up and from left to right. *)
Theorem C40_accepted_is_sentence_partial :
  forall (V St E : Type) (nv : V) (act : nat -> list V -> St -> E + (V * St)) toks s s',
  token_list toks -> shallow 99 toks -> result nv act toks s (Finished s') ->
  exists t v, derives (N Deck) t /\ yield t = toks /\ perform act t s = inr (v, s') /\
    forall t', derives (N Deck) t' -> yield t' = toks -> t' = t.
Proof. exact @accepted_sentence. Qed.
Print Assumptions C40_accepted_is_sentence_partial.

(** Without that bound, only the end of what is accepted is a sentence. *)
Theorem C40_accepted_ends_with_sentence_partial :
  forall (V St E : Type) (nv : V) (act : nat -> list V -> St -> E + (V * St)) toks s s',
  token_list toks -> result nv act toks s (Finished s') ->
  exists front back t v s1, toks = front ++ back /\ (front = [] \/ (YYSTACKDEPTH <= length front)%nat) /\
    derives (N Deck) t /\ yield t = back /\ perform act t s1 = inr (v, s').
Proof. exact @accepted_ends_with_sentence. Qed.
Print Assumptions C40_accepted_ends_with_sentence_partial.

(** A sentence that is accepted has the effect of its derivation, however many symbols are pending. *)
Theorem C40_accepted_sentence_performed :
  forall (V St E : Type) (nv : V) (act : nat -> list V -> St -> E + (V * St)) t s s',
  derives (N Deck) t -> token_list (yield t) -> result nv act (yield t) s (Finished s') ->
  exists v, perform act t s = inr (v, s').
Proof. exact @sentence_as_it_is. Qed.
Print Assumptions C40_accepted_sentence_performed.

Theorem C40_accepted_no_sentence_refuted :
  token_list broken /\ ~ sentence broken /\ result tt quiet broken tt (Finished tt).
Proof. exact broken_accepted. Qed.
Print Assumptions C40_accepted_no_sentence_refuted.

Theorem C40_short_statements :
  forall (V : Type) (toks : list (Z * V)), short_statements 97 toks -> shallow 99 toks.
Proof. exact @short_is_shallow. Qed.
Print Assumptions C40_short_statements.

(** C41.  Every sentence with at most 99 pending symbols is parsed, with the effect of its
    derivation; in particular every sentence with statements of at most 97 tokens, whatever their
    number and the nesting of the blocks. *)
Theorem C41_sentence_accepted_partial :
  forall (V St E : Type) (nv : V) (act : nat -> list V -> St -> E + (V * St)) t s,
  derives (N Deck) t -> token_list (yield t) -> pending_below 99 t ->
  result nv act (yield t) s (match perform act t s with inl x => ActionError x | inr (_, s') => Finished s' end).
Proof. exact @sentence_performed. Qed.
Print Assumptions C41_sentence_accepted_partial.

Theorem C41_short_statements_accepted_partial :
  forall (V St E : Type) (nv : V) (act : nat -> list V -> St -> E + (V * St)) t s,
  derives (N Deck) t -> token_list (yield t) -> short_statements 97 (yield t) ->
  result nv act (yield t) s (match perform act t s with inl x => ActionError x | inr (_, s') => Finished s' end).
Proof. exact @short_sentence_performed. Qed.
Print Assumptions C41_short_statements_accepted_partial.

(** Any sentence is parsed with the effect of its derivation, or reported as an error. *)
Theorem C41_sentence_or_error_partial :
  forall (V St E : Type) (nv : V) (act : nat -> list V -> St -> E + (V * St)) t s,
  derives (N Deck) t -> token_list (yield t) ->
  exists r, result nv act (yield t) s r /\
    ((exists v s', r = Finished s' /\ perform act t s = inr (v, s')) \/ (exists x, r = ActionError x) \/ (exists v, r = SyntaxError v)).
Proof. exact @sentence_or_error. Qed.
Print Assumptions C41_sentence_or_error_partial.

(** The sum of fifty numbers is rejected. *)
Theorem C41_sum_of_fifty_refuted :
  exists t, derives (N Deck) t /\ yield t = sum_toks 49 /\ token_list (sum_toks 49) /\
    (forall s : unit, exists s', perform quiet t s = inr (tt, s')) /\ result tt quiet (sum_toks 49) tt (SyntaxError tt).
Proof. exact fifty_rejected. Qed.
Print Assumptions C41_sum_of_fifty_refuted.

(** C42.  A list of tokens that is no sentence is reported with [ParserError] at the first token
    that cannot follow the ones before it, unless an action throws before that token, or the end of
    input comes too early. *)
Theorem C42_error_reported_partial :
  forall (V St E : Type) (nv : V) (act : nat -> list V -> St -> E + (V * St)) toks s,
  token_list toks -> shallow 99 toks -> ~ sentence toks ->
  (exists p c v q, toks = p ++ (c, v) :: q /\ begins_sentence p /\ ~ begins_sentence (p ++ [(c, v)]) /\ result nv act toks s (SyntaxError v)) \/
  (begins_sentence toks /\ result nv act toks s EscapedInternalError) \/
  (exists x t p q w, toks = p ++ q /\ derives (N Deck) t /\ token_list (yield t) /\ yield t = p ++ w /\ perform act t s = inl x /\
     result nv act toks s (ActionError x)).
Proof. exact @error_reported. Qed.
Print Assumptions C42_error_reported_partial.

(** The parser always ends: it never fails an assertion, reads outside its stack, or enters the
    error recovery. *)
Theorem C42_always_ends :
  forall (V St E : Type) (nv : V) (act : nat -> list V -> St -> E + (V * St)) toks s, token_list toks ->
  exists r, result nv act toks s r /\ r <> Aborted /\ r <> EnteredRecovery /\ r <> OutOfFuel.
Proof. exact @always_ends. Qed.
Print Assumptions C42_always_ends.

(** The empty deck, and a deck that ends within a statement, let [ParserInternalError] escape. *)
Theorem C42_early_end_refuted :
  result tt quiet (toks []) tt EscapedInternalError /\ ~ sentence (toks []) /\
  result tt quiet (toks [IDENTIFIER; EQUAL; INTEGER]) tt EscapedInternalError /\ ~ sentence (toks [IDENTIFIER; EQUAL; INTEGER]).
Proof. exact escapes. Qed.
Print Assumptions C42_early_end_refuted.
