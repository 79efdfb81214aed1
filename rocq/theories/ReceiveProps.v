(** C105: the variables of the program receive what the deck says.  The vocabulary is in [ValueSpec]
    and [BlockSpec]. *)
From Coq Require Import ZArith List Bool String Ascii.
From Verif Require Import ExprModel ExprSyntax ExprSpec DeckModel DeckSyntax DeckMeaning DeckSpec BlockModel BlockSpec TextSpec ValueSpec ReceiveProofs.
Import ListNotations.
Local Open Scope nat_scope.

(** C105.  If the parameters of an object and those within it can be evaluated, then every C++
    variable registered by one of these objects holds what the deck says: the value of the
    expression written last for it, else its default value; read-only variables are untouched. *)
Theorem C105_received :
  forall A reg funs restricted, typed_functions A funs ->
  forall classes, NoDup (map fst classes) -> typed_classes A classes -> distinct_params A classes ->
  forall root rootclass text d', accepts A reg funs restricted text (new_deck A root rootclass classes) d' ->
  exists p, stands_for text p /\ forall i d1, i < List.length (d_objs d') -> evaluate_all A funs i d' = inr d1 ->
  forall j o c l n k, within (d_objs d') i j -> nth_error (d_objs d') j = Some o -> In (o_class o, c) classes -> c_impl A c = Some l -> In (n, k) l ->
  exists x m, binds A d' j n x m /\ declares (d_blocks d') (o_vars o) n x /\
    holds A reg funs restricted p (start A (new_deck A root rootclass classes)) d' (d_mem d1) x m k.
Proof. exact text_received. Qed.
Print Assumptions C105_received.

(** They can be evaluated unless a required one is not given by the deck, or the value of the
    expression written last for one cannot be converted to its type. *)
Theorem C105_not_received :
  forall A reg funs restricted, typed_functions A funs ->
  forall classes, NoDup (map fst classes) -> typed_classes A classes -> distinct_params A classes ->
  forall root rootclass text d', accepts A reg funs restricted text (new_deck A root rootclass classes) d' ->
  let d0 := start A (new_deck A root rootclass classes) in
  exists p, stands_for text p /\ forall i err, i < List.length (d_objs d') -> evaluate_all A funs i d' = inl err ->
  err <> EvalUndefined /\
  exists j o c l n k t x, within (d_objs d') i j /\ nth_error (d_objs d') j = Some o /\ In (o_class o, c) classes /\ c_impl A c = Some l /\ In (n, k) l /\
    (k = Required A t \/ exists w, k = Default A t w) /\ declares (d_blocks d') (o_vars o) n x /\ (forall m, err = NotInitialised m -> m = n) /\
    ((k = Required A t /\ no_writer A reg funs restricted p d0 x) \/
     exists d e, last_writer A reg funs restricted p d0 x d e /\ forall vars, scope A d vars ->
       ~ settled A reg d vars e /\ (value_in A reg funs d' vars e (type_of t) = BadCast \/ value_in A reg funs d' vars e (type_of t) = BadGet)).
Proof. exact text_not_received. Qed.
Print Assumptions C105_not_received.
