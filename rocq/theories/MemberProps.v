(** C107: groups of parameters.  The vocabulary is in [MemberSpec] and [ValueSpec]. *)
From Coq Require Import ZArith List Bool String.
From Verif Require Import ExprModel ExprSyntax ExprSpec DeckModel DeckSyntax DeckMeaning DeckSpec DeckExamples ValueSpec ValueExamples MemberModel MemberSpec MemberProofs MemberExamples.
Import ListNotations.

(** C107.  A group contains exactly the variables that were added to it and that the deck has not
    written since.  Adding changes nothing else, and evaluating the deck at its end changes no answer.
    The full claim has no "that the deck has not written since"; it is refuted below. *)
Theorem C107_members_partial :
  forall A reg funs restricted, typed_functions A funs ->
  forall d0, history A reg funs restricted d0 ->
  forall p d g, happen_all A reg funs restricted p d0 no_members = inr (d, g) ->
  run A reg funs restricted (statements p) d0 = inr d /\
  forall x v, nth_error (d_vars d) x = Some v ->
  (is_element A g v = true <-> added_since A reg funs restricted p d0 x) /\
  forall d' v', finish A funs d = Accepted A d' -> nth_error (d_vars d') x = Some v' -> is_element A g v' = is_element A g v.
Proof. exact members. Qed.
Print Assumptions C107_members_partial.

(** A parameter that was added to a group is no longer in it once the deck gives it a value. *)
Theorem C107_written_refuted :
  exists d g v, happen_all deck_arith no_fun no_eval true mx_p vx0 no_members = inr (d, g) /\ nth_error (d_vars d) 0 = Some v /\
    was_added mx_p 0 /\ is_element deck_arith g v = false.
Proof. exact written_refuted. Qed.
Print Assumptions C107_written_refuted.

(** [hasElements] has defined behaviour for the empty group only, where it leaves the set as it is. *)
Theorem C107_has_elements_refuted :
  forall g ids,
  (g = no_members -> has_elements g ids = Some (match ids with [] => true | _ => false end, ids)) /\ (g <> no_members -> has_elements g ids = None).
Proof. exact has_elements_cases. Qed.
Print Assumptions C107_has_elements_refuted.

Theorem C107_hypotheses :
  typed_functions deck_arith no_eval /\ history deck_arith no_fun no_eval true vx0 /\
  exists d g v w, happen_all deck_arith no_fun no_eval true mx_again vx0 no_members = inr (d, g) /\ nth_error (d_vars d) 0 = Some v /\ is_element deck_arith g v = true /\
    nth_error (d_vars d) 1 = Some w /\ is_element deck_arith g w = true.
Proof. exact member_hypotheses. Qed.
Print Assumptions C107_hypotheses.
