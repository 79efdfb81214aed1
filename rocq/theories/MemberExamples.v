(** Groups of variables: a concrete deck, and what fails. *)
From Coq Require Import ZArith List Bool String Ascii Lia Arith.
From Verif Require Import ScanModel ParseModel ExprModel ExprSyntax ExprBuildModel ExprSpec DepModel DeckModel DeckSyntax DeckMeaning DeckSpec
  DeckRunProofs DeckInvProofs DeckEffectProofs DeckExamples ValueSpec ValueExamples MemberModel MemberSpec MemberProofs.
Import ListNotations.
Local Open Scope nat_scope.
Local Open Scope string_scope.

(** The parameters [x] (required) and [t] (read-only) of the main block are added, then the deck says
    [x = 7;]. *)
Definition mx_seven : statement := SAssign "x" (Sum None (num "7") []).
Definition mx_p : list event := [Added [0; 1]; Statement mx_seven].
Definition mx_again : list event := mx_p ++ [Added [0]].
Definition mx_happen (p : list event) := happen_all deck_arith no_fun no_eval true p vx0 no_members.
Definition mx_sees (p : list event) (x : nat) : option bool :=
  match mx_happen p with
  | inr (d, g) => match nth_error (d_vars d) x with Some v => Some (is_element deck_arith g v) | None => None end
  | inl _ => None
  end.
Lemma vx0_history : history deck_arith no_fun no_eval true vx0.
Proof. apply h_start, h_new. exact bodies_typed. Qed.
Example mx_seen : mx_sees [Added [0]] 0 = Some true /\ mx_sees [Added [0]] 1 = Some false /\ mx_sees mx_p 0 = Some false /\ mx_sees mx_p 1 = Some true /\ mx_sees mx_again 0 = Some true.
Proof. vm_compute. repeat split; reflexivity. Qed.
Lemma mx_get : forall p x b, mx_sees p x = Some b -> exists d g v, mx_happen p = inr (d, g) /\ nth_error (d_vars d) x = Some v /\ is_element deck_arith g v = b.
Proof.
  intros p x b. unfold mx_sees. destruct (mx_happen p) as [f|[d g]]; [discriminate|]. destruct (nth_error (d_vars d) x) as [v|] eqn:E; [|discriminate]. intros Q. inversion Q; subst. exists d, g, v. auto.
Qed.
Lemma written_refuted : exists d g v, happen_all deck_arith no_fun no_eval true mx_p vx0 no_members = inr (d, g) /\ nth_error (d_vars d) 0 = Some v /\
  was_added mx_p 0 /\ is_element deck_arith g v = false.
Proof.
  destruct (mx_get mx_p 0 false) as [d [g [v [H1 [H2 H3]]]]]; [apply mx_seen|]. exists d, g, v. split; [exact H1|]. split; [exact H2|]. split; [|exact H3]. exists [0; 1]. cbn. auto.
Qed.
Lemma member_hypotheses : typed_functions deck_arith no_eval /\ history deck_arith no_fun no_eval true vx0 /\
  exists d g v w, happen_all deck_arith no_fun no_eval true mx_again vx0 no_members = inr (d, g) /\ nth_error (d_vars d) 0 = Some v /\ is_element deck_arith g v = true /\
    nth_error (d_vars d) 1 = Some w /\ is_element deck_arith g w = true.
Proof.
  split; [exact no_eval_typed|]. split; [exact vx0_history|]. destruct (mx_get mx_again 0 true) as [d [g [v [H1 [H2 H3]]]]]; [apply mx_seen|].
  destruct (mx_get mx_again 1 true) as [d' [g' [w [H1' [H2' H3']]]]]; [vm_compute; reflexivity|]. rewrite H1 in H1'. inversion H1'; subst d' g'. exists d, g, v, w. auto.
Qed.
