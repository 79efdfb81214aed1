(** What the program receives from a deck: proofs, and a concrete deck. *)
From Coq Require Import ZArith List Bool String Ascii Lia Arith.
From Verif Require Import ScanModel ParseModel ExprModel ExprSyntax ExprBuildModel ExprSpec DeckModel DeckSyntax DeckMeaning DeckSpec
  DeckRunProofs DeckInvProofs DeckFinishProofs DeckLookupProofs DeckEffectProofs DeckObjectProofs DeckExamples BlockModel BlockSpec BlockParamProofs BlockEvalProofs BlockExamples
  TextSpec TextProofs ValueSpec ValueProofs ValueExamples.
Import ListNotations.
Local Open Scope nat_scope.

Section Main.
  Variable A : arith.
  Variable reg : string -> option fsig.
  Variable funs : fsig -> list (value A) -> result (value A).
  Variable restricted : bool.
  Hypothesis funs_typed : typed_functions A funs.

  Lemma nodup_map : forall {X Y} (f : X -> Y) l a b, NoDup (map f l) -> In a l -> In b l -> f a = f b -> a = b.
  Proof.
    intros X Y f l a b. induction l as [|c l IH]; intros N Ia Ib Q; [destruct Ia|]. cbn in N. inversion N as [|? ? N1 N2]; subst. destruct Ia as [->|Ia], Ib as [->|Ib]; auto.
    - destruct N1. rewrite Q. apply in_map. exact Ib.
    - destruct N1. rewrite <- Q. apply in_map. exact Ia.
  Qed.
  Lemma text_received : forall classes, NoDup (map fst classes) -> typed_classes A classes -> distinct_params A classes ->
    forall root rootclass text d', accepts A reg funs restricted text (new_deck A root rootclass classes) d' ->
    exists p, stands_for text p /\ forall i d1, i < List.length (d_objs d') -> evaluate_all A funs i d' = inr d1 ->
    forall j o c l n k, within (d_objs d') i j -> nth_error (d_objs d') j = Some o -> In (o_class o, c) classes -> c_impl A c = Some l -> In (n, k) l ->
    exists x m, binds A d' j n x m /\ declares (d_blocks d') (o_vars o) n x /\
      holds A reg funs restricted p (start A (new_deck A root rootclass classes)) d' (d_mem d1) x m k.
  Proof.
    intros classes once typed distinct root rootclass text d' Ac.
    destruct (fresh_run A reg funs restricted funs_typed classes typed root rootclass text d' Ac) as [p [d2 [St [R [F [O _]]]]]].
    exists p. split; [exact St|]. intros i d1 Li Ev j o c l n k Wi Ho Hc Hl Hk.
    destruct (final_registered A reg funs restricted funs_typed classes once typed distinct root rootclass p d2 d' R F j o Ho) as [c' [l' [G1 [G2 [_ G4]]]]].
    assert (c' = c) by (eapply nodup_fst; [exact once|exact G1|exact Hc]). subst c'. assert (l' = l) by congruence. subst l'.
    destruct (G4 n k Hk) as [x [m [v [Bi [Dc [Hv Ps]]]]]]. exists x, m. split; [exact Bi|]. split; [exact Dc|].
    destruct (final_evaluated A reg funs restricted funs_typed classes once typed distinct root rootclass p d2 d' R F i Li) as [Fe _]. destruct (Fe d1 Ev) as [_ [Rc Ot]].
    assert (Writable : forall cell, m = Some cell -> v_ro v = false -> ready A funs d' v /\ nth_error (d_mem d1) cell = Some (v_val v)).
    { intros cell -> Ro. apply (Rc n v cell). exists j, x. auto. }
    assert (Cases : forall cell, m = Some cell -> v_ro v = false -> exists w, nth_error (d_mem d1) cell = Some w /\ w = v_val v /\ v_init v = true /\
      ((exists d e, last_writer A reg funs restricted p (start A (new_deck A root rootclass classes)) x d e /\ forall vars, scope A d vars -> due A reg funs d d' vars e (v_type v) w) \/
       (no_writer A reg funs restricted p (start A (new_deck A root rootclass classes)) x /\ left_alone A k v))).
    { intros cell Hm Ro. destruct (Writable cell Hm Ro) as [[Ri Rd] Hw]. exists (v_val v). split; [exact Hw|]. split; [reflexivity|]. split; [exact Ri|].
      destruct (every_parameter A reg funs restricted funs_typed classes once typed root rootclass p d2 d' R F (o_vars o) n x v Dc Hv Rd) as [L|[N [k' [P La]]]]; [left; exact L|right].
      split; [exact N|]. destruct P as [o' [c' [l' [Io [Vo [Co [Lo Ko]]]]]]].
      destruct (objects_spec A reg funs restricted funs_typed root rootclass classes p d2 once typed R) as [_ [_ [_ [_ [Nd _]]]]]. rewrite <- O in Nd.
      assert (o' = o) by (eapply (nodup_map o_vars); [exact Nd|exact Io|eapply nth_error_In; eauto|exact Vo]). subst o'.
      assert (c' = c) by (eapply nodup_fst; [exact once|exact Co|exact Hc]). subst c'. assert (l' = l) by congruence. subst l'.
      assert (k' = k) by (eapply nodup_fst; [exact (distinct _ _ _ Hc Hl)|exact Ko|exact Hk]). subst k'. exact La. }
    destruct k as [t|t w0|t o0|w0]; cbn in Ps |- *.
    - destruct Ps as [P1 [P2 [cell [P3 _]]]]. destruct (Cases cell P3 P1) as [w [W1 [W2 [W3 [W4|[_ W4]]]]]]; [|cbn in W4; destruct W4; congruence]. exists cell, w. rewrite <- P2. auto.
    - destruct Ps as [P1 [P2 [_ [cell [P3 _]]]]]. destruct (Cases cell P3 P1) as [w [W1 [W2 [W3 [W4|[W4 W5]]]]]]; exists cell, w; (split; [exact P3|]; split; [exact W1|]).
      + left. rewrite <- P2. exact W4.
      + right. cbn in W5. destruct W5 as [W5 _]. split; [exact W4|congruence].
    - destruct Ps as [P1 [P2 [P3 [cell [P4 [_ P5]]]]]]. exists cell. split; [exact P4|]. rewrite Ot; [exact P5|]. intros n' v' [j' [x' [_ [Bi' [Hv' Ro']]]]]. rewrite P4 in Bi.
      destruct (final_separate A reg funs restricted funs_typed classes once typed distinct root rootclass p d2 d' R F _ _ _ _ _ _ _ Bi Bi') as [_ [_ Q]]. subst x'. congruence.
    - tauto.
  Qed.
  Lemma text_not_received : forall classes, NoDup (map fst classes) -> typed_classes A classes -> distinct_params A classes ->
    forall root rootclass text d', accepts A reg funs restricted text (new_deck A root rootclass classes) d' ->
    let d0 := start A (new_deck A root rootclass classes) in
    exists p, stands_for text p /\ forall i err, i < List.length (d_objs d') -> evaluate_all A funs i d' = inl err ->
    err <> EvalUndefined /\
    exists j o c l n k t x, within (d_objs d') i j /\ nth_error (d_objs d') j = Some o /\ In (o_class o, c) classes /\ c_impl A c = Some l /\ In (n, k) l /\
      (k = Required A t \/ exists w, k = Default A t w) /\ declares (d_blocks d') (o_vars o) n x /\ (forall m, err = NotInitialised m -> m = n) /\
      ((k = Required A t /\ no_writer A reg funs restricted p d0 x) \/
       exists d e, last_writer A reg funs restricted p d0 x d e /\ forall vars, scope A d vars ->
         ~ settled A reg d vars e /\ (value_in A reg funs d' vars e (type_of t) = BadCast \/ value_in A reg funs d' vars e (type_of t) = BadGet)).
  Proof.
    intros classes once typed distinct root rootclass text d' Ac d0.
    destruct (fresh_run A reg funs restricted funs_typed classes typed root rootclass text d' Ac) as [p [d2 [St [R [F [O _]]]]]].
    exists p. split; [exact St|]. intros i err Li Ev.
    destruct (final_evaluated A reg funs restricted funs_typed classes once typed distinct root rootclass p d2 d' R F i Li) as [_ Fe]. destruct (Fe err Ev) as [Nu [n [v [cell [[j [x [Wi [Bi [Hv Ro]]]]] [Nr Nm]]]]]].
    split; [exact Nu|]. destruct Bi as [o [pr [Ho [Hp [Hx Hm]]]]].
    destruct (final_registered A reg funs restricted funs_typed classes once typed distinct root rootclass p d2 d' R F j o Ho) as [c [l [G1 [G2 [G3 G4]]]]].
    assert (Hn : In n (map fst l)) by (apply G3; exists x, (Some cell), o, pr; auto). apply in_map_iff in Hn. destruct Hn as [[n' k] [Q Hk]]. cbn in Q. subst n'.
    destruct (G4 n k Hk) as [x' [m [v' [Bi [Dc [Hv' Ps]]]]]].
    assert (x' = x).
    { destruct Bi as [o' [pr' [Ho' [Hp' [Hx' Hm']]]]]. assert (o' = o) by congruence. subst o'.
      destruct (deck_pinv A reg funs restricted funs_typed classes once typed distinct root rootclass p d2 R) as [W2 P2]. destruct (finish_pinv A funs classes d2 d' W2 P2 F) as [_ [P' _]].
      destruct (p_good _ _ _ P' j o Ho) as [_ [_ [_ [_ [Nd _]]]]]. assert (pr' = pr) by (eapply nodup_fst; [exact Nd|exact Hp'|exact Hp]). congruence. }
    subst x'. assert (v' = v) by congruence. subst v'.
    assert (K : exists t, (k = Required A t \/ exists w, k = Default A t w) /\ v_type v = type_of t).
    { destruct k as [t|t w|t w|w]; cbn in Ps.
      - exists t. split; [left; reflexivity|tauto].
      - exists t. split; [right; eauto|tauto].
      - destruct Ps. congruence.
      - destruct Ps. congruence. }
    destruct K as [t [K Ty]]. exists j, o, c, l, n, k, t, x. do 7 (split; [assumption|]). split; [intros m0 Hm0; exact (proj1 (Nm m0 Hm0))|].
    destruct (every_variable A reg funs restricted funs_typed classes once typed root rootclass p d2 d' R F (o_vars o) n x Dc) as [v' [Hv'' [[d [e [L _]]]|[N [k' [P La]]]]]]; assert (v' = v) by congruence; subst v'.
    - right. exists d, e. split; [exact L|]. intros vars S. rewrite <- Ty.
      pose proof (written_init A reg funs restricted funs_typed classes typed root rootclass p d2 d' x d e v R F L Hv) as I.
      eapply (unready_writer A reg funs restricted funs_typed classes typed root rootclass p d2 d' x d e v vars R F L S Hv). intros Rd. apply Nr. split; assumption.
    - left. split; [|exact N]. clear P La k'. destruct (deck_pinv A reg funs restricted funs_typed classes once typed distinct root rootclass p d2 R) as [W2 _].
      destruct (accepted_spec A funs d2 W2 d' F) as [_ [Bl [_ [_ [_ [_ [_ [_ [V _]]]]]]]]]. rewrite Bl in Dc.
      destruct (run_owner A reg funs restricted funs_typed classes once typed root rootclass p d2 R (o_vars o) n x Dc N) as [k' [u [P [Hu Bn]]]]. destruct P as [o' [c' [l' [Io [Vo [Co [Lo Ko]]]]]]]. rewrite <- O in Io.
      destruct (objects_spec A reg funs restricted funs_typed root rootclass classes p d2 once typed R) as [_ [_ [_ [_ [Nd _]]]]]. rewrite <- O in Nd.
      assert (o' = o) by (eapply (nodup_map o_vars); [exact Nd|exact Io|eapply nth_error_In; eauto|exact Vo]). subst o'.
      assert (c' = c) by (eapply nodup_fst; [exact once|exact Co|exact G1]). subst c'. assert (l' = l) by congruence. subst l'.
      assert (k' = k) by (eapply nodup_fst; [exact (distinct _ _ _ G1 G2)|exact Ko|exact Hk]). subst k'.
      destruct K as [->|[w ->]]; [reflexivity|]. exfalso. apply Nr. cbn in Bn. destruct Bn as [B1 [_ [B2 _]]]. destruct (V x u Hu) as [w' [Hw _]]. rewrite Hv in Hw. injection Hw as ->. split; [exact B2|]. left. exact B1.
  Qed.
End Main.

(** ** Concrete decks *)
Local Open Scope string_scope.
(** [three] (see [BlockExamples]): the required parameter [x] of the main block receives 7, [t] keeps
    its value 2, the items receive 5, 4 (the default) and 8. *)
Example received_meets : NoDup (map fst bodies) /\ typed_classes deck_arith bodies /\ distinct_params deck_arith bodies /\
  accepts deck_arith no_fun no_eval false three (new_deck deck_arith "main" "main" bodies) three_end /\ 0 < List.length (d_objs three_end) /\
  exists d1, evaluate_all deck_arith no_eval 0 three_end = inr d1 /\ numbers d1 = [Some 7; Some 2; Some 5; Some 4; Some 8]%Z /\
  exists o c l, nth_error (d_objs three_end) 0 = Some o /\ In (o_class o, c) bodies /\ c_impl _ c = Some l /\ In ("x", Required _ (zint 0)) l.
Proof.
  split; [exact bodies_once|]. split; [exact bodies_typed|]. split; [exact bodies_distinct|]. destruct three_parsed as [R [_ [P _]]]. split; [exists (toks_of three); auto|]. split; [vm_compute; lia|].
  assert (G : match evaluate_all deck_arith no_eval 0 three_end with inr d1 => numbers d1 | _ => [] end = [Some 7; Some 2; Some 5; Some 4; Some 8]%Z) by (vm_compute; reflexivity).
  destruct (evaluate_all deck_arith no_eval 0 three_end) as [f|d1] eqn:E; [discriminate|]. exists d1. split; [reflexivity|]. split; [exact G|].
  destruct required_meets as [o [c [l [H1 [H2 [H3 [H4 _]]]]]]]. exists o, c, l. auto.
Qed.
(** A required parameter that the deck does not give. *)
Example not_received_meets : exists d', accepts deck_arith no_fun no_eval true unassigned (new_deck deck_arith "main" "main" bodies) d' /\ 0 < List.length (d_objs d') /\
  evaluate_all deck_arith no_eval 0 d' = inl (NotInitialised "x").
Proof.
  exists (deck_of (parse_text true bodies unassigned)). split; [|split].
  - exists (toks_of unassigned). split; [apply read_by; vm_compute; reflexivity|]. apply accepted_by; vm_compute; reflexivity.
  - vm_compute. lia.
  - assert (G : match evaluate_all deck_arith no_eval 0 (deck_of (parse_text true bodies unassigned)) with inl (NotInitialised n) => n = "x" | _ => False end) by (vm_compute; reflexivity).
    destruct (evaluate_all deck_arith no_eval 0 (deck_of (parse_text true bodies unassigned))) as [[n| | |]|]; try destruct G. reflexivity.
Qed.
