(** The places of errors in texts, and concrete decks. *)
From Coq Require Import ZArith List Bool String Ascii Lia.
From Verif Require Import ScanModel ScanSpec ScanLoopProofs ParseModel ParseSpec ParseProofs ParseSoundProofs ParseRunProofs ParseMoreProofs ParseExamples ExprModel ExprSyntax DepModel
  DeckModel DeckSyntax DeckMeaning DeckSpec DeckReadProofs DeckRunProofs DeckExamples PlaceSpec PlaceProofs.
Import ListNotations.
Local Open Scope Z_scope.

Lemma newlines_app : forall u v, newlines (u ++ v) = newlines u + newlines v.
Proof. intros u v. unfold newlines. rewrite filter_app, app_length. lia. Qed.

(** ** Lines *)
Lemma segments_stand : forall s l o, segments s l o -> forall u a, In a (tokens_of (1 + newlines u) l) ->
  exists u' w v k, u ++ s = u' ++ w ++ v /\ longest (w ++ v) w k /\ token_of k (1 + newlines (u' ++ w)) w = [a].
Proof.
  intros s l o H. induction H as [|w r k l o L _ _ IH|w b r l o L _ _ IH|w b _ _|s _ _ _|s _ _ _]; intros u a Ha; cbn [tokens_of] in Ha; try destruct Ha.
  - cbn [segment_text] in Ha. rewrite <- Z.add_assoc, <- newlines_app in Ha. apply in_app_or in Ha. destruct Ha as [Ha|Ha].
    + exists u, w, r, k. split; [reflexivity|]. split; [exact L|]. destruct k; cbn in Ha |- *; try (destruct Ha as [<-|[]]; reflexivity); destruct Ha.
    + destruct (IH _ _ Ha) as [u' [w' [v' [k' [E X]]]]]. exists u', w', v', k'. split; [rewrite <- E, <- app_assoc; reflexivity|exact X].
  - cbn [segment_text] in Ha. rewrite <- Z.add_assoc, <- newlines_app in Ha.
    destruct (IH _ _ Ha) as [u' [w' [v' [k' [E X]]]]]. exists u', w', v', k'. split; [rewrite <- E, <- !app_assoc; reflexivity|exact X].
Qed.
Lemma token_stands : forall text toks a, read text toks -> In a toks -> stands_in text a.
Proof.
  intros text toks a [fuel [flag E]] Ha. unfold scan in E. apply do_scan_sound in E; [|unfold BUFSIZE; lia]. destruct E as [l [o [S [-> _]]]].
  exact (segments_stand _ _ _ S [] a Ha).
Qed.

Section Main.
  Variable A : arith.
  Variable reg : string -> option fsig.
  Variable funs : fsig -> list (value A) -> result (value A).
  Variable restricted : bool.
  Notation parses_to := (parses_to A reg funs restricted).

  Lemma place_text : forall text toks d k a, read text toks -> parses_to toks d (Rejected A (ParserErr k a)) ->
    exists lost before st after p, toks = (lost ++ before ++ st ++ after)%list /\ one_statement st /\ In a st /\ blamed k a /\ stands_in text a /\ written before p /\
      (lost = [] /\ (exists d', run A reg funs restricted p (start A d) = inr d') \/ (100 <= List.length lost)%nat /\ ~ shallow 99 (tokens A toks)).
  Proof.
    intros text toks d k a R P. destruct (error_place A reg funs restricted toks d k a (read_plain A _ _ R) P) as [lost [before [st [after [p [E [H1 [H2 [H3 [H4 H5]]]]]]]]]].
    exists lost, before, st, after, p. split; [exact E|]. split; [exact H1|]. split; [exact H2|]. split; [exact H3|]. split; [|auto].
    eapply token_stands; [exact R|]. rewrite E. apply in_or_app. right. apply in_or_app. right. apply in_or_app. left. exact H2.
  Qed.

  Lemma syntax_place : forall text toks d a, read text toks -> shallow 99 (tokens A toks) -> parses_to toks d (SyntaxErr A a) ->
    exists before after, toks = (before ++ a :: after)%list /\ stands_in text a /\ begins_sentence (tokens A before) /\ ~ begins_sentence (tokens A (before ++ [a])).
  Proof.
    intros text toks d a R S [n HR].
    assert (HT : token_list (tokens A toks)) by (eapply Forall_impl; [|exact (read_plain A _ _ R)]; intros x [H _]; exact H).
    destruct (shallow_run (no_token A) (action A reg funs restricted) YYSTACKDEPTH (tokens A toks) (start A d) ltac:(unfold YYSTACKDEPTH; lia) HT S) as [r [[m K1] K2]].
    specialize (HR (n + m)%nat ltac:(lia)). specialize (K1 (n + m)%nat ltac:(lia)). unfold parse_deck, parse in HR. rewrite K1 in HR.
    assert (Er : exists v, r = SyntaxError v /\ p_atom A v = a).
    { destruct r as [d'|f|v| | | |]; try discriminate HR.
      - unfold finish in HR. destruct (dep_map _ _ _ _ _) as [m0|]; [|discriminate HR]. destruct (update_all _ _ _ _) as [[? []]|]; discriminate HR.
      - destruct f; discriminate HR.
      - injection HR as HR. eauto. }
    destruct Er as [v [-> Ev]]. destruct K2 as [p [c [q [E [B1 B2]]]]].
    destruct (DeckStageProofs.app_tokens A _ _ _ E) as [t1 [t2 [-> [E1 E2]]]]. destruct t2 as [|b t2]; [discriminate E2|]. cbn in E2. injection E2 as <- <- E2. cbn in Ev. subst b.
    exists t1, t2. split; [reflexivity|]. split; [eapply token_stands; [exact R|apply in_or_app; right; left; reflexivity]|].
    split; [rewrite E1; exact B1|]. unfold tokens. rewrite map_app. cbn [map]. fold (tokens A t1). rewrite E1. exact B2.
  Qed.
End Main.

(** ** Concrete decks *)
(** The variable of the third line is not known. *)
Definition nl : string := String "010" EmptyString.
Definition third : string := ("int a = 1;" ++ nl ++ "Grid g { // a block" ++ nl ++ "  int n = a + b;" ++ nl ++ "}" ++ nl)%string.
Definition result_code (r : ended deck_arith) : option (reason * token) := match r with Rejected _ (ParserErr k a) => Some (k, a) | _ => None end.
Example third_error : exists a, read third (toks_of third) /\
  parses_to deck_arith no_fun no_eval false (toks_of third) (new_deck deck_arith "main" "main" bodies) (Rejected _ (ParserErr UnknownVariable a)) /\
  t_line a = 3 /\ t_text a = ["b"%char].
Proof.
  exists (mkTok 3 IDENTIFIER ["b"%char]). split; [apply read_by; vm_compute; reflexivity|].
  split; [|split; reflexivity]. apply parse_by; [vm_compute; reflexivity|discriminate].
Qed.
(** A token that cannot follow, in the second line. *)
Definition second : string := ("int a = 1;" ++ nl ++ "int b = * 2;" ++ nl)%string.
Example second_error : exists a, read second (toks_of second) /\ shallow 99 (tokens deck_arith (toks_of second)) /\
  parses_to deck_arith no_fun no_eval false (toks_of second) (new_deck deck_arith "main" "main" bodies) (SyntaxErr _ a) /\ t_line a = 2 /\ t_code a = TIMES.
Proof.
  exists (mkTok 2 TIMES []). split; [apply read_by; vm_compute; reflexivity|]. split; [apply few_shallow; vm_compute; lia|].
  split; [|split; reflexivity]. apply parse_by; [vm_compute; reflexivity|discriminate].
Qed.
(** Errors without a place. *)
Lemma no_place : exists toks, read "int a = f(1);" toks /\
  parses_to deck_arith no_fun no_eval false toks (new_deck deck_arith "main" "main" bodies) (Rejected _ NoSuchFunction).
Proof.
  exists (toks_of "int a = f(1);"). split; [apply read_by; vm_compute; reflexivity|]. apply parse_by; [vm_compute; reflexivity|discriminate].
Qed.
