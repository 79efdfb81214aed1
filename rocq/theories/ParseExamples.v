(** The theorems about the parser for its own stack size, and concrete decks. *)
From Coq Require Import ZArith List Bool Lia.
From Verif Require Import ScanModel ParseModel ParseSpec ParseTableProofs ParseProofs ParseSoundProofs ParseRunProofs ParseMoreProofs ParseDeepProofs.
Import ListNotations.
Local Open Scope Z_scope.

(** The result of [Parser::parse] on a list of tokens. *)
Definition result {V St E : Type} (nv : V) (act : nat -> list V -> St -> E + (V * St)) (toks : list (Z * V)) (s : St) (r : parsed V St E) : Prop :=
  exists n, forall fuel, (n <= fuel)%nat -> parse nv act YYSTACKDEPTH fuel toks s = r.

Section Main.
  Context {V St E : Type}.
  Variable nv : V.
  Variable act : nat -> list V -> St -> E + (V * St).

  Lemma result_unique : forall toks s r1 r2, result nv act toks s r1 -> result nv act toks s r2 -> r1 = r2.
  Proof. intros toks s r1 r2. apply ends_det. Qed.

  Lemma accepted_sentence : forall toks s s', token_list toks -> shallow 99 toks ->
    result nv act toks s (Finished s') ->
    exists t v, derives (N Deck) t /\ yield t = toks /\ perform act t s = inr (v, s') /\
      forall t', derives (N Deck) t' -> yield t' = toks -> t' = t.
  Proof.
    intros toks s s' Ht Hs K. destruct (shallow_run nv act YYSTACKDEPTH toks s ltac:(unfold YYSTACKDEPTH; lia) Ht Hs) as [r [K1 K2]].
    rewrite (ends_det _ _ _ _ _ _ _ _ K1 K) in K2. destruct K2 as [t [v [D1 [Y1 P1]]]]. exists t, v. split; [exact D1|]. split; [exact Y1|]. split; [exact P1|].
    intros t' D2 Y2. apply derivation_unique; try assumption; congruence.
  Qed.
  Lemma accepted_ends_with_sentence : forall toks s s', token_list toks -> result nv act toks s (Finished s') ->
    exists front back t v s1, toks = front ++ back /\ (front = [] \/ (YYSTACKDEPTH <= length front)%nat) /\
      derives (N Deck) t /\ yield t = back /\ perform act t s1 = inr (v, s').
  Proof.
    intros toks s s' Ht K. destruct (any_run nv act YYSTACKDEPTH toks s ltac:(unfold YYSTACKDEPTH; lia) Ht) as [r [K1 [_ [_ [_ F]]]]].
    apply F. apply (ends_det _ _ _ _ _ _ _ _ K1 K).
  Qed.
  Lemma sentence_performed : forall t s, derives (N Deck) t -> token_list (yield t) -> pending_below 99 t ->
    result nv act (yield t) s (match perform act t s with inl x => ActionError x | inr (_, s') => Finished s' end).
  Proof. intros t s Hd Ht Hp. exact (deck_parsed nv act YYSTACKDEPTH t s Hd Ht Hp). Qed.
  Lemma shallow_pending : forall (t : tree V), derives (N Deck) t -> token_list (yield t) -> shallow 99 (yield t) -> pending_below 99 t.
  Proof.
    intros t Hd Ht Hs. specialize (Hs t (yield t) [] [] Hd Ht). rewrite app_nil_r in Hs. specialize (Hs eq_refl eq_refl).
    rewrite firstn_all2 in Hs; [exact Hs|]. rewrite (proj1 pending_length_mut _ _ Hd). lia.
  Qed.
  Lemma short_sentence_performed : forall t s, derives (N Deck) t -> token_list (yield t) -> short_statements 97 (yield t) ->
    result nv act (yield t) s (match perform act t s with inl x => ActionError x | inr (_, s') => Finished s' end).
  Proof.
    intros t s Hd Ht Hs. apply sentence_performed; [exact Hd|exact Ht|]. apply shallow_pending; [exact Hd|exact Ht|].
    apply (short_shallow 97 _ Hs).
  Qed.
  Lemma short_is_shallow : forall toks : list (Z * V), short_statements 97 toks -> shallow 99 toks.
  Proof. exact (short_shallow 97). Qed.

  Lemma error_reported : forall toks s, token_list toks -> shallow 99 toks -> ~ sentence toks ->
    (exists p c v q, toks = p ++ (c, v) :: q /\ begins_sentence p /\ ~ begins_sentence (p ++ [(c, v)]) /\ result nv act toks s (SyntaxError v)) \/
    (begins_sentence toks /\ result nv act toks s EscapedInternalError) \/
    (exists x t p q w, toks = p ++ q /\ derives (N Deck) t /\ token_list (yield t) /\ yield t = p ++ w /\ perform act t s = inl x /\
       result nv act toks s (ActionError x)).
  Proof.
    intros toks s Ht Hs Hn. destruct (shallow_run nv act YYSTACKDEPTH toks s ltac:(unfold YYSTACKDEPTH; lia) Ht Hs) as [r [K1 K2]].
    destruct r as [s'|x|v| | | |]; try destruct K2.
    - exfalso. apply Hn. destruct H as [v [D1 [Y1 _]]]. exists x. split; assumption.
    - right. right. destruct H as [p [q [w H]]]. exists x, x0, p, q, w. tauto.
    - left. destruct H as [c [q H]]. exists x, c, v, q. tauto.
    - right. left. tauto.
  Qed.
  Lemma always_ends : forall toks s, token_list toks ->
    exists r, result nv act toks s r /\ r <> Aborted /\ r <> EnteredRecovery /\ r <> OutOfFuel.
  Proof.
    intros toks s Ht. destruct (any_run nv act YYSTACKDEPTH toks s ltac:(unfold YYSTACKDEPTH; lia) Ht) as [r [K1 [N1 [N2 [N3 _]]]]].
    exists r. tauto.
  Qed.
  Lemma sentence_as_it_is : forall t s s', derives (N Deck) t -> token_list (yield t) -> result nv act (yield t) s (Finished s') -> exists v, perform act t s = inr (v, s').
  Proof. intros t s s'. apply (deep_accepted nv act). unfold YYSTACKDEPTH. lia. Qed.
  Lemma sentence_or_error : forall t s, derives (N Deck) t -> token_list (yield t) ->
    exists r, result nv act (yield t) s r /\
      ((exists v s', r = Finished s' /\ perform act t s = inr (v, s')) \/ (exists x, r = ActionError x) \/ (exists v, r = SyntaxError v)).
  Proof. intros t s. apply (deep_result nv act). unfold YYSTACKDEPTH. lia. Qed.
End Main.

(** ** Concrete decks *)
Section Compute.
  Context {V St E : Type}.
  Variable nv : V.
  Variable act : nat -> list V -> St -> E + (V * St).
  Lemma tokens_mono : forall depth toks n n' p s, parse_tokens nv act depth n p toks s <> OutOfFuel -> (n <= n')%nat ->
    parse_tokens nv act depth n' p toks s = parse_tokens nv act depth n p toks s.
  Proof.
    intros depth. induction toks as [|[c v] toks IH]; intros n n' p s H Hle; cbn [parse_tokens] in *; unfold parse_token in *.
    - rewrite (loop_mono act depth n n') ; [reflexivity| |exact Hle]. intros K. rewrite K in H. apply H. reflexivity.
    - rewrite (loop_mono act depth n n'); [| |exact Hle].
      + destruct (parse_loop act depth n _ c v s) as [[p' s']| | | | |]; try reflexivity. apply IH; assumption.
      + intros K. rewrite K in H. apply H. reflexivity.
  Qed.
  Lemma computed : forall depth fuel toks s r, parse nv act depth fuel toks s = r -> r <> OutOfFuel ->
    exists n, forall fuel', (n <= fuel')%nat -> parse nv act depth fuel' toks s = r.
  Proof. intros depth fuel toks s r <- H. exists fuel. intros fuel' Hf. apply tokens_mono; assumption. Qed.
End Compute.

(** Actions that never throw. *)
Definition quiet (r : nat) (vs : list unit) (s : unit) : Empty_set + (unit * unit) := inr (tt, tt).
Definition tok (c : Z) : Z * unit := (c, tt).
Definition toks (l : list Z) : list (Z * unit) := map tok l.
Definition codes_ok (l : list Z) : bool := forallb (fun c => (0 <? c) && (c <? ERROR)) l.
Lemma codes_token_list : forall l, codes_ok l = true -> token_list (toks l).
Proof.
  intros l H. unfold codes_ok in H. rewrite forallb_forall in H. apply Forall_forall. intros x Hx. apply in_map_iff in Hx. destruct Hx as [c [<- Hc]].
  specialize (H c Hc). apply andb_true_iff in H. destruct H as [H1 H2]. apply Z.ltb_lt in H1. apply Z.ltb_lt in H2. split; assumption.
Qed.

(** x = 1 + 1 + ... + 1; with [n + 1] operands. *)
Definition one : tree unit := Node 28 [Node 30 [Node 37 [Node 42 [Leaf INTEGER tt]]]].
Fixpoint ones (n : nat) : tree unit :=
  match n with O => Node 22 [one] | S m => Node 20 [one; Leaf PLUS tt; ones m] end.
Definition sum_tree (n : nat) : tree unit :=
  Node 0 [Node 2 [Node 4 [Node 16 [Leaf IDENTIFIER tt; Leaf EQUAL tt;
    match n with O => Node 19 [Node 25 [one]] | S m => Node 17 [Node 25 [one]; Leaf PLUS tt; ones m] end]; Leaf SEMICOLON tt]]].
Definition sum_toks (n : nat) : list (Z * unit) :=
  toks ([IDENTIFIER; EQUAL; INTEGER] ++ concat (repeat [PLUS; INTEGER] n) ++ [SEMICOLON]).

Ltac derive := repeat (first [apply derives_token | eapply derives_rule; [reflexivity|] | apply derives_none | apply derives_some]).
Lemma one_ok : derives (N TermExpression) one.
Proof. unfold one. derive. Qed.
Lemma ones_ok : forall n, derives (N UnsignedExpression) (ones n) /\
  yield (ones n) = toks ([INTEGER] ++ concat (repeat [PLUS; INTEGER] n)).
Proof.
  induction n as [|n [IH1 IH2]].
  - split; [cbn [ones]; eapply derives_rule; [reflexivity|]; apply derives_some; [exact one_ok|apply derives_none]|reflexivity].
  - split.
    + cbn [ones]. eapply derives_rule; [reflexivity|]. apply derives_some; [exact one_ok|]. apply derives_some; [apply derives_token|].
      apply derives_some; [exact IH1|apply derives_none].
    + cbn [ones yield flat_map]. rewrite IH2. rewrite app_nil_r. cbn. reflexivity.
Qed.
Lemma sum_ok : forall n, derives (N Deck) (sum_tree n) /\ yield (sum_tree n) = sum_toks n /\ token_list (sum_toks n).
Proof.
  intros n. split; [|split].
  - unfold sum_tree. destruct n as [|n].
    + derive.
    + repeat (first [apply derives_token | exact one_ok | exact (proj1 (ones_ok n)) | eapply derives_rule; [reflexivity|] | apply derives_none | apply derives_some]).
  - unfold sum_tree, sum_toks. destruct n as [|n]; [reflexivity|]. cbn [yield flat_map]. rewrite (proj2 (ones_ok n)).
    unfold toks. rewrite !map_app. cbn. rewrite <- !app_assoc. reflexivity.
  - apply codes_token_list. unfold codes_ok. rewrite !forallb_app. cbn. rewrite andb_true_r. apply forallb_forall. intros c Hc.
    apply in_concat in Hc. destruct Hc as [i [Hi Hc]]. apply repeat_spec in Hi. subst i. destruct Hc as [<-|[<-|[]]]; reflexivity.
Qed.

(** A sum of fifty operands is rejected, one of forty-nine is not. *)
Lemma fifty_rejected : exists t, derives (N Deck) t /\ yield t = sum_toks 49 /\ token_list (sum_toks 49) /\
  (forall s : unit, exists s', perform quiet t s = inr (tt, s')) /\ result tt quiet (sum_toks 49) tt (SyntaxError tt).
Proof.
  exists (sum_tree 49). destruct (sum_ok 49) as [H1 [H2 H3]]. split; [exact H1|]. split; [exact H2|]. split; [exact H3|]. split.
  - intros []. exists tt. vm_compute. reflexivity.
  - apply (computed tt quiet YYSTACKDEPTH 500); [vm_compute; reflexivity|discriminate].
Qed.
Example forty_nine_accepted : result tt quiet (sum_toks 48) tt (Finished tt).
Proof. apply (computed tt quiet YYSTACKDEPTH 500); [vm_compute; reflexivity|discriminate]. Qed.
Example forty_nine_pending : pending_below 99 (sum_tree 48).
Proof. apply Forall_forall. intros d Hd. apply Nat.leb_le. revert d Hd. apply forallb_forall. vm_compute. reflexivity. Qed.

(** x = 1 + 1 + ... + 1 + int y; is accepted although it is no deck. *)
Definition broken : list (Z * unit) := toks ([IDENTIFIER; EQUAL] ++ concat (repeat [INTEGER; PLUS] 49) ++ [INT_DECL; IDENTIFIER; SEMICOLON]).
Lemma broken_accepted : token_list broken /\ ~ sentence broken /\ result tt quiet broken tt (Finished tt).
Proof.
  assert (Ht : token_list broken) by (apply codes_token_list; vm_compute; reflexivity).
  split; [exact Ht|]. split.
  - apply (rejected_no_sentence tt quiet broken tt tt Ht).
    apply (computed tt quiet (S (length broken)) 500); [vm_compute; reflexivity|discriminate].
  - apply (computed tt quiet YYSTACKDEPTH 500); [vm_compute; reflexivity|discriminate].
Qed.

(** Decks that end too early. *)
Lemma escapes : result tt quiet (toks []) tt EscapedInternalError /\ ~ sentence (toks []) /\
  result tt quiet (toks [IDENTIFIER; EQUAL; INTEGER]) tt EscapedInternalError /\ ~ sentence (toks [IDENTIFIER; EQUAL; INTEGER]).
Proof.
  assert (A : forall l, codes_ok l = true -> result tt quiet (toks l) tt EscapedInternalError -> (length l < 90)%nat -> ~ sentence (toks l)).
  { intros l Hl K Hlen [t [D Y]]. pose proof (own_length t D) as Hp. rewrite Y in Hp. unfold toks in Hp. rewrite map_length in Hp.
    assert (Hp' : pending_below 99 t) by (eapply Forall_impl; [|exact Hp]; cbn; intros; lia).
    pose proof (sentence_performed tt quiet t tt D ltac:(rewrite Y; apply codes_token_list; exact Hl) Hp') as K2. rewrite Y in K2.
    pose proof (result_unique _ _ _ _ _ _ K K2) as X. destruct (perform quiet t tt) as [x|[v s']]; discriminate X. }
  assert (K1 : result tt quiet (toks []) tt EscapedInternalError) by (apply (computed tt quiet YYSTACKDEPTH 500); [vm_compute; reflexivity|discriminate]).
  assert (K2 : result tt quiet (toks [IDENTIFIER; EQUAL; INTEGER]) tt EscapedInternalError) by (apply (computed tt quiet YYSTACKDEPTH 500); [vm_compute; reflexivity|discriminate]).
  split; [exact K1|]. split; [apply A; [reflexivity|exact K1|cbn; lia]|]. split; [exact K2|]. apply A; [reflexivity|exact K2|cbn; lia].
Qed.

(** The hypotheses are met: a deck with nested blocks, declarations and calls. *)
Definition sample : list Z :=
  [IDENTIFIER; IDENTIFIER; LBRACE; INT_DECL; IDENTIFIER; EQUAL; MINUS; INTEGER; TIMES; LBRACKET; IDENTIFIER; LBRACKET; FLOAT; COMMA; STRING; RBRACKET; RBRACKET;
   COMMA; IDENTIFIER; SEMICOLON; IDENTIFIER; LBRACE; RBRACE; RBRACE].
Lemma short_check : forall l n, Nat.leb (length l) n = true -> short_statements n (toks l).
Proof.
  intros l n H p m q E _. apply Nat.leb_le in H. assert (K : length (toks l) = length l) by (unfold toks; apply map_length).
  rewrite E, !app_length in K. lia.
Qed.
Example sample_met : token_list (toks sample) /\ short_statements 97 (toks sample) /\ shallow 99 (toks sample) /\ sentence (toks sample) /\
  result tt quiet (toks sample) tt (Finished tt).
Proof.
  assert (S1 : short_statements 97 (toks sample)) by (apply short_check; reflexivity).
  assert (K : result tt quiet (toks sample) tt (Finished tt)) by (apply (computed tt quiet YYSTACKDEPTH 500); [vm_compute; reflexivity|discriminate]).
  assert (Ht : token_list (toks sample)) by (apply codes_token_list; reflexivity).
  assert (S2 : shallow 99 (toks sample)) by (apply short_is_shallow; exact S1).
  split; [exact Ht|]. split; [exact S1|]. split; [exact S2|]. split; [|exact K].
  destruct (accepted_sentence tt quiet _ _ _ Ht S2 K) as [t [v [D [Y _]]]]. exists t. split; assumption.
Qed.
Example wrong_met : token_list (toks (IDENTIFIER :: sample)) /\ shallow 99 (toks (IDENTIFIER :: sample)) /\
  result tt quiet (toks (IDENTIFIER :: sample)) tt (SyntaxError tt) /\ ~ sentence (toks (IDENTIFIER :: sample)).
Proof.
  assert (K : result tt quiet (toks (IDENTIFIER :: sample)) tt (SyntaxError tt)) by (apply (computed tt quiet YYSTACKDEPTH 500); [vm_compute; reflexivity|discriminate]).
  assert (Ht : token_list (toks (IDENTIFIER :: sample))) by (apply codes_token_list; reflexivity).
  split; [exact Ht|]. split; [apply short_is_shallow, short_check; reflexivity|]. split; [exact K|].
  apply (rejected_no_sentence tt quiet _ tt tt Ht). apply (computed tt quiet _ 500); [vm_compute; reflexivity|discriminate].
Qed.
(** A deck of a thousand statements is shallow too. *)
Lemma repeat_short : forall n k l, Nat.leb (length l) k = true -> short_statements (k + k) (toks (concat (repeat (l ++ [SEMICOLON]) n))).
Proof.
  induction n as [|n IH]; intros k l Hl p m q E G.
  - cbn in E. destruct p; [|discriminate E]. destruct m; [cbn; lia|discriminate E].
  - cbn [repeat concat] in E. unfold toks in E. rewrite map_app, map_app in E. cbn [map] in E. rewrite <- app_assoc in E.
    apply Nat.leb_le in Hl. 
    assert (Hsplit : (exists p', p = map tok l ++ tok SEMICOLON :: p' /\ toks (concat (repeat (l ++ [SEMICOLON]) n)) = p' ++ m ++ q) \/ (length p <= length l)%nat).
    { destruct (Nat.le_gt_cases (length p) (length l)) as [H|H]; [right; exact H|left].
      assert (L : length (map tok l) = length l) by apply map_length. clear -E H L. revert p E H L. generalize (map tok l) as ml. generalize (length l) as nl. 
      intros nl ml. revert nl. induction ml as [|x ml IHm]; intros nl p E H L.
      - destruct p as [|y p]; [cbn in *; lia|]. cbn in E. injection E as -> E. exists p. split; [reflexivity|exact E].
      - destruct p as [|y p]; [cbn in *; lia|]. cbn in E. injection E as -> E. cbn in *. destruct nl as [|nl]; [discriminate L|].
        destruct (IHm nl p E ltac:(lia) ltac:(lia)) as [p' [-> E']]. exists p'. split; [reflexivity|exact E']. }
    destruct Hsplit as [[p' [-> E']]|H].
    + apply (IH k l ltac:(apply Nat.leb_le; exact Hl) p' m q E' G).
    + destruct (Nat.le_gt_cases (length p + length m) (length l)) as [H1|H1]; [lia|]. exfalso.
      assert (Hin : nth (length l - length p) m (tok 0) = tok SEMICOLON).
      { assert (N1 : nth (length l) (p ++ m ++ q) (tok 0) = tok SEMICOLON).
        { rewrite <- E. rewrite app_nth2 by (rewrite map_length; lia). rewrite map_length, Nat.sub_diag. reflexivity. }
        rewrite app_nth2 in N1 by exact H. rewrite app_nth1 in N1 by lia. exact N1. }
      rewrite Forall_forall in G. specialize (G (tok SEMICOLON)). rewrite <- Hin in G at 1.
      apply G; [apply nth_In; lia|]. rewrite ?Hin. left. reflexivity.
Qed.
Example long_deck : short_statements 97 (toks (concat (repeat ([IDENTIFIER; EQUAL; INTEGER] ++ [SEMICOLON]) 1000))).
Proof.
  intros p m q E G. pose proof (repeat_short 1000 3 [IDENTIFIER; EQUAL; INTEGER] eq_refl p m q E G). lia.
Qed.
