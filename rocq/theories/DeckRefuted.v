(** Decks for which the parser's stack is too small. *)
From Coq Require Import ZArith List Bool String Ascii Lia Arith.
From Verif Require Import ScanModel ScanSpec ParseModel ParseSpec ParseProofs ParseSoundProofs ParseRunProofs ParseMoreProofs ParseExamples ExprModel ExprSyntax DepModel DeckModel DeckSyntax DeckMeaning DeckSpec
  DeckReadProofs DeckRunProofs DeckExamples.
Import ListNotations.
Local Open Scope nat_scope.

Fixpoint times (n : nat) (s : string) : string := match n with 0 => EmptyString | S n' => String.append s (times n' s) end.

(** int k = 1+1+...+1; with fifty ones. *)
Definition fifty_text : string := String.append "int k = " (String.append (times 49 "1+") "1;").
Definition one : ExprSyntax.term := Term (FAtom (AInt "1")) [].
Definition fifty_statement : statement := SDecl TInt ("k"%string, Some (Sum None one (repeat (true, one) 49))) [].

Definition is_wordb (a : token) (w : word) : bool :=
  Z.eqb (t_code a) (fst w) && match snd w with Some s => String.eqb (string_of_list_ascii (t_text a)) s | None => true end.
Fixpoint spellsb (toks : list token) (ws : list word) : bool :=
  match toks, ws with
  | [], [] => true
  | a :: toks', w :: ws' => is_wordb a w && spellsb toks' ws'
  | _, _ => false
  end.
Lemma spellsb_ok : forall toks ws, spellsb toks ws = true -> spells toks ws.
Proof.
  induction toks as [|a toks IH]; intros [|w ws] H; cbn in H; try discriminate; constructor.
  - apply andb_prop in H. destruct H as [H _]. unfold is_wordb in H. apply andb_prop in H. destruct H as [H1 H2]. split; [apply Z.eqb_eq; exact H1|].
    destruct (snd w); [apply String.eqb_eq; exact H2|exact I].
  - apply andb_prop in H. apply IH, H.
Qed.

Lemma fifty_deck : exists text toks p t, read text toks /\ p <> [] /\ written toks p /\
  let d := new_deck deck_arith "main" "main" bodies in
  parses_to deck_arith no_fun no_eval false toks d (SyntaxErr _ t) /\
  exists d', executes_to deck_arith no_fun no_eval false p d (Accepted _ d') /\ value_of d' "k" = Some 50%Z.
Proof.
  exists fifty_text, (toks_of fifty_text), [fifty_statement].
  assert (E : exists t, parse_text false bodies fifty_text = SyntaxErr deck_arith t) by (eexists; vm_compute; reflexivity).
  destruct E as [t E]. exists t. split; [apply read_by; vm_compute; reflexivity|]. split; [discriminate|]. split; [apply spellsb_ok; vm_compute; reflexivity|].
  cbv zeta. split; [apply parse_by; [exact E|discriminate]|].
  assert (K : match run deck_arith no_fun no_eval false [fifty_statement] (start deck_arith (new_deck deck_arith "main" "main" bodies)) with
              | inr d => match finish deck_arith no_eval d with Accepted _ d' => value_of d' "k" = Some 50%Z | _ => False end | inl _ => False end)
    by (vm_compute; reflexivity).
  unfold executes_to. destruct (run _ _ _ _ _ _) as [f|d]; [destruct K|]. destruct (finish deck_arith no_eval d) as [d'|f|t'| | | | |] eqn:Q; try contradiction.
  exists d'. split; [reflexivity|exact K].
Qed.

(** Tokens that are rejected by a parser whose stack is large enough are no statements. *)
Lemma not_written : forall toks d v fuel, toks <> [] ->
  parse (no_token deck_arith) (action deck_arith no_fun no_eval false) (S (List.length (tokens deck_arith toks))) fuel (tokens deck_arith toks) d = SyntaxError v ->
  forall p, ~ written toks p.
Proof.
  intros toks d v fuel Hn K p Hw. destruct p as [|s p]; [inversion Hw; congruence|].
  pose proof (written_codes deck_arith _ _ Hw) as Hp. apply (tokens_words deck_arith) in Hw. destruct (spelled_deck (text deck_arith) (s :: p) ltac:(discriminate) _ Hw) as [t [R Y]].
  assert (HT : token_list (tokens deck_arith toks)) by (eapply Forall_impl; [|exact Hp]; intros x [H _]; exact H).
  apply (rejected_no_sentence (no_token deck_arith) (action deck_arith no_fun no_eval false) (tokens deck_arith toks) d v HT).
  - eapply computed; [exact K|discriminate].
  - exists t. split; [exact (r_deck_derives _ _ _ R)|exact Y].
Qed.

(** k = 1+1+...+1+ int y = 2; *)
Definition broken_text : string := String.append "k = " (String.append (times 49 "1+") "int y = 2;").
Definition broken_toks : list token := Eval vm_compute in toks_of broken_text.
Lemma broken_toks_ok : toks_of broken_text = broken_toks.
Proof. vm_compute. reflexivity. Qed.
Lemma broken_refused : exists v,
  parse (no_token deck_arith) (action deck_arith no_fun no_eval false) (S (List.length (tokens deck_arith broken_toks))) 1000 (tokens deck_arith broken_toks) (start deck_arith (new_deck deck_arith "main" "main" bodies)) = SyntaxError v.
Proof. eexists. vm_compute. reflexivity. Qed.
Lemma broken_deck : exists text toks d', read text toks /\
  parses_to deck_arith no_fun no_eval false toks (new_deck deck_arith "main" "main" bodies) (Accepted _ d') /\
  (forall p, ~ written toks p) /\ value_of d' "y" = Some 2%Z.
Proof.
  exists broken_text, (toks_of broken_text), (deck_of (parse_text false bodies broken_text)).
  split; [apply read_by; vm_compute; reflexivity|]. split; [apply accepted_by; vm_compute; reflexivity|].
  split; [|vm_compute; reflexivity]. rewrite broken_toks_ok. destruct broken_refused as [v K]. 
  assert (N : broken_toks <> []) by discriminate. exact (not_written broken_toks _ v 1000 N K).
Qed.
