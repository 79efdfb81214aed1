(** What is executed of any text that is accepted. *)
From Coq Require Import ZArith List Bool String Ascii Lia.
From Verif Require Import ScanModel ParseModel ParseSpec ParseTableProofs ParseProofs ParseSoundProofs ParseRunProofs ParseMoreProofs ParseDeepProofs ParseExamples ExprModel ExprSyntax ExprBuildModel ExprSpec ExprProofs DepModel
  DeckModel DeckSyntax DeckMeaning DeckSpec DeckReadProofs DeckRunProofs.
Import ListNotations.
Local Open Scope Z_scope.

Section Stage.
  Variable A : arith.
  Variable reg : string -> option fsig.
  Variable funs : fsig -> list (value A) -> result (value A).
  Variable restricted : bool.
  Notation deck := (deck A).
  Notation ptoken := (ptoken A).
  Notation action := (action A reg funs restricted).
  Notation perform := (perform action).
  Notation tree := (tree ptoken).
  Notation run := (run A reg funs restricted).

  Definition changes (r : nat) : bool := existsb (Nat.eqb r) [3; 4; 7; 9; 10]%nat.
  Lemma of_built_same : forall p t d b v d', of_built A p t d b = inr (v, d') -> d' = d.
  Proof. intros p t d [e|[]] v d' H; cbn in H; try discriminate; injection H; auto. Qed.
  Lemma action_same : forall r vs d v d', changes r = false -> action r vs d = inr (v, d') -> d' = d.
  Proof.
    intros r vs d v d' Hr H.
    do 48 (destruct r as [|r]; [try discriminate Hr; clear Hr; destruct vs as [|v1 [|v2 [|v3 [|v4 [|v5 vs]]]]]; cbn [DeckModel.action] in H;
      try (injection H; auto; fail); try discriminate H;
      unfold act_assignment, act_binary, act_unary, act_function, act_function0, act_list, act_identifier, act_integer, act_float, act_string, check_atom, fail in H;
      repeat match type of H with context [match ?x with _ => _ end] => destruct x; cbn in H; try discriminate H end;
      try (apply of_built_same in H; exact H); try (injection H; auto; fail)|]).
    destruct vs as [|v1 [|v2 [|v3 [|v4 [|v5 vs]]]]]; discriminate H.
  Qed.
  Lemma inner_changes : forall r N0 rhs, nth_error grammar r = Some (N0, rhs) -> sym_inner (N N0) = true -> changes r = false.
  Proof.
    intros r N0 rhs Hg HA. do 48 (destruct r as [|r]; [cbn in Hg; injection Hg as <- <-; first [discriminate HA|reflexivity]|]).
    destruct r; discriminate Hg.
  Qed.
  Lemma inner_same : (forall X (t : tree), derives X t -> sym_inner X = true -> forall d v d', perform t d = inr (v, d') -> d' = d) /\
    (forall Xs (kids : list tree), derives_all Xs kids -> forallb sym_inner Xs = true -> forall d vs d', perform_list action kids d = inr (vs, d') -> d' = d).
  Proof.
    apply (derives_mutind ptoken (fun X t _ => sym_inner X = true -> forall d v d', perform t d = inr (v, d') -> d' = d)
      (fun Xs kids _ => forallb sym_inner Xs = true -> forall d vs d', perform_list action kids d = inr (vs, d') -> d' = d)).
    - intros c v _ d v' d' H. cbn in H. injection H; auto.
    - intros r N0 rhs kids Hg _ IH HA d v d' H. rewrite perform_node in H. destruct (perform_list action kids d) as [x|[vs d1]] eqn:E; [discriminate|].
      apply IH in E; [|eapply inner_rules; eassumption]. subst d1. eapply action_same; [eapply inner_changes; eassumption|exact H].
    - intros _ d vs d' H. cbn in H. injection H; auto.
    - intros X rhs t kids _ IH1 _ IH2 H d vs d' E. cbn in H. apply andb_true_iff in H. destruct H as [H1 H2]. cbn [perform_list] in E.
      destruct (perform t d) as [x|[v d1]] eqn:E1; [discriminate|]. apply IH1 in E1; [|exact H1]. subst d1.
      destruct (perform_list action kids d) as [x|[ws d2]] eqn:E2; [discriminate|]. apply IH2 in E2; [|exact H2]. subst d2. injection E; auto.
  Qed.
  Lemma inner_run : forall b d vs d', Forall (fun x : sym * tree => sym_inner (fst x) = true /\ derives (fst x) (snd x)) b ->
    perform_list action (map snd b) d = inr (vs, d') -> d' = d.
  Proof.
    intros b d vs d' H. apply (proj2 inner_same (map fst b)).
    - induction H as [|[X t] b [_ H] _ IH]; cbn; constructor; assumption.
    - induction H as [|[X t] b [H _] _ IH]; cbn in *; [reflexivity|]. rewrite H. exact IH.
  Qed.
  Lemma built_derives : forall s0 σ ts s, ParseSoundProofs.built (no_token A) action s0 σ ts s -> Forall (fun x => derives (fst x) (snd x) /\ token_list (yield (snd x))) ts.
  Proof. induction 1; [constructor|]. apply Forall_app. split; [assumption|]. constructor; [split; assumption|constructor]. Qed.

  Lemma leaves_app : forall toks : list (Z * ptoken), Forall (lexed A) toks -> forall a b, toks = a ++ b -> Forall (lexed A) a /\ Forall (lexed A) b.
  Proof. intros toks H a b ->. apply Forall_app. exact H. Qed.

  Lemma built_empty : forall s0 σ ts s, ParseSoundProofs.built (no_token A) action s0 σ ts s -> ts = [] -> s = s0.
  Proof. intros s0 σ ts s [|e σ1 ts1 s1 X t v s' q _ _ _ _ _] E; [reflexivity|]. apply app_eq_nil in E. destruct E as [_ E]. discriminate. Qed.
  Lemma built_single : forall s0 σ X t s, ParseSoundProofs.built (no_token A) action s0 σ [(X, t)] s -> exists v, perform t s0 = inr (v, s).
  Proof.
    intros s0 σ X t s H. remember [(X, t)] as ts eqn:E. destruct H as [|e σ1 ts1 s1 X1 t1 v s' q H _ _ _ P]; [discriminate|].
    destruct ts1 as [|z ts1]; [|injection E; intros E1; destruct ts1; discriminate]. cbn in E. injection E as -> ->. apply built_empty in H; [|reflexivity]. subst s1. eauto.
  Qed.

  (** A stack that overflows: the statements that are complete, and the rest. *)
  Lemma stack_run : forall depth e σ ts s s1 c X, ParseSoundProofs.built (no_token A) action s (e :: σ) ts s1 -> trans (stateno e) (T c) = Some X -> (depth <= List.length (e :: σ))%nat ->
    plain (ParseSoundProofs.read ts) -> Forall (lexed A) (ParseSoundProofs.read ts) ->
    exists p front lost, ParseSoundProofs.read ts = front ++ lost /\ Forall2 (is_w (text A)) front (flat_map spell p) /\ run p s = inr s1 /\
      (depth <= List.length lost + 2)%nat /\ Forall (fun x => ~ ends_statement (fst x)) lost.
  Proof.
    intros depth e σ ts s s1 c X Hb Ht Hl Hp Hx. destruct (stack_shape _ _ _ _ _ _ Hb e σ eq_refl _ _ Ht) as [a [b [-> [Ha Hi]]]].
    pose proof (built_derives _ _ _ _ Hb) as HD. apply Forall_app in HD. destruct HD as [HDa HDb].
    destruct (built_split_run _ _ a b _ _ _ Hb) as [σ1 [s2 [Hb2 [vs P]]]].
    assert (s1 = s2).
    { eapply inner_run; [|exact P]. rewrite Forall_forall in *. intros x Hx'. split; [apply Hi; exact Hx'|apply HDb; exact Hx']. } subst s2.
    assert (HL : (List.length b <= List.length (ParseSoundProofs.read b))%nat).
    { clear -HDb. induction HDb as [|[Y t] b [D Tt] _ IH]; [cbn; lia|]. cbn [ParseSoundProofs.read flat_map snd]. rewrite app_length. cbn [List.length].
      destruct (yield_first Y t D Tt) as [c [v [l [Ey _]]]]. rewrite Ey. cbn. unfold ParseSoundProofs.read in IH. lia. }
    assert (HG : Forall (fun x => ~ ends_statement (fst x)) (ParseSoundProofs.read b)).
    { clear -HDb Hi. induction b as [|[Y t] b IH]; [constructor|]. inversion HDb as [|? ? [D _] HD']; subst. inversion Hi as [|? ? I1 I2]; subst. cbn [ParseSoundProofs.read flat_map snd].
      apply Forall_app. split; [apply (proj1 inner_goes_on Y t D I1)|apply IH; assumption]. }
    destruct (built_valid _ _ _ _ _ _ Hb) as [e2 [σ2 [E2 [_ [Hlen _]]]]]. injection E2 as <- <-. rewrite app_length in Hlen.
    rewrite read_app in Hp, Hx |- *. apply Forall_app in Hp. destruct Hp as [Hp _]. apply Forall_app in Hx. destruct Hx as [Hx _].
    destruct Ha as [->|[t ->]].
    - exists [], [], (ParseSoundProofs.read b). split; [reflexivity|]. split; [constructor|]. split; [|split; [|exact HG]].
      + apply built_empty in Hb2; [|reflexivity]. subst s1. reflexivity.
      + cbn [List.length] in *. lia.
    - inversion HDa as [|? ? [D Tt] _]; subst. cbn [fst snd ParseSoundProofs.read flat_map] in *. rewrite app_nil_r in *.
      destruct (proj1 (reads_all (text A)) (N StatementList) t D Hp) as [p R].
      exists p, (yield t), (ParseSoundProofs.read b). split; [reflexivity|]. split; [apply r_stmts_words; exact R|]. split; [|split; [|exact HG]].
      + pose proof (stmts_agree A reg funs restricted t p R Hx s) as F.
        destruct (built_single _ _ _ _ _ Hb2) as [v3 Hp3].
        rewrite Hp3 in F. unfold follows in F. destruct (run p s) as [f|d1]; [destruct F as [f' [F _]]; discriminate|]. destruct F as [v' F]. injection F as _ <-. reflexivity.
      + cbn [List.length] in *. lia.
  Qed.

  Lemma app_tokens : forall toks a b, tokens A toks = a ++ b -> exists t1 t2, toks = (t1 ++ t2)%list /\ tokens A t1 = a /\ tokens A t2 = b.
  Proof.
    intros toks a b H. unfold tokens in *. apply map_eq_app in H. destruct H as [t1 [t2 [-> [<- <-]]]]. exists t1, t2. auto.
  Qed.
  Lemma not_ends : forall toks, Forall (fun x : Z * ptoken => ~ ends_statement (fst x)) (tokens A toks) -> Forall (fun t => ~ In (t_code t) [SEMICOLON; LBRACE; RBRACE]) toks.
  Proof. intros toks H. unfold tokens in H. rewrite Forall_map in H. exact H. Qed.
  Lemma staged_run : forall l s s', staged (no_token A) action 100 l s s' -> forall toks, l = tokens A toks -> plain l ->
    exists p, p <> [] /\ reads_as toks p /\ run p s = inr s'.
  Proof.
    induction 1 as [t v s s' D P|e σ ts s s1 c v X rest s' Hb Ht Hl Hs IH]; intros toks Et Hp.
    - destruct (proj1 (reads_all (text A)) (N Deck) t D Hp) as [p R]. exists p.
      assert (HL : Forall (lexed A) (yield t)) by (rewrite Et; apply tokens_lexed).
      split. { destruct R as [t' p' R]. destruct R; [discriminate|]. intros HE. symmetry in HE. revert HE. apply app_cons_not_nil. }
      split. { constructor. unfold written. apply (tokens_words A). rewrite <- Et. apply r_deck_words. exact R. }
      pose proof (deck_agrees A reg funs restricted t p R HL s) as F. rewrite P in F. unfold follows in F.
      destruct (run p s) as [f|d1]; [destruct F as [f' [F _]]; discriminate|]. destruct F as [v' F]. injection F as _ <-. reflexivity.
    - assert (HL : Forall (lexed A) (ParseSoundProofs.read ts ++ (c, v) :: rest)) by (rewrite Et; apply tokens_lexed).
      apply Forall_app in HL. destruct HL as [HL _]. pose proof Hp as Hp'. apply Forall_app in Hp. destruct Hp as [Hp1 Hp2]. inversion Hp2 as [|? ? Hc Hp3]; subst.
      destruct (stack_run 100 _ _ _ _ _ _ _ Hb Ht Hl Hp1 HL) as [p [front [lost [Er [W [R [Ln G]]]]]]].
      rewrite Er, <- app_assoc in Et. symmetry in Et. apply app_tokens in Et. destruct Et as [t1 [t2 [-> [E1 E2]]]].
      replace (lost ++ (c, v) :: rest) with ((lost ++ [(c, v)]) ++ rest) in E2 by (rewrite <- app_assoc; reflexivity). apply app_tokens in E2. destruct E2 as [t3 [t4 [-> [E3 E4]]]].
      destruct (IH t4 (eq_sym E4) Hp3) as [p' [Hn [Ra R']]]. exists (p ++ p')%list.
      split; [intros E0; apply app_eq_nil in E0; tauto|]. split.
      + constructor; [unfold written; apply (tokens_words A); rewrite E1; exact W| | |exact Ra].
        * assert (L : List.length (tokens A t3) = List.length t3) by apply map_length. rewrite E3, app_length in L. cbn in L. lia.
        * apply not_ends. rewrite E3. apply Forall_app. split; [exact G|]. constructor; [|constructor]. cbn [fst].
          assert (B : ParseSoundProofs.built (no_token A) action s (mkEntry X (scode (T c)) v :: e :: σ) (ts ++ [(T c, Leaf c v)]) s1).
          { eapply built_push; [exact Hb|exact Ht|constructor|constructor; [apply Hc|constructor]|reflexivity]. }
          intros HE. assert (HI : In c enders) by (unfold ends_statement in HE; unfold enders; cbn in HE |- *; tauto). revert HI.
          apply (shifted_deep (no_token A) action _ _ _ _ _ _ _ _ Hb Ht B). cbn [List.length] in *. lia.
      + rewrite run_app, R. exact R'.
  Qed.

  Lemma finished_any : forall toks d r, plain (tokens A toks) -> deck_result A reg funs restricted toks d r ->
    (exists d', r = Accepted A d') \/ r = DuplicateId A \/ (r = AssertFailed A) ->
    exists d', ParseExamples.result (no_token A) action (tokens A toks) (start A d) (Finished d') /\ r = finish A funs d'.
  Proof.
    intros toks d r Hp [n HR] Hr.
    assert (HT : token_list (tokens A toks)) by (eapply Forall_impl; [|exact Hp]; intros x [H _]; exact H).
    destruct (always_ends (no_token A) action (tokens A toks) (start A d) HT) as [q [K [N1 [N2 N3]]]].
    assert (Hq : exists d', q = Finished d' /\ r = finish A funs d').
    { pose proof K as [m K']. specialize (HR (n + m)%nat ltac:(lia)). specialize (K' (n + m)%nat ltac:(lia)). unfold parse_deck in HR. rewrite K' in HR.
      destruct q as [d'|f|x| | | |].
      1: eauto.
      all: exfalso; try contradiction; subst r; destruct Hr as [[d' Hr]|[Hr|Hr]]; try discriminate; destruct f; discriminate. }
    destruct Hq as [d' [-> Hfin]]. eauto.
  Qed.
  (** Any text. *)
  Lemma any_executed : forall toks d r, plain (tokens A toks) -> deck_result A reg funs restricted toks d r ->
    (exists d', r = Accepted A d') \/ r = DuplicateId A \/ (r = AssertFailed A) ->
    exists p d', p <> [] /\ reads_as toks p /\ run p (start A d) = inr d' /\ r = finish A funs d'.
  Proof.
    intros toks d r Hp HR Hr. destruct (finished_any toks d r Hp HR Hr) as [d' [K Hf]].
    assert (HT : token_list (tokens A toks)) by (eapply Forall_impl; [|exact Hp]; intros x [H _]; exact H).
    destruct (staged_run _ _ _ (accepted_staged (no_token A) action 100 _ _ _ ltac:(lia) HT K) toks eq_refl Hp) as [p [P1 [P2 P3]]]. exists p, d'. auto.
  Qed.
  (** Statements, however long. *)
  Lemma written_executed : forall toks p d r, p <> [] -> written toks p -> deck_result A reg funs restricted toks d r ->
    (exists d', r = Accepted A d') \/ r = DuplicateId A \/ (r = AssertFailed A) ->
    exists d', run p (start A d) = inr d' /\ r = finish A funs d'.
  Proof.
    intros toks p d r Hn Hw HR Hr. pose proof (written_codes A toks p Hw) as Hp. destruct (finished_any toks d r Hp HR Hr) as [d' [K Hf]].
    apply (tokens_words A) in Hw. destruct (spelled_deck (text A) p Hn _ Hw) as [t [R Y]].
    assert (HD := r_deck_derives _ _ _ R). assert (HT : token_list (yield t)).
    { rewrite Y. eapply Forall_impl; [|exact Hp]. intros x [H _]. exact H. }
    assert (HL : Forall (lexed A) (yield t)) by (rewrite Y; apply tokens_lexed).
    rewrite <- Y in K. destruct (deep_accepted (no_token A) action 100 t (start A d) d' ltac:(lia) HD HT K) as [v P].
    pose proof (deck_agrees A reg funs restricted t p R HL (start A d)) as F. rewrite P in F. unfold follows in F. exists d'. split; [|exact Hf].
    destruct (run p (start A d)) as [f|d1]; [destruct F as [f' [F _]]; discriminate|]. destruct F as [v' F]. injection F as _ <-. reflexivity.
  Qed.
  Lemma written_result : forall toks p d, p <> [] -> written toks p ->
    exists r, deck_result A reg funs restricted toks d r /\ (outcome A reg funs restricted p d r \/ (exists f, r = Rejected A f) \/ (exists t, r = SyntaxErr A t) \/ r = Crashed A).
  Proof.
    intros toks p d Hn Hw. pose proof (written_codes A toks p Hw) as Hp. pose proof Hw as Hw'. apply (tokens_words A) in Hw'. destruct (spelled_deck (text A) p Hn _ Hw') as [t [R Y]].
    assert (HD := r_deck_derives _ _ _ R). assert (HT : token_list (yield t)).
    { rewrite Y. eapply Forall_impl; [|exact Hp]. intros x [H _]. exact H. }
    assert (HL : Forall (lexed A) (yield t)) by (rewrite Y; apply tokens_lexed).
    destruct (deep_result (no_token A) action 100 t (start A d) ltac:(lia) HD HT) as [q [[n K] Q]]. rewrite Y in K.
    assert (K2 : forall fuel, (n <= fuel)%nat -> parse (no_token A) action YYSTACKDEPTH fuel (tokens A toks) (start A d) = q) by exact K. clear K.
    destruct Q as [[v [d' [-> P]]]|[[x ->]|[v ->]]].
    - exists (finish A funs d'). split; [exists n; intros fuel Hf; unfold parse_deck; rewrite K2 by exact Hf; reflexivity|]. left.
      pose proof (deck_agrees A reg funs restricted t p R HL (start A d)) as F. rewrite P in F. unfold follows in F. unfold outcome.
      destruct (run p (start A d)) as [f|d1]; [destruct F as [f' [F _]]; discriminate|]. destruct F as [v' F]. injection F as _ <-. reflexivity.
    - eexists. split; [exists n; intros fuel Hf; unfold parse_deck; rewrite K2 by exact Hf; reflexivity|]. right. destruct x; eauto.
    - eexists. split; [exists n; intros fuel Hf; unfold parse_deck; rewrite K2 by exact Hf; reflexivity|]. right. eauto.
  Qed.
End Stage.
