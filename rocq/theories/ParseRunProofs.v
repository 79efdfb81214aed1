(** The parser on arbitrary lists of tokens. *)
From Coq Require Import ZArith List Bool Lia.
From Verif Require Import ParseModel ParseSpec ParseTableProofs ParseProofs ParseSoundProofs.
Import ListNotations.
Local Open Scope Z_scope.

Section P.
  Context {V St E : Type}.
  Variable nv : V.
  Variable act : nat -> list V -> St -> E + (V * St).
  Notation ends := (ends nv act).
  Notation built := (built nv act).
  Notation e0 := (mkEntry 0 0 nv).

  Lemma kernel_item : forall q, valid q -> q <> 0 -> exists r d las, item q r (S d) las.
  Proof.
    intros q Hv Hq. destruct (some_item q Hv) as [r [d [las Hi]]]. revert r d las Hi.
    apply (item_cases q (fun _ _ => exists r d las, item q r (S d) las) Hv).
    - intros r d las Hi. exists r, d, las. exact Hi.
    - intros H. exfalso. exact (Hq H).
    - intros. assumption.
  Qed.
  Lemma plain_item : forall q, valid q -> exists r d las A rhs, item q r d las /\ nth_error grammar r = Some (A, rhs) /\
    (forall c, In (T c) (skipn d rhs) -> 0 < c < ERROR).
  Proof.
    intros q Hv.
    assert (C : forallb (fun q => existsb (fun x => Nat.ltb 0 (snd (fst x)) || (negb (Nat.eqb (fst (fst x)) 8) && negb (Nat.eqb (fst (fst x)) 15))) (items q)) states = true) by (vm_compute; reflexivity).
    rewrite forallb_forall in C. specialize (C q (in_states q Hv)). apply existsb_exists in C. destruct C as [[[r d] las] [Hi C]].
    cbn in C. destruct (item_rule _ _ _ _ Hv Hi) as [A [rhs [Hg Hd]]]. exists r, d, las, A, rhs. split; [exact Hi|]. split; [exact Hg|].
    intros c Hc. apply (grammar_tokens r A rhs c Hg).
    - rewrite <- (firstn_skipn d rhs). apply in_or_app. right. exact Hc.
    - intros ->. destruct d as [|d]; [|destruct d; destruct Hc].
      cbn in C. clear - Hg C. do 48 (destruct r as [|r]; [first [discriminate Hg|discriminate C]|]).
      destruct r; discriminate Hg.
  Qed.

  Lemma built_viable : forall s0 e σ ts s, built s0 (e :: σ) ts s ->
    exists t w, derives (N Deck) t /\ token_list (yield t) /\ yield t = read ts ++ w.
  Proof.
    intros s0 e σ ts s Hb. destruct (built_valid _ _ _ _ _ _ Hb) as [e1 [σ1 [E1 [Hv _]]]]. injection E1 as <- <-.
    destruct (plain_item _ Hv) as [r [d [las [A [rhs [Hi [Hg Hc]]]]]]].
    destruct (canon_all nv (skipn d rhs) Hc) as [kids [Dk Tk]].
    destruct (completion nv act _ _ _ _ Hb e σ eq_refl r d las Hi A rhs kids Hg Dk Tk) as [t [w [pp [pw [D1 [T1 [Y1 _]]]]]]].
    exists t, (flat_map yield kids ++ w). split; [exact D1|]. split; [exact T1|exact Y1].
  Qed.
  Lemma shift_viable : forall s0 e σ ts s c v q, built s0 (e :: σ) ts s -> trans (stateno e) (T c) = Some q ->
    exists t w pp pw, derives (N Deck) t /\ token_list (yield t) /\ yield t = read ts ++ (c, v) :: w /\
      pending t = pp ++ S (length ts) :: pw /\ length pp = length (read ts).
  Proof.
    intros s0 e σ ts s c v q Hb Ht. destruct (built_valid _ _ _ _ _ _ Hb) as [e1 [σ1 [E1 [Hv _]]]]. injection E1 as <- <-.
    destruct (backward_of _ _ _ Hv Ht) as [Vq [Nq B]]. destruct (kernel_item _ Vq Nq) as [r [d [las Hi]]].
    destruct (B r d las Hi) as [A [rhs [las' [Hg [Hn Hi']]]]]. destruct (trans_token _ _ _ Ht) as [Hc _].
    assert (Es : skipn d rhs = T c :: skipn (S d) rhs).
    { clear -Hn. revert d Hn. induction rhs as [|y rhs IH]; intros d Hn; [destruct d; discriminate Hn|].
      destruct d as [|d]; cbn in *; [injection Hn as ->; reflexivity|]. apply (IH d Hn). }
    destruct (canon_all nv (skipn (S d) rhs)) as [more [D2 T2]].
    { intros c' Hc'. apply (grammar_tokens r A rhs c' Hg).
      - rewrite <- (firstn_skipn (S d) rhs). apply in_or_app. right. exact Hc'.
      - intros ->. destruct d as [|d]; [cbn in Hn; injection Hn as <-; unfold ERROR in Hc; lia|]. destruct d; discriminate Hn. }
    destruct (completion nv act _ _ _ _ Hb e σ eq_refl r d las' Hi' A rhs (Leaf c v :: more) Hg) as [t [w [pp [pw [D1 [T1 [Y1 [P1 [L1 _]]]]]]]]].
    - rewrite Es. constructor; [constructor|exact D2].
    - constructor; [exact Hc|exact T2].
    - exists t, (flat_map yield more ++ w), pp, (map (Nat.add (length ts)) (pending_list 1 more) ++ pw).
      split; [exact D1|]. split; [exact T1|]. split; [rewrite Y1; reflexivity|]. split; [|exact L1].
      rewrite P1. cbn [pending_list pending map app]. f_equal. f_equal. lia.
  Qed.

  (** How the run from a configuration that has read [front] ends without an overflow. *)
  Definition fair (depth : nat) (p : @yyparser V) (s : St) (s0 : St) (front toks : list (Z * V)) (r : parsed V St E) : Prop :=
    match r with
    | Finished s' => exists t v, derives (N Deck) t /\ yield t = front ++ toks /\ perform act t s0 = inr (v, s')
    | ActionError x => exists t q q' w, toks = q ++ q' /\ derives (N Deck) t /\ token_list (yield t) /\ yield t = front ++ q ++ w /\ perform act t s0 = inl x
    | SyntaxError v => exists q c q' t w, toks = q ++ (c, v) :: q' /\ derives (N Deck) t /\ token_list (yield t) /\ yield t = front ++ q ++ w /\
        forall depth' more, (depth <= depth')%nat -> ends depth' p (q ++ (c, v) :: more) s (SyntaxError v)
    | EscapedInternalError => exists t w, derives (N Deck) t /\ token_list (yield t) /\ yield t = front ++ toks ++ w /\
        forall depth', (depth <= depth')%nat -> ends depth' p toks s EscapedInternalError
    | _ => False
    end.
  (** The configuration reached at the token [c] with an overflow, and the one that a deeper stack has
      after it. *)
  Definition stopped (depth : nat) (p : @yyparser V) (s0 s : St) (front toks q : list (Z * V)) (c : Z) (v : V) (q' : list (Z * V)) (s' : St) : Prop :=
    exists e σ ts a cnt, built s0 (e :: σ) ts s' /\ read ts = front ++ q /\ (depth <= length (e :: σ))%nat /\ trans (stateno e) (T c) = Some a /\ cnt < 0 /\
      forall depth' r, (depth < depth')%nat -> r <> OutOfFuel -> ends depth' (mkParser (mkEntry a c v :: e :: σ) cnt) q' s' r -> ends depth' p toks s r.
  Definition overflows (depth : nat) (p : @yyparser V) (s0 s : St) (front toks : list (Z * V)) : Prop :=
    exists q c v q' s', toks = q ++ (c, v) :: q' /\ stopped depth p s0 s front toks q c v q' s' /\
      (forall r, r <> OutOfFuel -> ends depth new_parser q' s' r -> ends depth p toks s r) /\
      exists t w pp pw, derives (N Deck) t /\ token_list (yield t) /\ yield t = front ++ q ++ (c, v) :: w /\
        pending t = pp ++ depth :: pw /\ length pp = length (front ++ q).

  Lemma run : forall depth toks s0 e σ ts s cnt, built s0 (e :: σ) ts s -> (length (e :: σ) <= depth)%nat -> cnt < 0 -> token_list toks ->
    (exists r, ends depth (mkParser (e :: σ) cnt) toks s r /\ fair depth (mkParser (e :: σ) cnt) s s0 (read ts) toks r) \/
    overflows depth (mkParser (e :: σ) cnt) s0 s (read ts) toks.
  Proof.
    intros depth. induction toks as [|[c v] toks IH]; intros s0 e σ ts s cnt Hb Hl Hcnt Htok.
    - (* end of input *)
      assert (Hc : 0 <= 0 < ERROR) by (unfold ERROR; lia).
      destruct (settle nv act (Z.to_nat (mu (e :: σ) + 1)) s0 e σ ts s depth 0 Hb Hl Hc ltac:(lia)) as [e' [σ' [ts' [s' [Hb' [Rd [Ln [Tp [Rep Fin]]]]]]]]].
      left. destruct Fin as [[q Hq]|[Ha|[[_ [t [v [s'' [D1 [Y1 [P1 K]]]]]]]|[x [t [w [D1 [T1 [Y1 [P1 K]]]]]]]]]].
      + destruct (trans_token _ _ _ Hq) as [H _]. lia.
      + exists EscapedInternalError. split.
        * apply Rep; [lia|reflexivity|discriminate|]. apply (ends_error nv act depth _ e' σ' []); [reflexivity|exact Ha|exact Hcnt].
        * destruct (built_viable _ _ _ _ _ Hb) as [t [w [D1 [T1 Y1]]]]. exists t, w. split; [exact D1|]. split; [exact T1|]. split; [exact Y1|].
          intros depth' Hd. apply Rep; [exact Hd|reflexivity|discriminate|]. apply (ends_error nv act depth' _ e' σ' []); [reflexivity|exact Ha|exact Hcnt].
      + exists (Finished s''). split; [apply Rep; [lia|reflexivity|discriminate|apply K]|].
        exists t, v. split; [exact D1|]. split; [rewrite app_nil_r; exact Y1|exact P1].
      + exists (ActionError x). split; [apply Rep; [lia|reflexivity|discriminate|apply K; reflexivity]|].
        exists t, [], [], w. split; [reflexivity|]. split; [exact D1|]. split; [exact T1|]. split; [exact Y1|exact P1].
    - inversion Htok as [|x l Hc0 Htok']; subst. assert (Hc : 0 <= c < ERROR) by (unfold is_token in Hc0; cbn in Hc0; lia).
      destruct (settle nv act (Z.to_nat (mu (e :: σ) + 1)) s0 e σ ts s depth c Hb Hl Hc ltac:(lia)) as [e' [σ' [ts' [s' [Hb' [Rd [Ln [Tp [Rep Fin]]]]]]]]].
      destruct Fin as [[q Hq]|[Ha|[[H0 _]|[x [t [w [D1 [T1 [Y1 [P1 K]]]]]]]]]].
      + (* shift *)
        destruct (trans_token _ _ _ Hq) as [_ [Hsh Hlt]]. subst q.
        destruct (built_valid _ _ _ _ _ _ Hb') as [e1 [σ1 [E1 [Hv' [Hlen _]]]]]. injection E1 as <- <-.
        destruct (Nat.leb depth (length (e' :: σ'))) eqn:El.
        * apply Nat.leb_le in El. right. exists [], c, v, toks, s'. split; [reflexivity|]. split; [|split].
          -- exists e', σ', ts', (find_shift_action (stateno e') c), (cnt - 1). split; [exact Hb'|]. split; [rewrite app_nil_r; exact Rd|].
             split; [exact El|]. split; [exact Hq|]. split; [lia|]. intros depth' r Hd Hr K. apply Rep; [lia|reflexivity|exact Hr|].
             eapply (ends_shift nv act depth' _ e' σ'); [reflexivity|reflexivity|exact Hlt|unfold is_token in Hc0; cbn in Hc0; lia|].
             unfold yy_shift. replace (Nat.leb depth' (length (e' :: σ'))) with false by (symmetry; apply Nat.leb_gt; cbn [length] in *; lia). exact K.
          -- intros r Hr K. apply Rep; [lia|reflexivity|exact Hr|].
             eapply (ends_shift nv act depth _ e' σ'); [reflexivity|reflexivity|exact Hlt|unfold is_token in Hc0; cbn in Hc0; lia|].
             unfold yy_shift. replace (Nat.leb depth (length (e' :: σ'))) with true by (symmetry; apply Nat.leb_le; exact El).
             apply ends_restart. apply (ends_restart nv act depth 0). exact K.
          -- destruct (shift_viable _ _ _ _ _ c v _ Hb' Hq) as [t [w [pp [pw [D1 [T1 [Y1 [P1 L1]]]]]]]].
             exists t, w, pp, pw. rewrite Rd in *. split; [exact D1|]. split; [exact T1|]. split; [exact Y1|]. split.
             ++ rewrite P1. f_equal. f_equal. cbn [length] in *. lia.
             ++ rewrite app_nil_r. exact L1.
        * apply Nat.leb_gt in El.
          assert (Hb'' : built s0 (mkEntry (find_shift_action (stateno e') c) (scode (T c)) v :: e' :: σ') (ts' ++ [(T c, Leaf c v)]) s').
          { eapply built_push; [exact Hb'|exact Hq|constructor|constructor; [exact Hc0|constructor]|reflexivity]. }
          assert (Hstep : forall depth' more r, (depth <= depth')%nat -> r <> OutOfFuel ->
             ends depth' (mkParser (mkEntry (find_shift_action (stateno e') c) (scode (T c)) v :: e' :: σ') (cnt - 1)) more s' r ->
             ends depth' (mkParser (e :: σ) cnt) ((c, v) :: more) s r).
          { intros depth' more r Hd Hr K. apply Rep; [exact Hd|reflexivity|exact Hr|].
            eapply (ends_shift nv act depth' _ e' σ'); [reflexivity|reflexivity|exact Hlt|unfold is_token in Hc0; cbn in Hc0; lia|].
            unfold yy_shift. replace (Nat.leb depth' (length (e' :: σ'))) with false by (symmetry; apply Nat.leb_gt; lia). exact K. }
          assert (Hrd : read (ts' ++ [(T c, Leaf c v)]) = read ts ++ [(c, v)]) by (rewrite read_app, Rd; reflexivity).
          destruct (IH _ _ _ _ _ (cnt - 1) Hb'' ltac:(cbn [length] in *; lia) ltac:(lia) Htok') as [[r [K1 K2]]|O].
          -- left. exists r. split.
             ++ apply Hstep; [lia| |exact K1]. intros ->. exact K2.
             ++ unfold fair in *. rewrite Hrd in K2. destruct r as [s''|x|v'| | | |]; try exact K2.
                ** destruct K2 as [t [v' [D1 [Y1 P1]]]]. exists t, v'. split; [exact D1|]. split; [|exact P1]. rewrite Y1, <- app_assoc. reflexivity.
                ** destruct K2 as [t [q [q' [w [Eq [D1 [T1 [Y1 P1]]]]]]]]. exists t, ((c, v) :: q), q', w. split; [rewrite Eq; reflexivity|].
                   split; [exact D1|]. split; [exact T1|]. split; [|exact P1]. rewrite Y1, <- app_assoc. reflexivity.
                ** destruct K2 as [q [c' [q' [t [w [Eq [D1 [T1 [Y1 R1]]]]]]]]]. exists ((c, v) :: q), c', q', t, w. split; [rewrite Eq; reflexivity|].
                   split; [exact D1|]. split; [exact T1|]. split; [rewrite Y1, <- app_assoc; reflexivity|].
                   intros depth' more Hd. cbn [app]. apply Hstep; [exact Hd|discriminate|]. apply R1. exact Hd.
                ** destruct K2 as [t [w [D1 [T1 [Y1 R1]]]]]. exists t, w. split; [exact D1|]. split; [exact T1|]. split; [rewrite Y1, <- app_assoc; reflexivity|].
                   intros depth' Hd. apply Hstep; [exact Hd|discriminate|]. apply R1. exact Hd.
          -- right. destruct O as [q [c' [v' [q' [s'' [Eq [Z1 [R1 [t [w [pp [pw [D1 [T1 [Y1 [P1 L1]]]]]]]]]]]]]]]].
             exists ((c, v) :: q), c', v', q', s''. split; [rewrite Eq; reflexivity|]. split; [|split].
             ++ destruct Z1 as [e2 [σ2 [ts2 [a2 [cnt2 [Z1 [Z2 [Z3 [Z4 [Z5 Z6]]]]]]]]]]. exists e2, σ2, ts2, a2, cnt2. split; [exact Z1|].
                split; [rewrite Z2, Hrd, <- app_assoc; reflexivity|]. split; [exact Z3|]. split; [exact Z4|]. split; [exact Z5|].
                intros depth' r Hd Hr K. apply Hstep; [lia|exact Hr|]. apply Z6; assumption.
             ++ intros r Hr K. apply Hstep; [lia|exact Hr|]. apply R1; [exact Hr|exact K].
             ++ rewrite Hrd in *. exists t, w, pp, pw. split; [exact D1|]. split; [exact T1|]. split; [rewrite Y1, <- app_assoc; reflexivity|].
                split; [exact P1|]. rewrite L1, <- app_assoc. reflexivity.
      + (* error *)
        left. exists (SyntaxError v). 
        assert (K : forall depth' more, (depth <= depth')%nat -> ends depth' (mkParser (e :: σ) cnt) ((c, v) :: more) s (SyntaxError v)).
        { intros depth' more Hd. apply Rep; [exact Hd|reflexivity|discriminate|]. apply (ends_error nv act depth' _ e' σ' ((c, v) :: more)); [reflexivity|exact Ha|exact Hcnt]. }
        split; [apply K; lia|]. destruct (built_viable _ _ _ _ _ Hb) as [t [w [D1 [T1 Y1]]]].
        exists [], c, toks, t, w. split; [reflexivity|]. split; [exact D1|]. split; [exact T1|]. split; [exact Y1|exact K].
      + unfold is_token in Hc0; cbn in Hc0; lia.
      + left. exists (ActionError x). split; [apply Rep; [lia|reflexivity|discriminate|apply K; reflexivity]|].
        exists t, [], ((c, v) :: toks), w. split; [reflexivity|]. split; [exact D1|]. split; [exact T1|]. split; [exact Y1|exact P1].
  Qed.

  Lemma list_bound : forall l : list nat, exists n, Forall (fun d => (d <= n)%nat) l.
  Proof.
    induction l as [|x l [n IH]]; [exists 0%nat; constructor|]. exists (x + n)%nat. constructor; [lia|].
    eapply Forall_impl; [|exact IH]. cbn. intros. lia.
  Qed.
  Lemma sentence_runs : forall depth (t : tree V) s, derives (N Deck) t -> token_list (yield t) ->
    exists depth', (depth <= depth')%nat /\ ends depth' new_parser (yield t) s (result_of (perform act t s)).
  Proof.
    intros depth t s Hd Ht. destruct (list_bound (pending t)) as [n Hn]. exists (S n + depth)%nat. split; [lia|].
    apply deck_parsed; [exact Hd|exact Ht|]. eapply Forall_impl; [|exact Hn]. cbn. intros. lia.
  Qed.
  Lemma result_not_error : forall r v, result_of r <> @SyntaxError V St E v /\ result_of r <> @EscapedInternalError V St E.
  Proof. intros [x|[v' s]] v; split; discriminate. Qed.

  (** The result for a list of tokens without overflow. *)
  Definition verdict (toks : list (Z * V)) (s : St) (r : parsed V St E) : Prop :=
    match r with
    | Finished s' => exists t v, derives (N Deck) t /\ yield t = toks /\ perform act t s = inr (v, s')
    | ActionError x => exists t p q w, toks = p ++ q /\ derives (N Deck) t /\ token_list (yield t) /\ yield t = p ++ w /\ perform act t s = inl x
    | SyntaxError v => exists p c q, toks = p ++ (c, v) :: q /\ begins_sentence p /\ ~ begins_sentence (p ++ [(c, v)])
    | EscapedInternalError => begins_sentence toks /\ ~ sentence toks
    | _ => False
    end.
  Theorem first_run : forall depth toks s, (1 <= depth)%nat -> token_list toks ->
    (exists r, ends depth new_parser toks s r /\ verdict toks s r) \/
    (exists q c v q' s', toks = q ++ (c, v) :: q' /\ stopped depth new_parser s s [] toks q c v q' s' /\
       (forall r, r <> OutOfFuel -> ends depth new_parser q' s' r -> ends depth new_parser toks s r) /\
       exists t w pp pw, derives (N Deck) t /\ token_list (yield t) /\ yield t = q ++ (c, v) :: w /\
         pending t = pp ++ depth :: pw /\ length pp = length q).
  Proof.
    intros depth toks s Hd Ht.
    destruct (run depth toks s e0 [] [] s (-1) (built_start nv act s) ltac:(cbn; lia) ltac:(lia) Ht) as [[r [K1 K2]]|O].
    - left. exists r. split; [apply ends_restart; exact K1|]. unfold fair in K2. cbn [read flat_map app] in K2. unfold verdict. destruct r as [s'|x|v| | | |]; try exact K2.
      + destruct K2 as [q [c [q' [t [w [Eq [D1 [T1 [Y1 R1]]]]]]]]]. exists q, c, q'. split; [exact Eq|]. split; [exists t, w; tauto|].
        intros [t' [w' [D2 [T2 Y2]]]]. destruct (sentence_runs depth t' s D2 T2) as [depth' [Hdd K]].
        rewrite Y2, <- app_assoc in K. cbn [app] in K. apply ends_restart in K.
        pose proof (ends_det _ _ _ _ _ _ _ _ K (R1 depth' w' Hdd)) as X. exact (proj1 (result_not_error _ v) X).
      + destruct K2 as [t [w [D1 [T1 [Y1 R1]]]]]. split; [exists t, w; tauto|]. intros [t' [D2 Y2]].
        destruct (sentence_runs depth t' s D2 ltac:(rewrite Y2; exact Ht)) as [depth' [Hdd K]]. rewrite Y2 in K. apply ends_restart in K.
        pose proof (ends_det _ _ _ _ _ _ _ _ K (R1 depth' Hdd)) as X. exact (proj2 (result_not_error _ nv) X).
    - right. destruct O as [q [c [v [q' [s' [Eq [Z1 [R1 X]]]]]]]]. exists q, c, v, q', s'. split; [exact Eq|]. split; [|split; [|exact X]].
      + destruct Z1 as [e2 [σ2 [ts2 [a2 [cnt2 [Z1 [Z2 [Z3 [Z4 [Z5 Z6]]]]]]]]]]. exists e2, σ2, ts2, a2, cnt2. split; [exact Z1|].
        split; [exact Z2|]. split; [exact Z3|]. split; [exact Z4|]. split; [exact Z5|]. intros depth' r Hd' Hr K. apply ends_restart. apply Z6; assumption.
      + intros r Hr K. apply ends_restart. apply R1; assumption.
  Qed.

  Theorem shallow_run : forall depth toks s, (1 <= depth)%nat -> token_list toks -> shallow (depth - 1) toks ->
    exists r, ends depth new_parser toks s r /\ verdict toks s r.
  Proof.
    intros depth toks s Hd Ht Hs. destruct (first_run depth toks s Hd Ht) as [H|H]; [exact H|].
    exfalso. destruct H as [q [c [v [q' [s' [Eq [_ [_ [t [w [pp [pw [D1 [T1 [Y1 [P1 L1]]]]]]]]]]]]]]]].
    specialize (Hs t (q ++ [(c, v)]) q' w D1 T1). rewrite <- !app_assoc in Hs. specialize (Hs Eq Y1).
    rewrite P1, app_length, <- L1 in Hs. cbn [length] in Hs. rewrite firstn_app in Hs.
    replace (length pp + 1 - length pp)%nat with 1%nat in Hs by lia. apply Forall_app in Hs. destruct Hs as [_ Hs]. inversion Hs; subst. lia.
  Qed.

  (** Without the bound: what is accepted ends with a sentence. *)
  Theorem any_run : forall depth toks s, (1 <= depth)%nat -> token_list toks ->
    exists r, ends depth new_parser toks s r /\ r <> Aborted /\ r <> EnteredRecovery /\ r <> OutOfFuel /\
      (forall s', r = Finished s' -> exists front back t v s1, toks = front ++ back /\ (front = [] \/ (depth <= length front)%nat) /\
          derives (N Deck) t /\ yield t = back /\ perform act t s1 = inr (v, s')).
  Proof.
    intros depth toks s Hd. remember (length toks) as n eqn:En. revert toks s En. induction n as [n IH] using lt_wf_ind. intros toks s En Ht.
    destruct (first_run depth toks s Hd Ht) as [[r [K1 K2]]|[q [c [v [q' [s' [Eq [Z1 [R1 [t [w [pp [pw [D1 [T1 [Y1 [P1 L1]]]]]]]]]]]]]]]]].
    - exists r. split; [exact K1|]. split; [intros ->; exact K2|]. split; [intros ->; exact K2|]. split; [intros ->; exact K2|].
      intros s' ->. destruct K2 as [t [v [D1 [Y1 P1]]]]. exists [], toks, t, v, s. split; [reflexivity|]. split; [left; reflexivity|]. tauto.
    - assert (Ht' : token_list q') by (rewrite Eq in Ht; apply Forall_app in Ht; destruct Ht as [_ Ht]; inversion Ht; assumption).
      assert (Hlt : (length q' < n)%nat) by (rewrite En, Eq, app_length; cbn; lia).
      destruct (IH _ Hlt q' s' eq_refl Ht') as [r [K [N1 [N2 [N3 F]]]]]. exists r. split; [apply R1; assumption|]. split; [exact N1|]. split; [exact N2|]. split; [exact N3|].
      intros s'' ->. destruct (F s'' eq_refl) as [front [back [t' [v' [s1 [Eq' [_ [D2 [Y2 P2]]]]]]]]].
      exists (q ++ (c, v) :: front), back, t', v', s1. split; [rewrite Eq, Eq', <- app_assoc; reflexivity|]. split; [right|tauto].
      assert (B := pending_index t (length q) ltac:(exists (N Deck); exact D1)). rewrite P1, app_nth2 in B by lia. rewrite L1, Nat.sub_diag in B. cbn in B.
      rewrite app_length. cbn. lia.
  Qed.
End P.
