(** Braces and the current block. *)
From Coq Require Import ZArith List Bool String Ascii Lia Arith.
From Verif Require Import ScanModel ParseModel ExprModel ExprSyntax ExprSpec ExprProofs DepModel DeckModel DeckSyntax DeckMeaning DeckSpec DeckRunProofs DeckInvProofs.
Import ListNotations.
Local Open Scope nat_scope.

Lemma enclosing_grow : forall bs bs' b l, blocks_grow bs bs' -> enclosing bs b l -> enclosing bs' b l.
Proof.
  intros bs bs' b l G H. induction H as [b blk E P|b blk p l E P _ IH]; destruct (G b blk E) as [blk' [E' [_ [_ [P' _]]]]].
  - eapply enc_root; [exact E'|congruence].
  - eapply enc_in; [exact E'| |exact IH]. congruence.
Qed.

Definition brace (w : word) : Prop := fst w = LBRACE \/ fst w = RBRACE.
Definition no_brace (ws : list word) : Prop := Forall (fun w => ~ brace w) ws.
Lemma no_brace_app : forall a b, no_brace (a ++ b) <-> no_brace a /\ no_brace b.
Proof. intros. apply Forall_app. Qed.
Ltac nb := unfold brace, mark, ident; cbn; unfold LBRACE, RBRACE; intros [X|X]; discriminate.
Lemma no_brace_separated : forall {X} w (f : X -> list word) l, ~ brace w -> Forall (fun x => no_brace (f x)) l -> no_brace (separated w f l).
Proof.
  intros X w f l Hw. induction l as [|x l IH]; intros H; cbn; [constructor|]. inversion H; subst. apply no_brace_app. split; [assumption|]. destruct l; [constructor|]. constructor; [exact Hw|]. apply IH. assumption.
Qed.
Lemma no_brace_flat : forall {X} (f : X -> list word) l, Forall (fun x => no_brace (f x)) l -> no_brace (flat_map f l).
Proof. intros X f l H. induction H as [|x l Hx _ IH]; cbn; [constructor|]. apply no_brace_app. auto. Qed.
Lemma no_brace_expr : (forall a, no_brace (spell_atom a)) /\ (forall f, no_brace (spell_factor f)) /\ (forall t, no_brace (spell_term t)) /\ (forall s, no_brace (spell_sum s)).
Proof.
  apply syntax_ind.
  - intros s. repeat constructor. nb.
  - intros s. repeat constructor. nb.
  - intros s. repeat constructor. nb.
  - intros s. repeat constructor. nb.
  - intros e H. cbn. constructor; [nb|]. apply no_brace_app. split; [exact H|]. repeat constructor. nb.
  - intros f args H. cbn. constructor; [nb|]. constructor; [nb|]. apply no_brace_app. split; [|repeat constructor; nb]. apply no_brace_separated; [nb|exact H].
  - intros a H. exact H.
  - intros a s b Ha Hb. cbn. apply no_brace_app. split; [exact Ha|]. constructor; [nb|]. apply no_brace_app. split; [|exact Hb]. destruct s as [[|]|]; repeat constructor; nb.
  - intros f rest Hf Hr. cbn. apply no_brace_app. split; [exact Hf|]. apply no_brace_flat. eapply Forall_impl; [|exact Hr]. intros [o x] Hx. constructor; [destruct o; nb|exact Hx].
  - intros sg t rest Ht Hr. cbn. apply no_brace_app. split; [destruct sg as [[|]|]; repeat constructor; nb|]. apply no_brace_app. split; [exact Ht|].
    apply no_brace_flat. eapply Forall_impl; [|exact Hr]. intros [o x] Hx. constructor; [destruct o; nb|exact Hx].
Qed.
Lemma no_brace_decl : forall x, no_brace (spell_decl x).
Proof. intros [x [e|]]; unfold spell_decl; cbn; constructor; try nb; [|constructor]. constructor; [nb|]. apply no_brace_expr. Qed.
Lemma no_brace_stmt : forall s, match s with SOpen _ _ | SClose => True | _ => no_brace (spell s) end.
Proof.
  intros [t x rest|name e|f|c n|]; auto; cbn [spell].
  - constructor; [destruct t; nb|]. apply no_brace_app. split; [|repeat constructor; nb]. apply no_brace_separated; [nb|]. rewrite Forall_forall. intros y _. apply no_brace_decl.
  - constructor; [nb|]. constructor; [nb|]. apply no_brace_app. split; [apply no_brace_expr|repeat constructor; nb].
  - repeat constructor; nb.
Qed.

Definition countw (code : Z) (ws : list word) : nat := List.length (filter (fun w => Z.eqb (fst w) code) ws).
Lemma countw_app : forall c a b, countw c (a ++ b) = countw c a + countw c b.
Proof. intros c a b. unfold countw. rewrite filter_app, app_length. reflexivity. Qed.
Lemma countw_none : forall ws, no_brace ws -> countw LBRACE ws = 0 /\ countw RBRACE ws = 0.
Proof.
  intros ws H. induction H as [|w ws Hw _ [I1 I2]]; [auto|]. unfold countw in *. cbn. unfold brace in Hw.
  destruct (Z.eqb_spec (fst w) LBRACE), (Z.eqb_spec (fst w) RBRACE); try tauto.
Qed.
Lemma count_words : forall toks ws c, spells toks ws -> count c toks = countw c ws.
Proof.
  intros toks ws c H. unfold count, countw. induction H as [|a w toks ws [E _] _ IH]; [reflexivity|]. cbn. rewrite E. destruct (Z.eqb (fst w) c); cbn; congruence.
Qed.

Section Depth.
  Variable A : arith.
  Variable reg : string -> option fsig.
  Variable funs : fsig -> list (value A) -> result (value A).
  Variable restricted : bool.
  Hypothesis funs_typed : forall f args v, funs f args = Ok v -> type_of v = fs_ret f.

  Definition depth (d : deck A) (k : nat) : Prop := exists l, enclosing (d_blocks d) (d_cursor d) l /\ List.length l = S k.
  Definition level (s : statement) (k : nat) : option nat :=
    match s with
    | SOpen _ _ => Some (S k)
    | SClose => match k with O => None | S k' => Some k' end
    | _ => Some k
    end.
  Lemma exec_depth : forall s d d' k, wf A d -> exec A reg funs restricted s d = inr d' -> depth d k -> exists k', level s k = Some k' /\ depth d' k'.
  Proof.
    intros s d d' k W E [l [Hl Hk]]. pose proof (exec_keeps A reg funs restricted funs_typed s d d' W E) as [W' G].
    assert (Same : d_cursor d' = d_cursor d -> depth d' k). { intros Q. exists l. split; [|exact Hk]. rewrite Q. eapply enclosing_grow; [apply G|exact Hl]. }
    destruct s as [t x rest|name e|file|c n|]; cbn [level].
    - exists k. split; [reflexivity|]. apply Same. cbn [exec] in E. destruct (expressions A reg d (x :: rest)) as [f|r] eqn:El; [discriminate|]. cbn [bind] in E.
      apply (declare_all_keeps A funs funs_typed) in E; [tauto|exact W|]. apply Forall_rev. eapply expressions_good; eauto.
    - exists k. split; [reflexivity|]. apply Same. cbn [exec] in E. destruct (expression A reg d e) as [f|a] eqn:Ea; [discriminate|]. cbn [bind] in E.
      apply (assign_keeps A funs funs_typed) in E; [tauto|exact W|]. eapply expression_good; eauto.
    - exists k. split; [reflexivity|]. apply Same. cbn in E. inversion E. reflexivity.
    - exists (S k). split; [reflexivity|]. assert (Ho : exists cn, open_block A restricted d c cn = inr d') by (destruct n; cbn in E; eauto). destruct Ho as [cn Ho].
      apply open_keeps in Ho; [|exact W]. destruct Ho as [_ [_ [C [blk [B1 B2]]]]]. exists (d_cursor d' :: l). split; [|cbn; congruence].
      eapply enc_in; [exact B1|exact B2|]. eapply enclosing_grow; [apply G|exact Hl].
    - cbn in E. apply close_keeps in E; [|exact W]. destruct E as [_ [_ [blk [B1 B2]]]]. inversion Hl as [? blk' E1 P1|? blk' p l' E1 P1 H1]; subst; [congruence|].
      cbn in Hk. destruct k as [|k]; [inversion H1; subst; cbn in Hk; lia|]. exists k. split; [reflexivity|]. exists l'. split; [|congruence].
      assert (p = d_cursor d') by congruence. subst p. eapply enclosing_grow; [apply G|exact H1].
  Qed.
  Lemma run_depth : forall p d d' k, wf A d -> run A reg funs restricted p d = inr d' -> depth d k ->
    (exists k', depth d' k' /\ k' + countw RBRACE (flat_map spell p) = k + countw LBRACE (flat_map spell p)) /\
    forall ws ws', flat_map spell p = ws ++ ws' -> countw RBRACE ws <= k + countw LBRACE ws.
  Proof.
    induction p as [|s p IH]; intros d d' k W E Hk; cbn [run] in E.
    - inversion E; subst. split; [exists k; cbn; auto|]. intros ws ws' Q. symmetry in Q. apply app_eq_nil in Q. destruct Q as [-> _]. cbn. lia.
    - destruct (exec A reg funs restricted s d) as [f|d1] eqn:E1; [discriminate|]. cbn [bind] in E. destruct (exec_depth s d d1 k W E1 Hk) as [k1 [L1 D1]].
      apply (exec_keeps A reg funs restricted funs_typed) in E1; [|exact W]. destruct E1 as [W1 _]. destruct (IH d1 d' k1 W1 E D1) as [[k' [D' Q']] IHp]. cbn [flat_map].
      assert (Hs : k1 + countw RBRACE (spell s) = k + countw LBRACE (spell s) /\ forall ws ws', spell s = ws ++ ws' -> countw RBRACE ws <= k + countw LBRACE ws).
      { pose proof (no_brace_stmt s) as N. destruct s as [t x rest|name e|file|c n|]; cbn [level] in L1.
        1-3: inversion L1; subst k1; split; [destruct (countw_none _ N) as [-> ->]; reflexivity|]; intros ws ws' Q; rewrite Q in N; apply no_brace_app in N; destruct N as [N _]; destruct (countw_none _ N) as [-> ->]; lia.
        - inversion L1; subst k1. destruct n as [n|]; (split; [cbn; lia|]); intros ws ws' Q; cbn in Q.
          + destruct ws as [|w1 [|w2 [|w3 ws]]]; inversion Q; subst; cbn; try lia. destruct ws; [cbn; lia|discriminate].
          + destruct ws as [|w1 [|w2 ws]]; inversion Q; subst; cbn; try lia. destruct ws; [cbn; lia|discriminate].
        - destruct k as [|k]; [discriminate|]. inversion L1; subst k1. split; [cbn; lia|]. intros ws ws' Q; cbn in Q. destruct ws as [|w1 ws]; inversion Q; subst; cbn; try lia. destruct ws; [cbn; lia|discriminate]. }
      destruct Hs as [S1 S2]. split.
      + exists k'. split; [exact D'|]. rewrite !countw_app. lia.
      + intros ws ws' Q. apply app_eq_app in Q. destruct Q as [l [[Q1 Q2]|[Q1 Q2]]].
        * apply (S2 ws l). exact Q1.
        * subst ws. rewrite !countw_app. specialize (IHp l ws' Q2). lia.
  Qed.
  Lemma written_depth : forall toks p d d' k, wf A d -> written toks p -> run A reg funs restricted p d = inr d' -> depth d k ->
    (exists k', depth d' k' /\ k' + count RBRACE toks = k + count LBRACE toks) /\
    forall pre post, toks = pre ++ post -> count RBRACE pre <= k + count LBRACE pre.
  Proof.
    intros toks p d d' k W Hw E Hk. destruct (run_depth p d d' k W E Hk) as [[k' [D Q]] R]. split.
    - exists k'. split; [exact D|]. rewrite !(count_words _ _ _ Hw). exact Q.
    - intros pre post ->. apply Forall2_app_inv_l in Hw. destruct Hw as [w1 [w2 [H1 [H2 Q2]]]]. rewrite !(count_words _ _ _ H1). eapply R. exact Q2.
  Qed.
  Lemma lost_braces : forall lost, Forall (fun t => ~ In (t_code t) [SEMICOLON; LBRACE; RBRACE]) lost -> count RBRACE lost = 0 /\ count LBRACE lost = 0.
  Proof.
    unfold count. induction 1 as [|t lost H _ [I1 I2]]; [split; reflexivity|]. cbn [filter]. destruct (Z.eqb_spec (t_code t) RBRACE) as [E|_].
    - exfalso. apply H. rewrite E. cbn. tauto.
    - destruct (Z.eqb_spec (t_code t) LBRACE) as [E|_]; [exfalso; apply H; rewrite E; cbn; tauto|auto].
  Qed.
  Lemma count_app : forall c a b, count c (a ++ b) = count c a + count c b.
  Proof. intros c a b. unfold count. rewrite filter_app, app_length. reflexivity. Qed.
  Lemma reads_depth : forall toks p, reads_as toks p -> forall d d' k, wf A d -> run A reg funs restricted p d = inr d' -> depth d k ->
    (exists k', depth d' k' /\ k' + count RBRACE toks = k + count LBRACE toks) /\
    forall pre post, toks = pre ++ post -> count RBRACE pre <= k + count LBRACE pre.
  Proof.
    induction 1 as [toks p Hw|before p lost rest p' Hw _ Hl _ IH]; intros d d' k W E Hk; [eapply written_depth; eassumption|].
    rewrite run_app in E. destruct (run A reg funs restricted p d) as [f|d1] eqn:E1; [discriminate|].
    destruct (written_depth before p d d1 k W Hw E1 Hk) as [[k1 [D1 Q1]] B1]. destruct (run_keeps A reg funs restricted funs_typed p d d1 W E1) as [W1 _].
    destruct (IH d1 d' k1 W1 E D1) as [[k2 [D2 Q2]] B2]. destruct (lost_braces lost Hl) as [L1 L2]. split.
    - exists k2. split; [exact D2|]. rewrite !count_app. lia.
    - intros pre post Ep.
      assert (HP : (exists l, before = pre ++ l) \/ (exists l m, pre = before ++ l /\ lost = l ++ m) \/ exists m, pre = before ++ lost ++ m /\ rest = m ++ post).
      { clear - Ep. symmetry in Ep. apply app_eq_app in Ep. destruct Ep as [l [[-> Ep]|[-> Ep]]].
        - right. symmetry in Ep. apply app_eq_app in Ep. destruct Ep as [m [[-> Em]|[-> Em]]].
          + right. exists m. auto.
          + left. exists l, m. auto.
        - left. eauto. }
      destruct HP as [[l E2]|[[l [m [-> E2]]]|[m [-> E2]]]].
      + apply (B1 pre l E2).
      + specialize (B1 before [] ltac:(rewrite app_nil_r; reflexivity)). subst lost. rewrite count_app in L1, L2. rewrite !count_app. lia.
      + specialize (B2 m post E2). rewrite !count_app. lia.
  Qed.
  Lemma new_depth : forall name cls classes, depth (start A (new_deck A name cls classes)) 0.
  Proof.
    intros name cls classes. assert (G : forall d : deck A, depth d 0 -> forall c n, depth (make_object A d c n) 0).
    { clear. intros d [l [Hl Hk]] c n. exists l. split; [|exact Hk].
      assert (B : blocks_grow (d_blocks d) (d_blocks (make_object A d c n)) /\ d_cursor (make_object A d c n) = d_cursor d); [|destruct B as [B ->]; eapply enclosing_grow; eauto].
      unfold make_object. assert (G1 : d_blocks (snd (get_class A d n)) = d_blocks d /\ d_cursor (snd (get_class A d n)) = d_cursor d) by (unfold get_class; destruct (sfind (d_classes d) n); auto).
      destruct (get_class A d n) as [cl d1]. cbn [snd] in G1. destruct G1 as [<- <-]. destruct (c_impl A cl) as [ps|]; [|split; [apply blocks_grow_refl|reflexivity]].
      assert (G2 : forall b ps d q, blocks_grow (d_blocks d) (d_blocks (fst (add_params A b d ps q))) /\ d_cursor (fst (add_params A b d ps q)) = d_cursor d).
      { clear. intros b. induction ps as [|[nm k] ps IH]; intros d q; cbn [add_params]; [split; [apply blocks_grow_refl|reflexivity]|].
        destruct (add_param A b d (nm, k)) as [d2 np] eqn:E2. destruct (IH d2 (sput q (fst np) (snd np))) as [I1 I2]. cbn [add_param] in E2. inversion E2; subst d2 np; clear E2. cbn in I1, I2 |- *. split; [|exact I2].
        eapply blocks_grow_trans; [|exact I1]. destruct (block_add (d_blocks d) b nm (List.length (d_vars d))) as [bs|] eqn:Eb; [|apply blocks_grow_refl].
        clear - Eb. unfold block_add in Eb. destruct (nth_error (d_blocks d) b) as [blk|] eqn:En; [|discriminate]. destruct (sfind (b_vars blk) nm) eqn:Ef; [discriminate|]. inversion Eb; subst; clear Eb.
        intros k kb Hk. destruct (Nat.eq_dec k b) as [->|Hn].
        - rewrite nth_update_same by (eapply nth_lt; eauto). eexists. split; [reflexivity|]. assert (kb = blk) by congruence. subst kb. cbn. repeat split. exists []. rewrite app_nil_r. reflexivity.
          intros m x Hm. revert Hm Ef. clear. induction (b_vars blk) as [|[k y] l IH]; cbn; [discriminate|]. destruct (String.eqb_spec m k) as [->|Hm].
          + intros Q. inversion Q; subst. destruct (String.eqb_spec nm k) as [->|Hn]; [discriminate|]. intros _. destruct (String.compare nm k) eqn:Ec.
            * apply String.compare_eq_iff in Ec. contradiction.
            * cbn. destruct (String.eqb_spec k nm); [congruence|]. rewrite String.eqb_refl. reflexivity.
            * cbn. rewrite String.eqb_refl. reflexivity.
          + intros Q. destruct (String.eqb_spec nm k) as [->|Hn]; [discriminate|]. intros F. destruct (String.compare nm k) eqn:Ec.
            * apply String.compare_eq_iff in Ec. contradiction.
            * cbn. destruct (String.eqb_spec m nm) as [->|_]; [congruence|]. destruct (String.eqb_spec m k); [contradiction|exact Q].
            * cbn. destruct (String.eqb_spec m k); [contradiction|]. apply IH; assumption.
        - exists kb. rewrite nth_update_other by exact Hn. repeat split; auto. exists []. rewrite app_nil_r. reflexivity. }
      specialize (G2 (d_cursor d1) ps d1 []). destruct (add_params A (d_cursor d1) d1 ps []) as [d2 q]. cbn [fst] in G2. unfold tree_add. cbn. exact G2. }
    unfold start. cbn [nth_error]. change (nth_error (d_blocks (set_tree A (new_deck A name cls classes) (d_objs (new_deck A name cls classes)) None None [])) 0) with (Some (mkBlock name cls None [] [])).
    apply G. exists [0]. split; [|reflexivity]. eapply enc_root; reflexivity.
  Qed.
End Depth.
