(** What declarations and assignments change. *)
From Coq Require Import ZArith List Bool String Ascii Lia Arith.
From Verif Require Import ScanModel ParseModel ExprModel ExprSyntax ExprSpec ExprProofs DepModel DeckModel DeckSyntax DeckMeaning DeckSpec DeckInvProofs DeckFinishProofs DeckLookupProofs.
Import ListNotations.
Local Open Scope nat_scope.

Section Effect.
  Variable A : arith.
  Variable reg : string -> option fsig.
  Variable funs : fsig -> list (value A) -> result (value A).
  Variable restricted : bool.
  Hypothesis funs_typed : typed_functions A funs.
  Notation deck := (deck A).

  Lemma typed_classes_ok : forall cs, typed_classes A cs -> classes_ok A cs.
  Proof.
    intros cs H name c l E I. rewrite Forall_forall. intros [n k] Hk. cbn. apply sfind_in in E. exact (H name c l n k E I Hk).
  Qed.
  Lemma history_wf : forall d, history A reg funs restricted d -> wf A d.
  Proof.
    induction 1 as [name cls classes H|d _ IH|s d d' _ IH E|d d' _ IH E].
    - apply wf_new. apply typed_classes_ok. exact H.
    - apply start_keeps. exact IH.
    - eapply exec_keeps; eauto.
    - eapply accepted_spec; eauto.
  Qed.
  Lemma history_later : forall d d', history A reg funs restricted d -> later A reg funs restricted d d' -> history A reg funs restricted d' /\ grows A d d'.
  Proof.
    intros d d' H L. induction L as [d|s d d1 d' E L IH]; [split; [exact H|apply grows_refl]|].
    destruct (exec_keeps A reg funs restricted funs_typed s d d1 (history_wf d H) E) as [_ G]. destruct IH as [I1 I2]; [eapply h_exec; eauto|]. split; [exact I1|eapply grows_trans; eauto].
  Qed.
  Lemma history_run : forall p d d', history A reg funs restricted d -> run A reg funs restricted p d = inr d' -> history A reg funs restricted d'.
  Proof.
    induction p as [|s p IH]; intros d d' H E; cbn [run] in E; [inversion E; subst; exact H|].
    destruct (exec A reg funs restricted s d) as [f|d1] eqn:E1; [discriminate|]. cbn [bind] in E. eapply IH; [eapply h_exec; eauto|exact E].
  Qed.

  Lemma block_add_effect : forall bs n b name x bs', wf_blocks bs n -> block_add bs b name x = Some bs' ->
    (forall y, ~ declares bs b name y) /\
    (forall c m y, declares bs' c m y <-> declares bs c m y \/ (c = b /\ m = name /\ y = x)).
  Proof.
    intros bs n b name x bs' W E. unfold block_add in E. destruct (nth_error bs b) as [blk|] eqn:Eb; [|discriminate]. destruct (sfind (b_vars blk) name) eqn:Ef; [discriminate|]. inversion E; subst; clear E.
    assert (N : forall y, ~ declares bs b name y).
    { intros y D. apply (declares_none bs n W b blk name Eb) in Ef. apply Ef. eauto. }
    split; [exact N|]. intros c m y. unfold declares. destruct (Nat.eq_dec c b) as [->|Hc].
    - rewrite nth_update_same by (eapply nth_lt; eauto). split.
      + intros [k [Q I]]. inversion Q; subst k; cbn in I. apply sput_in in I; [|exact Ef]. destruct I as [[-> ->]|I]; [right; auto|left; eauto].
      + intros [[k [Q I]]|[_ [-> ->]]]; (eexists; split; [reflexivity|]); cbn; apply sput_in; auto. right. congruence.
    - rewrite nth_update_other by exact Hc. split; [auto|]. intros [D|[Q _]]; [exact D|contradiction].
  Qed.

  Notation same_rest := (same_rest A).
  Lemma same_rest_refl : forall d, same_rest d d.
  Proof. intros d. repeat split. Qed.
  Lemma same_rest_trans : forall a b c, same_rest a b -> same_rest b c -> same_rest a c.
  Proof. unfold DeckSpec.same_rest. intros a b c H K. intuition congruence. Qed.

  Lemma content_new : forall d e v, content A funs d e = inr v -> v_ro v = false /\ v_init v = true.
  Proof. intros d e v E. unfold content in E. destruct (is_constant _ e); [destruct (eval _ e)|]; inversion E; subst; auto. Qed.

  Lemma declare_effect : forall t d x d', wf A d -> good_init A d x -> declare A funs t d x = inr d' ->
    exists v, d_vars d' = d_vars d ++ [v] /\ v_type v = t /\ v_ro v = false /\ v_init v = true /\ same_rest d d' /\ snd x <> None /\
      (forall y, ~ declares (d_blocks d) (d_cursor d) (fst x) y) /\
      (forall b m y, declares (d_blocks d') b m y <-> declares (d_blocks d) b m y \/ (b = d_cursor d /\ m = fst x /\ y = List.length (d_vars d))).
  Proof.
    intros t d [x [e|]] d' W G E; unfold declare in E; cbn [snd fst] in *; [|discriminate]. destruct (content A funs d e) as [f|v] eqn:Ec; [discriminate|]. cbn [bind] in E.
    destruct (ty_eqb t (v_type v)) eqn:Et; [|discriminate]. destruct (block_add _ _ _ _) as [bs|] eqn:Eb; [|discriminate]. inversion E; subst; clear E.
    apply content_new in Ec. destruct (block_add_effect _ _ _ _ _ _ (wf_b A d W) Eb) as [N D].
    exists v. repeat split; try tauto; try discriminate; try (apply N); try (apply D). destruct t, (v_type v); cbn in Et; congruence.
  Qed.

  (** The variables a declaration creates, the last first. *)
  Lemma declare_all_effect : forall t l d d', wf A d -> Forall (good_init A d) l -> declare_all A funs t d l = inr d' ->
    exists new, d_vars d' = d_vars d ++ new /\ List.length new = List.length l /\ Forall (fun v => v_type v = t /\ v_ro v = false /\ v_init v = true) new /\ same_rest d d' /\
      NoDup (map fst l) /\ (forall x y, In x (map fst l) -> ~ declares (d_blocks d) (d_cursor d) x y) /\
      (forall b m y, declares (d_blocks d') b m y <-> declares (d_blocks d) b m y \/ (b = d_cursor d /\ In (m, y) (combine (map fst l) (seq (List.length (d_vars d)) (List.length l))))).
  Proof.
    induction l as [|x l IH]; intros d d' W G E; cbn [declare_all] in E.
    - inversion E; subst. exists []. rewrite app_nil_r. cbn. repeat split; auto using NoDup_nil. intros [D|[_ []]]; exact D.
    - destruct (declare A funs t d x) as [f|d1] eqn:E1; [discriminate|]. cbn [bind] in E. inversion G as [|? ? G1 G2]; subst.
      destruct (declare_effect t d x d1 W G1 E1) as [v [V1 [V2 [V3 [V4 [R [S1 [N D]]]]]]]].
      assert (K : wf A d1 /\ grows A d d1 /\ d_cursor d1 = d_cursor d).
      { destruct x as [n [e|]]; [|contradiction]. exact (declare_keeps A funs funs_typed t d n e d1 W G1 E1). }
      destruct K as [W1 [Gr Cu]].
      destruct (IH d1 d' W1) as [new [H1 [H2 [H3 [H4 [H5 [H6 H7]]]]]]]; [| exact E|].
      { eapply Forall_impl; [|exact G2]. intros [n [e|]] K; [|exact I]. eapply good_expr_mono; [apply Gr|apply Gr|exact K]. }
      exists (v :: new). rewrite H1, V1, <- app_assoc. cbn [map List.length combine seq]. rewrite V1 in H7. rewrite app_length in H7. cbn [List.length] in H7.
      split; [reflexivity|]. split; [congruence|]. split; [constructor; auto|]. split; [eapply same_rest_trans; eauto|]. rewrite Cu in *. split; [|split].
      + constructor; [|exact H5]. intros I. apply (H6 _ (List.length (d_vars d)) I). apply D. right. auto.
      + intros n y [<-|I]; [apply N|]. intros Q. apply (H6 n y I). apply D. left. exact Q.
      + intros b m y. rewrite H7. rewrite (D b m y). replace (List.length (d_vars d) + 1) with (S (List.length (d_vars d))) by lia. split.
        * intros [[Q|[Q1 [Q2 Q3]]]|[Q1 Q2]]; [left; exact Q|right; split; [exact Q1|]; left; congruence|right; split; [exact Q1|]; right; exact Q2].
        * intros [Q|[Q1 [Q2|Q2]]]; [left; left; exact Q| |right; auto]. inversion Q2; subst. left. right. auto.
  Qed.

  Lemma expressions_names : forall d l r, expressions A reg d l = inr r -> map fst r = map fst l.
  Proof.
    intros d. induction l as [|[x [e|]] l IH]; intros r E; cbn [expressions] in E.
    - inversion E. reflexivity.
    - destruct (expression A reg d e); [discriminate|]. cbn [bind] in E. destruct (expressions A reg d l) as [|r'] eqn:El; [discriminate|]. cbn [bind] in E. inversion E. cbn. f_equal. apply IH. reflexivity.
    - destruct (expressions A reg d l) as [|r'] eqn:El; [discriminate|]. cbn [bind] in E. inversion E. cbn. f_equal. apply IH. reflexivity.
  Qed.

  Lemma declaration : forall d t x rest d', history A reg funs restricted d -> exec A reg funs restricted (SDecl t x rest) d = inr d' ->
    let names := map fst (x :: rest) in
    exists new, d_vars d' = d_vars d ++ new /\ List.length new = List.length names /\ Forall (fun v => v_type v = t /\ v_ro v = false) new /\ same_rest d d' /\
      NoDup names /\ (forall n y, In n names -> ~ declares (d_blocks d) (d_cursor d) n y) /\
      (forall b n y, declares (d_blocks d') b n y <->
         declares (d_blocks d) b n y \/ (b = d_cursor d /\ In (n, y) (combine (rev names) (seq (List.length (d_vars d)) (List.length names))))).
  Proof.
    intros d t x rest d' H E names. cbn [exec] in E. destruct (expressions A reg d (x :: rest)) as [f|r] eqn:El; [discriminate|]. cbn [bind] in E.
    pose proof (history_wf d H) as W. pose proof (expressions_names _ _ _ El) as Nm. fold names in Nm.
    destruct (declare_all_effect t (rev r) d d' W) as [new [H1 [H2 [H3 [H4 [H5 [H6 H7]]]]]]]; [apply Forall_rev; eapply expressions_good; eauto|exact E|].
    assert (Ln : List.length (rev r) = List.length names) by (rewrite rev_length, <- Nm, map_length; reflexivity). rewrite map_rev, Nm in *. rewrite Ln in *.
    exists new. split; [exact H1|]. split; [congruence|]. split; [eapply Forall_impl; [|exact H3]; intros v [Q1 [Q2 _]]; split; assumption|]. split; [exact H4|].
    split; [rewrite <- (rev_involutive names); apply NoDup_rev; exact H5|]. split; [|exact H7]. intros n y I. apply H6. rewrite <- in_rev. exact I.
  Qed.

  Lemma assignment : forall d name path e d', history A reg funs restricted d -> components ":" name path -> exec A reg funs restricted (SAssign name e) d = inr d' ->
    exists x v v', means (d_blocks d) (d_cursor d) path x /\ nth_error (d_vars d) x = Some v /\ v_ro v = false /\
      nth_error (d_vars d') x = Some v' /\ v_type v' = v_type v /\ v_ro v' = false /\
      (forall y, y <> x -> nth_error (d_vars d') y = nth_error (d_vars d) y) /\ d_blocks d' = d_blocks d /\ same_rest d d'.
  Proof.
    intros d name path e d' H Hc E. pose proof (history_wf d H) as W. cbn [exec] in E. destruct (expression A reg d e) as [f|a] eqn:Ea; [discriminate|]. cbn [bind] in E.
    unfold assign in E. destruct (get_variable (d_blocks d) (d_cursor d) name) as [x|] eqn:Eg; [|discriminate].
    pose proof (found A d name x W Eg) as F. set (old := var_at A d x) in *.
    destruct (if v_fixed old then _ else _) as [t|]; [|discriminate]. destruct (content A funs d (promote_assign t a)) as [f|v] eqn:Ec; [discriminate|]. cbn [bind] in E.
    destruct (negb _); [discriminate|]. destruct (v_ro old) eqn:Er; [discriminate|]. inversion E; subst; clear E.
    exists x, old, (mkVar A (v_val v) (v_expr v) (v_type old) (v_fixed v) (v_init v) false (v_id v)).
    split; [eapply get_variable_means; [apply W|exact Hc|exact Eg]|]. split; [exact F|]. split; [exact Er|]. split; [apply nth_update_same; eapply nth_lt; eauto|].
    split; [reflexivity|]. split; [reflexivity|]. split; [intros y Hy; apply nth_update_other; exact Hy|]. split; [reflexivity|]. repeat split.
  Qed.

  Lemma never_changes : forall d d' , history A reg funs restricted d -> later A reg funs restricted d d' ->
    (forall b n x, declares (d_blocks d) b n x -> declares (d_blocks d') b n x) /\
    forall x v, nth_error (d_vars d) x = Some v -> exists v', nth_error (d_vars d') x = Some v' /\ v_type v' = v_type v /\ v_ro v' = v_ro v /\ (v_ro v = true -> v' = v).
  Proof.
    intros d d' H L. destruct (history_later d d' H L) as [H' G]. split; [|apply G].
    intros b n x [blk [E I]]. destruct (gr_b A d d' G b blk E) as [blk' [E' [_ [_ [_ [_ S]]]]]]. exists blk'. split; [exact E'|]. apply sfind_in. apply S. apply in_sfind; [|exact I].
    eapply wb_names; [apply (wf_b A d (history_wf d H))|exact E].
  Qed.
End Effect.
