(** Evaluation of the parameters of the objects of a deck. *)
From Coq Require Import ZArith List Bool String Ascii Lia Arith.
From Verif Require Import ScanModel ParseModel ExprModel ExprSyntax ExprBuildModel ExprSpec ExprProofs ExprRefProofs DepModel DepSpec DepProofs DeckModel DeckSyntax DeckMeaning DeckSpec
  DeckInvProofs DeckFinishProofs DeckLookupProofs DeckEffectProofs DeckObjectProofs DeckBraceProofs BlockModel BlockSpec BlockTreeProofs BlockContainerProofs BlockParamProofs.
Import ListNotations.
Local Open Scope nat_scope.

Section Eval.
  Variable A : arith.
  Variable funs : fsig -> list (value A) -> result (value A).
  Hypothesis funs_typed : typed_functions A funs.
  Notation deck := (deck A).
  Variable classes : list (string * class A).
  (** The deck as it is at the end of the text. *)
  Variable d0 : deck.
  Hypothesis W : wf A d0.
  Hypothesis P : pinv A classes d0.
  Hypothesis L : linked (d_objs d0).
  Hypothesis final : forall i o n p v e, nth_error (d_objs d0) i = Some o -> In (n, p) (o_params o) -> nth_error (d_vars d0) (p_var p) = Some v -> v_fixed v = false -> v_expr v = Some e ->
       eval (store_of A funs d0) e = Ok (v_val v) \/ eval (store_of A funs d0) e = BadCast \/ eval (store_of A funs d0) e = BadGet.

  (** ** One parameter *)
  Definition param_of (np : string * param) : Prop := exists i o, nth_error (d_objs d0) i = Some o /\ In np (o_params o).
  (** The variable and the C++ variable of a parameter the deck may assign to. *)
  Definition aims (np : string * param) (v : vrec A) (c : nat) : Prop :=
    nth_error (d_vars d0) (p_var (snd np)) = Some v /\ v_ro v = false /\ p_mem (snd np) = Some c.
  Definition sim (d : deck) : Prop :=
    d = set_mem A d0 (d_mem d) /\ List.length (d_mem d) = List.length (d_mem d0) /\
    forall c w w', nth_error (d_mem d0) c = Some w -> nth_error (d_mem d) c = Some w' -> type_of w' = type_of w.
  Lemma set_mem_same : forall d, set_mem A d (d_mem d) = d.
  Proof. intros []; reflexivity. Qed.
  Lemma sim_refl : sim d0.
  Proof. split; [symmetry; apply set_mem_same|]. split; [reflexivity|]. intros c w w' H1 H2. congruence. Qed.
  Lemma sim_vars : forall d, sim d -> d_vars d = d_vars d0 /\ d_objs d = d_objs d0 /\ d_blocks d = d_blocks d0.
  Proof. intros d [-> _]. repeat split. Qed.
  Lemma aims_cell : forall np v c, param_of np -> aims np v c -> exists t, nth_error (d_mem d0) c = Some t /\ type_of t = v_type v.
  Proof.
    intros [n p] v c [i [o [Ho Hp]]] [Hv [Hr Hc]]. cbn in *. destruct (p_good _ _ _ P i o Ho) as [cl [l [_ [_ [_ [H4 _]]]]]]. destruct (H4 n p Hp) as [k [_ [_ [v' [Hv' K]]]]].
    assert (v' = v) by congruence. subst v'. rewrite Hc in K. destruct k as [t|t w|t o'|w]; cbn in K.
    - destruct K as [_ [K1 [c' [K2 K3]]]]. inversion K2; subst c'. exists t. auto.
    - destruct K as [_ [K1 [_ [c' [K2 K3]]]]]. inversion K2; subst c'. exists t. auto.
    - destruct K as [K _]. congruence.
    - destruct K as [K _]. congruence.
  Qed.
  Lemma store_ok : forall d c t w, sim d -> nth_error (d_mem d0) c = Some t -> type_of w = type_of t ->
    exists d', store_value A d c w = inr d' /\ sim d' /\ d_mem d' = update_nth (d_mem d) c w.
  Proof.
    intros d c t w [S1 [S2 S3]] Ht Hw. unfold store_value. destruct (nth_error (d_mem d) c) as [old|] eqn:Eo; [|apply nth_error_None in Eo; apply nth_lt in Ht; lia].
    rewrite (S3 c t old Ht Eo), Hw, ty_eqb_refl. eexists. split; [reflexivity|]. split; [|reflexivity]. split; [|split; cbn].
    - rewrite S1. reflexivity.
    - rewrite length_update. exact S2.
    - intros c' u u' Hu Hu'. rewrite nth_update in Hu'. destruct (Nat.eqb_spec c' c) as [->|_]; [|eapply S3; eauto]. destruct (Nat.ltb _ _); [|discriminate]. inversion Hu'; subst. congruence.
  Qed.
  Lemma eval_sim : forall d e, sim d -> pure A e -> eval (store_of A funs d) e = eval (store_of A funs d0) e.
  Proof.
    intros d e S He. destruct (sim_vars d S) as [V _]. apply eval_reads.
    - intros x _. cbn. unfold var_at. rewrite V. reflexivity.
    - intros x Hx. exfalso. eapply pure_refs; eauto.
    - intros f _. reflexivity.
  Qed.

  Lemma step : forall np d, param_of np -> sim d ->
    match evaluate_param A funs np d with
    | inr d' => sim d' /\ (forall v c, aims np v c -> ready A funs d0 v) /\
                ((exists v c, aims np v c /\ d_mem d' = update_nth (d_mem d) c (v_val v)) \/ ((forall v c, ~ aims np v c) /\ d_mem d' = d_mem d))
    | inl e => (exists v c, aims np v c /\ ~ ready A funs d0 v /\ (forall m, e = NotInitialised m -> m = fst np /\ v_init v = false)) /\ e <> EvalUndefined
    end.
  Proof.
    intros [n p] d HP S. pose proof (sim_vars d S) as [V _]. destruct HP as [i [o [Ho Hp]]]. assert (HP : param_of (n, p)) by (exists i, o; auto).
    destruct (p_good _ _ _ P i o Ho) as [cl [l [_ [_ [_ [H4 _]]]]]]. destruct (H4 n p Hp) as [k [_ [_ [v [Hv K]]]]].
    unfold evaluate_param. destruct (p_mem p) as [c|] eqn:Ec.
    2:{ split; [exact S|]. split; [intros w c [_ [_ Q]]; cbn in Q; congruence|]. right. split; [intros w c [_ [_ Q]]; cbn in Q; congruence|reflexivity]. }
    rewrite V, Hv. destruct (v_init v) eqn:Ei; cbn [negb].
    2:{ assert (Hro : v_ro v = false) by (destruct k as [t|t w|t o'|w]; cbn in K; [apply K|apply K| |]; destruct K as [_ [K _]]; congruence).
        split; [|discriminate]. exists v, c. split; [split; [exact Hv|split; [exact Hro|exact Ec]]|]. split; [intros [Q _]; congruence|]. intros m Q. inversion Q; subst. auto. }
    destruct (v_ro v) eqn:Er.
    { split; [exact S|]. assert (N : forall w c, ~ aims (n, p) w c) by (intros w c' [Q1 [Q2 _]]; cbn in Q1; congruence).
      split; [intros w c' Q; destruct (N _ _ Q)|]. right. split; [exact N|reflexivity]. }
    assert (Aim : aims (n, p) v c) by (split; [exact Hv|split; [exact Er|exact Ec]]).
    assert (Uni : forall w c', aims (n, p) w c' -> w = v /\ c' = c) by (intros w c' [Q1 [Q2 Q3]]; cbn in Q1, Q3; split; congruence).
    destruct (aims_cell (n, p) v c HP Aim) as [t [Ht Hty]].
    pose proof (wv_typed _ _ _ _ (wf_v A d0 W) _ _ Hv) as T. unfold typed_var in T. destruct (v_fixed v) eqn:Ef.
    - destruct (store_ok d c t (v_val v) S Ht ltac:(congruence)) as [d' [E [S' M]]]. rewrite E. split; [exact S'|]. split.
      + intros w c' Q. destruct (Uni _ _ Q) as [-> _]. split; [exact Ei|left; exact Ef].
      + left. exists v, c. auto.
    - destruct T as [e [Ee [Te [We _]]]]. rewrite Ee. pose proof (p_pure _ _ _ P _ _ _ Hv Er Ef Ee) as Pe. rewrite (eval_sim d e S Pe).
      assert (NR : forall X, eval (store_of A funs d0) e = X -> (forall w, X <> Ok w) -> ~ ready A funs d0 v).
      { intros X EX NX [_ [Q|[e' [w [Q1 Q2]]]]]; [congruence|]. assert (e' = e) by congruence. subst e'. rewrite EX in Q2. exact (NX w Q2). }
      destruct (final i o n p v e Ho Hp Hv Ef Ee) as [F|[F|F]]; rewrite F.
      + assert (TV : type_of (v_val v) = type_of t) by (rewrite (eval_type A (store_of A funs d0) (typed_store A funs funs_typed d0) e We _ F); congruence).
        rewrite <- Ee, <- V. assert (Upd : update_nth (d_vars d) (p_var p) (mkVar A (v_val v) (v_expr v) (v_type v) false true false (v_id v)) = d_vars d).
        { apply update_same. rewrite V, Hv. f_equal. destruct v; cbn in *; congruence. }
        rewrite Upd. assert (SV : set_vars A d (d_vars d) = d) by (destruct d; reflexivity). rewrite SV.
        destruct (store_ok d c t (v_val v) S Ht TV) as [d' [E [S' M]]]. rewrite E. split; [exact S'|]. split.
        * intros w c' Q. destruct (Uni _ _ Q) as [-> _]. split; [exact Ei|right]. exists e, (v_val v). auto.
        * left. exists v, c. auto.
      + split; [|discriminate]. exists v, c. split; [exact Aim|]. split; [eapply NR; [exact F|discriminate]|]. intros m Q. discriminate.
      + split; [|discriminate]. exists v, c. split; [exact Aim|]. split; [eapply NR; [exact F|discriminate]|]. intros m Q. discriminate.
  Qed.

  (** ** All parameters *)
  Lemma aims_unique : forall np np' v v' c, param_of np -> param_of np' -> aims np v c -> aims np' v' c -> v' = v.
  Proof.
    intros [n p] [n' p'] v v' c [i [o [Ho Hp]]] [j [o' [Ho' Hp']]] [H1 [H2 H3]] [H1' [H2' H3']]. cbn in *.
    destruct (p_cells _ _ _ P i j (sig o) (sig o') n n' p p' c) as [-> ->].
    - rewrite nth_error_map, Ho. reflexivity.
    - rewrite nth_error_map, Ho'. reflexivity.
    - split; [exact Hp|exact H3].
    - split; [exact Hp'|exact H3'].
    - assert (o' = o) by congruence. subst o'. destruct (p_good _ _ _ P j o Ho) as [cl [l [_ [_ [N _]]]]]. apply in_sfind in Hp; [|exact N]. apply in_sfind in Hp'; [|exact N]. congruence.
  Qed.
  Lemma list_spec : forall l d, Forall param_of l -> sim d ->
    match evaluate_params A funs l d with
    | inr d' => sim d' /\ (forall np v c, In np l -> aims np v c -> ready A funs d0 v /\ nth_error (d_mem d') c = Some (v_val v)) /\
                (forall c, (forall np v, In np l -> ~ aims np v c) -> nth_error (d_mem d') c = nth_error (d_mem d) c)
    | inl e => (exists np v c, In np l /\ aims np v c /\ ~ ready A funs d0 v /\ (forall m, e = NotInitialised m -> m = fst np /\ v_init v = false)) /\ e <> EvalUndefined
    end.
  Proof.
    induction l as [|np l IH]; intros d Hl S; cbn [evaluate_params].
    - split; [exact S|]. split; [intros np v c []|reflexivity].
    - inversion Hl as [|? ? L1 L2]; subst. pose proof (step np d L1 S) as St. destruct (evaluate_param A funs np d) as [e|d1].
      + destruct St as [[v [c [H1 H2]]] H3]. split; [|exact H3]. exists np, v, c. split; [left; reflexivity|]. auto.
      + destruct St as [S1 [R1 M1]]. specialize (IH d1 L2 S1). destruct (evaluate_params A funs l d1) as [e|d2].
        * destruct IH as [[np' [v [c [H1 H2]]]] H3]. split; [|exact H3]. exists np', v, c. split; [right; exact H1|exact H2].
        * destruct IH as [S2 [I1 I2]]. split; [exact S2|].
          assert (Dec : forall l c, (exists np' v', In np' l /\ aims np' v' c) \/ (forall np' v', In np' l -> ~ aims np' v' c)).
          { clear. intros l c. induction l as [|np l IH]; [right; intros ? ? []|]. destruct IH as [[np' [v' [H1 H2]]]|IH]; [left; exists np', v'; split; [right; exact H1|exact H2]|].
            destruct (nth_error (d_vars d0) (p_var (snd np))) as [v|] eqn:Ev.
            - destruct (v_ro v) eqn:Er; [right; intros np' v' [<-|H] Q; [destruct Q as [Q1 [Q2 _]]; congruence|exact (IH _ _ H Q)]|].
              destruct (p_mem (snd np)) as [c'|] eqn:Ec; [|right; intros np' v' [<-|H] Q; [destruct Q as [_ [_ Q]]; congruence|exact (IH _ _ H Q)]].
              destruct (Nat.eq_dec c' c) as [->|Hn]; [left; exists np, v; split; [left; reflexivity|split; auto]|right; intros np' v' [<-|H] Q; [destruct Q as [_ [_ Q]]; congruence|exact (IH _ _ H Q)]].
            - right; intros np' v' [<-|H] Q; [destruct Q as [Q _]; congruence|exact (IH _ _ H Q)]. }
          split.
          -- intros np' v c [<-|H] Q; [|exact (I1 np' v c H Q)]. split; [exact (R1 v c Q)|]. destruct (Dec l c) as [[np' [v' [H1 H2]]]|N].
             ++ destruct (I1 np' v' c H1 H2) as [_ Q2]. rewrite Forall_forall in L2. rewrite (aims_unique np np' v v' c L1 (L2 np' H1) Q H2) in Q2. exact Q2.
             ++ rewrite (I2 c N). destruct M1 as [[v1 [c1 [Q1 M1]]]|[N1 _]]; [|destruct (N1 _ _ Q)]. destruct Q as [Qa [Qb Qc]], Q1 as [Q1a [Q1b Q1c]].
                assert (v1 = v) by congruence. assert (c1 = c) by congruence. subst. rewrite M1. apply nth_update_same.
                destruct (aims_cell np v c L1 (conj Qa (conj Qb Qc))) as [t [Ht _]]. apply nth_lt in Ht. destruct S as [_ [S _]]. lia.
          -- intros c N. rewrite (I2 c) by (intros np' v' H; apply N; right; exact H). destruct M1 as [[v1 [c1 [Q1 M1]]]|[_ M1]]; [|rewrite M1; reflexivity].
             rewrite M1, nth_update_other; [reflexivity|]. intros ->. exact (N np v1 (or_introl eq_refl) Q1).
  Qed.
  Lemma evaluate_app : forall l1 l2 d, evaluate_params A funs (l1 ++ l2) d = match evaluate_params A funs l1 d with inl e => inl e | inr d' => evaluate_params A funs l2 d' end.
  Proof. induction l1 as [|np l1 IH]; intros l2 d; [reflexivity|]. cbn. destruct (evaluate_param A funs np d); [reflexivity|apply IH]. Qed.
  Definition params_at (i : nat) : list (string * param) := match nth_error (d_objs d0) i with Some o => o_params o | None => [] end.
  Lemma params_at_of : forall i, Forall param_of (params_at i).
  Proof.
    intros i. unfold params_at. apply Forall_forall. intros np Hnp. destruct (nth_error (d_objs d0) i) as [o|] eqn:Ho; [|destruct Hnp]. exists i, o. auto.
  Qed.
  Lemma perform_params : forall order d, Forall (fun i => i < List.length (d_objs d0)) order -> sim d ->
    perform (fun _ => evaluate_object A funs) (map (pair Evaluate) order) d = evaluate_params A funs (flat_map params_at order) d.
  Proof.
    induction order as [|i order IH]; intros d Ho S; [reflexivity|]. inversion Ho as [|? ? O1 O2]; subst. cbn [flat_map map perform]. rewrite evaluate_app. unfold evaluate_object.
    destruct (sim_vars d S) as [_ [So _]]. rewrite So. unfold params_at at 1. destruct (nth_error (d_objs d0) i) as [o|] eqn:Eo; [|apply nth_error_None in Eo; lia].
    pose proof (list_spec (params_at i) d (params_at_of i) S) as Q. unfold params_at in Q. rewrite Eo in Q. destruct (evaluate_params A funs (o_params o) d) as [e|d1]; [reflexivity|]. apply IH; [exact O2|apply Q].
  Qed.

  Lemma evaluated : forall i, i < List.length (d_objs d0) ->
    (forall d1, evaluate_all A funs i d0 = inr d1 ->
       same_but_memory A d0 d1 /\
       (forall n v c, receives A d0 i n v c -> ready A funs d0 v /\ nth_error (d_mem d1) c = Some (v_val v)) /\
       (forall c, (forall n v, ~ receives A d0 i n v c) -> nth_error (d_mem d1) c = nth_error (d_mem d0) c)) /\
    (forall e, evaluate_all A funs i d0 = inl e ->
       e <> EvalUndefined /\ exists n v c, receives A d0 i n v c /\ ~ ready A funs d0 v /\ (forall m, e = NotInitialised m -> m = n /\ v_init v = false)).
  Proof.
    intros i Hi. unfold evaluate_all. rewrite hierarchy_preorder.
    set (order := preorder (d_objs d0) (List.length (d_objs d0)) i).
    assert (Ord : forall j, In j order <-> within (d_objs d0) i j) by (intros j; apply preorder_in; [exact L|exact Hi|lia]).
    rewrite perform_params; [|apply Forall_forall; intros j Hj; apply Ord in Hj; apply (within_lt _ L) in Hj; lia|apply sim_refl].
    assert (PO : Forall param_of (flat_map params_at order)).
    { apply Forall_forall. intros np H. apply in_flat_map in H. destruct H as [j [_ H]]. pose proof (params_at_of j) as Q. rewrite Forall_forall in Q. exact (Q np H). }
    assert (T1 : forall n v c, receives A d0 i n v c -> exists np, fst np = n /\ In np (flat_map params_at order) /\ aims np v c).
    { intros n v c [j [x [Hw [[o [p [Ho [Hp [Hx Hm]]]]] [Hv Hr]]]]]. exists (n, p). split; [reflexivity|]. split.
      - apply in_flat_map. exists j. split; [apply Ord; exact Hw|]. unfold params_at. rewrite Ho. exact Hp.
      - subst x. split; [exact Hv|split; [exact Hr|exact Hm]]. }
    assert (T2 : forall np v c, In np (flat_map params_at order) -> aims np v c -> receives A d0 i (fst np) v c).
    { intros [n p] v c H [Q1 [Q2 Q3]]. cbn in *. apply in_flat_map in H. destruct H as [j [Hj H]]. unfold params_at in H. destruct (nth_error (d_objs d0) j) as [o|] eqn:Ho; [|destruct H].
      exists j, (p_var p). split; [apply Ord; exact Hj|]. split; [exists o, p; auto|]. auto. }
    pose proof (list_spec _ d0 PO sim_refl) as Q. destruct (evaluate_params A funs (flat_map params_at order) d0) as [e|d1]; split; try (intros ? X; discriminate); intros ? X; inversion X; subst.
    - destruct Q as [[np [v [c [H1 [H2 [H3 H4]]]]]] H5]. split; [exact H5|]. exists (fst np), v, c. split; [apply (T2 np v c H1 H2)|]. auto.
    - destruct Q as [S [Q1 Q2]]. split; [|split].
      + destruct (sim_vars d2 S) as [V [O B]]. repeat split; auto. apply S.
      + intros n v c H. destruct (T1 n v c H) as [np [_ [H1 H2]]]. exact (Q1 np v c H1 H2).
      + intros c H. apply Q2. intros np v H1 H2. exact (H _ _ (T2 np v c H1 H2)).
  Qed.
End Eval.

Section Decks.
  Variable A : arith.
  Variable reg : string -> option fsig.
  Variable funs : fsig -> list (value A) -> result (value A).
  Variable restricted : bool.
  Hypothesis funs_typed : typed_functions A funs.
  Variable classes : list (string * class A).
  Hypothesis once : NoDup (map fst classes).
  Hypothesis typed : typed_classes A classes.
  Hypothesis distinct : distinct_params A classes.
  Variables (root rootclass : string) (prog : list statement) (d d' : deck A).
  Hypothesis ran : run A reg funs restricted prog (start A (new_deck A root rootclass classes)) = inr d.

  Lemma params_registered : forall i o, nth_error (d_objs d) i = Some o ->
    exists c l, In (o_class o, c) classes /\ c_impl A c = Some l /\
      (forall n, (exists x m, binds A d i n x m) <-> In n (map fst l)) /\
      forall n k, In (n, k) l -> exists x m v, binds A d i n x m /\ declares (d_blocks d) (o_vars o) n x /\ nth_error (d_vars d) x = Some v /\ param_state A (d_mem d) k m v.
  Proof.
    intros i o Ho. destruct (deck_pinv A reg funs restricted funs_typed classes once typed distinct root rootclass prog d ran) as [W P].
    destruct (p_good _ _ _ P i o Ho) as [c [l [H1 [H2 [H3 [H4 H5]]]]]]. exists c, l. split; [exact H1|]. split; [exact H2|]. split.
    - intros n. split.
      + intros [x [m [o' [p [Eo [Hp _]]]]]]. assert (o' = o) by congruence. subst o'. destruct (H4 n p Hp) as [k [Hk _]]. apply in_map_iff. exists (n, k). auto.
      + intros Hn. apply in_map_iff in Hn. destruct Hn as [[n' k] [<- Hk]]. destruct (H5 _ _ Hk) as [p Hp]. exists (p_var p), (p_mem p), o, p. auto.
    - intros n k Hk. destruct (H5 n k Hk) as [p Hp]. destruct (H4 n p Hp) as [k' [Hk' [D [v [Hv S]]]]].
      assert (k' = k). { pose proof (distinct _ _ _ H1 H2) as N. apply in_sfind in Hk; [|exact N]. apply in_sfind in Hk'; [|exact N]. congruence. } subst k'.
      exists (p_var p), (p_mem p), v. split; [exists o, p; auto|]. auto.
  Qed.
  Lemma cells_separate : forall i j n m x y c, binds A d i n x (Some c) -> binds A d j m y (Some c) -> i = j /\ n = m /\ x = y.
  Proof.
    intros i j n m x y c [o [p [Ho [Hp [Hx Hc]]]]] [o' [p' [Ho' [Hp' [Hy Hc']]]]].
    destruct (deck_pinv A reg funs restricted funs_typed classes once typed distinct root rootclass prog d ran) as [W P].
    destruct (p_cells _ _ _ P i j (sig o) (sig o') n m p p' c) as [-> ->]; [rewrite nth_error_map, Ho; reflexivity|rewrite nth_error_map, Ho'; reflexivity|split; assumption|split; assumption|].
    assert (o' = o) by congruence. subst o'. destruct (p_good _ _ _ P j o Ho) as [cl [l [_ [_ [N _]]]]]. cbn in N. apply in_sfind in Hp; [|exact N]. apply in_sfind in Hp'; [|exact N]. repeat split. congruence.
  Qed.
  Hypothesis done : finish A funs d = Accepted A d'.
  Lemma finished_linked : linked (d_objs d').
  Proof.
    destruct (deck_linked A reg funs restricted funs_typed root rootclass classes prog d once typed ran) as [LK _].
    destruct (deck_pinv A reg funs restricted funs_typed classes once typed distinct root rootclass prog d ran) as [W P].
    destruct (finish_pinv A funs classes d d' W P done) as [_ [_ [O _]]]. rewrite O. exact LK.
  Qed.
  Lemma params_evaluated : forall i, i < List.length (d_objs d') ->
    (forall d1, evaluate_all A funs i d' = inr d1 ->
       same_but_memory A d' d1 /\
       (forall n v c, receives A d' i n v c -> ready A funs d' v /\ nth_error (d_mem d1) c = Some (v_val v)) /\
       (forall c, (forall n v, ~ receives A d' i n v c) -> nth_error (d_mem d1) c = nth_error (d_mem d') c)) /\
    (forall e, evaluate_all A funs i d' = inl e ->
       e <> EvalUndefined /\ exists n v c, receives A d' i n v c /\ ~ ready A funs d' v /\ (forall m, e = NotInitialised m -> m = n /\ v_init v = false)).
  Proof.
    destruct (deck_pinv A reg funs restricted funs_typed classes once typed distinct root rootclass prog d ran) as [W P].
    destruct (finish_pinv A funs classes d d' W P done) as [W' [P' [O F]]].
    exact (evaluated A funs funs_typed classes d' W' P' finished_linked F).
  Qed.
End Decks.

(** ** When a variable is initialised *)
Section Init.
  Variable A : arith.
  Variable reg : string -> option fsig.
  Variable funs : fsig -> list (value A) -> result (value A).
  Variable restricted : bool.
  Hypothesis funs_typed : typed_functions A funs.

  Lemma make_object_vars : forall (d : deck A) name cls x v, nth_error (d_vars d) x = Some v -> nth_error (d_vars (make_object A d name cls)) x = Some v.
  Proof.
    intros d name cls x v Hx. unfold make_object. assert (G : d_vars (snd (get_class A d cls)) = d_vars d) by apply get_class_rest. destruct (get_class A d cls) as [c d1]. cbn in G. destruct (c_impl A c) as [l|]; [|cbn; congruence].
    assert (Q : forall b l d1 ps, nth_error (d_vars d1) x = Some v -> nth_error (d_vars (fst (add_params A b d1 l ps))) x = Some v).
    { clear. intros b. induction l as [|p l IH]; intros d1 ps H; [exact H|]. cbn [add_params]. destruct (add_param A b d1 p) as [d2 np] eqn:E. apply IH. destruct p as [n k]. cbn [add_param] in E. inversion E; subst. cbn. apply nth_app_l. exact H. }
    specialize (Q (d_cursor d1) l d1 [] ltac:(congruence)). destruct (add_params A (d_cursor d1) d1 l []) as [d2 ps]. exact Q.
  Qed.
  (** A variable gets a value by the assignments that mean it, and by nothing else. *)
  Lemma initialised : forall s d d' x v, history A reg funs restricted d -> exec A reg funs restricted s d = inr d' -> nth_error (d_vars d) x = Some v ->
    exists v', nth_error (d_vars d') x = Some v' /\
      ((exists name e path, s = SAssign name e /\ components ":"%char name path /\ means (d_blocks d) (d_cursor d) path x /\ v_init v' = true) \/
       ((forall name e path, s = SAssign name e -> components ":"%char name path -> ~ means (d_blocks d) (d_cursor d) path x) /\ v' = v)).
  Proof.
    intros s d d' x v H E Hx. pose proof (history_wf A reg funs restricted funs_typed d H) as W. destruct s as [t y rest|name e|file|c n|].
    - cbn [exec] in E. destruct (expressions A reg d (y :: rest)) as [f|r] eqn:El; [discriminate|]. cbn [bind] in E. destruct (declare_all_vars A funs _ _ _ _ E) as [new Hn].
      exists v. rewrite Hn. split; [apply nth_app_l; exact Hx|]. right. split; [intros; discriminate|reflexivity].
    - assert (Cmp : exists path, components ":"%char name path) by (exists (split ":"%char name); apply components_split; reflexivity).
      destruct Cmp as [path Cmp].
      assert (Uq : forall path', components ":"%char name path' -> path' = path) by (intros path' C'; apply components_split in C'; apply components_split in Cmp; congruence).
      cbn [exec] in E. destruct (expression A reg d e) as [f|a] eqn:Ea; [discriminate|]. cbn [bind] in E.
      unfold assign in E. destruct (get_variable (d_blocks d) (d_cursor d) name) as [z|] eqn:Eg; [|discriminate].
      pose proof (found A d name z W Eg) as F. destruct (if v_fixed (var_at A d z) then _ else _) as [t|]; [|discriminate]. destruct (content A funs d (promote_assign t a)) as [f|u] eqn:Ec; [discriminate|]. cbn [bind] in E.
      destruct (negb _); [discriminate|]. destruct (v_ro (var_at A d z)) eqn:Er; [discriminate|]. inversion E; subst d'; clear E. cbn [d_vars set_nextid set_vars].
      assert (LS : forall y, get_variable (d_blocks d) (d_cursor d) name = Some y <-> means (d_blocks d) (d_cursor d) path y) by (intros y; eapply get_variable_means; [apply W|exact Cmp]).
      destruct (Nat.eq_dec x z) as [->|Hn].
      + eexists. split; [apply nth_update_same; eapply nth_lt; eauto|]. left. exists name, e, path. split; [reflexivity|]. split; [exact Cmp|]. split; [apply LS; exact Eg|]. cbn. eapply content_new; eauto.
      + exists v. split; [rewrite nth_update_other by exact Hn; exact Hx|]. right. split; [|reflexivity]. intros name' e' path' Q C' M. inversion Q; subst. rewrite (Uq _ C') in M. apply LS in M. congruence.
    - cbn in E. inversion E; subst. exists v. split; [exact Hx|]. right. split; [intros; discriminate|reflexivity].
    - exists v. split; [|right; split; [intros; discriminate|reflexivity]].
      assert (Eo : open_block A restricted d c (block_name c n) = inr d') by (destruct n; exact E). clear E. unfold open_block in Eo. destruct (nth_error (d_blocks d) (d_cursor d)) as [cur|]; [|discriminate].
      assert (Hgo : match create_block A d (block_name c n) c with None => inl (error DuplicateBlock) | Some d' => inr (make_object A d' (block_name c n) c) end = inr d').
      { destruct restricted; [|exact Eo]. destruct (has_child A d (b_class cur) c) as [[|]|]; try discriminate. exact Eo. }
      destruct (create_block A d (block_name c n) c) as [d1|] eqn:Ec; [|discriminate]. inversion Hgo; subst. apply make_object_vars.
      unfold create_block in Ec. destruct (nth_error (d_blocks d) (d_cursor d)); [|discriminate]. destruct (sfind _ _); [discriminate|]. inversion Ec; subst. exact Hx.
    - exists v. split; [|right; split; [intros; discriminate|reflexivity]].
      cbn in E. unfold close_block in E. destruct (nth_error (d_blocks d) (d_cursor d)) as [cur|]; [|discriminate]. destruct (b_parent cur); [|discriminate].
      destruct (tree_up _ _) eqn:Et; [|discriminate]. apply tree_up_same in Et. destruct Et as [r [cu [l ->]]]. inversion E; subst. exact Hx.
  Qed.
End Init.
