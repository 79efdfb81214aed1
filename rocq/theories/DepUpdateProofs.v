(** Proofs about evaluation in update order and about histories of updates. *)
From Coq Require Import ZArith List Bool Lia Relations Permutation Sorted.
From Verif Require Import ExprModel DepModel DepSpec ExprProofs DepMapProofs DepProofs.
Import ListNotations.
Local Open Scope Z_scope.

Section Update.
  Variable A : arith.
  Variable exprs : nat -> expr A.
  Implicit Types st : store A.

  (** Only the listed variables differ. *)
  Definition frame (l : list nat) st st' : Prop := same_world st st' /\ forall x, ~ In x l -> s_val st' x = s_val st x.
  Lemma frame_refl l st : frame l st st.
  Proof. split; [split; [|split; [|split]]|]; reflexivity. Qed.
  Lemma frame_trans l1 l2 l st st' st'' : incl l1 l -> incl l2 l -> frame l1 st st' -> frame l2 st' st'' -> frame l st st''.
  Proof.
    intros H1 H2 ((E1 & E2 & E3 & E4) & Ev) ((E1' & E2' & E3' & E4') & Ev'). split.
    - split; [congruence|]. split; [congruence|]. split; congruence.
    - intros x Hx. rewrite Ev', Ev; [reflexivity|intros H; apply Hx, H1, H|intros H; apply Hx, H2, H].
  Qed.
  Lemma frame_set st v x : frame [v] st (set_val st v x).
  Proof.
    split; [split; [|split; [|split]]; reflexivity|]. intros y Hy. simpl. destruct (Nat.eqb_spec y v); [|reflexivity].
    subst. exfalso. apply Hy. left. reflexivity.
  Qed.
  Lemma frame_eval l st st' e : frame l st st' -> (forall x, In x l -> ~ In x (refs e)) -> eval st' e = eval st e.
  Proof.
    intros ((_ & _ & E3 & E4) & Ev) H. apply eval_reads.
    - intros x Hx. apply Ev. intros Hl. exact (H x Hl Hx).
    - intros x _. rewrite E3. reflexivity.
    - intros f _. rewrite E4. reflexivity.
  Qed.

  (** Every variable comes after those it reads. *)
  Definition topo (l : list nat) : Prop := forall a v b u, l = a ++ v :: b -> In u l -> In u (refs (exprs v)) -> In u a.
  Lemma topo_tail x l : NoDup (x :: l) -> topo (x :: l) -> topo l.
  Proof.
    intros Hn H a v b u E Hu Hr. assert (G : In u (x :: a)).
    { apply (H (x :: a) v b u); [rewrite E; reflexivity|right; exact Hu|exact Hr]. }
    destruct G as [->|G]; [|exact G]. inversion Hn; contradiction.
  Qed.
  Lemma topo_head x l : topo (x :: l) -> forall y, In y (x :: l) -> ~ In y (refs (exprs x)).
  Proof. intros H y Hy Hr. exact (H [] x l y eq_refl Hy Hr). Qed.

  Definition is_error {X} (r : result X) : Prop := match r with Ok _ => False | _ => True end.

  Lemma evaluate_list_spec l : NoDup l -> topo l -> forall st,
    match evaluate_list exprs (map Some l) st with
    | Ok st' => frame l st st' /\ forall v, In v l -> has_value exprs st' v
    | _ => exists v st1, In v l /\ frame l st st1 /\ is_error (eval st1 (exprs v))
    end.
  Proof.
    induction l as [|x l IH]; intros Hn Ht st; cbn [map evaluate_list].
    - split; [apply frame_refl|intros v []].
    - inversion Hn; subst. specialize (IH H2 (topo_tail x l Hn Ht)). unfold evaluate.
      destruct (eval st (exprs x)) as [w| | |] eqn:E; cbn [rbind];
        try (exists x, st; split; [left; reflexivity|]; split; [apply frame_refl|]; rewrite E; exact Logic.I).
      specialize (IH (set_val st x w)).
      assert (F1 := frame_set st x w).
      assert (J : forall st2, frame l (set_val st x w) st2 -> frame (x :: l) st st2).
      { intros st2 F2. eapply frame_trans; [| |exact F1|exact F2]; intros y Hy; simpl in *; tauto. }
      destruct (evaluate_list exprs (map Some l) (set_val st x w)) as [st'| | |].
      + destruct IH as [F2 Hv]. split; [apply J, F2|]. intros v [->|Hv']; [|apply Hv, Hv'].
        unfold has_value. rewrite (frame_eval (v :: l) st st'); [|apply J, F2|apply topo_head, Ht].
        rewrite E. f_equal. destruct F2 as [_ F2]. rewrite F2 by assumption. simpl. rewrite Nat.eqb_refl. reflexivity.
      + destruct IH as (v & st1 & Hv & F2 & He). exists v, st1. split; [right; exact Hv|]. split; [apply J, F2|exact He].
      + destruct IH as (v & st1 & Hv & F2 & He). exists v, st1. split; [right; exact Hv|]. split; [apply J, F2|exact He].
      + destruct IH as (v & st1 & Hv & F2 & He). exists v, st1. split; [right; exact Hv|]. split; [apply J, F2|exact He].
  Qed.

  Lemma evaluate_caught_spec l : NoDup l -> topo l -> forall st,
    match evaluate_caught exprs (map Some l) st with
    | Ok st' => frame l st st' /\ forall v, In v l ->
                  has_value exprs st' v \/ eval st' (exprs v) = BadCast \/ eval st' (exprs v) = BadGet
    | Undefined => exists v st1, In v l /\ frame l st st1 /\ eval st1 (exprs v) = Undefined
    | _ => False
    end.
  Proof.
    induction l as [|x l IH]; intros Hn Ht st; cbn [map evaluate_caught].
    - split; [apply frame_refl|intros v []].
    - inversion Hn; subst. specialize (IH H2 (topo_tail x l Hn Ht)). unfold evaluate.
      destruct (eval st (exprs x)) as [w| | |] eqn:E; cbn [rbind].
      + specialize (IH (set_val st x w)).
        assert (F1 := frame_set st x w).
        assert (J : forall st2, frame l (set_val st x w) st2 -> frame (x :: l) st st2).
        { intros st2 F2. eapply frame_trans; [| |exact F1|exact F2]; intros y Hy; simpl in *; tauto. }
        destruct (evaluate_caught exprs (map Some l) (set_val st x w)) as [st'| | |]; [|exact IH|exact IH|].
        * destruct IH as [F2 Hv]. split; [apply J, F2|]. intros v [->|Hv']; [|apply Hv, Hv']. left.
          unfold has_value. rewrite (frame_eval (v :: l) st st'); [|apply J, F2|apply topo_head, Ht].
          rewrite E. f_equal. destruct F2 as [_ F2]. rewrite F2 by assumption. simpl. rewrite Nat.eqb_refl. reflexivity.
        * destruct IH as (v & st1 & Hv & F2 & He). exists v, st1. split; [right; exact Hv|]. split; [apply J, F2|exact He].
      + specialize (IH st).
        assert (J : forall st2, frame l st st2 -> frame (x :: l) st st2).
        { intros st2 F2. eapply frame_trans; [| |apply (frame_refl l)|exact F2]; intros y Hy; simpl in *; tauto. }
        destruct (evaluate_caught exprs (map Some l) st) as [st'| | |]; [|exact IH|exact IH|].
        * destruct IH as [F2 Hv]. split; [apply J, F2|]. intros v [->|Hv']; [|apply Hv, Hv']. right. left.
          rewrite (frame_eval (v :: l) st st'); [exact E|apply J, F2|apply topo_head, Ht].
        * destruct IH as (v & st1 & Hv & F2 & He). exists v, st1. split; [right; exact Hv|]. split; [apply J, F2|exact He].
      + specialize (IH st).
        assert (J : forall st2, frame l st st2 -> frame (x :: l) st st2).
        { intros st2 F2. eapply frame_trans; [| |apply (frame_refl l)|exact F2]; intros y Hy; simpl in *; tauto. }
        destruct (evaluate_caught exprs (map Some l) st) as [st'| | |]; [|exact IH|exact IH|].
        * destruct IH as [F2 Hv]. split; [apply J, F2|]. intros v [->|Hv']; [|apply Hv, Hv']. right. right.
          rewrite (frame_eval (v :: l) st st'); [exact E|apply J, F2|apply topo_head, Ht].
        * destruct IH as (v & st1 & Hv & F2 & He). exists v, st1. split; [right; exact Hv|]. split; [apply J, F2|exact He].
      + exists x, st. split; [left; reflexivity|]. split; [apply frame_refl|exact E].
  Qed.

  (** Parameters. *)
  Lemma params_spec ro st dep : forall c d,
    fold_left (param_update ro st) dep c d =
    if existsb (Nat.eqb d) dep && negb (ro d) then s_val st d else c d.
  Proof.
    induction dep as [|x dep IH]; intros c d; cbn [fold_left existsb]; [reflexivity|]. rewrite IH. unfold param_update.
    destruct (Nat.eqb_spec d x).
    - subst. cbn [orb]. destruct (ro x) eqn:E; cbn [negb]; [rewrite !andb_false_r; reflexivity|].
      rewrite Nat.eqb_refl, !andb_true_r. destruct (existsb _ _); reflexivity.
    - cbn [orb]. destruct (ro x); [reflexivity|]. destruct (Nat.eqb_spec d x); [congruence|reflexivity].
  Qed.

  Lemma ninsert_In x v l : In x (ninsert v l) <-> x = v \/ In x l.
  Proof.
    unfold ninsert. destruct (existsb (Nat.eqb v) l) eqn:E.
    - apply existsb_exists in E. destruct E as (y & Hy & E). apply Nat.eqb_eq in E. subst. intuition congruence.
    - rewrite in_app_iff. simpl. intuition.
  Qed.
  Lemma ninsert_nodup v l : NoDup l -> NoDup (ninsert v l).
  Proof.
    unfold ninsert. destruct (existsb (Nat.eqb v) l) eqn:E; [auto|]. intros Hn.
    apply NoDup_Add with (a := v) (l := l).
    - replace l with (l ++ []) at 1 by apply app_nil_r. apply Add_app.
    - split; [exact Hn|]. intros H. assert (existsb (Nat.eqb v) l = true); [|congruence]. apply existsb_exists. exists v. split; [exact H|apply Nat.eqb_refl].
  Qed.

  (** ** Histories *)
  Variables (dummy : nat) (st0 : store A) (b : bvars) (m0 : dmap) (ro : nat -> bool).
  Let V := defined st0 b.
  Hypothesis Hmap : dep_map A exprs st0 dummy b = Some m0.
  Hypothesis Hset : setting exprs V dummy st0.
  Hypothesis Hac : acyclic exprs V.

  Lemma the_graph : graph A exprs st0 dummy V m0.
  Proof. destruct Hset as (H1 & H2 & _). apply dep_map_graph; assumption. Qed.
  Lemma dummy_refs : refs (exprs dummy) = [].
  Proof. destruct Hset as (_ & _ & (x & E) & _). rewrite E. reflexivity. Qed.

  (** A variable that cannot change keeps its value as long as only variables that can change, or
      [dummy], are evaluated. *)
  Lemma unchanging_keeps ind l st st' v :
    (forall x, In x l -> x = dummy \/ changing exprs V ind x) ->
    In v V -> ~ changing exprs V ind v -> frame l st st' -> has_value exprs st v -> has_value exprs st' v.
  Proof.
    intros Hl Hv Hc F Hh. destruct Hset as (_ & _ & _ & Hnd). unfold has_value in *.
    assert (Hdv : v <> dummy) by (intros ->; exact (g_dummy _ _ _ _ _ _ the_graph Hv)).
    rewrite (frame_eval l st st' _ F).
    - rewrite Hh. f_equal. destruct F as [_ F]. symmetry. apply F. intros H. apply Hl in H. tauto.
    - intros x Hx Hr. destruct (Hl x Hx) as [->|(u & H1 & H2 & H3)]; [exact (Hnd v Hv Hr)|].
      apply Hc. exists u. split; [exact H1|]. split; [exact H2|]. eapply rt_trans; [exact H3|]. apply rt_step.
      split; [apply (depends_in_r A exprs V u x H3 H2)|]. split; assumption.
  Qed.

  Record inv (u : updater) st : Prop := mkInv {
    i_map : same (u_map u) m0;
    i_id : forall x, s_id st x = s_id st0 x;
    i_fixed : forall x, s_fixed st x = s_fixed st0 x;
    i_dummy : In dummy (u_ind u);
    i_ind_nodup : NoDup (u_ind u);
    i_ind : forall x, In x (u_ind u) -> x = dummy \/ In x V;
    i_dep_nodup : NoDup (u_dep u);
    i_dep : incl (u_dep u) V;
    i_value : forall v, In v V -> ~ changing exprs V (u_ind u) v -> has_value exprs st v;
    i_list : u_valid u = true -> exists vs, u_list u = map Some vs /\ good_list exprs V (u_ind u) (u_dep u) dummy vs
  }.

  Lemma good_empty ind : good_list exprs V ind [] dummy [].
  Proof.
    split; [constructor|]. split; [|intros a v b' u E; destruct a; discriminate].
    intros v _. split; [intros []|]. intros (_ & _ & w & [] & _).
  Qed.

  (** What an update does. *)
  Lemma update_spec u st c fuel : inv u st -> (enough m0 (u_ind u) (u_dep u) <= fuel)%nat ->
    exists u' r, update A exprs fuel ro u st c = Some (Some (u', r)) /\
      u_ind u' = u_ind u /\ u_dep u' = u_dep u /\ u_valid u' = true /\ same (u_map u') m0 /\
      (exists vs, u_list u' = map Some vs /\ good_list exprs V (u_ind u) (u_dep u) dummy vs /\
        match r with
        | Ok (st', c') =>
            frame vs st st' /\ (forall v, In v vs -> has_value exprs st' v) /\
            forall d, c' d = if existsb (Nat.eqb d) (u_dep u) && negb (ro d) then s_val st' d else c d
        | _ => exists v st1, In v vs /\ frame vs st st1 /\ is_error (eval st1 (exprs v))
        end).
  Proof.
    intros I Hf. unfold update. cbn zeta.
    assert (G : forall u', u_dep u' = u_dep u -> forall vs, u_list u' = map Some vs -> good_list exprs V (u_ind u) (u_dep u) dummy vs ->
      match rbind (evaluate_list exprs (u_list u') st) (fun st' => Ok (st', fold_left (param_update ro st') (u_dep u') c)) with
        | Ok (st', c') =>
            frame vs st st' /\ (forall v, In v vs -> has_value exprs st' v) /\
            forall d, c' d = if existsb (Nat.eqb d) (u_dep u) && negb (ro d) then s_val st' d else c d
        | _ => exists v st1, In v vs /\ frame vs st st1 /\ is_error (eval st1 (exprs v))
        end).
    { intros u' Ed vs -> (G1 & G2 & G3). pose proof (evaluate_list_spec vs G1 G3 st) as E. rewrite Ed.
      destruct (evaluate_list exprs (map Some vs) st) as [st'| | |]; cbn [rbind]; try exact E.
      destruct E as [E1 E2]. split; [exact E1|]. split; [exact E2|]. intros d. apply params_spec. }
    destruct (u_valid u) eqn:Ev.
    - destruct (i_list _ _ I Ev) as (vs & El & Hg).
      exists u. eexists. split; [reflexivity|]. split; [reflexivity|]. split; [reflexivity|]. split; [exact Ev|]. split; [apply (i_map _ _ I)|].
      exists vs. split; [exact El|]. split; [exact Hg|]. apply (G u eq_refl vs El Hg).
    - destruct Hset as (H1 & H2 & H3 & H4).
      destruct (make_update_list_good A exprs st0 dummy H1 H2 V m0 the_graph H4 dummy_refs Hac (u_map u) (u_ind u) (u_dep u) fuel)
        as (m' & vs & E & S & Hg & _).
      + apply (i_map _ _ I).
      + apply (i_ind_nodup _ _ I).
      + apply (i_dep_nodup _ _ I).
      + apply (i_dummy _ _ I).
      + apply (i_ind _ _ I).
      + apply (i_dep _ _ I).
      + exact Hf.
      + rewrite (map_ext _ _ (i_id _ _ I) (u_ind u)), (map_ext _ _ (i_id _ _ I) (u_dep u)), E.
        set (u' := mkUpd m' (map Some vs) (u_ind u) (u_dep u) true).
        exists u'. eexists. split; [reflexivity|]. split; [reflexivity|]. split; [reflexivity|]. split; [reflexivity|]. split; [exact S|].
        exists vs. split; [reflexivity|]. split; [exact Hg|]. apply (G u' eq_refl vs eq_refl Hg).
  Qed.

  Lemma good_changing ind dep vs : good_list exprs V ind dep dummy vs -> forall x, In x vs -> x = dummy \/ changing exprs V ind x.
  Proof.
    intros (_ & H & _) x Hx. destruct (Nat.eq_dec x dummy); [auto|]. apply H in Hx; [|assumption]. tauto.
  Qed.

  (** More fuel does not change the outcome. *)
  Lemma pred_loop_mono ind n : forall n' s r, (n <= n')%nat -> pred_loop n ind s = Some r -> pred_loop n' ind s = Some r.
  Proof.
    induction n as [|n IH]; intros n' [[m work] preds] r Hle E; [discriminate|]. destruct n' as [|n']; [lia|]. cbn [pred_loop] in *.
    destruct work; [exact E|]. apply IH; [lia|exact E].
  Qed.
  Lemma foll_loop_mono m preds n : forall n' s r, (n <= n')%nat -> foll_loop n m preds s = Some r -> foll_loop n' m preds s = Some r.
  Proof.
    induction n as [|n IH]; intros n' [work foll] r Hle E; [discriminate|]. destruct n' as [|n']; [lia|]. cbn [foll_loop] in *.
    destruct work; [exact E|]. apply IH; [lia|exact E].
  Qed.
  Lemma make_update_list_mono n n' m ind dep r : (n <= n')%nat -> make_update_list n m ind dep = Some r -> make_update_list n' m ind dep = Some r.
  Proof.
    intros Hle. unfold make_update_list, predecessors, followers.
    match goal with |- match pred_loop n ind ?s with _ => _ end = _ -> _ => destruct (pred_loop n ind s) as [[m1 preds]|] eqn:E; [|discriminate] end.
    rewrite (pred_loop_mono _ _ n' _ _ Hle E).
    match goal with |- match foll_loop n m1 preds ?s with _ => _ end = _ -> _ => destruct (foll_loop n m1 preds s) as [foll|] eqn:E2; [|discriminate] end.
    rewrite (foll_loop_mono _ _ _ n' _ _ Hle E2). auto.
  Qed.
  Lemma update_mono n n' u st c r : (n <= n')%nat -> update A exprs n ro u st c = Some r -> update A exprs n' ro u st c = Some r.
  Proof.
    intros Hle. unfold update. cbn zeta. destruct (u_valid u); [auto|].
    destruct (make_update_list n _ _ _) as [x|] eqn:E; [|discriminate]. rewrite (make_update_list_mono _ n' _ _ _ _ Hle E). auto.
  Qed.

  Lemma changing_mono ind ind' v : incl ind ind' -> changing exprs V ind v -> changing exprs V ind' v.
  Proof. intros Hi (u & H1 & H2). exists u. split; [|exact H2]. destruct H1 as [H1|H1]; [left; apply Hi, H1|right; exact H1]. Qed.

  Lemma history_inv u st c : history exprs V st0 m0 dummy ro u st c -> inv u st.
  Proof.
    induction 1 as [st c Ei Ef Hv|u st c v _ I Hv|u st c v _ I Hv|u st c _ I|u st c st' c' _ I W
                   |fuel u st c u' st' c' _ I E|fuel u st c ind dep m' l _ I N1 N2 N3 N4 N5 E].
    - constructor; cbn [new_updater u_map u_ind u_dep u_valid u_list]; auto.
      + apply same_refl.
      + left. reflexivity.
      + repeat constructor. intros [].
      + intros x [->|[]]. auto.
      + constructor.
      + intros x [].
      + intros v HvV Hc. apply Hv; [exact HvV|]. intros H. apply Hc. apply (changing_mono [] [dummy]); [intros x []|exact H].
      + intros _. exists []. split; [reflexivity|apply good_empty].
    - destruct I. constructor; cbn [add_independent u_map u_ind u_dep u_valid u_list]; auto.
      + apply ninsert_In. auto.
      + apply ninsert_nodup. assumption.
      + intros x Hx. apply ninsert_In in Hx. destruct Hx as [->|Hx]; auto.
      + intros w Hw Hc. apply i_value0; [exact Hw|]. intros H. apply Hc. apply (changing_mono (u_ind u)); [|exact H].
        intros x Hx. apply ninsert_In. auto.
      + discriminate.
    - unfold add_dependent. destruct (s_fixed st v) eqn:Ef; [exact I|]. destruct I. constructor; cbn [u_map u_ind u_dep u_valid u_list]; auto.
      + apply ninsert_nodup. assumption.
      + intros x Hx. apply ninsert_In in Hx. destruct Hx as [->|Hx]; [|auto]. destruct Hv; [assumption|congruence].
      + discriminate.
    - destruct I. constructor; cbn [clear_dependent u_map u_ind u_dep u_valid u_list]; auto.
      + constructor.
      + intros x [].
      + discriminate.
    - destruct I. destruct W as (W1 & W2 & W3 & W4 & W5). constructor; auto.
      + intros x. rewrite W3. apply i_id0.
      + intros x. rewrite W2. apply i_fixed0.
      + intros v Hv Hc. unfold has_value. rewrite W1.
        rewrite (eval_reads A st st').
        * apply i_value0; assumption.
        * intros x _. apply W1.
        * intros x Hx. apply (W5 v x Hv); [|exact Hx]. intros Hin. apply Hc. exists v. split; [auto|]. split; [exact Hv|apply rt_refl].
        * intros f [Hf|Hf]; [apply W4, Hf|]. exfalso. apply Hc. exists v. split; [auto|]. split; [exact Hv|apply rt_refl].
    - destruct (update_spec u st c (max fuel (enough m0 (u_ind u) (u_dep u))) I ltac:(lia))
        as (u2 & r & E2 & U1 & U2 & U3 & U4 & vs & L & Hg & Hr).
      apply (update_mono _ (max fuel (enough m0 (u_ind u) (u_dep u)))) in E; [|lia]. rewrite E2 in E. injection E as -> ->.
      destruct Hr as (F & Hh & _). assert (F' := F). destruct F' as [(E1' & E2' & _) _]. destruct I. constructor; rewrite ?U1, ?U2; auto.
      + intros x. rewrite E2'. apply i_id0.
      + intros x. rewrite E1'. apply i_fixed0.
      + intros v Hv Hc. apply (unchanging_keeps (u_ind u) vs st st' v); auto. apply (good_changing _ _ _ Hg).
      + intros _. exists vs. auto.
    - destruct Hset as (H1 & H2 & H3 & H4).
      destruct (make_update_list_good A exprs st0 dummy H1 H2 V m0 the_graph H4 dummy_refs Hac (u_map u) ind dep (max fuel (enough m0 ind dep)))
        as (m2 & vs & E2 & S & _); auto.
      + apply (i_map _ _ I).
      + intros x Hx. apply N4 in Hx. destruct Hx as [->|Hx]; auto.
      + lia.
      + rewrite (map_ext _ _ (i_id _ _ I) ind), (map_ext _ _ (i_id _ _ I) dep) in E.
        apply (make_update_list_mono _ (max fuel (enough m0 ind dep))) in E; [|lia]. rewrite E2 in E. injection E as E3 E4. subst m' l.
        destruct I. constructor; cbn [u_map u_ind u_dep u_valid u_list]; auto.
  Qed.

  (** After an update the dependent variables are up to date. *)
  Lemma update_up_to_date u st c fuel : history exprs V st0 m0 dummy ro u st c -> (enough m0 (u_ind u) (u_dep u) <= fuel)%nat ->
    exists u' r, update A exprs fuel ro u st c = Some (Some (u', r)) /\
      u_ind u' = u_ind u /\ u_dep u' = u_dep u /\
      match r with
      | Ok (st', c') =>
          (forall d, In d (u_dep u) -> up_to_date exprs V st' d /\ (ro d = false -> c' d = s_val st' d)) /\
          (same_world st st' /\
           (forall x, s_val st' x = s_val st x \/ x = dummy \/ (In x V /\ changing exprs V (u_ind u) x /\ needed exprs V (u_dep u) x)) /\
           (forall x, c' x = c x \/ In x (u_dep u)))
      | _ => exists v st1, (v = dummy \/ In v V /\ changing exprs V (u_ind u) v /\ needed exprs V (u_dep u) v) /\
                           same_world st st1 /\ is_error (eval st1 (exprs v))
      end.
  Proof.
    intros H Hf. assert (I := history_inv u st c H).
    destruct (update_spec u st c fuel I Hf) as (u' & r & E & U1 & U2 & U3 & U4 & vs & L & Hg & Hr).
    exists u', r. split; [exact E|]. split; [exact U1|]. split; [exact U2|].
    assert (Hl : forall v, In v vs -> v = dummy \/ In v V /\ changing exprs V (u_ind u) v /\ needed exprs V (u_dep u) v).
    { intros v Hv. destruct (Nat.eq_dec v dummy); [auto|]. right. apply Hg; assumption. }
    destruct r as [[st' c']| | |]; try (destruct Hr as (v & st1 & Hv & [F _] & He); exists v, st1; auto).
    destruct Hr as (F & Hh & Hc). split; [|split; [apply F|split]].
    - intros d Hd. assert (HdV : In d V) by (apply (i_dep _ _ I), Hd). split.
      + intros w Hw. assert (HwV : In w V) by (apply (depends_in A exprs V w d Hw HdV)).
        assert (Hwn : w <> dummy) by (intros ->; exact (g_dummy _ _ _ _ _ _ the_graph HwV)).
        destruct (in_dec Nat.eq_dec w vs) as [Hin|Hout]; [apply Hh, Hin|].
        assert (Hnc : ~ changing exprs V (u_ind u) w).
        { intros Hch. apply Hout. apply Hg; [exact Hwn|]. split; [exact HwV|]. split; [exact Hch|]. exists d. auto. }
        apply (unchanging_keeps (u_ind u) vs st st' w); auto; [apply (good_changing _ _ _ Hg)|]. apply (i_value _ _ I); assumption.
      + intros Hro. rewrite Hc, Hro. cbn [negb]. rewrite andb_true_r.
        assert (Ex : existsb (Nat.eqb d) (u_dep u) = true) by (apply existsb_exists; exists d; split; [exact Hd|apply Nat.eqb_refl]).
        rewrite Ex. reflexivity.
    - intros x. destruct (in_dec Nat.eq_dec x vs) as [Hin|Hout]; [right; apply Hl, Hin|left; apply F, Hout].
    - intros x. rewrite Hc. destruct (existsb (Nat.eqb x) (u_dep u)) eqn:Ex; [|left; reflexivity]. right.
      apply existsb_exists in Ex. destruct Ex as (y & Hy & Ey). apply Nat.eqb_eq in Ey. subst. exact Hy.
  Qed.

  (** [updateAll()] on a new map. *)
  Lemma update_all_spec st : exists m' r, update_all A exprs m0 st = Some (m', r) /\
    match r with
    | Ok st' => same_world st st' /\ (forall x, x <> dummy -> ~ In x V -> s_val st' x = s_val st x) /\
                forall v, In v V -> has_value exprs st' v \/ eval st' (exprs v) = BadCast \/ eval st' (exprs v) = BadGet
    | Undefined => exists v st1, (v = dummy \/ In v V) /\ same_world st st1 /\ eval st1 (exprs v) = Undefined
    | _ => False
    end.
  Proof.
    destruct Hset as (H1 & H2 & H3 & H4). unfold update_all.
    destruct (order_good A exprs st0 dummy H2 V m0 the_graph dummy_refs Hac m0 (map fst m0)) as (m' & vs & E & S & N & P & T).
    - apply same_refl.
    - apply sorted_nodup, (g_sorted _ _ _ _ _ _ the_graph).
    - intros k Hk. apply dmem_keys, Hk.
    - rewrite E. exists m'. eexists. split; [reflexivity|].
      assert (Hin : forall x, In x vs <-> x = dummy \/ In x V).
      { intros x. rewrite P, <- dmem_keys, (g_mem _ _ _ _ _ _ the_graph). split; [|intros Hx; exists x; auto].
        intros (y & Ey & Hy). apply H2 in Ey. subst. exact Hy. }
      pose proof (evaluate_caught_spec vs N T st) as C. destruct (evaluate_caught exprs (map Some vs) st) as [st'| | |]; try exact C.
      + destruct C as [F C]. split; [apply F|]. split.
        * intros x Hx1 Hx2. apply F. rewrite Hin. tauto.
        * intros v Hv. apply C, Hin. auto.
      + destruct C as (v & st1 & Hv & [F _] & Ev). exists v, st1. split; [apply Hin, Hv|auto].
  Qed.

  (** The values of variables that are up to date are determined by the rest of the state. *)
  Lemma up_to_date_determined st st' v :
    same_world st st' -> (forall x, ~ In x V -> s_val st' x = s_val st x) -> In v V ->
    up_to_date exprs V st v -> up_to_date exprs V st' v -> s_val st' v = s_val st v.
  Proof.
    intros (_ & _ & Ee & Ef) Hx. pose proof (edge_wf A exprs V Hac v) as W. induction W as [v _ IH]. intros Hv H H'.
    assert (E : eval st' (exprs v) = eval st (exprs v)).
    { apply eval_reads.
      - intros x Hr. destruct (in_dec Nat.eq_dec x V) as [HxV|Hn]; [|apply Hx, Hn].
        assert (He : edge exprs V x v) by (split; [|split]; assumption). apply IH; [exact He|exact HxV| |].
        + intros w Hw. apply H. eapply rt_trans; [exact Hw|apply rt_step, He].
        + intros w Hw. apply H'. eapply rt_trans; [exact Hw|apply rt_step, He].
      - intros x _. rewrite Ee. reflexivity.
      - intros f _. rewrite Ef. reflexivity. }
    pose proof (H v (rt_refl _ _ _)) as V1. pose proof (H' v (rt_refl _ _ _)) as V2. unfold has_value in *. congruence.
  Qed.
End Update.

(** ** Building a map again *)
Section Recreate.
  Variable A : arith.
  Variable exprs : nat -> expr A.
  Variable st : store A.
  Variable dummy : nat.

  (** Variables can be added if none of their ids is in use. *)
  Lemma add_variables_iff vs : forall m,
    (exists m', add_variables A exprs st dummy vs m = Some m') <->
    (forall v, In v (live A st vs) -> dmem m (s_id st v) = false) /\ NoDup (map (s_id st) (live A st vs)).
  Proof.
    unfold live. induction vs as [|v vs IH]; intros m; cbn [add_variables filter].
    - split; [intros _; split; [intros v []|constructor]|intros _; exists m; reflexivity].
    - unfold add_variable. destruct (s_fixed st v) eqn:Ef; cbn [negb]; [apply IH|]. cbn zeta. cbn [map].
      destruct (dmem m (s_id st v)) eqn:Em.
      + split; [intros (m' & E); discriminate|]. intros [H _]. rewrite H in Em; [discriminate|left; reflexivity].
      + rewrite IH. split.
        * intros [H1 H2]. split.
          -- intros w [->|Hw]; [exact Em|]. apply H1 in Hw. unfold dmem in *. rewrite dfind_dput in Hw. destruct (_ =? _); [discriminate|exact Hw].
          -- constructor; [|exact H2]. intros H. apply in_map_iff in H. destruct H as (w & E & Hw). apply H1 in Hw.
             unfold dmem in Hw. rewrite dfind_dput, E, Z.eqb_refl in Hw. discriminate.
        * intros [H1 H2]. inversion H2; subst. split; [|assumption]. intros w Hw. unfold dmem. rewrite dfind_dput.
          destruct (Z.eqb_spec (s_id st w) (s_id st v)) as [E|_].
          -- exfalso. apply H3. rewrite <- E. apply (in_map (s_id st)). exact Hw.
          -- apply (H1 w). right. exact Hw.
  Qed.

  Lemma recreate_iff b m :
    (exists m', recreate A exprs st dummy b m = Some m') <->
    (forall v, In v (defined st b) -> dmem m (s_id st v) = false) /\ NoDup (map (s_id st) (defined st b)).
  Proof.
    unfold recreate, construct_map. rewrite construct_rec_eq. rewrite <- (add_variables_iff (tree_vars b) m).
    destruct (add_variables A exprs st dummy (tree_vars b) m) as [m'|]; split; intros (x & E); try discriminate; eexists; reflexivity.
  Qed.
End Recreate.

(** ** Forms used in the statements *)
Section Final.
  Variable A : arith.
  Variable exprs : nat -> expr A.

  Lemma update_list_final st dummy b m ind dep :
    dep_map A exprs st dummy b = Some m -> setting exprs (defined st b) dummy st -> acyclic exprs (defined st b) ->
    NoDup ind -> NoDup dep -> In dummy ind -> incl ind (dummy :: defined st b) -> incl dep (defined st b) ->
    exists N, forall fuel, (N <= fuel)%nat ->
    exists m' vs, make_update_list fuel m (map (s_id st) ind) (map (s_id st) dep) = Some (Some (m', map Some vs)) /\
                  good_list exprs (defined st b) ind dep dummy vs.
  Proof.
    intros Hm Hs Ha N1 N2 N3 N4 N5. exists (enough m ind dep). intros fuel Hf. assert (Hs' := Hs). destruct Hs as (H1 & H2 & H3 & H4).
    destruct (make_update_list_good A exprs st dummy H1 H2 (defined st b) m (the_graph A exprs dummy st b m Hm Hs') H4
                (dummy_refs A exprs dummy st b Hs') Ha m ind dep fuel) as (m' & vs & E & _ & G & _); auto.
    - apply same_refl.
    - intros x Hx. apply N4 in Hx. destruct Hx as [<-|Hx]; auto.
    - exists m', vs. auto.
  Qed.

  Lemma update_final st0 dummy b m ro u st c :
    dep_map A exprs st0 dummy b = Some m -> setting exprs (defined st0 b) dummy st0 -> acyclic exprs (defined st0 b) ->
    history exprs (defined st0 b) st0 m dummy ro u st c ->
    exists N, forall fuel, (N <= fuel)%nat ->
    exists u' r, update A exprs fuel ro u st c = Some (Some (u', r)) /\
      match r with
      | Ok (st', c') => forall d, In d (u_dep u) -> up_to_date exprs (defined st0 b) st' d /\ (ro d = false -> c' d = s_val st' d)
      | _ => exists v st1, In v (dummy :: defined st0 b) /\ same_world st st1 /\ forall x, eval st1 (exprs v) <> Ok x
      end.
  Proof.
    intros Hm Hs Ha Hh. exists (enough m (u_ind u) (u_dep u)). intros fuel Hf.
    destruct (update_up_to_date A exprs dummy st0 b m ro Hm Hs Ha u st c fuel Hh Hf) as (u' & r & E & _ & _ & H).
    exists u', r. split; [exact E|].
    assert (G : (exists v st1, (v = dummy \/ In v (defined st0 b) /\ changing exprs (defined st0 b) (u_ind u) v /\ needed exprs (defined st0 b) (u_dep u) v) /\
                           same_world st st1 /\ is_error (eval st1 (exprs v))) ->
                exists v st1, In v (dummy :: defined st0 b) /\ same_world st st1 /\ forall x, eval st1 (exprs v) <> Ok x).
    { intros (v & st1 & Hv & Hw & He). exists v, st1. split; [simpl; destruct Hv as [->|[Hv _]]; auto|]. split; [exact Hw|].
      intros x Ex. rewrite Ex in He. exact He. }
    destruct r as [[st' c']| | |]; [apply H|apply G, H|apply G, H|apply G, H].
  Qed.

  Lemma update_minimal st0 dummy b m ro u st c fuel u' st' c' :
    dep_map A exprs st0 dummy b = Some m -> setting exprs (defined st0 b) dummy st0 -> acyclic exprs (defined st0 b) ->
    history exprs (defined st0 b) st0 m dummy ro u st c ->
    update A exprs fuel ro u st c = Some (Some (u', Ok (st', c'))) ->
    same_world st st' /\
    (forall x, s_val st' x <> s_val st x ->
       x = dummy \/ (In x (defined st0 b) /\ changing exprs (defined st0 b) (u_ind u) x /\ needed exprs (defined st0 b) (u_dep u) x)) /\
    (forall x, c' x <> c x -> In x (u_dep u)) /\ u_ind u' = u_ind u /\ u_dep u' = u_dep u.
  Proof.
    intros Hm Hs Ha Hh E.
    destruct (update_up_to_date A exprs dummy st0 b m ro Hm Hs Ha u st c (max fuel (enough m (u_ind u) (u_dep u))) Hh ltac:(lia)) as (u2 & r & E2 & U1 & U2 & H).
    apply (update_mono A exprs ro _ (max fuel (enough m (u_ind u) (u_dep u)))) in E; [|lia]. rewrite E2 in E. injection E as -> ->.
    destruct H as (_ & W & H1 & H2). split; [exact W|]. split; [|split; [|split; assumption]].
    - intros x Hx. destruct (H1 x); [contradiction|assumption].
    - intros x Hx. destruct (H2 x); [contradiction|assumption].
  Qed.

  Lemma update_all_final st0 dummy b m st :
    dep_map A exprs st0 dummy b = Some m -> setting exprs (defined st0 b) dummy st0 -> acyclic exprs (defined st0 b) ->
    exists m' r, update_all A exprs m st = Some (m', r) /\
    match r with
    | Ok st' => same_world st st' /\ (forall x, x <> dummy -> ~ In x (defined st0 b) -> s_val st' x = s_val st x) /\
                forall v, In v (defined st0 b) -> has_value exprs st' v \/ eval st' (exprs v) = BadCast \/ eval st' (exprs v) = BadGet
    | Undefined => exists v st1, In v (dummy :: defined st0 b) /\ same_world st st1 /\ eval st1 (exprs v) = Undefined
    | _ => False
    end.
  Proof.
    intros Hm Hs Ha. destruct (update_all_spec A exprs dummy st0 b m (fun _ => false) Hm Hs Ha st) as (m' & r & E & H). exists m', r. split; [exact E|].
    destruct r as [st'| | |]; try exact H. destruct H as (v & st1 & Hv & H). exists v, st1. split; [simpl; intuition|exact H].
  Qed.

  Lemma determined_final (st0 : store A) b st st' v :
    acyclic exprs (defined st0 b) -> same_world st st' -> (forall x, ~ In x (defined st0 b) -> s_val st' x = s_val st x) ->
    In v (defined st0 b) -> up_to_date exprs (defined st0 b) st v -> up_to_date exprs (defined st0 b) st' v ->
    s_val st' v = s_val st v.
  Proof. intros Ha. apply up_to_date_determined. exact Ha. Qed.

  Lemma recreate_fails st dummy b m :
    (forall x, (0 <= s_id st x)%Z) -> (forall x y, s_id st x = s_id st y -> x = y) ->
    dep_map A exprs st dummy b = Some m -> defined st b <> [] -> recreate A exprs st dummy b m = None.
  Proof.
    intros H1 H2 Hm Hne. destruct (recreate A exprs st dummy b m) as [m'|] eqn:E; [|reflexivity]. exfalso.
    assert (G : exists m', recreate A exprs st dummy b m = Some m') by eauto. apply recreate_iff in G. destruct G as [G _].
    destruct (defined st b) as [|v l] eqn:Ed; [congruence|]. pose proof (dep_map_graph A exprs st dummy H1 H2 b m Hm) as HG.
    assert (Hv : dmem m (s_id st v) = true). { apply (g_mem _ _ _ _ _ _ HG). exists v. rewrite ?Ed. simpl. auto. }
    rewrite G in Hv; [discriminate|left; reflexivity].
  Qed.
End Final.
