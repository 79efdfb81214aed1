(** Proofs about transformed views. *)
From Coq Require Import ZArith List Bool Arith.
Import ListNotations.
From Verif Require Import TransModel TransSpec.

Section Proofs.
  Context {B T : Type}.
  Variable bs : nat -> base B.
  Variable f0 : B -> T.

  (** The state agrees with the history. *)
  Record agrees (w : world B T) (past : list (op B T)) : Prop := {
    ag_base : forall v, v_base (g_views w v) = base_of past v;
    ag_trans : forall v, v_trans (g_views w v) = trans_of f0 past v;
    ag_bounds : forall b, (b_lo (g_bases w b), b_hi (g_bases w b)) = bounds_of bs past b;
    ag_value : forall b i, b_at (g_bases w b) i = value_of bs past b i }.

  Lemma agrees_start zero : agrees (start bs f0 zero) [].
  Proof. split; reflexivity. Qed.
  Lemma upd_eqb {X} (f : nat -> X) n x m : upd f n x m = if Nat.eqb n m then x else f m.
  Proof. unfold upd. now rewrite Nat.eqb_sym. Qed.

  Lemma inside_in_box : forall lo hi i, inside lo hi i = in_box lo hi i.
  Proof.
    induction lo as [|l lo IH]; intros [|h hi] [|x i]; try reflexivity;
      try (unfold in_box; cbn [inside length Nat.eqb]; now rewrite ?andb_false_r). cbn [inside]. rewrite IH. unfold in_box. cbn [length Nat.eqb seq forallb nth].
    rewrite <- seq_shift. destruct (Nat.eqb (length lo) (length i)), (Nat.eqb (length hi) (length i)); cbn [andb]; rewrite ?andb_false_r; auto.
    f_equal. generalize (seq 0 (length i)). intros ks. induction ks as [|k ks IHk]; [reflexivity|]. cbn [map forallb nth]. now rewrite IHk.
  Qed.
  Lemma inside_within w past b i : agrees w past -> inside (b_lo (g_bases w b)) (b_hi (g_bases w b)) i = within bs past b i.
  Proof. intros H. unfold within. rewrite <- (ag_bounds _ _ H b). apply inside_in_box. Qed.
  Lemma base_get_shown w past v i : agrees w past ->
    match base_get w v i with Some x => Some (v_trans (g_views w v) x) | None => None end = shown bs f0 past v i.
  Proof.
    intros H. unfold base_get, shown. rewrite (ag_base _ _ H). destruct (base_of past v) as [b|]; [|reflexivity]. cbv zeta.
    rewrite (inside_within _ _ _ _ H). destruct (within bs past b i); [|reflexivity]. now rewrite (ag_trans _ _ H), (ag_value _ _ H).
  Qed.

  Lemma agrees_step o w past w' e : agrees w past -> step o w = Some (w', e) -> agrees w' (o :: past).
  Proof.
    intros H. pose proof H as [H1 H2 H3 H4]. destruct o; cbn [step]; intros E.
    - injection E as <- <-. split; cbn; auto; intros u; rewrite upd_eqb; destruct (Nat.eqb v u); auto.
    - injection E as <- <-. split; cbn; auto; intros u; rewrite upd_eqb; destruct (Nat.eqb v u) eqn:Ev; auto.
      apply Nat.eqb_eq in Ev. subst. cbn. auto.
    - injection E as <- <-. split; cbn; auto; intros u; rewrite upd_eqb; destruct (Nat.eqb v u) eqn:Ev; auto.
      apply Nat.eqb_eq in Ev. subst. cbn. auto.
    - destruct (inside _ _ i); [|discriminate]. injection E as <- <-. split; cbn; auto; intros c.
      + rewrite upd_eqb. destruct (Nat.eqb b c) eqn:Eb; auto. apply Nat.eqb_eq in Eb. subst. cbn. auto.
      + intros j. rewrite upd_eqb. destruct (Nat.eqb b c) eqn:Eb; auto. apply Nat.eqb_eq in Eb. subst. cbn. unfold upd_at.
        destruct (list_eq_dec Z.eq_dec j i); auto.
    - injection E as <- <-. split; cbn; auto; intros c.
      + rewrite upd_eqb. destruct (Nat.eqb b c) eqn:Eb; auto.
      + intros j. rewrite upd_eqb. destruct (Nat.eqb b c) eqn:Eb; auto.
    - destruct (base_get w v i); [|discriminate]. injection E as <- <-. split; cbn; auto.
    - injection E as <- <-. split; cbn; auto.
    - injection E as <- <-. split; cbn; auto.
    - destruct (base_get w v i); [|discriminate]. injection E as <- <-. split; cbn; auto.
    - destruct (v_base _); [|discriminate]. injection E as <- <-. split; cbn; auto.
  Qed.

  (** The reference that was obtained or assigned to last shows what is expected of it. *)
  Definition current (w : world B T) (past : list (op B T)) (cur : option nat) : Prop :=
    match cur with Some r => ref_of bs f0 past r = Some (g_result w) | None => True end.

  Definition next (o : op B T) (cur : option nat) : option nat := match o with Refer _ _ r | Through r _ => Some r | _ => cur end.

  Lemma current_step o w past w' e cur : agrees w past -> current w past cur -> step o w = Some (w', e) -> current w' (o :: past) (next o cur).
  Proof.
    intros H Hc E. pose proof H as [H1 H2 H3 H4]. destruct o; cbn [step next] in *.
    - injection E as <- <-. destruct cur; exact Hc.
    - injection E as <- <-. destruct cur; exact Hc.
    - injection E as <- <-. destruct cur; exact Hc.
    - destruct (inside _ _ i); [|discriminate]. injection E as <- <-. destruct cur; exact Hc.
    - injection E as <- <-. destruct cur; exact Hc.
    - pose proof (base_get_shown w past v i H) as Hs. destruct (base_get w v i); [|discriminate]. injection E as <- <-. cbn.
      rewrite Nat.eqb_refl. congruence.
    - injection E as <- <-. destruct cur; exact Hc.
    - injection E as <- <-. cbn. now rewrite Nat.eqb_refl.
    - destruct (base_get w v i); [|discriminate]. injection E as <- <-. destruct cur; exact Hc.
    - destruct (v_base _); [|discriminate]. injection E as <- <-. destruct cur; exact Hc.
  Qed.

  Lemma step_ok o w past es cur : agrees w past -> current w past cur ->
    match o with Follow r => cur = Some r | _ => True end ->
    expect bs f0 o past = Some es -> exists w', step o w = Some (w', es).
  Proof.
    intros H Hc Hp E. pose proof H as [H1 H2 H3 H4]. destruct o; cbn [step expect] in *; try (injection E as <-; eauto).
    - rewrite (inside_within _ _ _ _ H). destruct (within bs past b i); [injection E as <-; eauto|discriminate].
    - rewrite <- (base_get_shown w past v i H) in E. destruct (base_get w v i); [injection E as <-; eauto|discriminate].
    - subst cur. cbn in Hc. rewrite Hc in E. injection E as <-. eauto.
    - destruct (ref_of bs f0 past r); [injection E as <-; eauto|discriminate].
    - rewrite <- (base_get_shown w past v i H) in E. destruct (base_get w v i); [injection E as <-; eauto|discriminate].
    - rewrite H1. destruct (base_of past v) as [b|]; [|discriminate]. injection E as <-. rewrite <- H3. eauto.
  Qed.

  Lemma run_prompt l : forall w past cur es, agrees w past -> current w past cur -> prompt l cur -> expected bs f0 l past = Some es ->
    exists w', run l w = Some (w', es) /\ agrees w' (rev l ++ past).
  Proof.
    induction l as [|o l IH]; intros w past cur es H Hc Hp E; cbn [run expected] in *.
    - injection E as <-. eauto.
    - destruct (expect bs f0 o past) as [e|] eqn:Eo; [|discriminate].
      destruct (expected bs f0 l (o :: past)) as [es'|] eqn:El; [|discriminate]. injection E as <-.
      assert (Hp1 : match o with Follow r => cur = Some r | _ => True end) by (destruct o; auto; apply Hp).
      assert (Hp2 : prompt l (next o cur)) by (destruct o; cbn in *; auto; apply Hp).
      destruct (step_ok _ _ _ _ _ H Hc Hp1 Eo) as (w1 & E1). rewrite E1.
      destruct (IH w1 (o :: past) (next o cur) es' (agrees_step _ _ _ _ _ H E1) (current_step _ _ _ _ _ _ H Hc E1) Hp2 El) as (w' & R & A).
      rewrite R. exists w'. cbn [rev]. rewrite <- app_assoc. auto.
  Qed.

  Lemma run_agrees l : forall w past w' es, agrees w past -> run l w = Some (w', es) -> agrees w' (rev l ++ past).
  Proof.
    induction l as [|o l IH]; intros w past w' es H E; cbn [run] in *.
    - injection E as <- <-. exact H.
    - destruct (step o w) as [[w1 e1]|] eqn:E1; [|discriminate]. destruct (run l w1) as [[w2 e2]|] eqn:E2; [|discriminate].
      injection E as <- <-. cbn [rev]. rewrite <- app_assoc. eapply IH; [|exact E2]. eapply agrees_step; eauto.
  Qed.

  Lemma run_app l1 : forall l2 (w : world B T), run (l1 ++ l2) w =
    match run l1 w with None => None | Some (w', e) => match run l2 w' with None => None | Some (w'', e') => Some (w'', e ++ e') end end.
  Proof.
    induction l1 as [|o l1 IH]; intros l2 w; cbn [run app].
    - destruct (run l2 w) as [[w' e]|]; reflexivity.
    - destruct (step o w) as [[w1 e1]|]; [|reflexivity]. rewrite IH. destruct (run l1 w1) as [[w2 e2]|]; [|reflexivity].
      destruct (run l2 w2) as [[w3 e3]|]; [|reflexivity]. now rewrite app_assoc.
  Qed.

  Lemma run_two l w es zero v i r u j s x y : run l (start bs f0 zero) = Some (w, es) ->
    shown bs f0 (rev l) v i = Some x -> shown bs f0 (rev l) u j = Some y ->
    exists w', run (l ++ [Refer v i r; Refer u j s; Follow r; Follow s]) (start bs f0 zero) = Some (w', es ++ [Saw y; Saw y]).
  Proof.
    intros R Sx Sy. pose proof (run_agrees _ _ _ _ _ (agrees_start zero) R) as A. rewrite app_nil_r in A.
    rewrite run_app, R. cbn [run step]. pose proof (base_get_shown w _ v i A) as Gx. rewrite Sx in Gx.
    destruct (base_get w v i) as [bx|] eqn:Ebx; [|discriminate].
    change (base_get (mkWorld (g_bases w) (g_views w) (v_trans (g_views w v) bx)) u j) with (base_get w u j).
    pose proof (base_get_shown w _ u j A) as Gy. rewrite Sy in Gy. destruct (base_get w u j) as [by_|] eqn:Eby; [|discriminate].
    cbn. injection Gy as ->. eauto.
  Qed.

  (** Views never change base grids; values read without references are always as expected. *)
  Lemma run_values l zero w es v i : run l (start bs f0 zero) = Some (w, es) ->
    (forall b j, b_at (g_bases w b) j = value_of bs (rev l) b j) /\
    run (l ++ [Value v i]) (start bs f0 zero) =
      match shown bs f0 (rev l) v i with Some x => Some (w, es ++ [Saw x]) | None => None end.
  Proof.
    intros R. pose proof (run_agrees _ _ _ _ _ (agrees_start zero) R) as A. rewrite app_nil_r in A.
    split; [apply A|]. rewrite run_app, R. cbn [run step]. rewrite <- (base_get_shown w _ v i A).
    destruct (base_get w v i); cbn; reflexivity.
  Qed.
End Proofs.
