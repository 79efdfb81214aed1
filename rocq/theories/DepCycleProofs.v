(** A cyclic definition makes the assertion of [makeUpdateOrder] fail. *)
From Coq Require Import ZArith List Bool Lia Relations Sorting.Sorted Permutation.
From Verif Require Import ExprModel DepModel DepSpec DepMapProofs DepProofs.
Import ListNotations.
Local Open Scope Z_scope.

Section Cycle.
  Variable m0 : dmap.
  Let deps k := vi_dep (dinfo m0 k).
  Let mods k := vi_mod (dinfo m0 k).
  Variable D : list Z.
  Hypothesis Hdual : forall j k, In j D -> In k D -> (In j (deps k) <-> In k (mods j)).
  Hypothesis Hnd : forall k, NoDup (deps k).
  Hypothesis Hnm : forall k, NoDup (mods k).
  (** Each of these variables reads another of them. *)
  Variable S : Z -> Prop.
  Hypothesis HS : forall k, S k -> exists j, S j /\ In j (deps k).

  Lemma order_loop_cycle : forall n m work, counted m0 m work -> closed m0 D work -> NoDup work -> incl work D ->
    (forall k, S k -> In k work) -> (exists k, S k) -> order_loop n m D work = None.
  Proof.
    induction n as [|n IH]; intros m work [Hm Hc] Hcl Hn Hi Hw [s Hs].
    - destruct work as [|w0 work0]; [destruct (Hw s Hs)|reflexivity].
    - destruct work as [|w0 work0]; [destruct (Hw s Hs)|]. cbn [order_loop]. remember (w0 :: work0) as work eqn:Ew.
      pose proof (take_ready_spec m work) as T. destruct (take_ready m work) as [[k w]|]; [|reflexivity].
      destruct T as (Hk0 & a & b & E & ->).
      assert (Hk : In k work) by (rewrite E; apply in_or_app; right; left; reflexivity).
      assert (Hp : pending m0 work k = 0) by (rewrite (Hc k Hk) in Hk0; congruence).
      assert (Hno := pending_0 m0 work k Hp).
      assert (HkS : ~ S k). { intros H. destruct (HS k H) as (j & Hj & Hjk). exact (Hno j Hjk (Hw j Hj)). }
      assert (Hms : vi_mod (dinfo m k) = mods k) by apply (Hm k). rewrite Hms.
      assert (Hjw : forall j, In j D -> In k (deps j) -> In j work).
      { intros j HjD Hkj. destruct (in_dec Z.eq_dec j work) as [Hin|Hout]; [exact Hin|]. exfalso. exact (Hcl j k HjD Hout Hkj Hk). }
      destruct (decrement_spec m0 D (mods k) m Hm (Hnm k)) as (m1 & E1 & S1 & C1).
      { intros j Hj HjD. assert (Hkj : In k (deps j)) by (apply Hdual; [apply Hi, Hk|exact HjD|exact Hj]).
        exists (pending m0 work j). split; [apply Hc, Hjw; assumption|].
        rewrite E, pending_remove by (first [exact Hnd|rewrite <- E; exact Hn]). apply zmem_In in Hkj. unfold deps in Hkj. rewrite Hkj. unfold pending. lia. }
      rewrite E1. assert (Hn' := Hn). rewrite E in Hn'.
      rewrite (IH m1 (a ++ b)); [reflexivity| | | | | |exists s; exact Hs].
      + split; [exact S1|]. intros j Hj. rewrite C1.
        assert (Hj' : In j work). { rewrite E. apply in_app_or in Hj. apply in_or_app. simpl. tauto. }
        rewrite (Hc j Hj'), E, (pending_remove m0 Hnd a k b j Hn').
        assert (HjD : zmem j D = true) by (apply zmem_In, Hi, Hj'). rewrite HjD, andb_true_r.
        assert (Eq : zmem j (mods k) = zmem k (deps j)).
        { apply eq_true_iff_eq. rewrite !zmem_In. symmetry. apply Hdual; [apply Hi, Hk|apply Hi, Hj']. }
        rewrite Eq. unfold deps. destruct (zmem k (vi_dep (dinfo m0 j))); f_equal; lia.
      + intros j i HjD Hnj Hi' Hiw. destruct (in_dec Z.eq_dec j work) as [Hin|Hout].
        * assert (j = k). { rewrite E in Hin. apply in_app_or in Hin. destruct Hin as [H|[H|H]]; [|congruence|];
            exfalso; apply Hnj, in_or_app; tauto. }
          subst j. apply (Hno i Hi'). rewrite E. apply in_app_or in Hiw. apply in_or_app. simpl. tauto.
        * apply (Hcl j i HjD Hout Hi'). rewrite E. apply in_app_or in Hiw. apply in_or_app. simpl. tauto.
      + apply NoDup_remove_1 in Hn'. exact Hn'.
      + intros j Hj. apply Hi. rewrite E. apply in_app_or in Hj. apply in_or_app. simpl. tauto.
      + intros j Hj. pose proof (Hw j Hj) as H. rewrite E in H. apply in_app_or in H. apply in_or_app. destruct H as [H|[H|H]]; [tauto| |tauto].
        subst. contradiction.
  Qed.
End Cycle.

Section Deck.
  Variable A : arith.
  Variable exprs : nat -> expr A.
  Lemma cycle_update_all : forall st0 dummy b m st v,
    (forall x, 0 <= s_id st0 x) -> (forall x y, s_id st0 x = s_id st0 y -> x = y) ->
    dep_map A exprs st0 dummy b = Some m -> clos_trans nat (edge exprs (defined st0 b)) v v -> update_all A exprs m st = None.
  Proof.
    intros st0 dummy b m st v Hid Hinj Hm Hv. pose proof (dep_map_graph A exprs st0 dummy Hid Hinj b m Hm) as HG. set (V := defined st0 b) in *.
    unfold update_all, update_order. set (D := zset (map fst m)).
    assert (HD : forall k, In k D <-> dmem m k = true).
    { intros k. unfold D. rewrite zset_In. unfold dmem. split.
      - intros H. apply in_map_iff in H. destruct H as ([k' vi] & <- & H). cbn. destruct (dfind m k') eqn:E; [reflexivity|]. exfalso.
        clear - H E. induction m as [|[a w] m IH]; simpl in *; [contradiction|]. destruct (Z.eqb_spec k' a) as [->|Hn]; [discriminate|]. destruct H as [H|H]; [congruence|auto].
      - destruct (dfind m k) as [vi|] eqn:E; [|discriminate]. intros _. clear - E. induction m as [|[a w] m IH]; simpl in *; [discriminate|].
        destruct (Z.eqb_spec k a) as [->|Hn]; auto. }
    assert (HDn : NoDup D) by apply sorted_nodup, zset_sorted.
    rewrite (order_loop_cycle m D) with (S := fun k => exists u, k = s_id st0 u /\ clos_trans nat (edge exprs V) u u); [reflexivity| | | | | | | | | |].
    - intros j k Hj Hk. rewrite (g_mod _ _ _ _ _ _ HG). apply HD in Hj. tauto.
    - apply (g_nodup_dep _ _ _ _ _ _ HG).
    - apply (g_nodup_mod _ _ _ _ _ _ HG).
    - intros k (u & -> & Hu). apply clos_trans_tn1 in Hu.
      assert (G : exists w, edge exprs V w u /\ clos_trans nat (edge exprs V) w w).
      { inversion Hu as [H1|y z H1 H2]; subst.
        - exists u. split; [assumption|apply t_step; assumption].
        - exists y. split; [exact H1|]. eapply t_trans; [apply t_step; exact H1|]. apply clos_tn1_trans. match goal with H : clos_trans_n1 _ _ _ _ |- _ => exact H end. }
      destruct G as (w & Ew & Hw). exists (s_id st0 w). split; [exists w; auto|]. destruct Ew as (E1 & E2 & E3). apply (g_dep _ _ _ _ _ _ HG u _ E2). left. exists w. auto.
    - apply init_counted; [exact HDn|apply same_refl].
    - intros k j Hk Hnk. contradiction.
    - exact HDn.
    - apply incl_refl.
    - intros k (u & -> & Hu). apply HD. apply (g_mem _ _ _ _ _ _ HG). exists u. split; [reflexivity|]. right.
      apply clos_trans_t1n in Hu. inversion Hu as [? H1|? ? H1]; subst; apply H1.
    - exists (s_id st0 v). exists v. auto.
  Qed.
  Lemma update_all_acyclic : forall st0 dummy b m st r,
    (forall x, 0 <= s_id st0 x) -> (forall x y, s_id st0 x = s_id st0 y -> x = y) ->
    dep_map A exprs st0 dummy b = Some m -> update_all A exprs m st = Some r -> acyclic exprs (defined st0 b).
  Proof. intros st0 dummy b m st r H1 H2 Hm E v Hv. rewrite (cycle_update_all st0 dummy b m st v H1 H2 Hm Hv) in E. discriminate. Qed.
End Deck.
