(** Proofs about dependency maps and updates in terms of the variables of a deck. *)
From Coq Require Import ZArith List Bool Lia Relations Permutation Sorted.
From Verif Require Import ExprModel DepModel DepSpec ExprProofs DepMapProofs.
Import ListNotations.
Local Open Scope Z_scope.

(** ** General facts *)

(** A finite relation without cycles is well founded. *)
Lemma finite_acyclic_wf {X} (R : X -> X -> Prop) (D : list X) :
  (forall x y, x = y \/ x <> y :> X) ->
  (forall j k, R j k -> In j D /\ In k D) -> (forall k, ~ clos_trans X R k k) -> well_founded R.
Proof.
  intros Hdec HD Hac.
  assert (G : forall n S k, NoDup S -> incl S D -> (forall s, In s S -> clos_trans X R k s) ->
                            (List.length D - List.length S <= n)%nat -> Acc R k).
  { induction n as [|n IH]; intros S k Hn Hi Hs Hl; constructor; intros j Hj.
    - exfalso. assert (Hk : ~ In k S) by (intros H; exact (Hac k (Hs k H))).
      assert (L : (List.length (k :: S) <= List.length D)%nat).
      { apply NoDup_incl_length; [constructor; assumption|]. intros x [->|Hx]; [apply (HD j x Hj)|apply Hi, Hx]. }
      simpl in L. lia.
    - assert (Hk : ~ In k S) by (intros H; exact (Hac k (Hs k H))).
      apply (IH (k :: S) j).
      + constructor; assumption.
      + intros x [->|Hx]; [apply (HD j x Hj)|apply Hi, Hx].
      + intros s [->|Hx]; [apply t_step, Hj|]. eapply t_trans; [apply t_step, Hj|apply Hs, Hx].
      + simpl. lia. }
  intros k. apply (G (List.length D) [] k); [constructor|intros x []|intros s []|simpl; lia].
Qed.

Lemma NoDup_map_on {X Y} (f : X -> Y) l : (forall x y, In x l -> In y l -> f x = f y -> x = y) -> NoDup l -> NoDup (map f l).
Proof.
  intros Hf Hn. induction Hn as [|x l Hx Hn IH]; simpl; constructor.
  - intros H. apply in_map_iff in H. destruct H as (y & E & Hy). apply Hf in E; [subst; contradiction|right; exact Hy|left; reflexivity].
  - apply IH. intros a b Ha Hb. apply Hf; right; assumption.
Qed.

(** ** Expressions *)
Section Read.
  Variable A : arith.

  (** The value of an expression is determined by what it reads. *)
  Lemma eval_reads (st st' : store A) : forall e,
    (forall x, In x (refs e) -> s_val st' x = s_val st x) ->
    (forall x, In x (ext_refs e) -> s_ext st' x = s_ext st x) ->
    (forall f, fs_always f = false \/ uses_always e = true -> s_fun st' f = s_fun st f) ->
    eval st' e = eval st e.
  Proof.
    apply (expr_ind' A (fun e => (forall x, In x (refs e) -> s_val st' x = s_val st x) ->
      (forall x, In x (ext_refs e) -> s_ext st' x = s_ext st x) ->
      (forall f, fs_always f = false \/ uses_always e = true -> s_fun st' f = s_fun st f) ->
      eval st' e = eval st e)).
    - reflexivity.
    - intros t x H _ _. simpl in *. rewrite H by auto. reflexivity.
    - intros t x _ H _. simpl in *. rewrite H by auto. reflexivity.
    - intros o t e IH H1 H2 H3. simpl in *. rewrite IH by assumption. reflexivity.
    - intros o t l IH H1 H2 H3. apply eval_bin_ext. rewrite Forall_forall in *. intros pe Hpe. apply IH; [exact Hpe| | |].
      + intros x Hx. apply H1. simpl. apply in_flat_map. exists pe. auto.
      + intros x Hx. apply H2. simpl. apply in_flat_map. exists pe. auto.
      + intros f Hf. apply H3. destruct Hf as [Hf|Hf]; [left; exact Hf|right]. simpl. apply existsb_exists. exists pe. auto.
    - intros t t0 e IH H1 H2 H3. simpl in *. rewrite IH by assumption. reflexivity.
    - intros f args IH H1 H2 H3. rewrite !eval_fun.
      assert (E : evals A st' args = evals A st args).
      { apply evals_ext. rewrite Forall_forall in *. intros e He. apply IH; [exact He| | |].
        - intros x Hx. apply H1. simpl. apply in_flat_map. exists e. auto.
        - intros x Hx. apply H2. simpl. apply in_flat_map. exists e. auto.
        - intros g Hg. apply H3. destruct Hg as [Hg|Hg]; [left; exact Hg|right]. simpl.
          apply orb_true_iff. right. apply existsb_exists. exists e. auto. }
      rewrite E. apply rbind_ext. intros v _. rewrite H3; [reflexivity|]. simpl. destruct (fs_always f); auto.
  Qed.

  (** The ids returned by [getDependencies()]. *)
  Lemma dependencies_In (st : store A) i : forall e,
    In i (dependencies st e) <-> (exists x, In x (refs e) /\ s_id st x = i) \/ (i = -1 /\ uses_always e = true).
  Proof.
    apply (expr_ind' A (fun e => In i (dependencies st e) <-> (exists x, In x (refs e) /\ s_id st x = i) \/ (i = -1 /\ uses_always e = true))).
    - intros v. simpl. firstorder discriminate.
    - intros t x. simpl. split; [intros [H|[]]; left; exists x; auto|]. intros [(y & [->|[]] & E)|[_ H]]; [auto|discriminate].
    - intros t x. simpl. firstorder discriminate.
    - intros o t e IH. exact IH.
    - intros o t l IH. simpl. rewrite Forall_forall in IH. rewrite in_flat_map. split.
      + intros (pe & Hpe & Hi). apply IH in Hi; [|exact Hpe]. destruct Hi as [(x & Hx & E)|[E Hu]].
        * left. exists x. split; [apply in_flat_map; exists pe; auto|exact E].
        * right. split; [exact E|]. apply existsb_exists. exists pe. auto.
      + intros [(x & Hx & E)|[E Hu]].
        * apply in_flat_map in Hx. destruct Hx as (pe & Hpe & Hx). exists pe. split; [exact Hpe|]. apply IH; [exact Hpe|]. left. exists x. auto.
        * apply existsb_exists in Hu. destruct Hu as (pe & Hpe & Hu). exists pe. split; [exact Hpe|]. apply IH; [exact Hpe|]. auto.
    - intros t t0 e IH. exact IH.
    - intros f args IH. simpl. rewrite Forall_forall in IH. rewrite in_app_iff, in_flat_map. split.
      + intros [(e & He & Hi)|Hi].
        * apply IH in Hi; [|exact He]. destruct Hi as [(x & Hx & E)|[E Hu]].
          -- left. exists x. split; [apply in_flat_map; exists e; auto|exact E].
          -- right. split; [exact E|]. apply orb_true_iff. right. apply existsb_exists. exists e. auto.
        * right. destruct (fs_always f); [|destruct Hi]. destruct Hi as [<-|[]]. auto.
      + intros [(x & Hx & E)|[E Hu]].
        * apply in_flat_map in Hx. destruct Hx as (e & He & Hx). left. exists e. split; [exact He|]. apply IH; [exact He|]. left. exists x. auto.
        * apply orb_true_iff in Hu. destruct Hu as [Hu|Hu].
          -- right. rewrite Hu. left. auto.
          -- left. apply existsb_exists in Hu. destruct Hu as (e & He & Hu). exists e. split; [exact He|]. apply IH; [exact He|]. auto.
  Qed.
End Read.

(** ** Construction of the map *)
Section Build.
  Variable A : arith.
  Variable exprs : nat -> expr A.
  Variable st : store A.
  Variable dummy : nat.
  Hypothesis Hid : forall x, 0 <= s_id st x.
  Hypothesis Hinj : forall x y, s_id st x = s_id st y -> x = y.

  (** The variables of a tree that are not constants. *)
  Definition live (vs : list nat) : list nat := filter (fun v => negb (s_fixed st v)) vs.

  Definition dep_ids (v : nat) : list Z :=
    let dep := zset (dependencies st (exprs v)) in
    if zmem (-1) dep then zinsert (s_id st dummy) (zerase (-1) dep) else dep.
  Definition entry (v : nat) : vinfo := mkVI (Some v) (dep_ids v) [] (Some 0).

  Lemma dep_ids_In v j :
    In j (dep_ids v) <-> (exists x, In x (refs (exprs v)) /\ s_id st x = j) \/ (j = s_id st dummy /\ uses_always (exprs v) = true).
  Proof.
    unfold dep_ids. cbn zeta.
    assert (E : forall i, In i (zset (dependencies st (exprs v))) <-> (exists x, In x (refs (exprs v)) /\ s_id st x = i) \/ (i = -1 /\ uses_always (exprs v) = true)).
    { intros i. rewrite zset_In. apply dependencies_In. }
    destruct (zmem (-1) (zset (dependencies st (exprs v)))) eqn:Em.
    - assert (Hu : uses_always (exprs v) = true).
      { apply zmem_In, E in Em. destruct Em as [(x & _ & H)|[_ H]]; [specialize (Hid x); lia|exact H]. }
      rewrite zinsert_In, zerase_In, E. split.
      + intros [->|[[H|[H _]] Hne]]; [auto|auto|lia].
      + intros [(x & Hx & H)|[-> _]]; [right|auto]. split; [left; exists x; auto|]. specialize (Hid x). lia.
    - apply zmem_false in Em. assert (Hu : uses_always (exprs v) = false).
      { destruct (uses_always (exprs v)) eqn:Hu; [|reflexivity]. exfalso. apply Em, E. auto. }
      rewrite E, Hu. intuition congruence.
  Qed.
  Lemma dep_ids_sorted v : StronglySorted Z.lt (dep_ids v).
  Proof.
    unfold dep_ids. cbn zeta. destruct (zmem _ _); [|apply zset_sorted].
    apply zinsert_sorted, filter_sorted, zset_sorted.
  Qed.

  Lemma add_variables_app vs ws : forall m,
    add_variables A exprs st dummy (vs ++ ws) m =
    match add_variables A exprs st dummy vs m with Some m' => add_variables A exprs st dummy ws m' | None => None end.
  Proof.
    induction vs as [|v vs IH]; intros m; simpl; [reflexivity|]. destruct (add_variable A exprs st dummy m v); [apply IH|reflexivity].
  Qed.

  Fixpoint construct_rec_eq (b : bvars) : forall m, construct_rec A exprs st dummy b m = add_variables A exprs st dummy (tree_vars b) m.
  Proof.
    destruct b as [vs children]. intros m. cbn [construct_rec tree_vars]. rewrite add_variables_app.
    destruct (add_variables A exprs st dummy vs m) as [m'|]; [|reflexivity].
    revert m'. induction children as [|b children IH]; intros m'; cbn [flat_map]; [reflexivity|].
    rewrite add_variables_app, <- construct_rec_eq. destruct (construct_rec A exprs st dummy b m'); [apply IH|reflexivity].
  Qed.

  Lemma add_variables_spec vs : forall m m', add_variables A exprs st dummy vs m = Some m' ->
    StronglySorted Z.lt (map fst m) ->
    StronglySorted Z.lt (map fst m') /\
    (forall k vi, dfind m' k = Some vi <-> dfind m k = Some vi \/ exists v, In v (live vs) /\ s_id st v = k /\ vi = entry v) /\
    (forall v, In v (live vs) -> dmem m (s_id st v) = false) /\ NoDup (live vs).
  Proof.
    induction vs as [|v vs IH]; intros m m' E Hs; simpl in E.
    - inversion E; subst. split; [exact Hs|]. split; [intros k vi; split; [auto|intros [H|(v & [] & _)]; exact H]|].
      split; [intros v []|constructor].
    - unfold add_variable in E. unfold live in *. cbn [filter]. destruct (s_fixed st v) eqn:Ef; cbn [negb].
      + apply IH; assumption.
      + cbn zeta in E. fold (dep_ids v) in E. destruct (dmem m (s_id st v)) eqn:Em; [discriminate|].
        fold (entry v) in E. destruct (IH _ _ E) as (I1 & I2 & I3 & I4); [apply dput_sorted, Hs|].
        assert (Hv : ~ In v (filter (fun v => negb (s_fixed st v)) vs)).
        { intros H. apply I3 in H. unfold dmem in H. rewrite dfind_dput, Z.eqb_refl in H. discriminate. }
        split; [exact I1|]. split; [|split].
        * intros k vi. rewrite I2, dfind_dput. destruct (Z.eqb_spec k (s_id st v)).
          -- subst k. unfold dmem in Em. destruct (dfind m (s_id st v)); [discriminate|]. split.
             ++ intros [H|(w & Hw & Ew & ->)]; right; [exists v; inversion H; simpl; auto|exists w; simpl; auto].
             ++ intros [H|(w & [->|Hw] & Ew & ->)]; [discriminate|left; reflexivity|right; exists w; auto].
          -- split.
             ++ intros [H|(w & Hw & Ew & ->)]; [auto|right; exists w; simpl; auto].
             ++ intros [H|(w & [->|Hw] & Ew & ->)]; [auto|congruence|right; exists w; auto].
        * intros w [->|Hw]; [exact Em|]. apply I3 in Hw. unfold dmem in *. rewrite dfind_dput in Hw.
          destruct (_ =? _); [discriminate|exact Hw].
        * constructor; assumption.
  Qed.

  (** The second loop. *)
  Lemma set_mod_spec m k id : forall j,
    dmem (set_mod m k id) j = dmem m j /\ vi_v (dinfo (set_mod m k id) j) = vi_v (dinfo m j) /\
    vi_dep (dinfo (set_mod m k id) j) = vi_dep (dinfo m j) /\
    (StronglySorted Z.lt (vi_mod (dinfo m j)) -> StronglySorted Z.lt (vi_mod (dinfo (set_mod m k id) j))) /\
    (forall i, In i (vi_mod (dinfo (set_mod m k id) j)) <-> In i (vi_mod (dinfo m j)) \/ (dmem m j = true /\ i = k /\ j = id)).
  Proof.
    intros j. unfold set_mod. destruct (dfind m id) as [vi|] eqn:E.
    - unfold dmem, dinfo. rewrite dfind_dput. destruct (Z.eqb_spec j id).
      + subst. rewrite E. cbn [vi_v vi_dep vi_mod]. split; [reflexivity|]. split; [reflexivity|]. split; [reflexivity|].
        split; [apply zinsert_sorted|]. intros i. rewrite zinsert_In. intuition.
      + split; [reflexivity|]. split; [reflexivity|]. split; [reflexivity|]. split; [auto|]. intros i. intuition.
    - split; [reflexivity|]. split; [reflexivity|]. split; [reflexivity|]. split; [auto|]. intros i.
      split; [auto|]. intros [H|(H1 & H2 & H3)]; [exact H|]. subst. unfold dmem in H1. rewrite E in H1. discriminate.
  Qed.

  Lemma set_mods_spec k vi m : forall j,
    dmem (set_mods m (k, vi)) j = dmem m j /\ vi_v (dinfo (set_mods m (k, vi)) j) = vi_v (dinfo m j) /\
    vi_dep (dinfo (set_mods m (k, vi)) j) = vi_dep (dinfo m j) /\
    (StronglySorted Z.lt (vi_mod (dinfo m j)) -> StronglySorted Z.lt (vi_mod (dinfo (set_mods m (k, vi)) j))) /\
    (forall i, In i (vi_mod (dinfo (set_mods m (k, vi)) j)) <-> In i (vi_mod (dinfo m j)) \/ (dmem m j = true /\ i = k /\ In j (vi_dep vi))).
  Proof.
    unfold set_mods. cbn [fst snd]. generalize (vi_dep vi) as l. intros l. revert m.
    induction l as [|x l IH]; intros m j; cbn [fold_left].
    - split; [reflexivity|]. split; [reflexivity|]. split; [reflexivity|]. split; [auto|]. intros i. simpl. intuition.
    - destruct (IH (set_mod m k x) j) as (I1 & I2 & I3 & I4 & I5). destruct (set_mod_spec m k x j) as (S1 & S2 & S3 & S4 & S5).
      split; [congruence|]. split; [congruence|]. split; [congruence|]. split; [auto|].
      intros i. rewrite I5, S5, S1. simpl. intuition.
  Qed.

  Lemma all_mods_spec l : forall m j,
    let m' := fold_left set_mods l m in
    dmem m' j = dmem m j /\ vi_v (dinfo m' j) = vi_v (dinfo m j) /\ vi_dep (dinfo m' j) = vi_dep (dinfo m j) /\
    (StronglySorted Z.lt (vi_mod (dinfo m j)) -> StronglySorted Z.lt (vi_mod (dinfo m' j))) /\
    (forall i, In i (vi_mod (dinfo m' j)) <-> In i (vi_mod (dinfo m j)) \/ (dmem m j = true /\ exists vi, In (i, vi) l /\ In j (vi_dep vi))).
  Proof.
    induction l as [|[k vi] l IH]; intros m j; cbn [fold_left]; cbn zeta.
    - split; [reflexivity|]. split; [reflexivity|]. split; [reflexivity|]. split; [auto|]. intros i. simpl. firstorder.
    - destruct (IH (set_mods m (k, vi)) j) as (I1 & I2 & I3 & I4 & I5). destruct (set_mods_spec k vi m j) as (S1 & S2 & S3 & S4 & S5).
      split; [congruence|]. split; [congruence|]. split; [congruence|]. split; [auto|].
      intros i. rewrite I5, S5, S1. split.
      + intros [[H|(H1 & -> & H2)]|(H1 & w & H2 & H3)]; [auto| |].
        * right. split; [exact H1|]. exists vi. simpl. auto.
        * right. split; [exact H1|]. exists w. simpl. auto.
      + intros [H|(H1 & w & [E|H2] & H3)]; [auto| |].
        * inversion E; subst. auto.
        * right. split; [exact H1|]. exists w. auto.
  Qed.

  Lemma all_mods_sorted l : forall m, StronglySorted Z.lt (map fst m) -> StronglySorted Z.lt (map fst (fold_left set_mods l m)).
  Proof.
    assert (G : forall ids k m, StronglySorted Z.lt (map fst m) -> StronglySorted Z.lt (map fst (fold_left (fun m id => set_mod m k id) ids m))).
    { induction ids as [|x ids IH]; intros k m Hs; cbn [fold_left]; [exact Hs|]. apply IH. unfold set_mod.
      destruct (dfind m x); [apply dput_sorted, Hs|exact Hs]. }
    induction l as [|[k vi] l IH]; intros m Hs; cbn [fold_left]; [exact Hs|]. apply IH, G, Hs.
  Qed.

  (** What the map of a deck contains. *)
  Record graph (V : list nat) (m : dmap) : Prop := mkGraph {
    g_sorted : StronglySorted Z.lt (map fst m);
    g_nodup : NoDup V;
    g_dummy : ~ In dummy V;
    g_v : forall k x, vi_v (dinfo m k) = Some x <-> k = s_id st x /\ (x = dummy \/ In x V);
    g_mem : forall k, dmem m k = true <-> exists x, k = s_id st x /\ (x = dummy \/ In x V);
    g_dep : forall v j, In v V -> In j (vi_dep (dinfo m (s_id st v))) <->
              (exists x, In x (refs (exprs v)) /\ s_id st x = j) \/ (j = s_id st dummy /\ uses_always (exprs v) = true);
    g_dep_only : forall k j, In j (vi_dep (dinfo m k)) -> exists v, In v V /\ k = s_id st v;
    g_mod : forall j k, In k (vi_mod (dinfo m j)) <-> dmem m j = true /\ In j (vi_dep (dinfo m k));
    g_nodup_dep : forall k, NoDup (vi_dep (dinfo m k));
    g_nodup_mod : forall k, NoDup (vi_mod (dinfo m k))
  }.

  Lemma dep_map_graph b m : dep_map A exprs st dummy b = Some m -> graph (defined st b) m.
  Proof.
    unfold dep_map, construct_map. rewrite construct_rec_eq.
    set (m00 := [(s_id st dummy, mkVI (Some dummy) [] [] (Some 0))]).
    destruct (add_variables A exprs st dummy (tree_vars b) m00) as [m1|] eqn:E; [|discriminate].
    intros H. injection H as <-. destruct (add_variables_spec _ _ _ E) as (Hs & Hf & Hd & Hn); [repeat constructor|].
    set (V := defined st b) in *. change (live (tree_vars b)) with V in *.
    assert (Hdum : ~ In dummy V).
    { intros H. apply Hd in H. unfold dmem, m00 in H. cbn [dfind] in H. rewrite Z.eqb_refl in H. discriminate. }
    assert (F0 : forall k vi, dfind m00 k = Some vi <-> k = s_id st dummy /\ vi = mkVI (Some dummy) [] [] (Some 0)).
    { intros k vi. unfold m00. cbn [dfind]. destruct (Z.eqb_spec k (s_id st dummy)); split; intros H; try discriminate; try tauto.
      - inversion H. auto.
      - destruct H as [_ ->]. reflexivity. }
    assert (F1 : forall v, In v V -> dfind m1 (s_id st v) = Some (entry v)).
    { intros v Hv. apply Hf. right. exists v. auto. }
    assert (F2 : dfind m1 (s_id st dummy) = Some (mkVI (Some dummy) [] [] (Some 0))).
    { apply Hf. left. apply F0. auto. }
    assert (F3 : forall k vi, dfind m1 k = Some vi -> (k = s_id st dummy /\ vi = mkVI (Some dummy) [] [] (Some 0)) \/ exists v, In v V /\ s_id st v = k /\ vi = entry v).
    { intros k vi H. apply Hf in H. rewrite F0 in H. exact H. }
    assert (M := all_mods_spec m1 m1). cbn zeta in M.
    assert (Mem1 : forall k, dmem m1 k = true <-> exists x, k = s_id st x /\ (x = dummy \/ In x V)).
    { intros k. unfold dmem. split.
      - destruct (dfind m1 k) as [vi|] eqn:Ek; [|discriminate]. intros _. apply F3 in Ek.
        destruct Ek as [[-> _]|(v & Hv & <- & _)]; [exists dummy; auto|exists v; auto].
      - intros (x & -> & [->|Hx]); [rewrite F2; reflexivity|rewrite (F1 x Hx); reflexivity]. }
    assert (Mod1 : forall k, vi_mod (dinfo m1 k) = []).
    { intros k. unfold dinfo. destruct (dfind m1 k) as [vi|] eqn:Ek; [|reflexivity]. apply F3 in Ek.
      destruct Ek as [[_ ->]|(v & _ & _ & ->)]; reflexivity. }
    constructor.
    - apply all_mods_sorted, Hs.
    - exact Hn.
    - exact Hdum.
    - intros k x. destruct (M k) as (_ & -> & _). unfold dinfo. split.
      + destruct (dfind m1 k) as [vi|] eqn:Ek; [|discriminate]. apply F3 in Ek.
        destruct Ek as [[-> ->]|(v & Hv & <- & ->)]; simpl; intros H; inversion H; subst; auto.
      + intros [-> [->|Hx]]; [rewrite F2; reflexivity|rewrite (F1 x Hx); reflexivity].
    - intros k. destruct (M k) as (-> & _). apply Mem1.
    - intros v j Hv. destruct (M (s_id st v)) as (_ & _ & -> & _). unfold dinfo. rewrite (F1 v Hv). apply dep_ids_In.
    - intros k j. destruct (M k) as (_ & _ & -> & _). unfold dinfo. destruct (dfind m1 k) as [vi|] eqn:Ek; [|intros []].
      apply F3 in Ek. destruct Ek as [[-> ->]|(v & Hv & <- & ->)]; [intros []|]. intros _. exists v. auto.
    - intros j k. destruct (M j) as (-> & _ & _ & _ & ->). destruct (M k) as (_ & _ & -> & _). rewrite Mod1. split.
      + intros [[]|(H1 & vi & H2 & H3)]. split; [exact H1|]. apply dfind_In in H2; [|exact Hs]. unfold dinfo. rewrite H2. exact H3.
      + intros [H1 H2]. right. split; [exact H1|]. unfold dinfo in H2. destruct (dfind m1 k) as [vi|] eqn:Ek; [|destruct H2].
        exists vi. split; [apply dfind_In; assumption|exact H2].
    - intros k. destruct (M k) as (_ & _ & -> & _). unfold dinfo. destruct (dfind m1 k) as [vi|] eqn:Ek; [|constructor].
      apply F3 in Ek. destruct Ek as [[-> ->]|(v & Hv & <- & ->)]; [constructor|]. apply sorted_nodup, dep_ids_sorted.
    - intros k. destruct (M k) as (_ & _ & _ & HS & _). apply sorted_nodup, HS. rewrite Mod1. constructor.
  Qed.

  (** ** The update list *)
  Section Updates.
    Variables (V : list nat) (m0 : dmap).
    Hypothesis HG : graph V m0.
    Hypothesis Hnd : forall v, In v V -> ~ In dummy (refs (exprs v)).
    Hypothesis Hrd : refs (exprs dummy) = [].
    Hypothesis Hac : acyclic exprs V.

    Lemma edge_wf : well_founded (edge exprs V).
    Proof.
      apply (finite_acyclic_wf (edge exprs V) V).
      - intros x y. destruct (Nat.eq_dec x y); auto.
      - intros j k (H1 & H2 & _). auto.
      - exact Hac.
    Qed.

    Lemma dep_nonneg k j : In j (vi_dep (dinfo m0 k)) -> 0 <= j.
    Proof.
      intros H. destruct (g_dep_only V m0 HG k j H) as (v & Hv & ->). apply (g_dep V m0 HG v j Hv) in H.
      destruct H as [(x & _ & <-)|[-> _]]; apply Hid.
    Qed.

    (** Edges between ids. *)
    Lemma id_edge u v : In u V -> In v V -> In (s_id st u) (vi_dep (dinfo m0 (s_id st v))) <-> edge exprs V u v.
    Proof.
      intros Hu Hv. rewrite (g_dep V m0 HG v _ Hv). split.
      - intros [(x & Hx & E)|[E _]].
        + apply Hinj in E. subst. split; [exact Hu|]. split; assumption.
        + apply Hinj in E. subst. destruct (g_dummy V m0 HG Hu).
      - intros (_ & _ & H). left. exists u. auto.
    Qed.
    Lemma dummy_edge v : In v V -> In (s_id st dummy) (vi_dep (dinfo m0 (s_id st v))) <-> uses_always (exprs v) = true.
    Proof.
      intros Hv. rewrite (g_dep V m0 HG v _ Hv). split.
      - intros [(x & Hx & E)|[_ H]]; [|exact H]. apply Hinj in E. subst. destruct (Hnd v Hv Hx).
      - auto.
    Qed.

    (** Well-foundedness on ids. *)
    Definition below (j k : Z) : Prop := dmem m0 j = true /\ In j (vi_dep (dinfo m0 k)).
    Lemma below_wf : well_founded below.
    Proof.
      assert (H1 : forall v, In v V -> Acc below (s_id st v)).
      { intros v. induction (edge_wf v) as [v _ IH]. intros Hv. constructor. intros j [Hm Hj].
        apply (g_mem V m0 HG) in Hm. destruct Hm as (x & -> & [->|Hx]).
        - constructor. intros i [_ Hi]. destruct (g_dep_only V m0 HG _ _ Hi) as (w & Hw & E). apply Hinj in E. subst.
          destruct (g_dummy V m0 HG Hw).
        - apply IH; [|exact Hx]. apply id_edge; assumption. }
      intros k. constructor. intros j [Hm Hj]. destruct (g_dep_only V m0 HG _ _ Hj) as (v & Hv & ->).
      apply (Acc_inv (H1 v Hv)). split; assumption.
    Qed.

    Lemma order_good m D : same m m0 -> NoDup D -> (forall k, In k D -> dmem m0 k = true) ->
      exists m' vs, update_order m D = Some (m', map Some vs) /\ same m' m0 /\ NoDup vs /\
        (forall x, In x vs <-> In (s_id st x) D) /\
        (forall a v b u, vs = a ++ v :: b -> In u vs -> In u (refs (exprs v)) -> In u a).
    Proof.
      intros Hm HD Hin.
      destruct (update_order_spec m0 m D Hm HD) as (m' & order & E & S & HP & HT).
      - intros j k Hj Hk. rewrite (g_mod V m0 HG). split; [intros H; split; [apply Hin, Hj|exact H]|tauto].
      - apply (g_nodup_dep V m0 HG).
      - apply (g_nodup_mod V m0 HG).
      - intros k. pose proof (below_wf k) as Hk. induction Hk as [k _ IH]. constructor. intros j (H1 & H2 & H3).
        apply IH. split; [apply Hin, H1|exact H3].
      - assert (Ho : forall k, In k order -> exists x, k = s_id st x /\ (x = dummy \/ In x V)).
        { intros k Hk. apply (g_mem V m0 HG), Hin. apply (Permutation_in k (Permutation_sym HP)), Hk. }
        assert (HV : exists vs, order = map (s_id st) vs /\ forall x, In x vs -> x = dummy \/ In x V).
        { clear - Ho. induction order as [|k order IH]; [exists []; split; [reflexivity|intros x []]|].
          destruct IH as (vs & -> & Hv); [intros j Hj; apply Ho; right; exact Hj|].
          destruct (Ho k) as (x & -> & Hx); [left; reflexivity|]. exists (x :: vs). split; [reflexivity|].
          intros y [->|Hy]; auto. }
        destruct HV as (vs & -> & Hvs). exists m', vs.
        assert (Em : map (fun k => vi_v (dinfo m0 k)) (map (s_id st) vs) = map Some vs).
        { rewrite map_map. apply map_ext_in. intros x Hx. apply (g_v V m0 HG). split; [reflexivity|apply Hvs, Hx]. }
        rewrite Em in E. split; [exact E|]. split; [exact S|].
        assert (Hin' : forall x, In x vs <-> In (s_id st x) D).
        { intros x. split.
          - intros H. apply (Permutation_in _ (Permutation_sym HP)). apply in_map, H.
          - intros H. apply (Permutation_in _ HP) in H. apply in_map_iff in H. destruct H as (y & Ey & Hy). apply Hinj in Ey. subst. exact Hy. }
        split; [|split; [exact Hin'|]].
        + apply (NoDup_map_inv (s_id st)). apply (Permutation_NoDup HP HD).
        + intros a v b u Ev Hu Hr.
          assert (Hv : In v V).
          { destruct (Hvs v) as [->|H]; [rewrite Ev; apply in_or_app; right; left; reflexivity| |exact H].
            rewrite Hrd in Hr. destruct Hr. }
          assert (H : In (s_id st u) (map (s_id st) a)).
          { apply (HT (map (s_id st) a) (s_id st v) (map (s_id st) b)).
            - rewrite Ev, map_app. reflexivity.
            - apply Hin', Hu.
            - apply (g_dep V m0 HG v _ Hv). left. exists u. auto. }
          apply in_map_iff in H. destruct H as (y & Ey & Hy). apply Hinj in Ey. subst. exact Hy.
    Qed.

    Lemma depends_in u v : depends exprs V u v -> In v V -> In u V.
    Proof. intros H. apply clos_rt_rt1n in H. destruct H as [|w ? (Hu & _) _]; auto. Qed.
    Lemma depends_in_r u v : depends exprs V u v -> In u V -> In v V.
    Proof. intros H Hu. apply clos_rt_rtn1 in H. destruct H as [|w ? (_ & Hv & _) _]; auto. Qed.

    (** Fuel that is enough for one update. *)
    Definition enough (ind dep : list nat) : nat :=
      S (2 * List.length ind + 2 * List.length dep + List.length (all_ids m0)).

    Lemma make_update_list_good m ind dep fuel :
      same m m0 -> NoDup ind -> NoDup dep -> In dummy ind -> (forall x, In x ind -> x = dummy \/ In x V) -> incl dep V ->
      (enough ind dep <= fuel)%nat ->
      exists m' vs, make_update_list fuel m (map (s_id st) ind) (map (s_id st) dep) = Some (Some (m', map Some vs)) /\
        same m' m0 /\ good_list exprs V ind dep dummy vs /\ (In dummy vs -> exists v, In v V /\ uses_always (exprs v) = true).
    Proof.
      intros Hm Hni Hnp Hdi Hi Hd Hf. unfold make_update_list, enough in *.
      assert (Hinj' : forall l : list nat, NoDup l -> NoDup (map (s_id st) l)).
      { intros l Hl. apply NoDup_map_on; [intros x y _ _; apply Hinj|exact Hl]. }
      destruct (predecessors_spec m0 dep_nonneg m (map (s_id st) ind) (map (s_id st) dep) Hm (Hinj' dep Hnp) fuel) as (m1 & preds & E1 & S1 & N1 & P1).
      { rewrite map_length. lia. }
      rewrite E1.
      destruct (followers_spec m0 m1 (map (s_id st) ind) preds S1 (Hinj' ind Hni) fuel) as (foll & E2 & N2 & P2).
      { rewrite map_length. lia. }
      rewrite E2.
      (* predecessors *)
      assert (Q1 : forall v, In v V -> In (s_id st v) preds <-> needed exprs V dep v).
      { intros v Hv. rewrite P1. split.
        - intros (d & Hd' & Hp). apply in_map_iff in Hd'. destruct Hd' as (w & <- & Hw).
          assert (G : forall k, clos_refl_trans Z (back m0) (s_id st w) k -> forall x, k = s_id st x -> In x V -> depends exprs V x w).
          { intros k Hk. apply clos_rt_rtn1 in Hk. induction Hk as [|j k Hjk _ IH]; intros x E Hx.
            - apply Hinj in E. subst. apply rt_refl.
            - unfold back in Hjk. subst k.
              destruct (g_dep_only V m0 HG _ _ Hjk) as (y & Hy & ->). apply id_edge in Hjk; [|assumption|assumption].
              eapply rt_trans; [apply rt_step, Hjk|]. apply IH; auto. }
          exists w. split; [exact Hw|]. apply (G _ Hp v); auto.
        - intros (w & Hw & Hp). exists (s_id st w). split; [apply in_map, Hw|].
          assert (HwV : In w V) by (apply Hd, Hw). clear Hw.
          apply clos_rt_rt1n in Hp. induction Hp as [x|x y z Hxy Hyz IH]; [apply rt_refl|].
          eapply rt_trans; [apply IH; [apply Hxy|exact HwV]|]. apply rt_step. unfold back. apply id_edge; [apply Hxy|apply Hxy|exact Hxy]. }
      assert (Q1d : forall v, In v V -> needed exprs V dep v -> uses_always (exprs v) = true -> In (s_id st dummy) preds).
      { intros v Hv Hn Hu. apply Q1 in Hn; [|exact Hv]. apply P1 in Hn. destruct Hn as (d & Hd' & Hp). apply P1. exists d. split; [exact Hd'|].
        eapply rt_trans; [exact Hp|]. apply rt_step. apply dummy_edge; assumption. }
      (* followers *)
      assert (Q2 : forall k, In k foll -> k = s_id st dummy \/ exists v, In v V /\ k = s_id st v /\ changing exprs V ind v /\ needed exprs V dep v).
      { intros k Hk. apply P2 in Hk. destruct Hk as (i & Hi1 & Hi2 & Hp). apply clos_rt_rtn1 in Hp.
        induction Hp as [|j k [Hjk Hkp] _ IH].
        - apply in_map_iff in Hi1. destruct Hi1 as (x & <- & Hx). destruct (Hi x Hx) as [->|HxV]; [auto|]. right.
          exists x. split; [exact HxV|]. split; [reflexivity|]. split; [|apply Q1; assumption].
          exists x. split; [auto|]. split; [exact HxV|apply rt_refl].
        - apply (g_mod V m0 HG) in Hjk. destruct Hjk as [Hjm Hjd].
          destruct (g_dep_only V m0 HG _ _ Hjd) as (v & Hv & ->). right. exists v. split; [exact Hv|]. split; [reflexivity|].
          split; [|apply Q1; assumption]. destruct IH as [->|(u & Hu & -> & (s & Hs1 & Hs2 & Hs3) & _)].
          + apply dummy_edge in Hjd; [|exact Hv]. exists v. split; [auto|]. split; [exact Hv|apply rt_refl].
          + exists s. split; [exact Hs1|]. split; [exact Hs2|]. eapply rt_trans; [exact Hs3|]. apply rt_step. apply id_edge; assumption. }
      assert (Q3 : forall v, In v V -> In (s_id st v) foll <-> changing exprs V ind v /\ needed exprs V dep v).
      { intros v Hv. split.
        - intros H. apply Q2 in H. destruct H as [E|(w & Hw & E & H)]; apply Hinj in E; subst; [destruct (g_dummy V m0 HG Hv)|exact H].
        - intros [(u & Hu & HuV & Hp) Hn]. apply P2.
          assert (Hpath : forall u, In u V -> depends exprs V u v -> clos_refl_trans Z (forth m0 preds) (s_id st u) (s_id st v)).
          { clear u Hu HuV Hp. intros u HuV Hp. apply clos_rt_rt1n in Hp. induction Hp as [x|x y z Hxy Hyz IH]; [apply rt_refl|].
            eapply rt_trans; [|apply IH; [exact Hv|exact Hn|apply Hxy]]. apply rt_step. split.
            - apply (g_mod V m0 HG). split; [apply (g_mem V m0 HG); exists x; auto|]. apply id_edge; [exact HuV|apply Hxy|exact Hxy].
            - apply Q1; [apply Hxy|]. destruct Hn as (w & Hw & Hzw). exists w. split; [exact Hw|]. eapply rt_trans; [|exact Hzw].
              apply clos_rt1n_rt, Hyz. }
          assert (Hnu : needed exprs V dep u).
          { destruct Hn as (w & Hw & Hzw). exists w. split; [exact Hw|]. eapply rt_trans; eassumption. }
          destruct Hu as [Hu|Hu].
          + exists (s_id st u). split; [apply in_map, Hu|]. split; [apply Q1; assumption|]. apply Hpath; assumption.
          + exists (s_id st dummy). split; [apply in_map, Hdi|]. split; [apply (Q1d u); assumption|].
            eapply rt_trans; [|apply Hpath; eassumption]. apply rt_step. split.
            * apply (g_mod V m0 HG). split; [apply (g_mem V m0 HG); exists dummy; auto|]. apply dummy_edge; assumption.
            * apply Q1; assumption. }
      destruct (order_good m1 foll S1 N2) as (m' & vs & E3 & S3 & N3 & P3 & T3).
      { intros k Hk. apply (g_mem V m0 HG). apply Q2 in Hk. destruct Hk as [->|(v & Hv & -> & _)]; [exists dummy; auto|exists v; auto]. }
      exists m', vs. split; [rewrite E3; reflexivity|]. split; [exact S3|]. split.
      - split; [exact N3|]. split; [|exact T3]. intros v Hv. rewrite P3. split.
        + intros H. assert (HvV : In v V). { apply Q2 in H. destruct H as [E|(w & Hw & E & _)]; apply Hinj in E; subst; [congruence|exact Hw]. }
          split; [exact HvV|]. apply Q3; assumption.
        + intros [HvV H]. apply Q3; assumption.
      - intros H. apply P3 in H. apply P2 in H. destruct H as (i & _ & Hip & Hp).
        assert (Hdp : In (s_id st dummy) preds).
        { apply clos_rt_rtn1 in Hp. inversion Hp as [|y z [_ Hy] _]; subst; [exact Hip|exact Hy]. }
        apply P1 in Hdp. destruct Hdp as (d & Hd' & Hp'). apply clos_rt_rtn1 in Hp'. inversion Hp' as [|y z Hy _]; subst.
        + apply in_map_iff in Hd'. destruct Hd' as (w & E & Hw). apply Hinj in E. subst. destruct (g_dummy V m0 HG (Hd _ Hw)).
        + unfold back in Hy. destruct (g_dep_only V m0 HG _ _ Hy) as (v & Hv & ->). exists v. split; [exact Hv|]. apply dummy_edge in Hy; assumption.
    Qed.
  End Updates.
End Build.
