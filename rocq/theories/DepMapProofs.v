(** Proofs about dependency maps: sets and maps, construction, graph searches, update order. *)
From Coq Require Import ZArith List Bool Lia Relations Permutation Sorted.
From Verif Require Import ExprModel DepModel DepSpec ExprProofs.
Import ListNotations.
Local Open Scope Z_scope.

(** ** Sets *)
Lemma zmem_In x l : zmem x l = true <-> In x l.
Proof.
  unfold zmem. rewrite existsb_exists. split.
  - intros (y & H & E). apply Z.eqb_eq in E. subst. exact H.
  - intros H. exists x. split; [exact H|apply Z.eqb_refl].
Qed.
Lemma zmem_false x l : zmem x l = false <-> ~ In x l.
Proof. rewrite <- zmem_In. destruct (zmem x l); split; congruence. Qed.

Lemma zinsert_In y x l : In y (zinsert x l) <-> y = x \/ In y l.
Proof.
  induction l as [|z l IH]; simpl; [intuition|].
  destruct (Z.ltb_spec x z); [simpl; intuition|]. destruct (Z.eqb_spec x z); [subst; simpl; intuition|].
  simpl. rewrite IH. intuition.
Qed.
Lemma zinsert_sorted x l : StronglySorted Z.lt l -> StronglySorted Z.lt (zinsert x l).
Proof.
  induction 1 as [|z l Hl IH Hz]; simpl; [repeat constructor|].
  destruct (Z.ltb_spec x z).
  - constructor; [constructor; assumption|]. constructor; [assumption|]. eapply Forall_impl; [|exact Hz]. simpl. lia.
  - destruct (Z.eqb_spec x z); [constructor; assumption|]. constructor; [exact IH|].
    apply Forall_forall. intros y Hy. apply zinsert_In in Hy. destruct Hy as [->|Hy]; [lia|].
    rewrite Forall_forall in Hz. apply Hz, Hy.
Qed.
Lemma sorted_nodup l : StronglySorted Z.lt l -> NoDup l.
Proof.
  induction 1 as [|z l Hl IH Hz]; constructor; [|exact IH].
  intros H. rewrite Forall_forall in Hz. apply Hz in H. lia.
Qed.
Lemma zset_fold l : forall s, StronglySorted Z.lt s ->
  StronglySorted Z.lt (fold_left (fun s x => zinsert x s) l s) /\
  forall y, In y (fold_left (fun s x => zinsert x s) l s) <-> In y s \/ In y l.
Proof.
  induction l as [|x l IH]; intros s Hs; simpl; [split; [exact Hs|tauto]|].
  destruct (IH _ (zinsert_sorted x s Hs)) as [H1 H2]. split; [exact H1|]. intros y. rewrite H2, zinsert_In. intuition.
Qed.
Lemma zset_sorted l : StronglySorted Z.lt (zset l).
Proof. apply zset_fold. constructor. Qed.
Lemma zset_In y l : In y (zset l) <-> In y l.
Proof. unfold zset. rewrite (proj2 (zset_fold l [] ltac:(constructor))). simpl. tauto. Qed.
Lemma zerase_In y x l : In y (zerase x l) <-> In y l /\ y <> x.
Proof. unfold zerase. rewrite filter_In, negb_true_iff, Z.eqb_neq. tauto. Qed.
Lemma filter_sorted f l : StronglySorted Z.lt l -> StronglySorted Z.lt (filter f l).
Proof.
  induction 1 as [|z l Hl IH Hz]; simpl; [constructor|]. destruct (f z); [|exact IH]. constructor; [exact IH|].
  apply Forall_forall. intros y Hy. apply filter_In in Hy. rewrite Forall_forall in Hz. apply Hz, Hy.
Qed.

(** ** Maps *)
Lemma dfind_dput m k vi k' : dfind (dput m k vi) k' = if k' =? k then Some vi else dfind m k'.
Proof.
  induction m as [|[j w] m IH]; simpl; [destruct (Z.eqb_spec k' k); reflexivity|].
  destruct (Z.ltb_spec k j); simpl; [reflexivity|].
  destruct (Z.eqb_spec k j); simpl.
  - subst. destruct (Z.eqb_spec k' j); reflexivity.
  - rewrite IH. destruct (Z.eqb_spec k' j), (Z.eqb_spec k' k); try reflexivity. lia.
Qed.

Lemma dput_keys m k vi y : In y (map fst (dput m k vi)) <-> y = k \/ In y (map fst m).
Proof.
  induction m as [|[j w] m IH]; simpl; [intuition|].
  destruct (Z.ltb_spec k j); simpl; [intuition|]. destruct (Z.eqb_spec k j); simpl; [subst; intuition|].
  rewrite IH. intuition.
Qed.
Lemma dput_sorted m k vi : StronglySorted Z.lt (map fst m) -> StronglySorted Z.lt (map fst (dput m k vi)).
Proof.
  induction m as [|[j w] m IH]; simpl; intros H; [repeat constructor|].
  inversion H as [|? ? Hm Hj]; subst. destruct (Z.ltb_spec k j); simpl.
  - constructor; [exact H|]. constructor; [assumption|]. eapply Forall_impl; [|exact Hj]. simpl. lia.
  - destruct (Z.eqb_spec k j); simpl; [subst; constructor; assumption|]. constructor; [apply IH, Hm|].
    apply Forall_forall. intros y Hy. apply dput_keys in Hy. destruct Hy as [->|Hy]; [lia|].
    rewrite Forall_forall in Hj. apply Hj, Hy.
Qed.
Lemma dfind_In m k vi : StronglySorted Z.lt (map fst m) -> In (k, vi) m <-> dfind m k = Some vi.
Proof.
  induction m as [|[j w] m IH]; simpl; intros H; [split; [tauto|discriminate]|].
  inversion H as [|? ? Hm Hj]; subst. specialize (IH Hm). destruct (Z.eqb_spec k j).
  - subst. split; [|intros E; inversion E; auto]. intros [E|Hin]; [inversion E; reflexivity|].
    exfalso. rewrite Forall_forall in Hj. apply (in_map fst) in Hin. apply Hj in Hin. simpl in Hin. lia.
  - rewrite <- IH. split; [intros [E|Hin]; [inversion E; lia|exact Hin]|auto].
Qed.
Lemma dmem_keys m k : dmem m k = true <-> In k (map fst m).
Proof.
  unfold dmem. induction m as [|[j w] m IH]; simpl; [intuition; discriminate|].
  destruct (Z.eqb_spec k j); [subst; intuition|]. rewrite IH. intuition.
Qed.

(** The contents of two maps are the same up to counters and default entries. *)
Definition same (m m' : dmap) : Prop :=
  forall k, vi_v (dinfo m k) = vi_v (dinfo m' k) /\ vi_dep (dinfo m k) = vi_dep (dinfo m' k) /\
            vi_mod (dinfo m k) = vi_mod (dinfo m' k).
Lemma same_refl m : same m m.
Proof. intros k. auto. Qed.
Lemma same_trans m1 m2 m3 : same m1 m2 -> same m2 m3 -> same m1 m3.
Proof. intros H1 H2 k. destruct (H1 k) as (a & b & c), (H2 k) as (a' & b' & c'). repeat split; congruence. Qed.

Lemma same_touch m k : same (dtouch m k) m.
Proof.
  intros j. unfold dtouch, dmem. destruct (dfind m k) eqn:E; [auto|].
  unfold dinfo. rewrite dfind_dput. destruct (Z.eqb_spec j k); [subst; rewrite E; auto|auto].
Qed.
Lemma dinfo_set_count m k c j : dinfo (dset_count m k c) j =
  if j =? k then mkVI (vi_v (dinfo m k)) (vi_dep (dinfo m k)) (vi_mod (dinfo m k)) (Some c) else dinfo m j.
Proof. unfold dset_count, dinfo at 1. rewrite dfind_dput. destruct (Z.eqb_spec j k); reflexivity. Qed.
Lemma same_set_count m k c : same (dset_count m k c) m.
Proof. intros j. rewrite dinfo_set_count. destruct (Z.eqb_spec j k); [subst|]; auto. Qed.

(** ** Work list searches *)

(** Both searches are instances of this one. *)
Section Search.
  Variable next : Z -> list Z.
  Variable ok : Z -> bool.
  Definition visit (s : list Z * list Z) (id : Z) : list Z * list Z :=
    let '(work, seen) := s in
    if zmem id seen || negb (ok id) then s else (work ++ [id], seen ++ [id]).
  Fixpoint search (fuel : nat) (s : list Z * list Z) : option (list Z) :=
    match fuel with
    | O => None
    | S n => let '(work, seen) := s in
             match work with
             | [] => Some seen
             | k :: work' => search n (fold_left visit (next k) (work', seen))
             end
    end.

  Definition hop (k j : Z) : Prop := In j (next k) /\ ok j = true.

  (** What one visit of all [next k] does. *)
  Lemma visit_fold l : forall work seen, let '(work', seen') := fold_left visit l (work, seen) in
    exists new, work' = work ++ new /\ seen' = seen ++ new /\
      (forall j, In j new -> In j l /\ ok j = true) /\
      (NoDup seen -> NoDup seen') /\
      (forall j, In j l -> ok j = true -> In j seen').
  Proof.
    induction l as [|x l IH]; intros work seen; cbn [fold_left].
    - exists []. rewrite !app_nil_r. split; [reflexivity|]. split; [reflexivity|]. split; [intros j []|]. split; [auto|intros j []].
    - unfold visit at 2. destruct (zmem x seen || negb (ok x)) eqn:E.
      + specialize (IH work seen). destruct (fold_left visit l (work, seen)) as [work' seen'].
        destruct IH as (new & H1 & H2 & H3 & H4 & H5). exists new. split; [exact H1|]. split; [exact H2|].
        split; [intros j Hj; apply H3 in Hj; simpl; tauto|]. split; [exact H4|].
        intros j [->|Hj] Hok; [|auto]. rewrite Hok in E. rewrite orb_false_r in E. apply zmem_In in E.
        subst seen'. apply in_or_app. left. exact E.
      + apply orb_false_iff in E. destruct E as [E1 E2]. apply zmem_false in E1. apply negb_false_iff in E2.
        specialize (IH (work ++ [x]) (seen ++ [x])). destruct (fold_left visit l (work ++ [x], seen ++ [x])) as [work' seen'].
        destruct IH as (new & H1 & H2 & H3 & H4 & H5). exists (x :: new). rewrite <- app_assoc in H1, H2.
        split; [exact H1|]. split; [exact H2|].
        split; [intros j [->|Hj]; [simpl; auto|apply H3 in Hj; simpl; tauto]|].
        split.
        * intros Hn. apply H4.
          apply NoDup_Add with (a := x) (l := seen); [|split; assumption].
          replace seen with (seen ++ []) at 1 by apply app_nil_r. apply Add_app.
        * intros j [->|Hj] Hok; [subst seen'; apply in_or_app; right; left; reflexivity|auto].
  Qed.

  Variable univ : list Z.
  Hypothesis Huniv : forall k j, hop k j -> In j univ.

  Lemma search_inv fuel : forall work seen,
    NoDup seen -> incl seen univ -> incl work seen ->
    (forall k j, In k seen -> ~ In k work -> hop k j -> In j seen) ->
    (List.length work + (List.length univ - List.length seen) < fuel)%nat ->
    exists r, search fuel (work, seen) = Some r /\ NoDup r /\ incl seen r /\
      (forall k j, In k r -> hop k j -> In j r) /\
      (forall P : Z -> Prop, (forall k, In k seen -> P k) -> (forall k j, P k -> hop k j -> P j) -> forall k, In k r -> P k).
  Proof.
    induction fuel as [|n IH]; intros work seen Hn Hi Hw Hc Hf; [lia|].
    cbn [search]. destruct work as [|k work].
    - exists seen. split; [reflexivity|]. split; [exact Hn|]. split; [apply incl_refl|]. split.
      + intros k j Hk Hj. apply (Hc k j Hk); [intros []|exact Hj].
      + intros P HP _ j Hj. apply HP, Hj.
    - pose proof (visit_fold (next k) work seen) as V. destruct (fold_left visit (next k) (work, seen)) as [work' seen'].
      destruct V as (new & -> & -> & V3 & V4 & V5).
      assert (Hi' : incl (seen ++ new) univ).
      { apply incl_app; [exact Hi|]. intros j Hj. apply V3 in Hj. apply (Huniv k). exact Hj. }
      destruct (IH (work ++ new) (seen ++ new)) as (r & R1 & R2 & R3 & R4 & R5).
      + apply V4, Hn.
      + exact Hi'.
      + apply incl_app; [|apply incl_appr, incl_refl]. intros j Hj. apply in_or_app. left. apply Hw. right. exact Hj.
      + intros a j Ha Hna Hh. apply in_app_or in Ha. destruct Ha as [Ha|Ha].
        * destruct (Z.eq_dec a k) as [->|Hak]; [apply V5; apply Hh|]. apply in_or_app. left. apply (Hc a j Ha); [|exact Hh].
          intros [->|H]; [lia|]. apply Hna. apply in_or_app. left. exact H.
        * exfalso. apply Hna. apply in_or_app. right. exact Ha.
      + pose proof (NoDup_incl_length (V4 Hn) Hi') as L. rewrite !app_length in *. simpl in Hf. lia.
      + exists r. split; [exact R1|]. split; [exact R2|]. split; [intros j Hj; apply R3, in_or_app; left; exact Hj|].
        split; [exact R4|]. intros P HP Hstep. apply R5; [|exact Hstep].
        intros j Hj. apply in_app_or in Hj. destruct Hj as [Hj|Hj]; [apply HP, Hj|].
        apply (Hstep k). { apply HP, Hw. left. reflexivity. } apply V3, Hj.
  Qed.

  (** The search returns what can be reached from the start. *)
  Lemma search_spec start : NoDup start -> incl start univ ->
    forall fuel, (List.length start + List.length univ < fuel)%nat -> exists r, search fuel (start, start) = Some r /\ NoDup r /\
      forall k, In k r <-> exists s, In s start /\ clos_refl_trans Z hop s k.
  Proof.
    intros Hn Hi fuel Hf.
    destruct (search_inv fuel start start Hn Hi (incl_refl _)) as (r & R1 & R2 & R3 & R4 & R5).
    - intros k j Hk Hnk. contradiction.
    - lia.
    - exists r. split; [exact R1|]. split; [exact R2|]. intros k. split.
      + apply (R5 (fun k => exists s, In s start /\ clos_refl_trans Z hop s k)).
        * intros j Hj. exists j. split; [exact Hj|apply rt_refl].
        * intros a b (s & Hs & Hp) Hh. exists s. split; [exact Hs|]. eapply rt_trans; [exact Hp|apply rt_step, Hh].
      + intros (s & Hs & Hp). assert (G : In s r) by (apply R3, Hs). clear Hs.
        apply clos_rt_rt1n in Hp. induction Hp as [|a b c Hab _ IH]; [exact G|]. apply IH. apply (R4 a b G Hab).
  Qed.
End Search.

(** The initial work list: ids of the given variables without duplicates. *)
Lemma dups_fold l : forall work seen, NoDup (seen ++ l) ->
  fold_left (fun s id => let '(work, foll) := s in (work ++ [id], if zmem id foll then foll else foll ++ [id])) l (work, seen) = (work ++ l, seen ++ l).
Proof.
  induction l as [|x l IH]; intros work seen Hn; simpl; [rewrite !app_nil_r; reflexivity|].
  assert (E : zmem x seen = false).
  { apply zmem_false. intros H. apply NoDup_remove_2 in Hn. apply Hn, in_or_app. left. exact H. }
  rewrite E. change (x :: l) with ([x] ++ l) in *. rewrite app_assoc in Hn. rewrite IH by exact Hn.
  rewrite <- !app_assoc. reflexivity.
Qed.

Section Loops.
  Variable m0 : dmap.
  Let deps k := vi_dep (dinfo m0 k).
  Let mods k := vi_mod (dinfo m0 k).
  Hypothesis Hnonneg : forall k j, In j (deps k) -> 0 <= j.

  Definition all_ids : list Z := flat_map (fun e => fst e :: vi_dep (snd e) ++ vi_mod (snd e)) m0.
  Lemma in_all_ids k j : In j (deps k) \/ In j (mods k) -> In j all_ids.
  Proof.
    unfold deps, mods, dinfo. destruct (dfind m0 k) as [vi|] eqn:E; [|simpl; tauto]. intros H.
    unfold all_ids. apply in_flat_map. exists (k, vi). split.
    - clear - E. induction m0 as [|[a w] m IH]; simpl in *; [discriminate|]. destruct (Z.eqb_spec k a); [inversion E; subst; auto|right; auto].
    - right. apply in_or_app. simpl. tauto.
  Qed.

  (** *** Predecessors *)
  Lemma pred_fold ind : forall l m work preds, same m m0 -> (forall j, In j l -> 0 <= j) ->
    exists m', same m' m0 /\
      fold_left (pred_visit ind) l (m, work, preds) =
      (let '(w, s) := fold_left (visit (fun _ => true)) l (work, preds) in (m', w, s)).
  Proof.
    induction l as [|x l IH]; intros m work preds Hm Hl; cbn [fold_left].
    - exists m. auto.
    - unfold pred_visit at 2, visit at 2. cbn [negb]. rewrite orb_false_r.
      destruct (zmem x preds); [apply IH; [exact Hm|intros; apply Hl; right; assumption]|].
      assert (Hx : (x <? 0) = false) by (apply Z.ltb_ge, Hl; left; reflexivity). rewrite Hx. unfold pred_push.
      apply IH; [|intros; apply Hl; right; assumption]. eapply same_trans; [apply same_touch|exact Hm].
  Qed.

  Lemma pred_loop_search ind : forall fuel m work preds, same m m0 ->
    match search deps (fun _ => true) fuel (work, preds) with
    | Some r => exists m', same m' m0 /\ pred_loop fuel ind (m, work, preds) = Some (m', r)
    | None => pred_loop fuel ind (m, work, preds) = None
    end.
  Proof.
    induction fuel as [|n IH]; intros m work preds Hm; [reflexivity|]. cbn [search pred_loop].
    destruct work as [|k work]; [exists m; auto|].
    assert (Ed : vi_dep (dinfo m k) = deps k) by apply (Hm k). rewrite Ed.
    destruct (pred_fold ind (deps k) m work preds Hm (Hnonneg k)) as (m' & Hm' & E). rewrite E.
    destruct (fold_left (visit (fun _ => true)) (deps k) (work, preds)) as [w s]. apply IH, Hm'.
  Qed.

  Lemma pred_init dep : forall m work preds, same m m0 -> NoDup (preds ++ dep) ->
    exists m', same m' m0 /\
    fold_left (fun s id => let '(m, work, preds) := s in
                              (dtouch m id, work ++ [id], if zmem id preds then preds else preds ++ [id]))
                 dep (m, work, preds) = (m', work ++ dep, preds ++ dep).
  Proof.
    induction dep as [|x l IH]; intros m work preds Hm Hn; simpl.
    - exists m. rewrite !app_nil_r. auto.
    - assert (E : zmem x preds = false).
      { apply zmem_false. intros H. apply NoDup_remove_2 in Hn. apply Hn, in_or_app. left. exact H. }
      rewrite E. change (x :: l) with ([x] ++ l) in *. rewrite app_assoc in Hn.
      destruct (IH (dtouch m x) (work ++ [x]) (preds ++ [x])) as (m' & Hm' & E').
      + eapply same_trans; [apply same_touch|exact Hm].
      + exact Hn.
      + exists m'. rewrite E', <- !app_assoc. auto.
  Qed.

  Definition back (k j : Z) : Prop := In j (deps k).

  Lemma predecessors_spec m ind dep : same m m0 -> NoDup dep ->
    forall fuel, (2 * List.length dep + List.length all_ids < fuel)%nat -> exists m' preds, predecessors fuel m ind dep = Some (m', preds) /\ same m' m0 /\
      NoDup preds /\ forall k, In k preds <-> exists d, In d dep /\ clos_refl_trans Z back d k.
  Proof.
    intros Hm Hd fuel Hf.
    destruct (search_spec deps (fun _ => true) (dep ++ all_ids)) with (start := dep) (fuel := fuel) as (r & R1 & R2 & R3).
    - intros k j [H _]. apply in_or_app. right. apply (in_all_ids k). left. exact H.
    - exact Hd.
    - apply incl_appl, incl_refl.
    - rewrite app_length. lia.
    - unfold predecessors.
      destruct (pred_init dep m [] [] Hm Hd) as (m1 & Hm1 & E). cbn [app] in E. rewrite E.
      pose proof (pred_loop_search ind fuel m1 dep dep Hm1) as P. rewrite R1 in P. destruct P as (m' & Hm' & P).
      exists m', r. split; [exact P|]. split; [exact Hm'|]. split; [exact R2|]. intros k. rewrite R3.
      split; intros (d & Hd' & Hp); exists d; (split; [exact Hd'|]); clear - Hp.
      + induction Hp as [a b [H _]| |]; [apply rt_step, H|apply rt_refl|eapply rt_trans; eauto].
      + induction Hp as [a b H| |]; [apply rt_step; split; [exact H|reflexivity]|apply rt_refl|eapply rt_trans; eauto].
  Qed.

  (** *** Followers *)
    Lemma foll_loop_search preds : forall fuel m s, same m m0 -> foll_loop fuel m preds s = search mods (fun id => zmem id preds) fuel s.
  Proof.
    induction fuel as [|n IH]; intros m [work foll] Hm; [reflexivity|]. cbn [search foll_loop]. destruct work as [|k work]; [reflexivity|].
    assert (Ed : vi_mod (dinfo m k) = mods k) by apply (Hm k). rewrite Ed. rewrite IH by exact Hm. f_equal.
  Qed.
  Lemma foll_init preds ind : forall work seen, NoDup (seen ++ ind) ->
    fold_left (fun s id => let '(work, foll) := s in
                           if zmem id preds then (work ++ [id], if zmem id foll then foll else foll ++ [id]) else s)
                 ind (work, seen) = (work ++ filter (fun id => zmem id preds) ind, seen ++ filter (fun id => zmem id preds) ind).
  Proof.
    induction ind as [|x l IH]; intros work seen Hn; simpl; [rewrite !app_nil_r; reflexivity|].
    assert (E : zmem x seen = false).
    { apply zmem_false. intros H. apply NoDup_remove_2 in Hn. apply Hn, in_or_app. left. exact H. }
    destruct (zmem x preds).
    - rewrite E. change (x :: l) with ([x] ++ l) in Hn. rewrite app_assoc in Hn. rewrite IH by exact Hn.
      rewrite <- !app_assoc. reflexivity.
    - apply IH. apply NoDup_remove_1 in Hn. exact Hn.
  Qed.

  Definition forth (preds : list Z) (k j : Z) : Prop := In j (mods k) /\ In j preds.

  Lemma followers_spec m ind preds : same m m0 -> NoDup ind ->
    forall fuel, (2 * List.length ind + List.length all_ids < fuel)%nat -> exists foll, followers fuel m ind preds = Some foll /\ NoDup foll /\
      forall k, In k foll <-> exists i, In i ind /\ In i preds /\ clos_refl_trans Z (forth preds) i k.
  Proof.
    intros Hm Hd fuel Hf. set (start := filter (fun id => zmem id preds) ind).
    assert (Hl : (List.length start <= List.length ind)%nat).
    { apply NoDup_incl_length; [apply NoDup_filter, Hd|apply incl_filter]. }
    destruct (search_spec mods (fun id => zmem id preds) (start ++ all_ids)) with (start := start) (fuel := fuel) as (r & R1 & R2 & R3).
    - intros k j [H _]. apply in_or_app. right. apply (in_all_ids k). right. exact H.
    - apply NoDup_filter, Hd.
    - apply incl_appl, incl_refl.
    - rewrite app_length. lia.
    - unfold followers.
      rewrite (foll_init preds ind [] []) by exact Hd. cbn [app]. rewrite foll_loop_search by exact Hm. fold start. rewrite R1.
      exists r. split; [reflexivity|]. split; [exact R2|]. intros k. rewrite R3. unfold start.
      split.
      + intros (d & Hd' & Hp). apply filter_In in Hd'. destruct Hd' as [H1 H2]. apply zmem_In in H2.
        exists d. split; [exact H1|]. split; [exact H2|]. clear - Hp.
        induction Hp as [a b [H H']| |]; [apply rt_step; split; [exact H|apply zmem_In, H']|apply rt_refl|eapply rt_trans; eauto].
      + intros (d & H1 & H2 & Hp). exists d. split; [apply filter_In; split; [exact H1|apply zmem_In, H2]|]. clear - Hp.
        induction Hp as [a b [H H']| |]; [apply rt_step; split; [exact H|apply zmem_In, H']|apply rt_refl|eapply rt_trans; eauto].
  Qed.

  (** *** Update order *)
  Variable D : list Z.
  Hypothesis HD : NoDup D.
  (** Dependencies and modifications agree on the variables to be ordered. *)
  Hypothesis Hdual : forall j k, In j D -> In k D -> (In j (deps k) <-> In k (mods j)).
  Hypothesis Hnd : forall k, NoDup (deps k).
  Hypothesis Hnm : forall k, NoDup (mods k).
  Hypothesis Hwf : well_founded (fun j k => In j D /\ In k D /\ In j (deps k)).

  Definition pending (work : list Z) (k : Z) : Z := Z.of_nat (List.length (filter (fun j => zmem j work) (deps k))).
  Definition counted (m : dmap) (work : list Z) : Prop :=
    same m m0 /\ forall k, In k work -> vi_count (dinfo m k) = Some (pending work k).

  Lemma init_counted m : same m m0 -> counted (init_counts m D) D.
  Proof.
    intros Hm. unfold init_counts.
    assert (G : forall l m, same m m0 -> NoDup l ->
      let m' := fold_left (fun m k => dset_count m k (Z.of_nat (List.length (filter (fun id => zmem id D) (vi_dep (dinfo m k)))))) l m in
      same m' m0 /\ (forall k, ~ In k l -> vi_count (dinfo m' k) = vi_count (dinfo m k)) /\
      forall k, In k l -> vi_count (dinfo m' k) = Some (pending D k)).
    { clear m Hm. induction l as [|x l IH]; intros m Hm Hn; cbn [fold_left]; [cbn zeta; split; [exact Hm|split; [auto|intros k []]]|].
      inversion Hn; subst. cbn zeta.
      destruct (IH (dset_count m x (Z.of_nat (List.length (filter (fun id => zmem id D) (vi_dep (dinfo m x))))))) as (I1 & I2 & I3).
      - eapply same_trans; [apply same_set_count|exact Hm].
      - assumption.
      - split; [exact I1|]. split.
        + intros k Hk. rewrite I2 by (intros H; apply Hk; right; exact H). rewrite dinfo_set_count.
          destruct (Z.eqb_spec k x); [exfalso; apply Hk; left; congruence|reflexivity].
        + intros k [->|Hk]; [|apply I3, Hk]. rewrite I2 by assumption. rewrite dinfo_set_count, Z.eqb_refl. cbn [vi_count].
          unfold pending. destruct (Hm k) as (_ & E & _). rewrite E. reflexivity. }
    destruct (G D m Hm HD) as (G1 & _ & G3). split; assumption.
  Qed.

  Lemma take_ready_spec m work : match take_ready m work with
    | Some (k, w) => vi_count (dinfo m k) = Some 0 /\ exists a b, work = a ++ k :: b /\ w = a ++ b
    | None => forall k, In k work -> vi_count (dinfo m k) <> Some 0
    end.
  Proof.
    induction work as [|k work IH]; simpl; [tauto|].
    destruct (vi_count (dinfo m k)) as [[| |]|] eqn:E;
      try (split; [exact E|exists [], work; split; reflexivity]);
      (destruct (take_ready m work) as [[k' w]|];
       [destruct IH as (I1 & a & b & -> & ->); split; [exact I1|]; exists (k :: a), b; split; reflexivity
       |intros j [->|Hj]; [congruence|auto]]).
  Qed.

  Lemma decrement_spec ids : forall m, same m m0 -> NoDup ids ->
    (forall k, In k ids -> In k D -> exists c, vi_count (dinfo m k) = Some c /\ 1 <= c) ->
    exists m', decrement m D ids = Some m' /\ same m' m0 /\
      forall k, vi_count (dinfo m' k) =
        if zmem k ids && zmem k D then match vi_count (dinfo m k) with Some c => Some (c - 1) | None => None end
        else vi_count (dinfo m k).
  Proof.
    induction ids as [|x ids IH]; intros m Hm Hn Hc; [exists m; simpl; auto|].
    inversion Hn; subst. cbn [decrement]. destruct (zmem x D) eqn:Ex.
    - destruct (Hc x ltac:(left; reflexivity) ltac:(apply zmem_In, Ex)) as (c & Ec & Hge). rewrite Ec.
      replace (c - 1 >=? 0) with true by (symmetry; apply Z.geb_le; lia).
      destruct (IH (dset_count m x (c - 1))) as (m' & E & S & C).
      + eapply same_trans; [apply same_set_count|exact Hm].
      + assumption.
      + intros k Hk HkD. rewrite dinfo_set_count. destruct (Z.eqb_spec k x); [subst; contradiction|]. apply Hc; [right; exact Hk|exact HkD].
      + exists m'. split; [exact E|]. split; [exact S|]. intros k. rewrite C. rewrite dinfo_set_count.
        change (zmem k (x :: ids)) with ((k =? x) || zmem k ids). destruct (Z.eqb_spec k x).
        * subst. cbn [vi_count orb]. apply zmem_false in H1. rewrite H1, Ex, Ec. reflexivity.
        * reflexivity.
    - destruct (IH m) as (m' & E & S & C); [exact Hm|assumption|intros k Hk HkD; apply Hc; [right; exact Hk|exact HkD]|].
      exists m'. split; [exact E|]. split; [exact S|]. intros k. rewrite C. change (zmem k (x :: ids)) with ((k =? x) || zmem k ids).
      destruct (Z.eqb_spec k x); [subst; rewrite Ex, !andb_false_r; reflexivity|reflexivity].
  Qed.

  Lemma pending_remove a k b j : NoDup (a ++ k :: b) ->
    pending (a ++ k :: b) j = pending (a ++ b) j + (if zmem k (deps j) then 1 else 0).
  Proof.
    intros Hn. unfold pending. specialize (Hnd j). induction (deps j) as [|x l IH]; [simpl; lia|].
    inversion Hnd; subst. specialize (IH H2). cbn [filter].
    assert (E : zmem x (a ++ k :: b) = (x =? k) || zmem x (a ++ b)).
    { unfold zmem. rewrite !existsb_app. cbn [existsb]. destruct (x =? k), (existsb (Z.eqb x) a), (existsb (Z.eqb x) b); reflexivity. }
    rewrite E. change (zmem k (x :: l)) with ((k =? x) || zmem k l). rewrite (Z.eqb_sym k x). destruct (Z.eqb_spec x k); cbn [orb].
    - subst x. assert (Hk : zmem k (a ++ b) = false). { apply zmem_false. apply NoDup_remove_2 in Hn. exact Hn. }
      rewrite Hk. apply zmem_false in H1. rewrite H1 in IH. cbn [List.length]. lia.
    - destruct (zmem x (a ++ b)); cbn [List.length]; lia.
  Qed.

  Lemma pending_0 work k : pending work k = 0 -> forall j, In j (deps k) -> ~ In j work.
  Proof.
    unfold pending. intros H j Hj Hw. assert (In j (filter (fun j => zmem j work) (deps k))) as Hin.
    { apply filter_In. split; [exact Hj|apply zmem_In, Hw]. }
    destruct (filter _ _); [destruct Hin|simpl in H; lia].
  Qed.
  Lemma pending_pos work k : 0 < pending work k -> exists j, In j (deps k) /\ In j work.
  Proof.
    unfold pending. intros H. destruct (filter (fun j => zmem j work) (deps k)) as [|j l] eqn:E; [simpl in H; lia|].
    assert (In j (filter (fun j => zmem j work) (deps k))) as Hin by (rewrite E; left; reflexivity).
    apply filter_In in Hin. exists j. split; [apply Hin|apply zmem_In, Hin].
  Qed.

  (** Variables already listed do not depend on the others. *)
  Definition closed (work : list Z) : Prop := forall k j, In k D -> ~ In k work -> In j (deps k) -> ~ In j work.

  Lemma order_loop_spec : forall n m work, counted m work -> closed work -> NoDup work -> incl work D -> List.length work = n ->
    exists m' order, order_loop n m D work = Some (m', map (fun k => vi_v (dinfo m0 k)) order) /\ same m' m0 /\
      Permutation work order /\
      forall a k b j, order = a ++ k :: b -> In j work -> In j (deps k) -> In j a.
  Proof.
    induction n as [|n IH]; intros m work [Hm Hc] Hcl Hn Hi Hl.
    - destruct work; [|discriminate]. exists m, []. split; [reflexivity|]. split; [exact Hm|]. split; [constructor|].
      intros a k b j E. destruct a; discriminate.
    - destruct work as [|w0 work0]; [discriminate|]. cbn [order_loop]. remember (w0 :: work0) as work eqn:Ew.
      pose proof (take_ready_spec m work) as T. destruct (take_ready m work) as [[k w]|].
      + destruct T as (Hk0 & a & b & E & ->).
        assert (Hk : In k work) by (rewrite E; apply in_or_app; right; left; reflexivity).
        assert (Hp : pending work k = 0) by (rewrite (Hc k Hk) in Hk0; congruence).
        assert (Hno := pending_0 work k Hp).
        assert (Hms : vi_mod (dinfo m k) = mods k) by apply (Hm k). rewrite Hms.
        assert (Hjw : forall j, In j D -> In k (deps j) -> In j work).
        { intros j HjD Hkj. destruct (in_dec Z.eq_dec j work) as [Hin|Hout]; [exact Hin|]. exfalso. exact (Hcl j k HjD Hout Hkj Hk). }
        destruct (decrement_spec (mods k) m Hm (Hnm k)) as (m1 & E1 & S1 & C1).
        { intros j Hj HjD. assert (Hkj : In k (deps j)) by (apply Hdual; [apply Hi, Hk|exact HjD|exact Hj]).
          exists (pending work j). split; [apply Hc, Hjw; assumption|].
          rewrite E, pending_remove by (rewrite <- E; exact Hn). apply zmem_In in Hkj. rewrite Hkj. unfold pending. lia. }
        rewrite E1. assert (Hn' := Hn). rewrite E in Hn'.
        destruct (IH m1 (a ++ b)) as (m' & order & O1 & O2 & O3 & O4).
        * split; [exact S1|]. intros j Hj. rewrite C1.
          assert (Hj' : In j work). { rewrite E. apply in_app_or in Hj. apply in_or_app. simpl. tauto. }
          rewrite (Hc j Hj'), E, (pending_remove a k b j Hn').
          assert (HjD : zmem j D = true) by (apply zmem_In, Hi, Hj'). rewrite HjD, andb_true_r.
          assert (Eq : zmem j (mods k) = zmem k (deps j)).
          { apply eq_true_iff_eq. rewrite !zmem_In. symmetry. apply Hdual; [apply Hi, Hk|apply Hi, Hj']. }
          rewrite Eq. destruct (zmem k (deps j)); f_equal; lia.
        * intros j i HjD Hnj Hi' Hiw. destruct (in_dec Z.eq_dec j work) as [Hin|Hout].
          -- assert (j = k). { rewrite E in Hin. apply in_app_or in Hin. destruct Hin as [H|[H|H]]; [|congruence|];
               exfalso; apply Hnj, in_or_app; tauto. }
             subst j. apply (Hno i Hi'). rewrite E. apply in_app_or in Hiw. apply in_or_app. simpl. tauto.
          -- apply (Hcl j i HjD Hout Hi'). rewrite E. apply in_app_or in Hiw. apply in_or_app. simpl. tauto.
        * apply NoDup_remove_1 in Hn'. exact Hn'.
        * intros j Hj. apply Hi. rewrite E. apply in_app_or in Hj. apply in_or_app. simpl. tauto.
        * rewrite E in Hl. rewrite app_length in *. simpl in Hl. lia.
        * rewrite O1. exists m', (k :: order). split; [|split; [exact O2|split]].
          -- cbn [map]. destruct (Hm k) as (Ev & _). rewrite Ev. reflexivity.
          -- rewrite E. apply Permutation_sym, Permutation_cons_app, Permutation_sym, O3.
          -- intros a' k' b' j E' Hj Hd. destruct a' as [|x a']; simpl in E'; inversion E'; subst.
             ++ exfalso. exact (Hno j Hd Hj).
             ++ destruct (Z.eq_dec j x) as [->|Hne]; [left; reflexivity|]. right. apply (O4 a' k' b' j eq_refl); [|exact Hd].
                rewrite E in Hj. apply in_app_or in Hj. apply in_or_app. destruct Hj as [H|[H|H]]; [tauto|congruence|tauto].
      + exfalso.
        assert (G : forall k, In k work -> False).
        { intros k. induction (Hwf k) as [k _ IHk]. intros Hk.
          destruct (pending_pos work k) as (j & Hj & Hjw).
          { pose proof (T k Hk) as Tk. rewrite (Hc k Hk) in Tk. unfold pending in *.
            destruct (List.length (filter (fun j => zmem j work) (deps k))); [exfalso; apply Tk; reflexivity|lia]. }
          apply (IHk j); [|exact Hjw]. split; [apply Hi, Hjw|]. split; [apply Hi, Hk|exact Hj]. }
        apply (G w0). rewrite Ew. left. reflexivity.
  Qed.
End Loops.

Lemma update_order_spec m0 m D :
  same m m0 -> NoDup D ->
  (forall j k, In j D -> In k D -> (In j (vi_dep (dinfo m0 k)) <-> In k (vi_mod (dinfo m0 j)))) ->
  (forall k, NoDup (vi_dep (dinfo m0 k))) -> (forall k, NoDup (vi_mod (dinfo m0 k))) ->
  well_founded (fun j k => In j D /\ In k D /\ In j (vi_dep (dinfo m0 k))) ->
  exists m' order, update_order m D = Some (m', map (fun k => vi_v (dinfo m0 k)) order) /\ same m' m0 /\
    Permutation D order /\ forall a k b j, order = a ++ k :: b -> In j D -> In j (vi_dep (dinfo m0 k)) -> In j a.
Proof.
  intros Hm HD Hdual Hd1 Hd2 Hwf. unfold update_order. cbn zeta.
  assert (HP : Permutation D (zset D)).
  { apply NoDup_Permutation; [exact HD|apply sorted_nodup, zset_sorted|]. intros x. symmetry. apply zset_In. }
  assert (HD' : NoDup (zset D)) by apply sorted_nodup, zset_sorted.
  destruct (order_loop_spec m0 (zset D)) with (n := List.length (zset D)) (m := init_counts m (zset D)) (work := zset D)
    as (m' & order & O1 & O2 & O3 & O4).
  - intros j k Hj Hk. apply Hdual; apply zset_In; assumption.
  - exact Hd1.
  - exact Hd2.
  - intros k. specialize (Hwf k). induction Hwf as [k _ IH]. constructor. intros j (H1 & H2 & H3). apply IH.
    split; [apply zset_In, H1|]. split; [apply zset_In, H2|exact H3].
  - apply init_counted; assumption.
  - intros k j Hk Hnk. contradiction.
  - exact HD'.
  - apply incl_refl.
  - reflexivity.
  - exists m', order. split; [exact O1|]. split; [exact O2|]. split; [eapply Permutation_trans; eassumption|].
    intros a k b j E Hj. apply O4 with (b := b); [exact E|apply zset_In, Hj].
Qed.
