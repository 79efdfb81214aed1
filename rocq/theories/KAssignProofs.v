(** Proofs about Kokkos-backed grids under arbitrary assignments. *)
From Verif Require Import Vec GridSpec StorageModel GridModel ShareModel ShareSpec KokkosModel KokkosSpec BoxFacts RangeProofs
  ShareProofs KokkosProofs AssignSpec.

Local Arguments Z.sub : simpl never.
Local Arguments Z.add : simpl never.

Section Proofs.
  Context {V : Type}.
  Variable zero : V.
  Variable rank : nat.
  Notation ast := (@ast V).
  Notation KR := (KR rank).
  Notation krun := (krun zero rank).

  (** The maps hold those that are told. *)
  Record KT (s : kst V) (a : ast) (t : nat -> list nat) : Prop := {
    KT_n : k_n s = a_n a;
    KT_grp : forall x, In x (a_live a) -> k_upds (k_h s x) = a_grp a x;
    KT_map : forall g y, In y (k_maps s g) <-> In y (t g) }.

  Lemma KT_init : KT (kinit zero) ainit (fun _ => []).
  Proof. constructor; simpl; tauto. Qed.

  Lemma KT_new s a t h s' : KR s a -> KT s a t -> ~ In h (a_live a) -> k_new rank h s = Some s' ->
    KT s' (astep (New h) a) (k_leaves (New h) a t).
  Proof.
    intros H [T1 T2 T3] Hh. unfold k_new. destruct (mem h (k_live s)); [discriminate|]. intros [= <-].
    constructor; cbn [astep k_leaves a_live a_grp a_arr a_n k_live k_h k_maps k_n].
    - lia.
    - intros x [<-|Hx]; [rewrite !upd_same; simpl; exact T1|]. rewrite !upd_other by (intros ->; tauto). auto.
    - intros g y. rewrite T1. unfold upd. destruct (Nat.eqb g (a_n a)); [reflexivity|apply T3].
  Qed.

  Lemma KT_copy s a t h src s' : KR s a -> KT s a t -> ~ In h (a_live a) -> In src (a_live a) -> k_copy h src s = Some s' ->
    KT s' (astep (Copy h src) a) (k_leaves (Copy h src) a t).
  Proof.
    intros H [T1 T2 T3] Hh Hs. unfold k_copy. destruct (_ || _); [discriminate|]. intros [= <-].
    constructor; cbn [astep k_leaves a_live a_grp a_arr a_n k_live k_h k_maps k_n]; auto.
    - intros x [<-|Hx]; [rewrite !upd_same; auto|]. rewrite !upd_other by (intros ->; tauto). auto.
    - intros g y. rewrite (T2 src Hs). unfold upd. destruct (Nat.eqb g (a_grp a src)); [|apply T3].
      rewrite !add_In, T3. reflexivity.
  Qed.

  Lemma KT_destroy s a t h s' : KR s a -> KT s a t -> In h (a_live a) -> k_destroy h s = Some s' ->
    KT s' (astep (Destroy h) a) (k_leaves (Destroy h) a t).
  Proof.
    intros H [T1 T2 T3] Hh. unfold k_destroy. destruct (negb _); [discriminate|]. intros [= <-].
    constructor; cbn [astep k_leaves a_live a_grp a_arr a_n k_live k_h k_maps k_n]; auto.
    - intros x Hx. apply rem_In in Hx. apply T2. tauto.
    - intros g y. rewrite (T2 h Hh). unfold upd. destruct (Nat.eqb g (a_grp a h)); [|apply T3].
      rewrite !rem_In, T3. reflexivity.
  Qed.

  Lemma KT_assign s a t h src s' : KR s a -> KT s a t -> In h (a_live a) -> In src (a_live a) -> k_assign h src s = Some s' ->
    KT s' (astep (Assign h src) a) (k_leaves (Assign h src) a t).
  Proof.
    intros H [T1 T2 T3] Hh Hs. unfold k_assign. destruct (_ || _); [discriminate|]. intros [= <-].
    constructor; cbn [astep k_leaves a_live a_grp a_arr a_n k_set_h k_live k_h k_maps k_n]; auto.
    intros x Hx. unfold upd. destruct (Nat.eqb x h); auto.
  Qed.

  Lemma K_resize s a t h lo hi : KR s a -> KT s a t -> In h (a_live a) -> k_in_order (Resize h lo hi : op V) a t ->
    exists s', k_resize zero h lo hi s = Some s' /\ KR s' (astep (Resize h lo hi) a) /\ KT s' (astep (Resize h lo hi) a) t.
  Proof.
    intros H [T1 T2 T3] Hh (Hin & Hto & Ha). unfold k_resize. rewrite (KR_live _ _ _ H), (proj2 (mem_In h _) Hh). simpl negb. cbv iota.
    rewrite (T2 h Hh).
    set (s1 := mkKst _ _ _ _ _ _).
    destruct (k_update_alone lo hi h (k_maps s (a_grp a h)) s1 Hh) as (s' & E & H1 & H2 & H3 & H4 & H5 & H6 & H7).
    { intros y Hy. apply T3 in Hy. auto. }
    { now apply T3. }
    exists s'. split; [exact E|]. unfold s1 in H1, H2, H3, H4, H5, H6, H7.
    cbn [k_live k_h k_maps k_n k_arr k_na] in *. rewrite upd_same in H7.
    assert (Ho : forall x, x <> h -> k_h s' x = k_h s x) by (intros x Hx; rewrite H6 by auto; now apply upd_other).
    assert (Hg : forall x, In x (a_live a) -> x <> h -> a_grp a x <> a_grp a h) by (intros x Hx Hxh Eg; auto).
    split.
    - constructor; cbn [astep a_live a_grp a_arr a_n].
      + exact H1.
      + apply (KR_n _ _ _ H).
      + intros x Hx. unfold fits; cbn [a_live a_grp a_arr a_n]. destruct (Nat.eq_dec x h) as [->|Hxh].
        * rewrite upd_same, H7. repeat split; auto. exists (k_na s). split; [reflexivity|].
          unfold holds. rewrite H4, H5, upd_same. repeat split; [lia|]. intros; discriminate.
        * rewrite upd_other by auto. rewrite Ho by auto. pose proof (KR_fit _ _ _ H x Hx) as F. unfold fits in F.
          destruct (a_arr a (a_grp a x)) as [[[l u] m]|]; auto.
          destruct F as (F1 & F2 & b & F3 & F4 & F5 & F6). repeat split; auto. exists b. split; auto.
          unfold holds. rewrite H4, H5, upd_other by lia. split; [lia|auto].
      + assert (Hlt : forall x b, In x (a_live a) -> k_view (k_h s x) = Some b -> (b < k_na s)%nat) by (intros; eapply view_lt; eauto).
        intros x y b Hx Hy. destruct (Nat.eq_dec x h) as [->|Hxh], (Nat.eq_dec y h) as [->|Hyh];
          rewrite ?H7, ?Ho by auto; simpl.
        * intros Eb. tauto.
        * intros [= <-]. split; intros X; [apply Hlt in X; auto; lia|exfalso; apply (Hg y); auto].
        * intros Eb. apply Hlt in Eb; auto. split; intros X; [injection X as X; lia|exfalso; apply (Hg x); auto].
        * apply (KR_same _ _ _ H); auto.
    - constructor; cbn [astep a_live a_grp a_arr a_n].
      + congruence.
      + intros x Hx. destruct (Nat.eq_dec x h) as [->|Hxh]; [rewrite H7; reflexivity|rewrite Ho; auto].
      + intros g y. rewrite H2. apply T3.
  Qed.

  Lemma k_put_T b p v s a a' t : a_n a' = a_n a -> a_live a' = a_live a -> a_grp a' = a_grp a -> KT s a t -> KT (k_put b p v s) a' t.
  Proof.
    intros E1 E2 E3 [T1 T2 T3]. unfold k_put. destruct (k_arr s b) as [ext f].
    constructor; cbn [k_n k_h k_maps]; rewrite ?E1, ?E2, ?E3; auto.
  Qed.

  Lemma K_step s a t o : KR s a -> KT s a t -> alegal FOrder o a -> k_in_order o a t ->
    exists s' obs, kstep zero rank o s = Some (s', obs) /\ aobs rank o a obs /\ KR s' (astep o a) /\ KT s' (astep o a) (k_leaves o a t).
  Proof.
    intros H T Hl HM. destruct o as [h|h src|h src|h|h lo hi|h idx v|h idx|h]; cbn [alegal kstep] in *.
    - destruct (KR_new rank s a h H Hl) as (s' & E & K & _). rewrite E. exists s', []. split; [reflexivity|]. split; [reflexivity|].
      split; [exact K|]. eapply KT_new; eauto.
    - destruct Hl as [H1 H2]. destruct (KR_copy rank s a h src H H1 H2) as (s' & E & K & _). rewrite E. exists s', []. split; [reflexivity|].
      split; [reflexivity|]. split; [exact K|]. eapply KT_copy; eauto.
    - destruct Hl as [H1 H2]. destruct (KR_assign rank s a h src H H1 H2) as (s' & E & K & _). rewrite E. exists s', []. split; [reflexivity|].
      split; [reflexivity|]. split; [exact K|]. eapply KT_assign; eauto.
    - destruct (KR_destroy rank s a h H Hl) as (s' & E & K & _). rewrite E. exists s', []. split; [reflexivity|]. split; [reflexivity|].
      split; [exact K|]. eapply KT_destroy; eauto.
    - destruct Hl as [Hl _]. destruct (K_resize s a t h lo hi H T Hl HM) as (s' & E & K & K'). rewrite E. exists s', [].
      split; [reflexivity|]. split; [reflexivity|]. auto.
    - destruct Hl as [H1 (lo & hi & m & H2 & H3)].
      destruct (KR_write rank s a h idx v lo hi m H H1 H2 H3) as (b & E & K & _). rewrite E. eexists _, []. split; [reflexivity|].
      split; [reflexivity|]. split; [exact K|]. cbn [fst snd k_leaves].
      apply (k_put_T _ _ _ _ a); auto; cbn [astep]; rewrite H2; reflexivity.
    - destruct Hl as [H1 (lo & hi & m & H2 & H3)].
      destruct (access_ok rank s a h lo hi m idx H H1 H2 H3) as (b & -> & Eb & _ & _ & K). eexists _, _. split; [reflexivity|].
      split; [|split; [exact H|exact T]]. cbn [aobs fst snd]. eexists. split; [reflexivity|]. rewrite H2.
      destruct (m idx) as [w|] eqn:Em; auto.
    - rewrite (KR_live _ _ _ H), (proj2 (mem_In h _) Hl). eexists _, _. split; [reflexivity|].
      split; [|split; [exact H|exact T]]. cbn [aobs]. pose proof (KR_fit _ _ _ H h Hl) as F. unfold fits in F.
      destruct (a_arr a (a_grp a h)) as [[[l u] m]|]; destruct F as (-> & -> & _); reflexivity.
  Qed.

  Lemma K_run os : forall s a t, KR s a -> KT s a t -> k_orderly FOrder os a t ->
    exists s' obs, krun os s = Some (s', obs) /\ aobs_run rank os a obs /\
                   KR s' (fst (k_end_of os a t)) /\ KT s' (fst (k_end_of os a t)) (snd (k_end_of os a t)).
  Proof.
    induction os as [|o os IH]; intros s a t H T Hl; cbn [KokkosModel.krun k_orderly aobs_run k_end_of] in *.
    - exists s, []. auto.
    - destruct Hl as (H1 & H2 & H3). destruct (K_step s a t o H T H1 H2) as (s1 & ob & -> & O1 & K & K').
      destruct (IH s1 _ _ K K' H3) as (s2 & obs & -> & O2 & K2). exists s2, (ob ++ obs). split; auto. split; auto. exists ob, obs. auto.
  Qed.

  Theorem k_any_assignment os : k_orderly FOrder os ainit (fun _ => []) ->
    exists s obs, krun os (kinit zero) = Some (s, obs) /\ aobs_run rank os ainit obs.
  Proof. intros H. destruct (K_run os _ _ _ (KR_init zero rank) KT_init H) as (s & obs & E & O & _). eauto. Qed.

  (** *** Resizes out of order *)
  Lemma krun_app os1 : forall os2 s, krun (os1 ++ os2) s =
    match krun os1 s with
    | None => None
    | Some (s1, o1) => match krun os2 s1 with None => None | Some (s2, o2) => Some (s2, o1 ++ o2) end
    end.
  Proof.
    induction os1 as [|o os1 IH]; intros os2 s; cbn [KokkosModel.krun app].
    - destruct (krun os2 s) as [[s2 o2]|]; reflexivity.
    - destruct (kstep zero rank o s) as [[s1 o1]|]; auto. rewrite IH.
      destruct (krun os1 s1) as [[s2 o2]|]; auto.
      destruct (krun os2 s2) as [[s3 o3]|]; auto. now rewrite app_assoc.
  Qed.

  Lemma k_update_dead lo hi y ys : In y ys -> forall s : kst V, ~ In y (k_live s) -> k_update lo hi ys s = None.
  Proof.
    induction ys as [|z ys IH]; intros Hy s Hd; [destruct Hy|]. cbn [k_update].
    destruct (mem z (k_live s)) eqn:Ez; auto. apply IH; auto. destruct Hy as [->|Hy]; auto. apply mem_In in Ez. tauto.
  Qed.

  Lemma k_update_all lo hi ys : forall s : kst V, (forall y, In y ys -> In y (k_live s)) ->
    exists s', k_update lo hi ys s = Some s' /\ k_live s' = k_live s /\ k_arr s' = k_arr s /\
      (forall x, k_view (k_h s' x) = k_view (k_h s x)) /\
      (forall x, ~ In x ys -> k_h s' x = k_h s x) /\
      (forall x, In x ys -> k_lo (k_h s' x) = lo /\ k_hi (k_h s' x) = hi).
  Proof.
    induction ys as [|y ys IH]; intros s Hl; cbn [k_update].
    - exists s. repeat split; auto; destruct H.
    - rewrite (proj2 (mem_In y (k_live s))) by (apply Hl; now left).
      set (s1 := k_set_h _ _ _).
      destruct (IH s1) as (s' & E & H1 & H2 & H3 & H4 & H5); [intros z Hz; apply Hl; now right|].
      exists s'. split; [exact E|]. rewrite H1, H2. split; [reflexivity|]. split; [reflexivity|]. split; [|split].
      + intros x. rewrite H3. unfold s1, k_set_h; simpl. unfold upd. destruct (Nat.eqb_spec x y); subst; reflexivity.
      + intros x Hx. simpl in Hx. rewrite H4 by tauto. unfold s1, k_set_h; simpl. apply upd_other. intros ->. tauto.
      + intros x Hx. destruct (in_dec Nat.eq_dec x ys) as [Hin|Hin]; [now apply H5|].
        destruct Hx as [->|Hx]; [|tauto]. rewrite H4 by auto. unfold s1, k_set_h; simpl. rewrite upd_same. split; reflexivity.
  Qed.

  Variables (os : list (op V)) (h : nat) (lo hi : vec) (a : ast) (t : nat -> list nat).
  Hypothesis Hos : k_orderly FOrder os ainit (fun _ => []).
  Hypothesis Hend : k_end_of os ainit (fun _ => []) = (a, t).
  Hypothesis Hh : In h (a_live a).

  Lemma at_end : exists s obs, krun os (kinit zero) = Some (s, obs) /\ aobs_run rank os ainit obs /\ KR s a /\ KT s a t.
  Proof.
    destruct (K_run os _ _ _ (KR_init zero rank) KT_init Hos) as (s & obs & E & O & K & K'). rewrite Hend in *. eauto 6.
  Qed.

  Lemma k_dangling y : In y (t (a_grp a h)) -> ~ In y (a_live a) -> krun (os ++ [Resize h lo hi]) (kinit zero) = None.
  Proof.
    intros Hy Hd. destruct at_end as (s & obs & E & O & K & K'). rewrite krun_app, E. cbn [KokkosModel.krun kstep].
    unfold k_resize. rewrite (KR_live _ _ _ K), (proj2 (mem_In h _) Hh). simpl negb. cbv iota.
    rewrite (KT_grp _ _ _ K' h Hh), (k_update_dead lo hi y); auto. now apply (KT_map _ _ _ K').
  Qed.

  Hypothesis Hall : forall z, In z (t (a_grp a h)) -> In z (a_live a).

  Lemma after_resize s : KR s a -> KT s a t ->
    exists s', k_resize zero h lo hi s = Some s' /\ k_live s' = a_live a /\
      (forall x, In x (t (a_grp a h)) -> k_lo (k_h s' x) = lo /\ k_hi (k_h s' x) = hi) /\
      (forall x, ~ In x (t (a_grp a h)) -> k_lo (k_h s' x) = k_lo (k_h s x) /\ k_hi (k_h s' x) = k_hi (k_h s x)) /\
      k_view (k_h s' h) = Some (k_na s) /\ (forall x, x <> h -> k_view (k_h s' x) = k_view (k_h s x)).
  Proof.
    intros K K'. unfold k_resize. rewrite (KR_live _ _ _ K), (proj2 (mem_In h _) Hh). simpl negb. cbv iota.
    rewrite (KT_grp _ _ _ K' h Hh). set (s1 := mkKst _ _ _ _ _ _).
    destruct (k_update_all lo hi (k_maps s (a_grp a h)) s1) as (s' & E & H1 & H2 & H3 & H4 & H5).
    { intros y Hy. apply Hall. now apply (KT_map _ _ _ K'). }
    exists s'. split; [exact E|]. split; [exact H1|]. split; [|split; [|split]].
    - intros x Hx. apply H5. now apply (KT_map _ _ _ K').
    - intros x Hx. rewrite H4 by (intros X; apply Hx; now apply (KT_map _ _ _ K')).
      unfold s1; simpl. unfold upd. destruct (Nat.eqb_spec x h) as [->|]; split; reflexivity.
    - rewrite H3. unfold s1; simpl. rewrite upd_same. reflexivity.
    - intros x Hx. rewrite H3. unfold s1; simpl. now rewrite upd_other.
  Qed.

  Lemma k_told y : In y (t (a_grp a h)) ->
    exists s obs, krun (os ++ [Resize h lo hi; Bounds y]) (kinit zero) = Some (s, obs ++ [OBounds lo hi]) /\
                  aobs_run rank os ainit obs.
  Proof.
    intros Hy. destruct at_end as (s & obs & E & O & K & K'). destruct (after_resize s K K') as (s' & E' & El & H1 & _).
    rewrite krun_app, E. cbn [KokkosModel.krun kstep]. rewrite E'. cbn [option_map].
    rewrite El, (proj2 (mem_In y _) (Hall y Hy)). destruct (H1 y Hy) as [-> ->]. exists s', obs. split; [reflexivity|exact O].
  Qed.

  Lemma k_untold y : In y (a_live a) -> ~ In y (t (a_grp a h)) ->
    exists s obs o, krun (os ++ [Resize h lo hi; Bounds y]) (kinit zero) = Some (s, obs ++ o) /\
                    aobs_run rank (os ++ [Bounds y]) ainit (obs ++ o).
  Proof.
    intros Hl Hy. destruct at_end as (s & obs & E & O & K & K'). destruct (after_resize s K K') as (s' & E' & El & _ & H2 & _).
    rewrite krun_app, E. cbn [KokkosModel.krun kstep]. rewrite E'. cbn [option_map].
    rewrite El, (proj2 (mem_In y _) Hl). destruct (H2 y Hy) as [-> ->]. eexists s', obs, _. split; [reflexivity|].
    assert (G : forall os a0 t0 ob, k_end_of os a0 t0 = (a, t) -> aobs_run rank os a0 ob ->
              aobs_run rank (os ++ [Bounds y]) a0 (ob ++ [OBounds (k_lo (k_h s y)) (k_hi (k_h s y))])).
    { induction os0 as [|o os0 IH]; intros a0 t0 ob Ee Ho; cbn [k_end_of aobs_run app] in *.
      - injection Ee as -> ->. subst ob. exists [OBounds (k_lo (k_h s y)) (k_hi (k_h s y))], []. split; [reflexivity|]. split; [|reflexivity]. cbn [aobs].
        pose proof (KR_fit _ _ _ K y Hl) as F. unfold fits in F.
        destruct (a_arr a (a_grp a y)) as [[[l u] m]|]; destruct F as (-> & -> & _); reflexivity.
      - destruct Ho as (o1 & o2 & -> & Ho1 & Ho2). exists o1, (o2 ++ [OBounds (k_lo (k_h s y)) (k_hi (k_h s y))]).
        split; [now rewrite app_assoc|]. split; auto. eapply IH; eauto. }
    eapply G; eauto.
  Qed.

  Lemma k_separate y idx : In y (a_live a) -> y <> h ->
    exists r, forall v, option_map snd (krun (os ++ [Resize h lo hi; Write h idx v; Read y idx]) (kinit zero)) = r.
  Proof.
    intros Hl Hy. destruct at_end as (s & obs & E & O & K & K'). destruct (after_resize s K K') as (s' & E' & El & _ & _ & Ev & Eo).
    assert (Hne : k_view (k_h s' y) <> Some (k_na s)).
    { rewrite Eo by auto. intros X. apply (view_lt rank s a y) in X; auto. lia. }
    destruct (k_access h idx s') as [[b p]|] eqn:Ea.
    - assert (Hb : b = k_na s).
      { unfold k_access in Ea. rewrite Ev in Ea. destruct (negb _); [discriminate|]. destruct (k_inside _ _); [|discriminate]. congruence. }
      exists (option_map (fun bp => obs ++ [OVal (snd (k_arr s' (fst bp)) (snd bp))]) (k_access y idx s')).
      intros v. rewrite krun_app, E. cbn [KokkosModel.krun kstep]. rewrite E'. cbn [option_map]. rewrite Ea. cbn [option_map fst snd].
      assert (Hacc : k_access y idx (k_put b p v s') = k_access y idx s' /\
                     forall b' q, k_access y idx s' = Some (b', q) -> k_arr (k_put b p v s') b' = k_arr s' b').
      { unfold k_access, k_put. destruct (k_arr s' b) as [ext f] eqn:Er. cbn [k_live k_h k_arr].
        destruct (negb (mem y (k_live s'))); [split; [reflexivity|discriminate]|].
        destruct (k_view (k_h s' y)) as [b'|] eqn:Evy; [|split; [reflexivity|discriminate]].
        assert (b' <> b) by congruence. rewrite upd_other by auto. split; [reflexivity|].
        intros b0 q. destruct (k_inside _ _); [|discriminate]. intros [= <- <-]. now apply upd_other. }
      destruct Hacc as [-> Hr]. destruct (k_access y idx s') as [[b' q]|]; [|reflexivity]. cbn [option_map fst snd].
      rewrite (Hr b' q eq_refl). reflexivity.
    - exists None. intros v. rewrite krun_app, E. cbn [KokkosModel.krun kstep]. rewrite E'. cbn [option_map]. rewrite Ea. reflexivity.
  Qed.
End Proofs.
