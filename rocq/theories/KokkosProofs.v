(** Proofs about Kokkos-backed grids. *)
From Verif Require Import Vec GridSpec StorageModel GridModel ShareModel ShareSpec KokkosModel KokkosSpec BoxFacts RangeProofs
  ShareProofs.

Local Arguments Z.sub : simpl never.
Local Arguments Z.add : simpl never.

Lemma dims_inside lo hi idx : in_box lo hi idx -> k_inside (dims_of lo hi) (vmap2 Z.sub idx lo) = true.
Proof.
  revert hi idx; induction lo as [|l lo IH]; intros [|h hi] [|x p]; simpl; try tauto.
  intros [H1 H2]. unfold dims_of in IH. rewrite IH by auto. rewrite (proj2 (Z.leb_le _ _)), (proj2 (Z.ltb_lt _ _)) by lia. reflexivity.
Qed.

Lemma sub_inj lo hi p q : in_box lo hi p -> in_box lo hi q -> vmap2 Z.sub p lo = vmap2 Z.sub q lo -> p = q.
Proof.
  revert hi p q; induction lo as [|l lo IH]; intros [|h hi] [|x p] [|y q]; simpl; try tauto.
  intros [H1 H2] [H3 H4] E. injection E as E1 E2. f_equal; [lia|]. eapply IH; eauto.
Qed.

Section Proofs.
  Context {V : Type}.
  Variable zero : V.
  Variable rank : nat.
  Notation ast := (@ast V).

  (** The array of a view holds the values of the group. *)
  Definition holds (s : kst V) (b : nat) (lo hi : vec) (m : vec -> option V) : Prop :=
    (b < k_na s)%nat /\ fst (k_arr s b) = dims_of lo hi /\
    forall idx w, in_box lo hi idx -> m idx = Some w -> snd (k_arr s b) (vmap2 Z.sub idx lo) = w.

  Definition fits (s : kst V) (a : ast) (x : nat) : Prop :=
    match a_arr a (a_grp a x) with
    | None => k_lo (k_h s x) = repeat 0 rank /\ k_hi (k_h s x) = repeat 0 rank /\ k_view (k_h s x) = None
    | Some (lo, hi, m) => k_lo (k_h s x) = lo /\ k_hi (k_h s x) = hi /\
                          exists b, k_view (k_h s x) = Some b /\ holds s b lo hi m
    end.

  Record KR (s : kst V) (a : ast) : Prop := {
    KR_live : k_live s = a_live a;
    KR_n : forall x, In x (a_live a) -> (a_grp a x < a_n a)%nat;
    KR_fit : forall x, In x (a_live a) -> fits s a x;
    KR_same : forall x y b, In x (a_live a) -> In y (a_live a) -> k_view (k_h s x) = Some b ->
       (k_view (k_h s y) = Some b <-> a_grp a x = a_grp a y) }.

  Record KM (s : kst V) (a : ast) : Prop := {
    KM_n : forall x, In x (a_live a) -> (k_upds (k_h s x) < k_n s)%nat;
    KM_grp : forall x y, In x (a_live a) -> In y (a_live a) ->
       (k_upds (k_h s x) = k_upds (k_h s y) <-> a_grp a x = a_grp a y);
    KM_map : forall x, In x (a_live a) -> forall y,
       In y (k_maps s (k_upds (k_h s x))) <-> In y (a_live a) /\ a_grp a y = a_grp a x }.

  Lemma KR_init : KR (kinit zero) ainit.
  Proof. constructor; simpl; tauto. Qed.
  Lemma KM_init : KM (kinit zero) ainit.
  Proof. constructor; simpl; tauto. Qed.

  Lemma view_lt s a x b : KR s a -> In x (a_live a) -> k_view (k_h s x) = Some b -> (b < k_na s)%nat.
  Proof.
    intros H Hx E. pose proof (KR_fit _ _ H x Hx) as F. unfold fits in F.
    destruct (a_arr a (a_grp a x)) as [[[lo hi] m]|].
    - destruct F as (_ & _ & b' & E' & F & _). congruence.
    - destruct F as (_ & _ & E'). congruence.
  Qed.

  (** *** Construction *)
  Lemma KR_new s a h : KR s a -> ~ In h (a_live a) ->
    exists s', k_new rank h s = Some s' /\ KR s' (astep (New h) a) /\ (KM s a -> KM s' (astep (New h) a)).
  Proof.
    intros H Hh. unfold k_new. rewrite (KR_live _ _ H), (proj2 (mem_not_In h _) Hh).
    assert (Hne : forall x, In x (a_live a) -> x <> h) by (intros x Hx ->; tauto).
    eexists. split; [reflexivity|]. split.
    - constructor; cbn [astep a_live a_grp a_arr a_n k_live k_h k_arr k_na].
      + now rewrite <- (KR_live _ _ H).
      + intros x [<-|Hx]; [rewrite upd_same; lia|]. rewrite upd_other by auto. pose proof (KR_n _ _ H x Hx). lia.
      + intros x [<-|Hx]; unfold fits; cbn [a_live a_grp a_arr a_n k_live k_h k_arr k_na].
        * rewrite !upd_same. repeat split; reflexivity.
        * rewrite !(upd_other _ h) by auto. pose proof (KR_n _ _ H x Hx). rewrite upd_other by lia.
          exact (KR_fit _ _ H x Hx).
      + intros x y b [<-|Hx] [<-|Hy]; rewrite ?upd_same, ?(upd_other _ h) by auto; simpl; try discriminate.
        * pose proof (KR_n _ _ H x Hx). intros _. split; [discriminate|lia].
        * apply (KR_same _ _ H); auto.
    - intros M. constructor; cbn [astep a_live a_grp a_arr a_n k_live k_h k_maps k_n].
      + intros x [<-|Hx]; rewrite ?upd_same, ?(upd_other _ h) by auto; simpl; [lia|]. pose proof (KM_n _ _ M x Hx). lia.
      + intros x y [<-|Hx] [<-|Hy]; rewrite ?upd_same, ?(upd_other _ h) by auto; simpl.
        * tauto.
        * pose proof (KM_n _ _ M y Hy). pose proof (KR_n _ _ H y Hy). lia.
        * pose proof (KM_n _ _ M x Hx). pose proof (KR_n _ _ H x Hx). lia.
        * apply (KM_grp _ _ M); auto.
      + intros x [<-|Hx] y.
        * rewrite !upd_same. cbn [k_upds]. rewrite ?upd_same. split.
          -- intros [<-|[]]. rewrite upd_same. simpl. auto.
          -- intros [[<-|Hy] E]; [now left|]. rewrite upd_other in E by auto. pose proof (KR_n _ _ H y Hy). lia.
        * rewrite !(upd_other _ h _ x) by auto. pose proof (KM_n _ _ M x Hx). rewrite upd_other by lia.
          rewrite (KM_map _ _ M x Hx). split.
          -- intros [Hy E]. rewrite upd_other by auto. simpl. auto.
          -- intros [[<-|Hy] E]; [rewrite upd_same in E; pose proof (KR_n _ _ H x Hx); lia|].
             rewrite upd_other in E by auto. auto.
  Qed.

  Lemma KR_copy s a h src : KR s a -> ~ In h (a_live a) -> In src (a_live a) ->
    exists s', k_copy h src s = Some s' /\ KR s' (astep (Copy h src) a) /\ (KM s a -> KM s' (astep (Copy h src) a)).
  Proof.
    intros H Hh Hs. unfold k_copy. rewrite (KR_live _ _ H), (proj2 (mem_not_In h _) Hh), (proj2 (mem_In src _) Hs).
    assert (Hne : forall x, In x (a_live a) -> x <> h) by (intros x Hx ->; tauto).
    simpl orb. cbv iota. eexists. split; [reflexivity|]. split.
    - constructor; cbn [astep a_live a_grp a_arr a_n k_live k_h k_arr k_na].
      + now rewrite <- (KR_live _ _ H).
      + intros x [<-|Hx]; [rewrite upd_same; now apply (KR_n _ _ H)|]. rewrite upd_other by auto. now apply (KR_n _ _ H).
      + intros x [<-|Hx]; unfold fits; cbn [a_live a_grp a_arr a_n k_live k_h k_arr k_na].
        * rewrite !upd_same. exact (KR_fit _ _ H src Hs).
        * rewrite !(upd_other _ h) by auto. exact (KR_fit _ _ H x Hx).
      + intros x y b [<-|Hx] [<-|Hy]; rewrite ?upd_same, ?(upd_other _ h) by auto; try (apply (KR_same _ _ H); auto).
    - intros M. constructor; cbn [astep a_live a_grp a_arr a_n k_live k_h k_maps k_n].
      + intros x [<-|Hx]; rewrite ?upd_same, ?(upd_other _ h) by auto; apply (KM_n _ _ M); auto.
      + intros x y [<-|Hx] [<-|Hy]; rewrite ?upd_same, ?(upd_other _ h) by auto; apply (KM_grp _ _ M); auto.
      + assert (Hgen : forall x, In x (a_live a) -> forall y,
           In y (upd (k_maps s) (k_upds (k_h s src)) (add h (k_maps s (k_upds (k_h s src)))) (k_upds (k_h s x))) <->
           (h = y \/ In y (a_live a)) /\ upd (a_grp a) h (a_grp a src) y = a_grp a x).
        { intros x Hx y. unfold upd at 1. destruct (Nat.eqb_spec (k_upds (k_h s x)) (k_upds (k_h s src))) as [E|E].
          - apply (KM_grp _ _ M) in E; auto. rewrite add_In, (KM_map _ _ M src Hs). split.
            + intros [->|[Hy Ey]]; [rewrite upd_same; auto|]. rewrite upd_other by auto. split; auto. congruence.
            + intros [[<-|Hy] Ey]; auto. right. rewrite upd_other in Ey by auto. split; auto. congruence.
          - rewrite (KM_map _ _ M x Hx). split.
            + intros [Hy Ey]. rewrite upd_other by auto. auto.
            + intros [[<-|Hy] Ey]; [rewrite upd_same in Ey; exfalso; apply E; apply (KM_grp _ _ M); auto|].
              rewrite upd_other in Ey by auto. auto. }
        intros x [<-|Hx] y.
        * rewrite !(upd_same (k_h s)), !(upd_same (a_grp a)). simpl. exact (Hgen src Hs y).
        * rewrite !(upd_other (k_h s) h _ x), !(upd_other (a_grp a) h _ x) by auto. simpl. exact (Hgen x Hx y).
  Qed.

  Lemma KR_destroy s a h : KR s a -> In h (a_live a) ->
    exists s', k_destroy h s = Some s' /\ KR s' (astep (Destroy h) a) /\ (KM s a -> KM s' (astep (Destroy h) a)).
  Proof.
    intros H Hh. unfold k_destroy. rewrite (KR_live _ _ H), (proj2 (mem_In h _) Hh). simpl negb. cbv iota.
    eexists. split; [reflexivity|]. split.
    - constructor; cbn [astep a_live a_grp a_arr a_n k_live k_h k_arr k_na].
      + reflexivity.
      + intros x Hx. apply rem_In in Hx. apply (KR_n _ _ H). tauto.
      + intros x Hx. apply rem_In in Hx. exact (KR_fit _ _ H x (proj1 Hx)).
      + intros x y b Hx Hy. apply rem_In in Hx. apply rem_In in Hy. apply (KR_same _ _ H); tauto.
    - intros M. constructor; cbn [astep a_live a_grp a_arr a_n k_live k_h k_maps k_n].
      + intros x Hx. apply rem_In in Hx. apply (KM_n _ _ M). tauto.
      + intros x y Hx Hy. apply rem_In in Hx. apply rem_In in Hy. apply (KM_grp _ _ M); tauto.
      + intros x Hx y. apply rem_In in Hx. destruct Hx as [Hx Hxh]. rewrite rem_In. unfold upd.
        destruct (Nat.eqb_spec (k_upds (k_h s x)) (k_upds (k_h s h))) as [E|E].
        * rewrite rem_In, (KM_map _ _ M h Hh). apply (KM_grp _ _ M) in E; auto. intuition congruence.
        * rewrite (KM_map _ _ M x Hx). split; [|tauto]. intros [Hy Ey]. repeat split; auto. intros ->.
          apply E. apply (KM_grp _ _ M); auto.
  Qed.

  (** *** Assignment *)
  Lemma KR_assign s a h src : KR s a -> In h (a_live a) -> In src (a_live a) ->
    exists s', k_assign h src s = Some s' /\ KR s' (astep (Assign h src) a) /\
      (KM s a -> a_grp a h = a_grp a src -> KM s' (astep (Assign h src) a)).
  Proof.
    intros H Hh Hs. unfold k_assign. rewrite (KR_live _ _ H), (proj2 (mem_In h _) Hh), (proj2 (mem_In src _) Hs).
    simpl orb. cbv iota. eexists. split; [reflexivity|].
    set (pick := fun x => if Nat.eqb x h then src else x).
    assert (Hp : forall x, In x (a_live a) -> In (pick x) (a_live a)) by (intros x Hx; unfold pick; destruct (Nat.eqb x h); auto).
    assert (E1 : forall x, upd (k_h s) h (k_h s src) x = k_h s (pick x)) by (intros x; unfold upd, pick; destruct (Nat.eqb x h); auto).
    assert (E2 : forall x, upd (a_grp a) h (a_grp a src) x = a_grp a (pick x)) by (intros x; unfold upd, pick; destruct (Nat.eqb x h); auto).
    split.
    - constructor; cbn [astep a_live a_grp a_arr a_n k_set_h k_live k_h k_arr k_na].
      + exact (KR_live _ _ H).
      + intros x Hx. rewrite E2. apply (KR_n _ _ H); auto.
      + intros x Hx. unfold fits; cbn [a_live a_grp a_arr a_n k_set_h k_live k_h k_arr k_na]. rewrite E1, E2.
        exact (KR_fit _ _ H _ (Hp x Hx)).
      + intros x y b Hx Hy. rewrite !E1, !E2. apply (KR_same _ _ H); auto.
    - intros M Eg.
      assert (E3 : forall x, a_grp a (pick x) = a_grp a x).
      { intros x. unfold pick. destruct (Nat.eqb_spec x h) as [->|]; auto. }
      assert (E4 : forall x, k_upds (k_h s (pick x)) = k_upds (k_h s x)).
      { intros x. unfold pick. destruct (Nat.eqb_spec x h) as [->|]; auto. apply (KM_grp _ _ M); auto. }
      constructor; cbn [astep a_live a_grp a_arr a_n k_set_h k_live k_h k_maps k_n].
      + intros x Hx. rewrite E1, E4. apply (KM_n _ _ M); auto.
      + intros x y Hx Hy. rewrite !E1, !E2, !E3, !E4. apply (KM_grp _ _ M); auto.
      + intros x Hx y. rewrite E1, !E2, !E3, E4. apply (KM_map _ _ M); auto.
  Qed.

  (** *** Resizing *)
  Lemma k_update_alone lo hi h ys : forall s : kst V, In h (k_live s) -> (forall y, In y ys -> y = h) -> In h ys ->
    exists s', k_update lo hi ys s = Some s' /\ k_live s' = k_live s /\ k_maps s' = k_maps s /\ k_n s' = k_n s /\
      k_arr s' = k_arr s /\ k_na s' = k_na s /\
      (forall x, x <> h -> k_h s' x = k_h s x) /\
      k_h s' h = k_update1 lo hi (k_h s h).
  Proof.
    induction ys as [|y ys IH]; intros s Hl Hys Hin; [destruct Hin|].
    assert (y = h) by (apply Hys; now left). subst y. cbn [k_update].
    rewrite (proj2 (mem_In h (k_live s)) Hl).
    set (s1 := k_set_h _ _ _).
    destruct (in_dec Nat.eq_dec h ys) as [Hi|Hi].
    - destruct (IH s1 Hl) as (s' & E & H1 & H2 & H3 & H4 & H5 & H6 & H7); [intros; apply Hys; now right|exact Hi|].
      exists s'. rewrite H1, H2, H3, H4, H5. repeat split; auto.
      + intros x Hx. rewrite H6 by auto. unfold s1; simpl. now apply upd_other.
      + rewrite H7. unfold s1; simpl. rewrite upd_same. reflexivity.
    - assert (ys = []) by (destruct ys as [|z ys]; auto; exfalso; apply Hi; left; apply Hys; simpl; auto). subst ys.
      exists s1. repeat split; auto.
      + intros x Hx. unfold s1; simpl. now apply upd_other.
      + unfold s1; simpl. apply upd_same.
  Qed.

  Lemma KR_resize s a h lo hi : KR s a -> KM s a -> In h (a_live a) ->
    (forall y, In y (a_live a) -> a_grp a y = a_grp a h -> y = h) ->
    exists s', k_resize zero h lo hi s = Some s' /\ KR s' (astep (Resize h lo hi) a) /\ KM s' (astep (Resize h lo hi) a).
  Proof.
    intros H M Hh Ha. unfold k_resize. rewrite (KR_live _ _ H), (proj2 (mem_In h _) Hh). simpl negb. cbv iota.
    set (s1 := mkKst _ _ _ _ _ _).
    destruct (k_update_alone lo hi h (k_maps s (k_upds (k_h s h))) s1 Hh) as (s' & E & H1 & H2 & H3 & H4 & H5 & H6 & H7).
    { intros y Hy. apply (KM_map _ _ M h Hh) in Hy. apply Ha; tauto. }
    { apply (KM_map _ _ M h Hh). auto. }
    exists s'. split; [exact E|]. unfold s1 in H1, H2, H3, H4, H5, H6, H7.
    cbn [k_live k_h k_maps k_n k_arr k_na] in *. rewrite upd_same in H7.
    assert (Ho : forall x, x <> h -> k_h s' x = k_h s x) by (intros x Hx; rewrite H6 by auto; now apply upd_other).
    assert (Hu : forall x, k_upds (k_h s' x) = k_upds (k_h s x)).
    { intros x. destruct (Nat.eq_dec x h) as [->|Hx]; [now rewrite H7|now rewrite Ho]. }
    assert (Hg : forall x, In x (a_live a) -> x <> h -> a_grp a x <> a_grp a h) by (intros x Hx Hxh Eg; auto).
    split.
    - constructor; cbn [astep a_live a_grp a_arr a_n].
      + exact H1.
      + apply (KR_n _ _ H).
      + intros x Hx. unfold fits; cbn [a_live a_grp a_arr a_n]. destruct (Nat.eq_dec x h) as [->|Hxh].
        * rewrite upd_same, H7. repeat split; auto. exists (k_na s). split; [reflexivity|].
          unfold holds. rewrite H4, H5, upd_same. repeat split; [lia|]. intros; discriminate.
        * rewrite upd_other by auto. rewrite Ho by auto. pose proof (KR_fit _ _ H x Hx) as F. unfold fits in F.
          destruct (a_arr a (a_grp a x)) as [[[l u] m]|]; auto.
          destruct F as (F1 & F2 & b & F3 & F4 & F5 & F6). repeat split; auto. exists b. split; auto.
          unfold holds. rewrite H4, H5, upd_other by lia. split; [lia|auto].
      + assert (Hlt : forall x b, In x (a_live a) -> k_view (k_h s x) = Some b -> (b < k_na s)%nat) by (intros; eapply view_lt; eauto).
        intros x y b Hx Hy. destruct (Nat.eq_dec x h) as [->|Hxh], (Nat.eq_dec y h) as [->|Hyh];
          rewrite ?H7, ?Ho by auto; simpl.
        * intros Eb. tauto.
        * intros [= <-]. split; intros X; [apply Hlt in X; auto; lia|exfalso; apply (Hg y); auto].
        * intros Eb. apply Hlt in Eb; auto. split; intros X; [injection X as X; lia|exfalso; apply (Hg x); auto].
        * apply (KR_same _ _ H); auto.
    - constructor; cbn [astep a_live a_grp a_arr a_n].
      + intros x Hx. rewrite Hu, H3. now apply (KM_n _ _ M).
      + intros x y Hx Hy. rewrite !Hu. now apply (KM_grp _ _ M).
      + intros x Hx y. rewrite Hu, H2. now apply (KM_map _ _ M).
  Qed.

  (** *** Access *)
  Lemma access_ok s a h lo hi m idx : KR s a -> In h (a_live a) -> a_arr a (a_grp a h) = Some (lo, hi, m) -> in_box lo hi idx ->
    exists b, k_access h idx s = Some (b, vmap2 Z.sub idx lo) /\ k_view (k_h s h) = Some b /\ holds s b lo hi m.
  Proof.
    intros H Hh Ea Hi. pose proof (KR_fit _ _ H h Hh) as F. unfold fits in F. rewrite Ea in F.
    destruct F as (F1 & F2 & b & F3 & F4). exists b. split; [|auto]. unfold k_access.
    rewrite (KR_live _ _ H), (proj2 (mem_In h _) Hh). simpl negb. cbv iota. rewrite F3. unfold k_pos. rewrite F1.
    rewrite (proj1 (proj2 F4)), dims_inside by auto. reflexivity.
  Qed.

  Lemma KR_write s a h idx v lo hi m : KR s a -> In h (a_live a) -> a_arr a (a_grp a h) = Some (lo, hi, m) -> in_box lo hi idx ->
    exists b, k_access h idx s = Some (b, vmap2 Z.sub idx lo) /\
      KR (k_put b (vmap2 Z.sub idx lo) v s) (astep (Write h idx v) a) /\
      (KM s a -> KM (k_put b (vmap2 Z.sub idx lo) v s) (astep (Write h idx v) a)).
  Proof.
    intros H Hh Ea Hi. destruct (access_ok s a h lo hi m idx H Hh Ea Hi) as (b & E & Eb & Hb).
    exists b. split; [exact E|]. unfold k_put. destruct (k_arr s b) as [ext f] eqn:Er.
    cbn [astep]. rewrite Ea. split.
    - constructor; cbn [a_live a_grp a_arr a_n k_live k_h k_arr k_na].
      + exact (KR_live _ _ H).
      + apply (KR_n _ _ H).
      + intros x Hx. pose proof (KR_fit _ _ H x Hx) as F. unfold fits in *. cbn [a_live a_grp a_arr a_n k_live k_h k_arr k_na].
        destruct (Nat.eq_dec (a_grp a x) (a_grp a h)) as [Eg|Eg].
        * rewrite Eg, upd_same. rewrite Eg, Ea in F. destruct F as (F1 & F2 & b' & F3 & F4).
          assert (b' = b).
          { pose proof (proj2 (KR_same _ _ H h x b Hh Hx Eb) (eq_sym Eg)). congruence. }
          subst b'. repeat split; auto. exists b. split; auto. destruct F4 as (G1 & G2 & G3).
          unfold holds; cbn [k_arr k_na]. rewrite upd_same. cbn [fst snd]. rewrite Er in G2, G3. cbn [fst snd] in G2, G3.
          repeat split; auto. intros q w Hq Em. destruct (list_eq_dec Z.eq_dec (vmap2 Z.sub q lo) (vmap2 Z.sub idx lo)) as [Eq|Eq].
          -- assert (q = idx) by (eapply sub_inj; eauto). subst q. rewrite (proj2 (vec_eq_eq idx idx) eq_refl) in Em. congruence.
          -- destruct (vec_eq q idx) eqn:Ev; [apply vec_eq_eq in Ev; congruence|]. auto.
        * rewrite upd_other by auto. destruct (a_arr a (a_grp a x)) as [[[l u] m']|]; auto.
          destruct F as (F1 & F2 & b' & F3 & F4). repeat split; auto. exists b'. split; auto.
          assert (b' <> b).
          { intros ->. apply Eg. apply (KR_same _ _ H x h b Hx Hh F3). exact Eb. }
          unfold holds; cbn [k_arr k_na]. rewrite upd_other by auto. exact F4.
      + apply (KR_same _ _ H).
    - intros M. constructor; cbn [a_live a_grp a_arr a_n k_live k_h k_maps k_n].
      + apply (KM_n _ _ M).
      + apply (KM_grp _ _ M).
      + apply (KM_map _ _ M).
  Qed.

  Lemma kstep_ok s a o : KR s a -> alegal FOrder o a ->
    (KM s a /\ k_careful o a) \/ k_no_resize o a ->
    exists s' obs, kstep zero rank o s = Some (s', obs) /\ aobs rank o a obs /\ KR s' (astep o a) /\
      (KM s a -> k_careful o a -> KM s' (astep o a)).
  Proof.
    intros H Hl HM. destruct o as [h|h src|h src|h|h lo hi|h idx v|h idx|h]; cbn [alegal kstep] in *.
    - destruct (KR_new s a h H Hl) as (s' & -> & K & K'). exists s', []. split; [reflexivity|]. split; [reflexivity|]. split; auto.
    - destruct Hl as [H1 H2]. destruct (KR_copy s a h src H H1 H2) as (s' & -> & K & K'). exists s', []. split; [reflexivity|]. split; [reflexivity|]. split; auto.
    - destruct Hl as [H1 H2]. destruct (KR_assign s a h src H H1 H2) as (s' & -> & K & K'). exists s', []. split; [reflexivity|]. split; [reflexivity|]. split; auto.
    - destruct (KR_destroy s a h H Hl) as (s' & -> & K & K'). exists s', []. split; [reflexivity|]. split; [reflexivity|]. split; auto.
    - destruct HM as [[M Ha]|[]]. destruct Hl as [Hl _].
      destruct (KR_resize s a h lo hi H M Hl Ha) as (s' & -> & K & K'). exists s', []. split; [reflexivity|]. split; [reflexivity|]. split; auto.
    - destruct Hl as [H1 (lo & hi & m & H2 & H3)].
      destruct (KR_write s a h idx v lo hi m H H1 H2 H3) as (b & -> & K & K'). eexists _, []. split; [reflexivity|]. split; [reflexivity|]. split; auto.
    - destruct Hl as [H1 (lo & hi & m & H2 & H3)].
      destruct (access_ok s a h lo hi m idx H H1 H2 H3) as (b & -> & Eb & _ & _ & K). eexists _, _. split; [reflexivity|].
      split; [|split; [exact H|auto]]. cbn [aobs fst snd]. eexists. split; [reflexivity|]. rewrite H2.
      destruct (m idx) as [w|] eqn:Em; auto.
    - rewrite (KR_live _ _ H), (proj2 (mem_In h _) Hl). eexists _, _. split; [reflexivity|].
      split; [|split; [exact H|auto]]. cbn [aobs]. pose proof (KR_fit _ _ H h Hl) as F. unfold fits in F.
      destruct (a_arr a (a_grp a h)) as [[[l u] m]|]; destruct F as (-> & -> & _); reflexivity.
  Qed.

  Lemma krun_no_resize os : forall s a, KR s a -> alegal_run FOrder k_no_resize os a ->
    exists s' obs, krun zero rank os s = Some (s', obs) /\ aobs_run rank os a obs.
  Proof.
    induction os as [|o os IH]; intros s a H Hl; cbn [krun alegal_run aobs_run] in *.
    - exists s, []. auto.
    - destruct Hl as (H1 & H2 & H3). destruct (kstep_ok s a o H H1 (or_intror H2)) as (s1 & ob & -> & O1 & K & _).
      destruct (IH s1 _ K H3) as (s2 & obs & -> & O2). exists s2, (ob ++ obs). split; auto. exists ob, obs. auto.
  Qed.

  Lemma krun_ok os1 os2 : forall s a, KR s a -> KM s a -> alegal_run FOrder k_careful os1 a ->
    alegal_run FOrder k_no_resize os2 (arun os1 a) ->
    exists s' obs, krun zero rank (os1 ++ os2) s = Some (s', obs) /\ aobs_run rank (os1 ++ os2) a obs.
  Proof.
    induction os1 as [|o os IH]; intros s a H M Hl Hl2; cbn [app arun alegal_run] in *.
    - now apply krun_no_resize.
    - destruct Hl as (H1 & H2 & H3). destruct (kstep_ok s a o H H1 (or_introl (conj M H2))) as (s1 & ob & E & O1 & K & K').
      cbn [krun aobs_run]. rewrite E.
      destruct (IH s1 _ K (K' M H2) H3 Hl2) as (s2 & obs & -> & O2). exists s2, (ob ++ obs). split; auto. exists ob, obs. auto.
  Qed.

  Theorem k_partial os1 os2 : alegal_run FOrder k_careful os1 ainit -> alegal_run FOrder k_no_resize os2 (arun os1 ainit) ->
    exists s obs, krun zero rank (os1 ++ os2) (kinit zero) = Some (s, obs) /\ aobs_run rank (os1 ++ os2) ainit obs.
  Proof. apply krun_ok; [apply KR_init|apply KM_init]. Qed.
End Proofs.
