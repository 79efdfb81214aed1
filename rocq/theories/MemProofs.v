(** Proofs: the memory of grids is released exactly when the last grid lets go of it. *)
From Verif Require Import Vec StorageModel GridModel ShareModel ShareProofs MemSpec.

Section Mem.
  Context {V A : Type}.
  Variable junk : V.
  Variable avg0 : A.
  Variable rank : nat.
  Variable ord : order.
  Variable pol : policy A.
  Notation st := (@st V A).

  Definition ptr_of (s : st) (h : nat) : option nat := d_ptr (s_d s (h_data (s_h s h))).
  Record minv (s : st) : Prop := mkInv {
    m_data : forall h, In h (s_live s) -> (h_data (s_h s h) < s_nd s)%nat;
    m_upd : forall h, In h (s_live s) -> In h (d_upd (s_d s (h_data (s_h s h))));
    m_fast : forall h, In h (s_live s) -> fst (h_fast (s_h s h)) = ptr_of s h;
    m_held : forall b l, s_blk s b = Some l -> exists h, In h (s_live s) /\ ptr_of s h = Some b;
    m_alloc : forall h b, In h (s_live s) -> ptr_of s h = Some b -> exists l, s_blk s b = Some l;
    m_apart : forall h k b, In h (s_live s) -> In k (s_live s) -> ptr_of s h = Some b -> ptr_of s k = Some b -> h_data (s_h s h) = h_data (s_h s k);
    m_new : forall b, (s_nb s <= b)%nat -> s_blk s b = None }.

  Lemma minv_init : minv (init avg0).
  Proof. constructor; cbn; intros; try contradiction; try discriminate; reflexivity. Qed.

  Lemma update_all_frame lo hi buf avg ys : forall s s' : st, update_all ord lo hi buf avg ys s = Some s' ->
    s_live s' = s_live s /\ s_d s' = s_d s /\ s_nd s' = s_nd s /\ s_blk s' = s_blk s /\ s_nb s' = s_nb s /\
    (forall y, h_data (s_h s' y) = h_data (s_h s y)) /\
    (forall y, In y ys -> fst (h_fast (s_h s' y)) = ptr_of s' y) /\ (forall y, ~ In y ys -> s_h s' y = s_h s y).
  Proof.
    induction ys as [|z ys IH]; intros s s' E; cbn [update_all] in E.
    - injection E as <-. repeat split; auto; intros; contradiction.
    - destruct (update_size_info ord lo hi buf avg s z) as [s1|] eqn:E1; [|discriminate].
      unfold update_size_info in E1. destruct (mem z (s_live s)); [|discriminate]. destruct (bias ord lo (dims_of lo hi)) as [p|]; [|discriminate]. injection E1 as <-.
      destruct (IH _ _ E) as (L & D & N & B & K & H & F & G). cbn [set_h s_live s_d s_nd s_blk s_nb s_h] in *.
      assert (HD : forall y, h_data (s_h s' y) = h_data (s_h s y)).
      { intros y. rewrite H. unfold upd. destruct (Nat.eqb_spec y z) as [->|_]; reflexivity. }
      repeat split; auto.
      + intros y [<-|I]; [|apply F, I]. destruct (in_dec Nat.eq_dec z ys) as [I|I]; [apply F, I|].
        rewrite (G z I). unfold upd. rewrite Nat.eqb_refl. cbn [h_fast fst]. unfold ptr_of. rewrite HD, D. reflexivity.
      + intros y I. rewrite G by (intros X; apply I; right; exact X). unfold upd. destruct (Nat.eqb_spec y z) as [->|_]; [exfalso; apply I; left; reflexivity|reflexivity].
  Qed.

  (** The last holder of data [d] may be gone: the rest of the invariant holds for the others. *)
  Lemma minv_release (s : st) d :
    (forall h, In h (s_live s) -> (h_data (s_h s h) < s_nd s)%nat) ->
    (forall h, In h (s_live s) -> In h (d_upd (s_d s (h_data (s_h s h))))) ->
    (forall h, In h (s_live s) -> fst (h_fast (s_h s h)) = ptr_of s h) ->
    (forall b l, s_blk s b = Some l -> d_ptr (s_d s d) = Some b \/ exists h, In h (s_live s) /\ ptr_of s h = Some b) ->
    (forall h b, In h (s_live s) -> ptr_of s h = Some b -> exists l, s_blk s b = Some l) ->
    (forall h k b, In h (s_live s) -> In k (s_live s) -> ptr_of s h = Some b -> ptr_of s k = Some b -> h_data (s_h s h) = h_data (s_h s k)) ->
    (forall h b, In h (s_live s) -> ptr_of s h = Some b -> d_ptr (s_d s d) = Some b -> h_data (s_h s h) = d) ->
    (forall b, (s_nb s <= b)%nat -> s_blk s b = None) -> minv (release d s).
  Proof.
    intros H1 H2 H3 H4 H5 H6 H7 H8. unfold release.
    destruct (existsb (fun y => Nat.eqb (h_data (s_h s y)) d) (s_live s)) eqn:E.
    - apply existsb_exists in E. destruct E as (y & Iy & Ey). apply Nat.eqb_eq in Ey. constructor; auto.
      intros b l B. destruct (H4 b l B) as [P|P]; [|exact P]. exists y. split; [exact Iy|]. unfold ptr_of. rewrite Ey. exact P.
    - assert (N : forall h, In h (s_live s) -> h_data (s_h s h) <> d).
      { intros h I X. assert (T : existsb (fun y => Nat.eqb (h_data (s_h s y)) d) (s_live s) = true); [|congruence].
        apply existsb_exists. exists h. split; [exact I|]. apply Nat.eqb_eq. exact X. }
      assert (F : forall b, (free (d_ptr (s_d s d)) (s_blk s)) b = match d_ptr (s_d s d) with Some c => if Nat.eqb b c then None else s_blk s b | None => s_blk s b end).
      { intros b. unfold free, upd. destruct (d_ptr (s_d s d)); reflexivity. }
      constructor; unfold ptr_of; cbn [s_live s_h s_d s_nd s_blk s_nb]; auto.
      + intros b l B. rewrite F in B. destruct (d_ptr (s_d s d)) as [c|] eqn:C.
        * destruct (Nat.eqb_spec b c) as [->|NE]; [discriminate|]. destruct (H4 b l B) as [P|P]; [congruence|exact P].
        * destruct (H4 b l B) as [P|P]; [congruence|exact P].
      + intros h b I P. destruct (H5 h b I P) as (l & B). exists l. rewrite F. destruct (d_ptr (s_d s d)) as [c|] eqn:C; [|exact B].
        destruct (Nat.eqb_spec b c) as [->|NE]; [|exact B]. exfalso. apply (N h I). apply (H7 h c I P). reflexivity.
      + intros b L. rewrite F. destruct (d_ptr (s_d s d)) as [c|]; [destruct (Nat.eqb b c); [reflexivity|]|]; apply H8, L.
  Qed.
  Lemma in_rem x y l : In x (rem y l) <-> In x l /\ x <> y.
  Proof. unfold rem. rewrite filter_In, negb_true_iff, Nat.eqb_neq. reflexivity. Qed.
  Lemma in_add x y l : In x (add y l) <-> x = y \/ In x l.
  Proof.
    unfold add. destruct (mem y l) eqn:E; cbn [In]; [|intuition auto].
    apply existsb_exists in E. destruct E as (z & I & Z). apply Nat.eqb_eq in Z. subst z. split; [auto|intros [->|X]; auto].
  Qed.
  Lemma mem_in x l : mem x l = true <-> In x l.
  Proof. unfold mem. rewrite existsb_exists. split; [intros (z & I & E); apply Nat.eqb_eq in E; subst; exact I|intros I; exists x; split; [exact I|apply Nat.eqb_refl]]. Qed.
  Lemma mem_out x l : mem x l = false <-> ~ In x l.
  Proof. rewrite <- mem_in. destruct (mem x l); intuition discriminate. Qed.

  Lemma minv_step o (s s' : st) out : minv s -> step junk avg0 rank ord pol o s = Some (s', out) -> minv s'.
  Proof.
    intros M E. pose proof M as [M1 M2 M3 M4 M5 M6 M7]. destruct o as [h|h src|h src|h|h lo hi|h idx v|h idx|h]; cbn [step] in E.
    - (* New *) unfold op_new in E. destruct (mem h (s_live s)) eqn:L; [discriminate|]. cbn [option_map] in E. injection E as <- <-. apply mem_out in L.
      assert (O : forall k, In k (s_live s) -> k <> h) by (intros k I ->; contradiction).
      assert (P : forall k, In k (s_live s) -> ptr_of (mkSt (h :: s_live s) (upd (s_h s) h (mkH (s_nd s) (repeat 0 rank) (repeat 0 rank) [] 0 (None, 0) 0 avg0)) (upd (s_d s) (s_nd s) (mkD None [h])) (S (s_nd s)) (s_blk s) (s_nb s)) k = ptr_of s k).
      { intros k I. unfold ptr_of. cbn [s_h s_d]. rewrite (upd_other (s_h s)) by (apply O, I). rewrite upd_other; [reflexivity|]. specialize (M1 k I). lia. }
      assert (P0 : ptr_of (mkSt (h :: s_live s) (upd (s_h s) h (mkH (s_nd s) (repeat 0 rank) (repeat 0 rank) [] 0 (None, 0) 0 avg0)) (upd (s_d s) (s_nd s) (mkD None [h])) (S (s_nd s)) (s_blk s) (s_nb s)) h = None).
      { unfold ptr_of. cbn [s_h s_d]. rewrite upd_same. cbn [h_data]. rewrite upd_same. reflexivity. }
      constructor; cbn [s_live s_nd s_blk s_nb].
      + intros k [<-|I]; cbn [s_h]; [rewrite upd_same; cbn; lia|]. rewrite upd_other by (apply O, I). specialize (M1 k I). lia.
      + intros k [<-|I]; cbn [s_h s_d]; [rewrite upd_same; cbn [h_data]; rewrite upd_same; left; reflexivity|]. rewrite (upd_other (s_h s)) by (apply O, I).
        rewrite upd_other; [apply M2, I|]. specialize (M1 k I). lia.
      + intros k [<-|I]; [rewrite P0; cbn [s_h]; rewrite upd_same; reflexivity|]. rewrite (P k I), <- (M3 k I). cbn [s_h]. rewrite upd_other by (apply O, I). reflexivity.
      + intros b l B. destruct (M4 b l B) as (k & I & Q). exists k. split; [right; exact I|]. rewrite (P k I). exact Q.
      + intros k b [<-|I] Q; [congruence|]. rewrite (P k I) in Q. exact (M5 k b I Q).
      + intros k1 k2 b [<-|I1] [<-|I2] Q1 Q2; try congruence. rewrite (P _ I1) in Q1. rewrite (P _ I2) in Q2. cbn [s_h]. rewrite !upd_other by (apply O; assumption). exact (M6 _ _ _ I1 I2 Q1 Q2).
      + exact M7.
    - (* Copy *) unfold op_copy in E. destruct (mem h (s_live s)) eqn:L; [discriminate|]. destruct (mem src (s_live s)) eqn:L2; [|discriminate]. cbn [option_map negb] in E. injection E as <- <-. apply mem_out in L. apply mem_in in L2.
      set (g := h_data (s_h s src)). set (s' := mkSt _ _ _ _ _ _).
      assert (O : forall k, In k (s_live s) -> k <> h) by (intros k I ->; contradiction).
      assert (PD : forall d, d_ptr (s_d s' d) = d_ptr (s_d s d)).
      { intros d. unfold s'. cbn [s_d]. unfold upd. destruct (Nat.eqb_spec d g) as [->|_]; reflexivity. }
      assert (HD : forall k, In k (s_live s) -> s_h s' k = s_h s k) by (intros k I; unfold s'; cbn [s_h]; apply upd_other, O, I).
      assert (H0 : s_h s' h = s_h s src) by (unfold s'; cbn [s_h]; apply upd_same).
      assert (P : forall k, In k (s_live s) -> ptr_of s' k = ptr_of s k) by (intros k I; unfold ptr_of; rewrite PD, (HD k I); reflexivity).
      assert (P0 : ptr_of s' h = ptr_of s src) by (unfold ptr_of; rewrite PD, H0; reflexivity).
      assert (U : forall d k, In k (d_upd (s_d s' d)) <-> (d = g /\ k = h) \/ In k (d_upd (s_d s d))).
      { intros d k. unfold s'. cbn [s_d]. unfold upd. destruct (Nat.eqb_spec d g) as [->|NE]; [cbn [d_upd]; rewrite in_add; unfold g; intuition auto|intuition auto]. }
      constructor; change (s_live s') with (h :: s_live s); change (s_nd s') with (s_nd s); change (s_blk s') with (s_blk s); change (s_nb s') with (s_nb s).
      + intros k [<-|I]; [rewrite H0; apply M1, L2|rewrite (HD k I); apply M1, I].
      + intros k [<-|I]; [rewrite H0; apply U; left; auto|rewrite (HD k I); apply U; right; apply M2, I].
      + intros k [<-|I]; [rewrite H0, P0; apply M3, L2|rewrite (HD k I), (P k I); apply M3, I].
      + intros b l B. destruct (M4 b l B) as (k & I & Q). exists k. split; [right; exact I|rewrite (P k I); exact Q].
      + intros k b [<-|I] Q; [rewrite P0 in Q; exact (M5 _ _ L2 Q)|rewrite (P k I) in Q; exact (M5 _ _ I Q)].
      + intros k1 k2 b [<-|I1] [<-|I2] Q1 Q2; rewrite ?P0, ?H0 in *; rewrite ?(P _ I1), ?(HD _ I1) in *; rewrite ?(P _ I2), ?(HD _ I2) in *; eauto.
      + exact M7.
    - (* Assign *) unfold op_assign in E. destruct (negb (mem h (s_live s)) || negb (mem src (s_live s))) eqn:L; [discriminate|].
      apply orb_false_iff in L. destruct L as (L1 & L2). apply negb_false_iff, mem_in in L1, L2. cbn [option_map] in E. injection E as <- <-.
      set (g := h_data (s_h s src)). set (s1 := mkSt _ _ _ _ _ _).
      assert (PD : forall d, d_ptr (s_d s1 d) = d_ptr (s_d s d)).
      { intros d. unfold s1. cbn [s_d]. unfold upd. destruct (Nat.eqb_spec d g) as [->|_]; reflexivity. }
      assert (HD : forall k, k <> h -> s_h s1 k = s_h s k) by (intros k I; unfold s1; cbn [s_h]; apply upd_other, I).
      assert (H0 : h_data (s_h s1 h) = g /\ h_fast (s_h s1 h) = h_fast (s_h s src)) by (unfold s1; cbn [s_h]; rewrite upd_same; auto). destruct H0 as (H0 & H0').
      assert (P : forall k, k <> h -> ptr_of s1 k = ptr_of s k) by (intros k I; unfold ptr_of; rewrite PD, (HD k I); reflexivity).
      assert (P0 : ptr_of s1 h = ptr_of s src) by (unfold ptr_of; rewrite PD, H0; reflexivity).
      assert (U : forall d k, In k (d_upd (s_d s1 d)) <-> (d = g /\ k = h) \/ In k (d_upd (s_d s d))).
      { intros d k. unfold s1. cbn [s_d]. unfold upd. destruct (Nat.eqb_spec d g) as [->|NE]; [cbn [d_upd]; rewrite in_add; unfold g; intuition auto|intuition auto]. }
      apply minv_release; change (s_live s1) with (s_live s); change (s_nd s1) with (s_nd s); change (s_blk s1) with (s_blk s); change (s_nb s1) with (s_nb s).
      + intros k I. destruct (Nat.eq_dec k h) as [->|NE]; [rewrite H0; apply M1, L2|rewrite (HD k NE); apply M1, I].
      + intros k I. destruct (Nat.eq_dec k h) as [->|NE]; [rewrite H0; apply U; left; auto|rewrite (HD k NE); apply U; right; apply M2, I].
      + intros k I. destruct (Nat.eq_dec k h) as [->|NE]; [rewrite H0', P0; apply M3, L2|rewrite (HD k NE), (P k NE); apply M3, I].
      + intros b l B. destruct (M4 b l B) as (k & I & Q). destruct (Nat.eq_dec k h) as [->|NE]; [left; rewrite PD; exact Q|right; exists k; split; [exact I|rewrite (P k NE); exact Q]].
      + intros k b I Q. destruct (Nat.eq_dec k h) as [->|NE]; [rewrite P0 in Q; exact (M5 _ _ L2 Q)|rewrite (P k NE) in Q; exact (M5 _ _ I Q)].
      + intros k1 k2 b I1 I2 Q1 Q2. destruct (Nat.eq_dec k1 h) as [->|N1], (Nat.eq_dec k2 h) as [->|N2]; rewrite ?P0, ?H0 in *; rewrite ?(P _ N1), ?(HD _ N1) in *; rewrite ?(P _ N2), ?(HD _ N2) in *; try reflexivity.
        * exact (M6 _ _ _ L2 I2 Q1 Q2).
        * exact (M6 _ _ _ I1 L2 Q1 Q2).
        * exact (M6 _ _ _ I1 I2 Q1 Q2).
      + intros k b I Q D. rewrite PD in D. destruct (Nat.eq_dec k h) as [->|NE].
        * rewrite P0 in Q. rewrite H0. exact (M6 src h b L2 L1 Q D).
        * rewrite (P k NE) in Q. rewrite (HD k NE). exact (M6 k h b I L1 Q D).
      + exact M7.
    - (* Destroy *) unfold op_destroy in E. destruct (mem h (s_live s)) eqn:L; [|discriminate]. cbn [negb option_map] in E. injection E as <- <-. apply mem_in in L.
      set (g := h_data (s_h s h)). set (s1 := mkSt _ _ _ _ _ _).
      assert (PD : forall d, d_ptr (s_d s1 d) = d_ptr (s_d s d)).
      { intros d. unfold s1. cbn [s_d]. unfold upd. destruct (Nat.eqb_spec d g) as [->|_]; reflexivity. }
      assert (P : forall k, ptr_of s1 k = ptr_of s k) by (intros k; unfold ptr_of; rewrite PD; reflexivity).
      assert (U : forall d k, k <> h -> In k (d_upd (s_d s d)) -> In k (d_upd (s_d s1 d))).
      { intros d k NE I. unfold s1. cbn [s_d]. unfold upd. destruct (Nat.eqb_spec d g) as [->|_]; [cbn [d_upd]; apply in_rem; auto|exact I]. }
      assert (LV : forall k, In k (s_live s1) -> In k (s_live s) /\ k <> h) by (intros k I; unfold s1 in I; cbn [s_live] in I; apply in_rem in I; exact I).
      apply minv_release; change (s_h s1) with (s_h s); change (s_nd s1) with (s_nd s); change (s_blk s1) with (s_blk s); change (s_nb s1) with (s_nb s).
      + intros k I. apply M1, LV, I.
      + intros k I. apply LV in I. apply U; [apply I|apply M2, I].
      + intros k I. rewrite P. apply M3, LV, I.
      + intros b l B. destruct (M4 b l B) as (k & I & Q). destruct (Nat.eq_dec k h) as [->|NE]; [left; rewrite PD; exact Q|].
        right. exists k. split; [unfold s1; cbn [s_live]; apply in_rem; auto|rewrite P; exact Q].
      + intros k b I Q. rewrite P in Q. exact (M5 k b (proj1 (LV k I)) Q).
      + intros k1 k2 b I1 I2 Q1 Q2. rewrite P in Q1, Q2. exact (M6 k1 k2 b (proj1 (LV _ I1)) (proj1 (LV _ I2)) Q1 Q2).
      + intros k b I Q D. rewrite P in Q. rewrite PD in D. exact (M6 k h b (proj1 (LV k I)) L Q D).
      + exact M7.
    - (* Resize *) unfold op_resize in E. destruct (mem h (s_live s)) eqn:L; [|discriminate]. cbn [negb] in E. apply mem_in in L.
      set (g := h_data (s_h s h)) in *. set (d := s_d s g) in *.
      match type of E with context [if ?r then mkSt _ _ _ _ (upd _ _ (Some (repeat junk (Z.to_nat ?c)))) _ else s] => set (re := r) in *; set (cap := c) in * end.
      match type of E with option_map _ (update_all _ _ _ ?b ?a _ (set_h ?x _ _)) = _ => set (buf := b) in *; set (avg := a) in *; set (s1 := x) in * end.
      match type of E with context [set_h s1 h ?y] => set (hh := y) in * end.
      destruct (update_all ord lo hi buf avg (d_upd d) (set_h s1 h hh)) as [s2|] eqn:EU; [|discriminate]. cbn [option_map] in E. injection E as <- <-.
      destruct (update_all_frame _ _ _ _ _ _ _ EU) as (F1 & F2 & F3 & F4 & F5 & F6 & F7 & F8). cbn [set_h s_live s_d s_nd s_blk s_nb s_h] in *.
      assert (S1 : s_live s1 = s_live s /\ s_h s1 = s_h s /\ s_nd s1 = s_nd s) by (unfold s1; destruct re; auto). destruct S1 as (S1 & S2 & S3).
      assert (HD : forall k, h_data (s_h s2 k) = h_data (s_h s k)).
      { intros k. rewrite F6, S2. unfold upd. destruct (Nat.eqb_spec k h) as [->|_]; reflexivity. }
      assert (DU : forall x, d_upd (s_d s2 x) = d_upd (s_d s x)).
      { intros x. rewrite F2. unfold s1. destruct re; [|reflexivity]. cbn [s_d]. unfold upd. destruct (Nat.eqb_spec x g) as [->|_]; reflexivity. }
      assert (DP : forall x, x <> g -> d_ptr (s_d s2 x) = d_ptr (s_d s x)).
      { intros x NE. rewrite F2. unfold s1. destruct re; [|reflexivity]. cbn [s_d]. rewrite upd_other by exact NE. reflexivity. }
      assert (FA : forall k, In k (s_live s) -> fst (h_fast (s_h s2 k)) = ptr_of s2 k).
      { intros k I. destruct (in_dec Nat.eq_dec k (d_upd d)) as [J|J]; [apply F7, J|]. assert (NG : h_data (s_h s k) <> g) by (intros X; apply J; unfold d; rewrite <- X; apply M2, I).
        rewrite F8 by exact J. rewrite S2. unfold ptr_of. rewrite HD, DP by exact NG. rewrite upd_other by (intros ->; contradiction). apply M3, I. }
      assert (PO : forall k, h_data (s_h s k) <> g -> ptr_of s2 k = ptr_of s k) by (intros k NG; unfold ptr_of; rewrite HD, DP by exact NG; reflexivity).
      destruct re eqn:RE.
      + (* new memory *)
        assert (PN : forall k, h_data (s_h s k) = g -> ptr_of s2 k = Some (s_nb s)).
        { intros k X. unfold ptr_of. rewrite HD, X, F2. unfold s1. cbn [s_d]. rewrite upd_same. reflexivity. }
        assert (B2 : forall b, s_blk s2 b = if Nat.eqb b (s_nb s) then Some (repeat junk (Z.to_nat cap)) else free (d_ptr d) (s_blk s) b) by (intros b; rewrite F4; unfold s1; reflexivity).
        assert (FR : forall b, free (d_ptr d) (s_blk s) b = match d_ptr d with Some c => if Nat.eqb b c then None else s_blk s b | None => s_blk s b end) by (intros b; unfold free, upd; destruct (d_ptr d); reflexivity).
        assert (LT : forall k b, In k (s_live s) -> ptr_of s k = Some b -> (b < s_nb s)%nat).
        { intros k b I Q. destruct (M5 k b I Q) as (l & B). destruct (Nat.lt_ge_cases b (s_nb s)) as [X|X]; [exact X|]. rewrite (M7 b X) in B. discriminate. }
        constructor; rewrite ?F1, ?S1, ?F3, ?S3.
        * intros k I. rewrite HD. apply M1, I.
        * intros k I. rewrite HD, DU. apply M2, I.
        * exact FA.
        * intros b l B. rewrite B2 in B. destruct (Nat.eqb_spec b (s_nb s)) as [->|NE]; [exists h; split; [exact L|apply PN; reflexivity]|].
          rewrite FR in B. destruct (d_ptr d) as [c|] eqn:C.
          -- destruct (Nat.eqb_spec b c) as [->|NE2]; [discriminate|]. destruct (M4 b l B) as (k & I & Q). exists k. split; [exact I|].
             rewrite PO; [exact Q|]. intros X. unfold ptr_of in Q. rewrite X in Q. fold d in Q. congruence.
          -- destruct (M4 b l B) as (k & I & Q). exists k. split; [exact I|]. rewrite PO; [exact Q|]. intros X. unfold ptr_of in Q. rewrite X in Q. fold d in Q. congruence.
        * intros k b I Q. destruct (Nat.eq_dec (h_data (s_h s k)) g) as [X|X].
          -- rewrite (PN k X) in Q. injection Q as <-. rewrite B2, Nat.eqb_refl. eexists. reflexivity.
          -- rewrite (PO k X) in Q. pose proof (LT k b I Q) as BL. destruct (M5 k b I Q) as (l & B). exists l. rewrite B2. destruct (Nat.eqb_spec b (s_nb s)) as [->|_]; [lia|].
             rewrite FR. destruct (d_ptr d) as [c|] eqn:C; [|exact B]. destruct (Nat.eqb_spec b c) as [->|_]; [|exact B].
             exfalso. apply X. apply (M6 k h c I L Q). exact C.
        * intros k1 k2 b I1 I2 Q1 Q2. rewrite !HD. destruct (Nat.eq_dec (h_data (s_h s k1)) g) as [X1|X1], (Nat.eq_dec (h_data (s_h s k2)) g) as [X2|X2]; try congruence.
          -- rewrite (PN k1 X1) in Q1. rewrite (PO k2 X2) in Q2. pose proof (LT _ _ I2 Q2). injection Q1 as <-. lia.
          -- rewrite (PO k1 X1) in Q1. rewrite (PN k2 X2) in Q2. pose proof (LT _ _ I1 Q1). injection Q2 as <-. lia.
          -- rewrite (PO k1 X1) in Q1. rewrite (PO k2 X2) in Q2. exact (M6 _ _ _ I1 I2 Q1 Q2).
        * intros b. rewrite F5. change (s_nb s1) with (S (s_nb s)). intros G. rewrite B2. destruct (Nat.eqb_spec b (s_nb s)) as [->|_]; [lia|].
          rewrite FR, (M7 b) by lia. destruct (d_ptr d) as [c|]; [destruct (Nat.eqb b c)|]; reflexivity.
      + (* the old memory is kept *)
        change s1 with s in F2, F4, F5. assert (PP : forall k, ptr_of s2 k = ptr_of s k) by (intros k; unfold ptr_of; rewrite HD, F2; reflexivity).
        constructor; rewrite ?F1, ?S1, ?F3, ?S3, ?F4, ?F5.
        * intros k I. rewrite HD. apply M1, I.
        * intros k I. rewrite HD, DU. apply M2, I.
        * exact FA.
        * intros b l B. destruct (M4 b l B) as (k & I & Q). exists k. rewrite PP. auto.
        * intros k b I Q. rewrite PP in Q. eauto.
        * intros k1 k2 b I1 I2 Q1 Q2. rewrite !HD. rewrite PP in Q1, Q2. eauto.
        * exact M7.
    - (* Write *) unfold op_write in E. destruct (mem h (s_live s)); [|discriminate]. cbn [negb] in E. destruct (fst (h_fast (s_h s h))) as [b0|]; [|discriminate].
      destruct (s_blk s b0) as [l0|] eqn:B0; [|discriminate]. destruct (Nat.ltb _ _); [|discriminate]. cbn [option_map] in E. injection E as <- <-.
      constructor; auto; cbn [s_blk s_live s_nb].
      + intros b l B. unfold upd in B. destruct (Nat.eqb_spec b b0) as [->|_]; [exact (M4 _ _ B0)|exact (M4 _ _ B)].
      + intros k b I Q. destruct (M5 k b I Q) as (l & B). unfold upd. destruct (Nat.eqb b b0); eauto.
      + intros b G. unfold upd. destruct (Nat.eqb_spec b b0) as [->|_]; [rewrite (M7 b0 G) in B0; discriminate|apply M7, G].
    - destruct (op_read ord h idx s); [|discriminate]. cbn [option_map] in E. injection E as <- <-. exact M.
    - destruct (mem h (s_live s)); [|discriminate]. injection E as <- <-. exact M.
  Qed.
  Lemma minv_run os : forall (s s' : st) out, minv s -> run junk avg0 rank ord pol os s = Some (s', out) -> minv s'.
  Proof.
    induction os as [|o os IH]; intros s s' out M E; cbn [run] in E; [injection E as <- <-; exact M|].
    destruct (step junk avg0 rank ord pol o s) as [[s1 o1]|] eqn:E1; [|discriminate]. destruct (run junk avg0 rank ord pol os s1) as [[s2 o2]|] eqn:E2; [|discriminate].
    injection E as <- <-. exact (IH _ _ _ (minv_step _ _ _ _ M E1) E2).
  Qed.
End Mem.

Lemma memory_held V A (junk : V) (avg0 : A) rank ord pol os s out : run junk avg0 rank ord pol os (init avg0) = Some (s, out) ->
  (forall b, (exists l, s_blk s b = Some l) <-> exists h, In h (s_live s) /\ points s h b) /\
  (forall h k b, In h (s_live s) -> In k (s_live s) -> points s h b -> points s k b -> h_data (s_h s h) = h_data (s_h s k)) /\
  (forall h, In h (s_live s) -> fst (h_fast (s_h s h)) = d_ptr (s_d s (h_data (s_h s h)))).
Proof.
  intros E. destruct (minv_run junk avg0 rank ord pol os _ _ _ (minv_init avg0) E) as [M1 M2 M3 M4 M5 M6 M7].
  split; [|split; [exact M6|exact M3]]. intros b. split.
  - intros (l & B). exact (M4 b l B).
  - intros (h & I & P). exact (M5 h b I P).
Qed.
Lemma memory_released V A (junk : V) (avg0 : A) rank ord pol os s out : run junk avg0 rank ord pol os (init avg0) = Some (s, out) ->
  s_live s = [] -> forall b, s_blk s b = None.
Proof.
  intros E L b. destruct (s_blk s b) as [l|] eqn:B; [|reflexivity].
  destruct (proj1 (proj1 (memory_held _ _ _ _ _ _ _ _ _ _ E) b) (ex_intro _ l B)) as (h & I & _). rewrite L in I. destruct I.
Qed.

(** Three grids: 2 is a copy of 1; 3 is assigned to 1, then to 2; all are resized on the way and destroyed at the end. *)
Definition mem_prog : list (op Z) :=
  [New 1; Resize 1 [0] [3]; Copy 2 1; New 3; Resize 3 [0] [1]; Assign 1 3; Resize 3 [0] [2]; Write 2 [3] 7; Read 2 [3]; Assign 2 3].
Definition mem_end : list (op Z) := mem_prog ++ [Destroy 3; Destroy 1; Destroy 2].
Definition blocks (os : list (op Z)) : option (list nat * list (option nat)) :=
  option_map (fun r => (s_live (fst r), map (fun b => option_map (@length Z) (s_blk (fst r) b)) [0; 1; 2; 3]%nat)) (run 0 tt 1 COrder Instant os (init tt)).
Lemma mem_example :
  blocks (firstn 9 mem_prog) = Some ([3; 2; 1]%nat, [Some 4; None; Some 3; None]%nat) /\
  blocks mem_prog = Some ([3; 2; 1]%nat, [None; None; Some 3; None]%nat) /\
  blocks mem_end = Some ([], [None; None; None; None]).
Proof. vm_compute. auto. Qed.
