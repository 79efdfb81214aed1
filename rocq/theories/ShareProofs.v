(** Proofs about shared grid data. *)
From Verif Require Import Vec GridSpec StorageSpec StorageModel GridModel GridOpSpec ShareModel ShareSpec
  BoxFacts RangeProofs StorageProofs GridProofs.

Local Arguments Z.mul : simpl never.
Local Arguments Z.add : simpl never.
Local Arguments Z.sub : simpl never.
Local Arguments Z.of_nat : simpl never.

Lemma mem_In x l : mem x l = true <-> In x l.
Proof.
  unfold mem. rewrite existsb_exists. split.
  - intros (y & Hy & E). apply Nat.eqb_eq in E. now subst.
  - intros H. exists x. split; auto. apply Nat.eqb_refl.
Qed.
Lemma mem_not_In x l : mem x l = false <-> ~ In x l.
Proof. rewrite <- mem_In. destruct (mem x l); split; intros; congruence. Qed.
Lemma add_In x y l : In y (add x l) <-> y = x \/ In y l.
Proof.
  unfold add. destruct (mem x l) eqn:E; simpl.
  - apply mem_In in E. split; [auto|]. intros [->|]; auto.
  - split; intros [|]; auto.
Qed.
Lemma rem_In x y l : In y (rem x l) <-> In y l /\ y <> x.
Proof.
  unfold rem. rewrite filter_In. destruct (Nat.eqb_spec y x); simpl; split; intros []; split; auto; congruence.
Qed.
Lemma upd_same {A} (f : nat -> A) k v : upd f k v k = v.
Proof. unfold upd. now rewrite Nat.eqb_refl. Qed.
Lemma upd_other {A} (f : nat -> A) k v x : x <> k -> upd f k v x = f x.
Proof. unfold upd. intros H. destruct (Nat.eqb_spec x k); congruence. Qed.
Lemma vec_eq_eq a b : vec_eq a b = true <-> a = b.
Proof.
  revert b; induction a as [|x a IH]; intros [|y b]; simpl; try (split; congruence).
  rewrite andb_true_iff, IH, Z.eqb_eq. split; [intros [-> ->]|intros H; inversion H]; auto.
Qed.

Section Proofs.
  Context {V A : Type}.
  Variable junk : V.
  Variable avg0 : A.
  Variable rank : nat.
  Variable ord : order.
  Variable pol : policy A.
  Hypothesis pol_ok : forall next shrink extra, pol = Lazy next shrink extra -> forall a, 0 <= extra a.

  Definition is_lazy : bool := match pol with Instant => false | _ => true end.

  Notation st := (@st V A).
  Notation hdl := (@hdl A).
  Notation bias := (bias ord).
  Notation pos_of := (pos_of ord).
  Notation h_offset := (h_offset ord).
  Notation shape_ok := (shape_ok ord).
  Notation ast := (@ast V).

  Definition gp (lo hi p : vec) : Z := g_pos (mkGrid ord 0 lo hi) p.

  Lemma offset_exact lo hi p b :
    shape_ok lo hi -> in_box lo hi p -> bias lo (dims_of lo hi) = Some b ->
    w64 (w64 (0 + 1 * b) + 1 * pos_of (dims_of lo hi) p) = gp lo hi p.
  Proof.
    intros (Hne & Hok & Hs & Hc) Hp Hb.
    set (g := mkGrid ord 0 lo hi).
    assert (Hw : grid_wf g (fun _ => box lo hi)).
    { unfold grid_wf, g, g_dims; simpl. repeat split; auto. now apply box_length. }
    pose proof (g_offset_exact g _ p Hw Hp) as H. clear Hw. unfold gp.
    unfold g_offset, g_dims, g in H. cbn [g_order g_lo g_hi] in H. clear g.
    unfold ShareModel.bias, ShareModel.pos_of in *. clear Hc. destruct ord.
    - unfold c_addr in H. rewrite Hb in H. congruence.
    - inversion Hb; subst b. unfold f_addr in H. congruence.
  Qed.

  Lemma bias_ok lo hi : shape_ok lo hi -> exists b, bias lo (dims_of lo hi) = Some b.
  Proof.
    intros (_ & _ & _ & Hc). unfold ShareModel.bias. destruct ord; eauto.
    destruct (c_fast _ _); eauto. exfalso. now apply Hc.
  Qed.

  Lemma gp_bound lo hi p : in_box lo hi p -> 0 <= gp lo hi p < box_size lo hi.
  Proof. apply (g_pos_bound (mkGrid ord 0 lo hi)). Qed.
  Lemma gp_inj lo hi p q : in_box lo hi p -> in_box lo hi q -> gp lo hi p = gp lo hi q -> p = q.
  Proof. apply (g_pos_inj (mkGrid ord 0 lo hi)). Qed.

  Definition sized (lo hi : vec) (ptr : option nat) (p : Z) (buf : Z) (avg : A) (g : nat) : hdl :=
    mkH g lo hi (dims_of lo hi) (alloc_size (dims_of lo hi)) (ptr, p) buf avg.

  Lemma update_all_spec lo hi buf avg p ys : bias lo (dims_of lo hi) = Some p -> forall s : st,
    (forall y, In y ys -> In y (s_live s)) ->
    exists s', update_all ord lo hi buf avg ys s = Some s' /\
      s_live s' = s_live s /\ s_d s' = s_d s /\ s_nd s' = s_nd s /\ s_blk s' = s_blk s /\ s_nb s' = s_nb s /\
      (forall x, h_data (s_h s' x) = h_data (s_h s x)) /\
      (forall x, ~ In x ys -> s_h s' x = s_h s x) /\
      (forall x, In x ys -> s_h s' x = sized lo hi (d_ptr (s_d s (h_data (s_h s x)))) p buf avg (h_data (s_h s x))).
  Proof.
    intros Hb. induction ys as [|y ys IH]; intros s Hl; cbn [update_all].
    - exists s. repeat split; auto. intros x [].
    - unfold update_size_info. rewrite (proj2 (mem_In y (s_live s))) by (apply Hl; now left). rewrite Hb.
      set (s1 := set_h s y _).
      destruct (IH s1) as (s' & E & H1 & H2 & H3 & H4 & H5 & H6 & H7 & H8).
      { intros z Hz. apply Hl. now right. }
      assert (Hd : forall x, h_data (s_h s1 x) = h_data (s_h s x)).
      { intros x. unfold s1, set_h; simpl. unfold upd. destruct (Nat.eqb_spec x y); subst; reflexivity. }
      exists s'. split; [exact E|]. rewrite H1, H2, H3, H4, H5. repeat split.
      + intros x. rewrite H6. apply Hd.
      + intros x Hx. simpl in Hx. rewrite H7 by tauto. unfold s1, set_h; simpl. apply upd_other. intros ->. tauto.
      + intros x Hx. destruct (in_dec Nat.eq_dec x ys) as [Hin|Hin].
        * rewrite H8 by auto. rewrite Hd. reflexivity.
        * destruct Hx as [->|Hx]; [|tauto]. rewrite H7 by auto. unfold s1, set_h; simpl.
          rewrite upd_same. reflexivity.
  Qed.

  (** ** The invariant *)
  Definition blk_ok (s : st) (a : ast) (g : nat) : Prop :=
    match a_arr a g with
    | None => d_ptr (s_d s g) = None
    | Some (lo, hi, m) =>
        shape_ok lo hi /\
        exists b l, d_ptr (s_d s g) = Some b /\ (b < s_nb s)%nat /\ s_blk s b = Some l /\
          box_size lo hi <= Z.of_nat (length l) /\
          forall p v, in_box lo hi p -> m p = Some v -> nth_error l (Z.to_nat (gp lo hi p)) = Some v
    end.

  Definition cap_ok (s : st) (g : nat) (buf : Z) : Prop :=
    is_lazy = true -> match d_ptr (s_d s g) with
                      | None => True
                      | Some b => match s_blk s b with None => False | Some l => buf <= Z.of_nat (length l) end
                      end.

  Definition hdl_ok (s : st) (a : ast) (x : nat) : Prop :=
    let hd := s_h s x in
    let g := a_grp a x in
    h_data hd = g /\ (g < s_nd s)%nat /\
    match a_arr a g with
    | None => h_lo hd = repeat 0 rank /\ h_hi hd = repeat 0 rank /\ (is_lazy = true -> h_buf hd = 0)
    | Some (lo, hi, m) =>
        h_lo hd = lo /\ h_hi hd = hi /\ h_dims hd = dims_of lo hi /\
        fst (h_fast hd) = d_ptr (s_d s g) /\ bias lo (dims_of lo hi) = Some (snd (h_fast hd)) /\
        cap_ok s g (h_buf hd)
    end.

  Definition used (a : ast) (g : nat) : Prop := exists x, In x (a_live a) /\ a_grp a x = g.

  Record R (s : st) (a : ast) : Prop := {
    R_live : s_live s = a_live a;
    R_n : s_nd s = a_n a;
    R_hdl : forall x, In x (a_live a) -> hdl_ok s a x;
    R_blk : forall g, used a g -> blk_ok s a g;
    R_upd : forall g, used a g -> forall y, In y (d_upd (s_d s g)) <-> In y (a_live a) /\ a_grp a y = g;
    R_sep : forall g1 g2 b, used a g1 -> used a g2 -> d_ptr (s_d s g1) = Some b -> d_ptr (s_d s g2) = Some b -> g1 = g2;
    R_ptr : forall g b, used a g -> d_ptr (s_d s g) = Some b -> (b < s_nb s)%nat
  }.

  Lemma R_init : R (init avg0) ainit.
  Proof.
    constructor; simpl; try reflexivity; try tauto; intros g; intros; exfalso;
      match goal with H : used _ _ |- _ => destruct H as (x & [] & _) end.
  Qed.

  Lemma used_lt s a g : R s a -> used a g -> (g < a_n a)%nat.
  Proof. intros HR (x & Hx & <-). rewrite <- (R_n _ _ HR). apply (R_hdl _ _ HR x Hx). Qed.

  Lemma R_step_new s a h : R s a -> ~ In h (a_live a) ->
    exists s', op_new avg0 rank h s = Some s' /\ R s' (astep (New h) a).
  Proof.
    intros HR Hh. pose proof HR as [Rl Rn Rh Rb Ru Rs Rp]. unfold op_new.
    rewrite (proj2 (mem_not_In h (s_live s))) by now rewrite Rl.
    eexists. split; [reflexivity|].
    assert (Hused : forall g, used (astep (New h) a) g <-> g = a_n a \/ used a g).
    { intros g. unfold used; simpl. split.
      - intros (x & [<-|Hx] & E); [rewrite upd_same in E; auto|].
        rewrite upd_other in E by (intros ->; tauto). right. exists x. auto.
      - intros [->|(x & Hx & E)]; [exists h; rewrite upd_same; auto|].
        exists x. rewrite upd_other by (intros ->; tauto). auto. }
    assert (Hne : forall g, used a g -> g <> s_nd s).
    { intros g Hg. pose proof (used_lt _ _ _ HR Hg). lia. }
    constructor; simpl.
    - now rewrite Rl.
    - lia.
    - intros x [<-|Hx].
      + unfold hdl_ok; simpl. rewrite !upd_same, Rn. simpl. repeat split; auto.
      + assert (Hxh : x <> h) by (intros ->; tauto).
        pose proof (Rh x Hx) as (E1 & E2 & E3). unfold hdl_ok, cap_ok in *; simpl. rewrite !(upd_other _ h) by auto.
        split; [exact E1|]. split; [lia|].
        rewrite (upd_other (a_arr a)) by lia. destruct (a_arr a (a_grp a x)) as [[[lo hi] m]|]; auto.
        rewrite (upd_other (s_d s)) by lia. auto.
    - intros g Hg. apply Hused in Hg. unfold blk_ok; simpl. destruct Hg as [->|Hg].
      + rewrite upd_same. rewrite <- Rn. now rewrite upd_same.
      + pose proof (used_lt _ _ _ HR Hg). rewrite !upd_other by lia. apply (Rb g Hg).
    - intros g Hg y. apply Hused in Hg. destruct Hg as [->|Hg].
      + rewrite Rn, upd_same. simpl. split.
        * intros [<-|[]]. rewrite upd_same. auto.
        * intros [[<-|Hy] E]; auto. exfalso. destruct (Nat.eq_dec y h) as [->|Hyh]; [tauto|].
          rewrite upd_other in E by auto. pose proof (used_lt _ _ (a_grp a y) HR (ex_intro _ y (conj Hy eq_refl))). lia.
      + rewrite upd_other by auto. rewrite (Ru g Hg). split.
        * intros [Hy E]. rewrite upd_other by (intros ->; tauto). auto.
        * intros [[<-|Hy] E].
          -- rewrite upd_same in E. pose proof (used_lt _ _ _ HR Hg). lia.
          -- rewrite upd_other in E by (intros ->; tauto). auto.
    - intros g1 g2 b H1 H2 E1 E2. apply Hused in H1. apply Hused in H2. rewrite <- Rn in *.
      destruct H1 as [->|H1]; [rewrite upd_same in E1; discriminate|].
      destruct H2 as [->|H2]; [rewrite upd_same in E2; discriminate|].
      rewrite upd_other in E1 by auto. rewrite upd_other in E2 by auto. eapply Rs; eauto.
    - intros g b Hg E. apply Hused in Hg. rewrite <- Rn in *.
      destruct Hg as [->|Hg]; [rewrite upd_same in E; discriminate|].
      rewrite upd_other in E by auto. eapply Rp; eauto.
  Qed.

  Lemma R_step_copy s a h src : R s a -> ~ In h (a_live a) -> In src (a_live a) ->
    exists s', op_copy h src s = Some s' /\ R s' (astep (Copy h src) a).
  Proof.
    intros HR Hh Hsrc. pose proof HR as [Rl Rn Rh Rb Ru Rs Rp]. unfold op_copy.
    rewrite (proj2 (mem_not_In h (s_live s))) by now rewrite Rl.
    rewrite (proj2 (mem_In src (s_live s))) by now rewrite Rl. simpl negb. cbv iota.
    pose proof (Rh src Hsrc) as (Es & Hlt & Hsh). rewrite Es.
    set (gs := a_grp a src) in *.
    eexists. split; [reflexivity|].
    assert (Hgs : used a gs) by (exists src; auto).
    assert (Hused : forall g, used (astep (Copy h src) a) g <-> used a g).
    { intros g. unfold used; simpl. split.
      - intros (x & [<-|Hx] & E); [rewrite upd_same in E; subst; auto|].
        rewrite upd_other in E by (intros ->; tauto). exists x. auto.
      - intros (x & Hx & E). exists x. rewrite upd_other by (intros ->; tauto). auto. }
    assert (Hptr : forall g, d_ptr (upd (s_d s) gs (mkD (d_ptr (s_d s gs)) (add h (d_upd (s_d s gs)))) g) = d_ptr (s_d s g)).
    { intros g. unfold upd. destruct (Nat.eqb_spec g gs); subst; reflexivity. }
    constructor; simpl.
    - now rewrite Rl.
    - exact Rn.
    - intros x Hx. unfold hdl_ok, cap_ok; simpl. destruct (Nat.eq_dec x h) as [->|Hxh].
      + rewrite !upd_same. fold gs. split; [exact Es|]. split; [exact Hlt|].
        rewrite ?Hptr. exact Hsh.
      + destruct Hx as [<-|Hx]; [tauto|]. pose proof (Rh x Hx) as H. unfold hdl_ok, cap_ok in H.
        rewrite !upd_other by auto. rewrite Hptr. exact H.
    - intros g Hg. apply Hused in Hg. pose proof (Rb g Hg) as H. unfold blk_ok in *; simpl.
      rewrite Hptr. exact H.
    - intros g Hg y. apply Hused in Hg. fold gs. destruct (Nat.eq_dec g gs) as [->|Hgg].
      + rewrite upd_same; simpl. rewrite add_In, (Ru gs Hg). split.
        * intros [->|[Hy E]]; [rewrite upd_same; auto|]. rewrite upd_other by (intros ->; tauto). auto.
        * intros [[<-|Hy] E]; auto. right. rewrite upd_other in E by (intros ->; tauto). auto.
      + rewrite upd_other by auto. rewrite (Ru g Hg). split.
        * intros [Hy E]. rewrite upd_other by (intros ->; tauto). auto.
        * intros [[<-|Hy] E]; [rewrite upd_same in E; congruence|]. rewrite upd_other in E by (intros ->; tauto). auto.
    - intros g1 g2 b H1 H2. rewrite !Hptr. apply Hused in H1. apply Hused in H2. apply Rs; auto.
    - intros g b Hg. rewrite Hptr. apply Hused in Hg. now apply Rp.
  Qed.

  (** Freeing the block of a group that is no longer used keeps the relation. *)
  Lemma R_release s a d :
    R s a ->
    (forall b, d_ptr (s_d s d) = Some b -> forall g, used a g -> d_ptr (s_d s g) = Some b -> g = d) ->
    R (release d s) a.
  Proof.
    intros HR Hsep. pose proof HR as [Rl Rn Rh Rb Ru Rs Rp]. unfold release.
    destruct (existsb _ _) eqn:E; [exact HR|].
    assert (Hnu : ~ used a d).
    { intros (x & Hx & Eg). rewrite <- not_true_iff_false in E. apply E. apply existsb_exists.
      exists x. rewrite Rl. split; auto. rewrite (proj1 (Rh x Hx)). now apply Nat.eqb_eq. }
    assert (Hfree : forall g b, used a g -> d_ptr (s_d s g) = Some b -> free (d_ptr (s_d s d)) (s_blk s) b = s_blk s b).
    { intros g b Hg Eb. unfold free. destruct (d_ptr (s_d s d)) as [b'|] eqn:Ed; auto.
      apply upd_other. intros ->. apply Hnu. rewrite <- (Hsep _ eq_refl g Hg Eb). exact Hg. }
    constructor; simpl; auto.
    - intros x Hx. assert (Hg : used a (a_grp a x)) by (exists x; auto).
      pose proof (Rh x Hx) as (E1 & E2 & E3). unfold hdl_ok, cap_ok in *; simpl. split; [exact E1|]. split; [exact E2|].
      destruct (a_arr a (a_grp a x)) as [[[lo hi] m]|]; auto.
      destruct E3 as (F1 & F2 & F3 & F4 & F5 & F6). repeat split; auto. intros Hz. specialize (F6 Hz).
      destruct (d_ptr (s_d s (a_grp a x))) as [b|] eqn:Eb; auto. rewrite (Hfree _ _ Hg Eb). exact F6.
    - intros g Hg. pose proof (Rb g Hg) as H. unfold blk_ok in *; simpl.
      destruct (a_arr a g) as [[[lo hi] m]|]; auto.
      destruct H as (Hs & b & l & E1 & E2 & E3 & E4 & E5). split; auto. exists b, l. repeat split; auto.
      rewrite (Hfree _ _ Hg E1). exact E3.
  Qed.

  Lemma R_step_destroy s a h : R s a -> In h (a_live a) ->
    exists s', op_destroy h s = Some s' /\ R s' (astep (Destroy h) a).
  Proof.
    intros HR Hh. pose proof HR as [Rl Rn Rh Rb Ru Rs Rp]. unfold op_destroy.
    rewrite (proj2 (mem_In h (s_live s))) by now rewrite Rl. simpl negb. cbv iota.
    pose proof (Rh h Hh) as (Es & _ & _). rewrite Es. set (gh := a_grp a h) in *.
    eexists. split; [reflexivity|].
    assert (Hgh : used a gh) by (exists h; auto).
    assert (Hused : forall g, used (astep (Destroy h) a) g -> used a g).
    { intros g (x & Hx & E). simpl in *. apply rem_In in Hx. exists x. tauto. }
    assert (Hptr : forall g, d_ptr (upd (s_d s) gh (mkD (d_ptr (s_d s gh)) (rem h (d_upd (s_d s gh)))) g) = d_ptr (s_d s g)).
    { intros g. unfold upd. destruct (Nat.eqb_spec g gh); subst; reflexivity. }
    apply R_release.
    - constructor; simpl; auto.
      + now rewrite Rl.
      + intros x Hx. apply rem_In in Hx. pose proof (Rh x (proj1 Hx)) as H. unfold hdl_ok, cap_ok in *; simpl.
        rewrite Hptr. exact H.
      + intros g Hg. pose proof (Rb g (Hused g Hg)) as H. unfold blk_ok in *; simpl. rewrite Hptr. exact H.
      + intros g Hg y. rewrite rem_In. destruct (Nat.eq_dec g gh) as [->|Hgg].
        * rewrite upd_same; simpl. rewrite rem_In, (Ru gh) by auto. tauto.
        * rewrite upd_other by auto. rewrite (Ru g) by auto. split; [|tauto]. intros [Hy E]. split; auto.
          split; auto. intros ->. unfold gh in Hgg. congruence.
      + intros g1 g2 b H1 H2. rewrite !Hptr. apply Rs; auto.
      + intros g b Hg. rewrite Hptr. apply Rp; auto.
    - simpl. intros b Eb g Hg. rewrite Hptr in *. intros Eg. apply (Rs g gh b); auto.
  Qed.

  Lemma R_step_assign s a h src : R s a -> In h (a_live a) -> In src (a_live a) ->
    assign_safe is_lazy (Assign h src) a ->
    exists s', op_assign h src s = Some s' /\ R s' (astep (Assign h src) a).
  Proof.
    intros HR Hh Hsrc Hsafe. pose proof HR as [Rl Rn Rh Rb Ru Rs Rp]. unfold op_assign.
    rewrite (proj2 (mem_In h (s_live s))) by now rewrite Rl.
    rewrite (proj2 (mem_In src (s_live s))) by now rewrite Rl. simpl orb. cbv iota.
    pose proof (Rh src Hsrc) as (Es & Hlts & Hss). pose proof (Rh h Hh) as (Eh & Hlth & Hsh).
    rewrite Es, Eh. set (gs := a_grp a src) in *. set (gh := a_grp a h) in *.
    eexists. split; [reflexivity|].
    assert (Hgs : used a gs) by (exists src; auto). assert (Hgh : used a gh) by (exists h; auto).
    assert (Hused : forall g, used (astep (Assign h src) a) g -> used a g).
    { intros g (x & Hx & E). simpl in *. destruct (Nat.eq_dec x h) as [->|Hxh].
      - rewrite upd_same in E. subst. auto.
      - rewrite upd_other in E by auto. exists x. auto. }
    assert (Hptr : forall g, d_ptr (upd (s_d s) gs (mkD (d_ptr (s_d s gs)) (add h (d_upd (s_d s gs)))) g) = d_ptr (s_d s g)).
    { intros g. unfold upd. destruct (Nat.eqb_spec g gs); subst; reflexivity. }
    (* groups other than gs that are still used are not gh unless gh = gs *)
    simpl in Hsafe. fold gs gh in Hsafe.
    assert (Hother : forall g, used (astep (Assign h src) a) g -> g <> gs -> g <> gh).
    { intros g (x & Hx & E) Hne ->. simpl in *. destruct (Nat.eq_dec x h) as [->|Hxh].
      - rewrite upd_same in E. unfold gs in Hne. congruence.
      - rewrite upd_other in E by auto. destruct Hsafe as [Hsafe|[Hsole _]]; [congruence|].
        apply Hxh. apply Hsole; auto. }
    apply R_release.
    - constructor; simpl; auto.
      + intros x Hx. unfold hdl_ok, cap_ok; simpl. rewrite !Hptr. destruct (Nat.eq_dec x h) as [->|Hxh].
        * rewrite !upd_same. fold gs. simpl. split; [reflexivity|]. split; [exact Hlts|].
          assert (Hbuf : is_lazy = true -> h_buf (s_h s h) = 0 \/ gh = gs).
          { intros Hz. destruct Hsafe as [Hsafe|[_ Hun]]; auto. left. rewrite (Hun Hz) in Hsh. tauto. }
          destruct (a_arr a gs) as [[[lo hi] m]|] eqn:Ea.
          -- destruct Hss as (F1 & F2 & F3 & F4 & F5 & F6). repeat split; auto.
             intros Hz. specialize (F6 Hz). pose proof (Rb gs Hgs) as Hb. unfold blk_ok in Hb. rewrite Ea in Hb.
             destruct Hb as (_ & b & l & E1 & _ & E3 & _). rewrite E1, E3.
             destruct (Hbuf Hz) as [->|Heq]; [lia|].
             rewrite Heq, Ea in Hsh. destruct Hsh as (_ & _ & _ & _ & _ & F7). specialize (F7 Hz).
             rewrite E1, E3 in F7. exact F7.
          -- destruct Hss as (F1 & F2 & F3). repeat split; auto. intros Hz.
             destruct (Hbuf Hz) as [->|Heq]; auto. rewrite Heq, Ea in Hsh. tauto.
        * rewrite !upd_other by auto. exact (Rh x Hx).
      + intros g Hg. pose proof (Rb g (Hused g Hg)) as H. unfold blk_ok in *; simpl. rewrite Hptr. exact H.
      + intros g Hg y. pose proof (Hused g Hg) as Hg'. destruct (Nat.eq_dec g gs) as [->|Hgg].
        * rewrite upd_same; simpl. rewrite add_In, (Ru gs Hgs). fold gs. split.
          -- intros [->|[Hy E]]; [rewrite upd_same; auto|]. split; auto.
             unfold upd. destruct (Nat.eqb y h); auto.
          -- intros [Hy E]. destruct (Nat.eq_dec y h) as [->|Hyh]; auto.
             rewrite upd_other in E by auto. auto.
        * rewrite upd_other by auto. rewrite (Ru g Hg'). pose proof (Hother g Hg Hgg) as Hgh'. fold gs. split.
          -- intros [Hy E]. split; auto. rewrite upd_other; auto. intros ->. unfold gh in Hgh'. congruence.
          -- intros [Hy E]. split; auto. destruct (Nat.eq_dec y h) as [->|Hyh].
             ++ rewrite upd_same in E. congruence.
             ++ rewrite upd_other in E by auto. auto.
      + intros g1 g2 b H1 H2. rewrite !Hptr. apply Rs; auto.
      + intros g b Hg. rewrite Hptr. apply Rp; auto.
    - simpl. intros b Eb g Hg. rewrite Hptr in *. intros Eg. apply (Rs g gh b); auto.
  Qed.

  Lemma R_step_resize s a h lo hi : R s a -> In h (a_live a) -> shape_ok lo hi ->
    exists s', op_resize junk ord pol h lo hi s = Some s' /\ R s' (astep (Resize h lo hi) a).
  Proof.
    intros HR Hh Hsh. pose proof HR as [Rl Rn Rh Rb Ru Rs Rp].
    destruct (bias_ok lo hi Hsh) as [p Hp].
    pose proof Hsh as (Hne & Hok & Hsz & Hc).
    pose proof (box_size_pos _ _ Hok) as Hpos.
    pose proof (alloc_size_exact lo hi Hok Hsz) as Hal.
    unfold op_resize. rewrite (proj2 (mem_In h (s_live s))) by now rewrite Rl. simpl negb. cbv iota.
    pose proof (Rh h Hh) as (Eh & Hlth & Hhh). rewrite Eh. set (gh := a_grp a h) in *.
    assert (Hgh : used a gh) by (exists h; auto).
    set (newSize := alloc_size (dims_of lo hi)) in *.
    set (avg := match pol with Instant => h_avg (s_h s h) | Lazy next _ _ => next newSize (h_avg (s_h s h)) end).
    set (realloc := match pol with Instant => true
      | Lazy _ shrink _ => (newSize >? h_buf (s_h s h)) || shrink newSize (h_buf (s_h s h)) avg end).
    set (cap := match pol with Instant => newSize
      | Lazy _ _ extra => if newSize + extra avg <=? 0 then 10 else newSize + extra avg end).
    set (buf := if realloc then cap else h_buf (s_h s h)).
    assert (Hcap : newSize <= cap).
    { unfold cap. destruct pol as [|next shrink extra] eqn:Epol; [lia|].
      pose proof (pol_ok _ _ _ eq_refl avg). destruct (_ <=? 0) eqn:E; [apply Z.leb_le in E; lia|lia]. }
    set (s1 := if realloc then _ else s).
    set (s2 := set_h s1 h _).
    assert (Hl2 : s_live s2 = s_live s) by (unfold s2, s1, set_h; destruct realloc; reflexivity).
    destruct (update_all_spec lo hi buf avg p (d_upd (s_d s gh)) Hp s2) as (s' & E & H1 & H2 & H3 & H4 & H5 & H6 & H7 & H8).
    { intros y Hy. rewrite Hl2, Rl. apply (Ru gh Hgh) in Hy. tauto. }
    exists s'. split; [exact E|].
    (* the block of the group after the resize *)
    assert (Hd2 : forall g, g <> gh -> s_d s2 g = s_d s g).
    { intros g Hg. unfold s2, s1, set_h. destruct realloc; simpl; auto. now apply upd_other. }
    assert (Hu2 : forall g, d_upd (s_d s2 g) = d_upd (s_d s g)).
    { intros g. unfold s2, s1, set_h. destruct realloc; simpl; auto. unfold upd. destruct (Nat.eqb_spec g gh); subst; auto. }
    assert (Hblk : exists b l, d_ptr (s_d s2 gh) = Some b /\ s_blk s2 b = Some l /\
              box_size lo hi <= Z.of_nat (length l) /\ (is_lazy = true -> buf <= Z.of_nat (length l)) /\
              (b < s_nb s2)%nat /\
              (forall g b', used a g -> g <> gh -> d_ptr (s_d s g) = Some b' -> b' <> b /\ s_blk s2 b' = s_blk s b')).
    { destruct realloc eqn:Er.
      - exists (s_nb s), (repeat junk (Z.to_nat cap)). unfold s2, s1, set_h; simpl.
        rewrite !upd_same. simpl. split; [reflexivity|]. split; [reflexivity|]. rewrite repeat_length.
        split; [lia|]. split; [unfold buf; lia|]. split; [lia|].
        intros g b' Hg Hgg Eb. pose proof (Rp g b' Hg Eb). split; [lia|]. rewrite upd_other by lia.
        unfold free. destruct (d_ptr (s_d s gh)) as [b0|] eqn:E0; auto. apply upd_other.
        intros ->. apply Hgg. eapply Rs; eauto.
      - destruct pol as [|next shrink extra] eqn:Epol; [discriminate|].
        unfold realloc in Er. apply orb_false_iff in Er. destruct Er as [Er _]. rewrite Z.gtb_ltb in Er. apply Z.ltb_ge in Er.
        assert (Hz : is_lazy = true) by (unfold is_lazy; now rewrite Epol).
        unfold buf. unfold s2, s1, set_h; simpl.
        destruct (a_arr a gh) as [[[lo0 hi0] m0]|] eqn:Ea.
        + destruct Hhh as (_ & _ & _ & _ & _ & F). specialize (F Hz).
          pose proof (Rb gh Hgh) as Hb. unfold blk_ok in Hb. rewrite Ea in Hb.
          destruct Hb as (_ & b & l & E1 & E2 & E3 & E4 & _). rewrite E1, E3 in F.
          exists b, l. split; [exact E1|]. split; [exact E3|]. split; [lia|]. split; [auto|]. split; [exact E2|].
          intros g b' Hg Hgg Eb. split; auto. intros ->. apply Hgg. eapply Rs; eauto.
        + destruct Hhh as (_ & _ & F). specialize (F Hz). lia. }
    destruct Hblk as (b & l & B1 & B2 & B3 & B4 & B5 & B6).
    assert (Hsd : s_nd s2 = s_nd s) by (unfold s2, s1, set_h; destruct realloc; reflexivity).
    assert (Hdata : forall x, In x (a_live a) -> h_data (s_h s2 x) = a_grp a x).
    { intros x Hx. unfold s2, set_h; simpl. destruct (Nat.eq_dec x h) as [->|Hxh].
      - rewrite upd_same. reflexivity.
      - rewrite upd_other by auto. unfold s1. destruct realloc; simpl; apply (Rh x Hx). }
    constructor; cbn [astep a_live a_grp a_arr a_n].
    - now rewrite H1, Hl2.
    - now rewrite H3, Hsd.
    - intros x Hx. unfold hdl_ok, cap_ok; cbn [astep a_live a_grp a_arr a_n].
      rewrite H6, H2, H3, H4, Hsd. split; [apply Hdata; auto|].
      pose proof (Rh x Hx) as (E1 & E2 & E3). split; [exact E2|]. fold gh.
      destruct (Nat.eq_dec (a_grp a x) gh) as [Eg|Eg].
      + rewrite Eg, upd_same. rewrite H8 by (apply (Ru gh Hgh); auto). unfold sized; cbn [h_data h_lo h_hi h_dims h_fast h_buf fst snd].
        rewrite ?(Hdata x Hx), ?Eg. repeat split; auto. rewrite B1, B2. exact B4.
      + rewrite upd_other by auto. rewrite H7 by (rewrite (Ru gh Hgh); tauto).
        assert (Hxh : x <> h) by (intros ->; unfold gh in Eg; tauto).
        assert (Es2 : s_h s2 x = s_h s x).
        { unfold s2, set_h; simpl. rewrite upd_other by auto. unfold s1. destruct realloc; reflexivity. }
        rewrite Es2. destruct (a_arr a (a_grp a x)) as [[[lo0 hi0] m0]|] eqn:Ea; auto.
        rewrite (Hd2 _ Eg). destruct E3 as (F1 & F2 & F3 & F4 & F5 & F6). repeat split; auto.
        intros Hz. specialize (F6 Hz). destruct (d_ptr (s_d s (a_grp a x))) as [b'|] eqn:Eb; auto.
        assert (Hgx : used a (a_grp a x)) by (exists x; auto).
        destruct (B6 _ _ Hgx Eg Eb) as [_ ->]. exact F6.
    - intros g Hg. change (used a g) in Hg. unfold blk_ok; cbn [astep a_live a_grp a_arr a_n]. fold gh.
      rewrite H2, H4, H5. destruct (Nat.eq_dec g gh) as [->|Hgg].
      + rewrite upd_same. split; [exact Hsh|]. exists b, l. repeat split; auto. intros q v _ Hv. discriminate.
      + rewrite upd_other by auto. pose proof (Rb g Hg) as H. unfold blk_ok in H.
        destruct (a_arr a g) as [[[lo0 hi0] m0]|]; [|now rewrite (Hd2 _ Hgg)].
        destruct H as (Hs & b' & l' & E1 & E2 & E3 & E4 & E5). split; auto. exists b', l'.
        rewrite (Hd2 _ Hgg). destruct (B6 g b' Hg Hgg E1) as [Hne' ->]. repeat split; auto.
        unfold s2, s1, set_h. destruct realloc; simpl; lia.
    - intros g Hg y. change (used a g) in Hg. rewrite H2, Hu2. apply (Ru g Hg).
    - intros g1 g2 b' G1 G2. change (used a g1) in G1. change (used a g2) in G2. rewrite H2.
      destruct (Nat.eq_dec g1 gh) as [->|N1], (Nat.eq_dec g2 gh) as [->|N2]; auto.
      + rewrite B1, (Hd2 _ N2). intros Eb1 Eb2. destruct (B6 g2 b' G2 N2 Eb2). congruence.
      + rewrite B1, (Hd2 _ N1). intros Eb1 Eb2. destruct (B6 g1 b' G1 N1 Eb1). congruence.
      + rewrite (Hd2 _ N1), (Hd2 _ N2). apply Rs; auto.
    - intros g b' Hg. change (used a g) in Hg. rewrite H2, H5. destruct (Nat.eq_dec g gh) as [->|Hgg].
      + rewrite B1. intros Eb. congruence.
      + rewrite (Hd2 _ Hgg). intros Eb. pose proof (Rp g b' Hg Eb).
        unfold s2, s1, set_h. destruct realloc; simpl; lia.
  Qed.

  Lemma access s a h lo hi m idx : R s a -> In h (a_live a) ->
    a_arr a (a_grp a h) = Some (lo, hi, m) -> in_box lo hi idx ->
    exists b l, d_ptr (s_d s (a_grp a h)) = Some b /\ fst (h_fast (s_h s h)) = Some b /\ s_blk s b = Some l /\
      h_offset (s_h s h) idx = gp lo hi idx /\ shape_ok lo hi /\ (b < s_nb s)%nat /\
      (Z.to_nat (gp lo hi idx) < length l)%nat /\ box_size lo hi <= Z.of_nat (length l) /\
      (forall p v, in_box lo hi p -> m p = Some v -> nth_error l (Z.to_nat (gp lo hi p)) = Some v).
  Proof.
    intros HR Hh Ea Hi. pose proof (R_hdl _ _ HR h Hh) as (Eh & _ & H). rewrite Ea in H.
    destruct H as (F1 & F2 & F3 & F4 & F5 & F6).
    pose proof (R_blk _ _ HR (a_grp a h) (ex_intro _ h (conj Hh eq_refl))) as Hb. unfold blk_ok in Hb. rewrite Ea in Hb.
    destruct Hb as (Hs & b & l & E1 & E2 & E3 & E4 & E5). exists b, l.
    split; [exact E1|]. split; [congruence|]. split; [exact E3|].
    split; [unfold ShareModel.h_offset; rewrite F3; now apply offset_exact|].
    split; [exact Hs|]. split; [exact E2|]. split; [pose proof (gp_bound _ _ _ Hi); lia|]. auto.
  Qed.

  Lemma R_step_read s a h idx : R s a -> alegal ord (Read h idx) a ->
    exists v, op_read ord h idx s = Some v /\ aobs rank (Read h idx) a [OVal v].
  Proof.
    intros HR (Hh & lo & hi & m & Ea & Hi).
    destruct (access s a h lo hi m idx HR Hh Ea Hi) as (b & l & E1 & E2 & E3 & E4 & _ & _ & E5 & _ & E6).
    unfold op_read. rewrite (proj2 (mem_In h (s_live s))) by now rewrite (R_live _ _ HR). simpl negb. cbv iota.
    rewrite E2, E3, E4. destruct (nth_error l (Z.to_nat (gp lo hi idx))) as [v|] eqn:Ev.
    - exists v. split; [reflexivity|]. exists v. split; [reflexivity|]. rewrite Ea.
      destruct (m idx) as [w|] eqn:Em; auto. specialize (E6 idx w Hi Em). congruence.
    - apply nth_error_None in Ev. lia.
  Qed.

  Lemma R_step_write s a h idx v : R s a -> alegal ord (Write h idx v) a ->
    exists s', op_write ord h idx v s = Some s' /\ R s' (astep (Write h idx v) a).
  Proof.
    intros HR (Hh & lo & hi & m & Ea & Hi). pose proof HR as [Rl Rn Rh Rb Ru Rs Rp].
    destruct (access s a h lo hi m idx HR Hh Ea Hi) as (b & l & E1 & E2 & E3 & E4 & Hsh & Hbn & E5 & E6 & E7).
    unfold op_write. rewrite (proj2 (mem_In h (s_live s))) by now rewrite Rl. simpl negb. cbv iota.
    rewrite E2, E3, E4. rewrite (proj2 (Nat.ltb_lt _ _) E5). eexists. split; [reflexivity|].
    set (gh := a_grp a h) in *. set (k := Z.to_nat (gp lo hi idx)) in *.
    assert (Hgh : used a gh) by (exists h; auto).
    cbn [astep]. fold gh. rewrite Ea.
    constructor; cbn [a_live a_grp a_arr a_n s_live s_nd s_h s_d s_blk s_nb]; auto.
    - intros x Hx. pose proof (Rh x Hx) as (G1 & G2 & G3). unfold hdl_ok, cap_ok in *.
      cbn [a_live a_grp a_arr a_n s_live s_nd s_h s_d s_blk s_nb]. split; [exact G1|]. split; [exact G2|].
      assert (Hcap : forall buf, (is_lazy = true -> match d_ptr (s_d s (a_grp a x)) with None => True | Some b0 =>
                match s_blk s b0 with None => False | Some l0 => buf <= Z.of_nat (length l0) end end) ->
              is_lazy = true -> match d_ptr (s_d s (a_grp a x)) with None => True | Some b0 =>
                match upd (s_blk s) b (Some (list_set l k v)) b0 with None => False | Some l0 => buf <= Z.of_nat (length l0) end end).
      { intros buf H Hz. specialize (H Hz). destruct (d_ptr (s_d s (a_grp a x))) as [b0|]; auto.
        unfold upd. destruct (Nat.eqb_spec b0 b) as [->|]; auto. rewrite E3 in H. now rewrite list_set_length. }
      destruct (Nat.eq_dec (a_grp a x) gh) as [Eg|Eg].
      + rewrite Eg in *. rewrite upd_same. rewrite Ea in G3.
        destruct G3 as (F1 & F2 & F3 & F4 & F5 & F6).
        split; [exact F1|]. split; [exact F2|]. split; [exact F3|]. split; [exact F4|]. split; [exact F5|].
        apply Hcap. exact F6.
      + rewrite upd_other by auto. destruct (a_arr a (a_grp a x)) as [[[lo0 hi0] m0]|]; auto.
        destruct G3 as (F1 & F2 & F3 & F4 & F5 & F6).
        split; [exact F1|]. split; [exact F2|]. split; [exact F3|]. split; [exact F4|]. split; [exact F5|].
        apply Hcap. exact F6.
    - intros g Hg. change (used a g) in Hg. unfold blk_ok. cbn [a_live a_grp a_arr a_n s_live s_nd s_h s_d s_blk s_nb].
      destruct (Nat.eq_dec g gh) as [->|Hgg].
      + rewrite upd_same. split; [exact Hsh|]. exists b, (list_set l k v). rewrite upd_same, list_set_length.
        repeat split; auto. intros q w Hq Hw. destruct (vec_eq q idx) eqn:Eq.
        * apply vec_eq_eq in Eq. subst q. inversion Hw; subst. now apply list_set_same.
        * rewrite list_set_other; auto. intros Hk. unfold k in Hk.
          pose proof (gp_bound _ _ _ Hi). pose proof (gp_bound _ _ _ Hq).
          assert (q = idx) by (apply (gp_inj lo hi); auto; lia). subst.
          assert (vec_eq idx idx = true) by now apply vec_eq_eq. congruence.
      + rewrite upd_other by auto. pose proof (Rb g Hg) as H. unfold blk_ok in H.
        destruct (a_arr a g) as [[[lo0 hi0] m0]|]; auto.
        destruct H as (Hs & b' & l' & G1 & G2 & G3 & G4 & G5). split; auto. exists b', l'. repeat split; auto.
        rewrite upd_other; auto. intros ->. apply Hgg. eapply Rs; eauto.
  Qed.

  Theorem step_refines s a o : R s a -> alegal ord o a -> assign_safe is_lazy o a ->
    exists s' obs, step junk avg0 rank ord pol o s = Some (s', obs) /\ aobs rank o a obs /\ R s' (astep o a).
  Proof.
    intros HR Hl Hs. destruct o as [h|h src|h src|h|h lo hi|h idx v|h idx|h]; simpl in Hl; cbn [step].
    - destruct (R_step_new s a h HR Hl) as (s' & -> & H). exists s', []. simpl; auto.
    - destruct (R_step_copy s a h src HR) as (s' & -> & H); try tauto. exists s', []. simpl; auto.
    - destruct (R_step_assign s a h src HR) as (s' & -> & H); try tauto. exists s', []. simpl; auto.
    - destruct (R_step_destroy s a h HR Hl) as (s' & -> & H). exists s', []. simpl; auto.
    - destruct (R_step_resize s a h lo hi HR) as (s' & -> & H); try tauto. exists s', []. simpl; auto.
    - destruct (R_step_write s a h idx v HR Hl) as (s' & -> & H). exists s', []. simpl; auto.
    - destruct (R_step_read s a h idx HR Hl) as (v & -> & H). exists s, [OVal v]. simpl option_map. auto.
    - rewrite (proj2 (mem_In h (s_live s))) by now rewrite (R_live _ _ HR).
      eexists _, _. split; [reflexivity|]. split; [|exact HR]. simpl.
      pose proof (R_hdl _ _ HR h Hl) as (_ & _ & H). destruct (a_arr a (a_grp a h)) as [[[lo hi] m]|].
      + destruct H as (-> & -> & _). reflexivity.
      + destruct H as (-> & -> & _). reflexivity.
  Qed.

  Theorem run_refines os : forall s a, R s a -> alegal_run ord (assign_safe is_lazy) os a ->
    exists s' obs, run junk avg0 rank ord pol os s = Some (s', obs) /\ aobs_run rank os a obs.
  Proof.
    induction os as [|o os IH]; intros s a HR Hl; cbn [run alegal_run aobs_run] in *.
    - exists s, []. auto.
    - destruct Hl as (H1 & H2 & H3).
      destruct (step_refines s a o HR H1 H2) as (s1 & o1 & -> & Ho1 & HR1).
      destruct (IH s1 _ HR1 H3) as (s2 & o2 & -> & Ho2).
      exists s2, (o1 ++ o2). split; auto. exists o1, o2. auto.
  Qed.
End Proofs.

Lemma alegal_run_weaken {V} ord (P Q : op V -> ast -> Prop) :
  (forall o a, P o a -> Q o a) -> forall os a, alegal_run ord P os a -> alegal_run ord Q os a.
Proof.
  intros H. induction os as [|o os IH]; intros a; simpl; auto. intros (H1 & H2 & H3). auto.
Qed.
