(** Proofs about the ways to give a grid its extent. *)
From Verif Require Import Vec GridSpec StorageSpec StorageModel GridModel GridOpSpec ShareModel ShareSpec
  BoxFacts RangeProofs StorageProofs GridProofs ShareProofs ExtentModel ExtentSpec.

Local Arguments Z.mul : simpl never.
Local Arguments Z.add : simpl never.
Local Arguments Z.sub : simpl never.
Local Arguments Z.of_nat : simpl never.

Section Proofs.
  Context {V A : Type}.
  Variable junk : V.
  Variable avg0 : A.
  Variable rank : nat.
  Variable ord : order.
  Variable pol : policy A.
  Hypothesis pol_ok : forall next shrink extra, pol = Lazy next shrink extra -> forall a, 0 <= extra a.

  Notation is_lazy := (is_lazy pol).
  Notation st := (@st V A).
  Notation shape_ok := (shape_ok ord).
  Notation ast := (@ast V).
  Notation R := (R rank ord pol).
  Notation op_resize_ref := (op_resize_ref junk ord pol).

  (** As [R_step_resize], with references. *)
  Lemma R_resize_ref s a h rlo rhi lo hi : R s a -> In h (a_live a) -> live_ref s rlo = true -> live_ref s rhi = true ->
    let s0 := set_h s h (mkH (a_grp a h) (deref s rlo) (deref s rhi) (h_dims (s_h s h)) (h_size (s_h s h)) (h_fast (s_h s h)) (h_buf (s_h s h)) (h_avg (s_h s h))) in
    deref s0 rlo = lo -> deref s0 rhi = hi -> shape_ok lo hi ->
    exists s', op_resize_ref h rlo rhi s = Some s' /\ R s' (astep (Resize h lo hi) a).
  Proof.
    intros HR Hh Kl Kh s0 E0lo E0hi Hsh. pose proof HR as [Rl Rn Rh Rb Ru Rs Rp].
    destruct (bias_ok ord lo hi Hsh) as [p Hp].
    pose proof Hsh as (Hne & Hok & Hsz & Hc).
    pose proof (box_size_pos _ _ Hok) as Hpos.
    pose proof (alloc_size_exact lo hi Hok Hsz) as Hal.
    unfold op_resize_ref. rewrite (proj2 (mem_In h (s_live s))) by now rewrite Rl. rewrite Kl, Kh. change (negb true || negb true || negb true) with false. cbv iota zeta.
    pose proof (Rh h Hh) as (Eh0 & _ & _). rewrite !Eh0.
    change (set_h s h (mkH (a_grp a h) (deref s rlo) (deref s rhi) (h_dims (s_h s h)) (h_size (s_h s h)) (h_fast (s_h s h)) (h_buf (s_h s h)) (h_avg (s_h s h)))) with s0.
    rewrite E0lo, E0hi.
    pose proof (Rh h Hh) as (Eh & Hlth & Hhh). set (gh := a_grp a h) in *.
    assert (Hgh : used a gh) by (exists h; auto).
    set (newSize := alloc_size (dims_of lo hi)) in *.
    set (avg := match pol with Instant => h_avg (s_h s h) | Lazy next _ _ => next newSize (h_avg (s_h s h)) end).
    set (realloc := match pol with Instant => true
      | Lazy _ shrink _ => (newSize >? h_buf (s_h s h)) || shrink newSize (h_buf (s_h s h)) avg end).
    set (cap := match pol with Instant => newSize
      | Lazy _ _ extra => if newSize + extra avg <=? 0 then 10 else newSize + extra avg end).
    set (buf := if realloc then cap else h_buf (s_h s h)).
    assert (Hcap : newSize <= cap).
    { unfold cap. destruct pol as [|next shrink extra] eqn:Epol; [lia|].
      pose proof (pol_ok _ _ _ eq_refl avg). destruct (_ <=? 0) eqn:E; [apply Z.leb_le in E; lia|lia]. }
    set (s1 := if realloc then _ else s).
    set (s2 := set_h s1 h _).
    assert (Hl2 : s_live s2 = s_live s) by (unfold s2, s1, set_h; destruct realloc; reflexivity).
    destruct (update_all_spec ord lo hi buf avg p (d_upd (s_d s gh)) Hp s2) as (s' & E & H1 & H2 & H3 & H4 & H5 & H6 & H7 & H8).
    { intros y Hy. rewrite Hl2, Rl. apply (Ru gh Hgh) in Hy. tauto. }
    exists s'. split; [exact E|].
    (* the block of the group after the resize *)
    assert (Hd2 : forall g, g <> gh -> s_d s2 g = s_d s g).
    { intros g Hg. unfold s2, s1, set_h. destruct realloc; simpl; auto. now apply upd_other. }
    assert (Hu2 : forall g, d_upd (s_d s2 g) = d_upd (s_d s g)).
    { intros g. unfold s2, s1, set_h. destruct realloc; simpl; auto. unfold upd. destruct (Nat.eqb_spec g gh); subst; auto. }
    assert (Hblk : exists b l, d_ptr (s_d s2 gh) = Some b /\ s_blk s2 b = Some l /\
              box_size lo hi <= Z.of_nat (length l) /\ (is_lazy = true -> buf <= Z.of_nat (length l)) /\
              (b < s_nb s2)%nat /\
              (forall g b', used a g -> g <> gh -> d_ptr (s_d s g) = Some b' -> b' <> b /\ s_blk s2 b' = s_blk s b')).
    { destruct realloc eqn:Er.
      - exists (s_nb s), (repeat junk (Z.to_nat cap)). unfold s2, s1, set_h; simpl.
        rewrite !upd_same. simpl. split; [reflexivity|]. split; [reflexivity|]. rewrite repeat_length.
        split; [lia|]. split; [unfold buf; lia|]. split; [lia|].
        intros g b' Hg Hgg Eb. pose proof (Rp g b' Hg Eb). split; [lia|]. rewrite upd_other by lia.
        unfold free. destruct (d_ptr (s_d s gh)) as [b0|] eqn:E0; auto. apply upd_other.
        intros ->. apply Hgg. eapply Rs; eauto.
      - destruct pol as [|next shrink extra] eqn:Epol; [discriminate|].
        unfold realloc in Er. apply orb_false_iff in Er. destruct Er as [Er _]. rewrite Z.gtb_ltb in Er. apply Z.ltb_ge in Er.
        assert (Hz : is_lazy = true) by (unfold ShareProofs.is_lazy; now rewrite Epol).
        unfold buf. unfold s2, s1, set_h; simpl.
        destruct (a_arr a gh) as [[[lo0 hi0] m0]|] eqn:Ea.
        + destruct Hhh as (_ & _ & _ & _ & _ & F). specialize (F eq_refl).
          pose proof (Rb gh Hgh) as Hb. unfold blk_ok in Hb. rewrite Ea in Hb.
          destruct Hb as (_ & b & l & E1 & E2 & E3 & E4 & _). rewrite E1, E3 in F.
          exists b, l. split; [exact E1|]. split; [exact E3|]. split; [lia|]. split; [auto|]. split; [exact E2|].
          intros g b' Hg Hgg Eb. split; auto. intros ->. apply Hgg. eapply Rs; eauto.
        + destruct Hhh as (_ & _ & F). specialize (F eq_refl). lia. }
    destruct Hblk as (b & l & B1 & B2 & B3 & B4 & B5 & B6).
    assert (Hsd : s_nd s2 = s_nd s) by (unfold s2, s1, set_h; destruct realloc; reflexivity).
    assert (Hdata : forall x, In x (a_live a) -> h_data (s_h s2 x) = a_grp a x).
    { intros x Hx. unfold s2, set_h; simpl. destruct (Nat.eq_dec x h) as [->|Hxh].
      - rewrite upd_same. reflexivity.
      - rewrite upd_other by auto. unfold s1. destruct realloc; simpl; apply (Rh x Hx). }
    constructor; cbn [astep a_live a_grp a_arr a_n].
    - now rewrite H1, Hl2.
    - now rewrite H3, Hsd.
    - intros x Hx. unfold hdl_ok, cap_ok; cbn [astep a_live a_grp a_arr a_n].
      rewrite H6, H2, H3, H4, Hsd. split; [apply Hdata; auto|].
      pose proof (Rh x Hx) as (E1 & E2 & E3). split; [exact E2|]. fold gh.
      destruct (Nat.eq_dec (a_grp a x) gh) as [Eg|Eg].
      + rewrite Eg, upd_same. rewrite H8 by (apply (Ru gh Hgh); auto). unfold sized; cbn [h_data h_lo h_hi h_dims h_fast h_buf fst snd].
        rewrite ?(Hdata x Hx), ?Eg. repeat split; auto. rewrite B1, B2. exact B4.
      + rewrite upd_other by auto. rewrite H7 by (rewrite (Ru gh Hgh); tauto).
        assert (Hxh : x <> h) by (intros ->; unfold gh in Eg; tauto).
        assert (Es2 : s_h s2 x = s_h s x).
        { unfold s2, set_h; simpl. rewrite upd_other by auto. unfold s1. destruct realloc; reflexivity. }
        rewrite Es2. destruct (a_arr a (a_grp a x)) as [[[lo0 hi0] m0]|] eqn:Ea; auto.
        rewrite (Hd2 _ Eg). destruct E3 as (F1 & F2 & F3 & F4 & F5 & F6). repeat split; auto.
        intros Hz. specialize (F6 Hz). destruct (d_ptr (s_d s (a_grp a x))) as [b'|] eqn:Eb; auto.
        assert (Hgx : used a (a_grp a x)) by (exists x; auto).
        destruct (B6 _ _ Hgx Eg Eb) as [_ ->]. exact F6.
    - intros g Hg. change (used a g) in Hg. unfold blk_ok; cbn [astep a_live a_grp a_arr a_n]. fold gh.
      rewrite H2, H4, H5. destruct (Nat.eq_dec g gh) as [->|Hgg].
      + rewrite upd_same. split; [exact Hsh|]. exists b, l. repeat split; auto. intros q v _ Hv. discriminate.
      + rewrite upd_other by auto. pose proof (Rb g Hg) as H. unfold blk_ok in H.
        destruct (a_arr a g) as [[[lo0 hi0] m0]|]; [|now rewrite (Hd2 _ Hgg)].
        destruct H as (Hs & b' & l' & E1 & E2 & E3 & E4 & E5). split; auto. exists b', l'.
        rewrite (Hd2 _ Hgg). destruct (B6 g b' Hg Hgg E1) as [Hne' ->]. repeat split; auto.
        unfold s2, s1, set_h. destruct realloc; simpl; lia.
    - intros g Hg y. change (used a g) in Hg. rewrite H2, Hu2. apply (Ru g Hg).
    - intros g1 g2 b' G1 G2. change (used a g1) in G1. change (used a g2) in G2. rewrite H2.
      destruct (Nat.eq_dec g1 gh) as [->|N1], (Nat.eq_dec g2 gh) as [->|N2]; auto.
      + rewrite B1, (Hd2 _ N2). intros Eb1 Eb2. destruct (B6 g2 b' G2 N2 Eb2). congruence.
      + rewrite B1, (Hd2 _ N1). intros Eb1 Eb2. destruct (B6 g1 b' G1 N1 Eb1). congruence.
      + rewrite (Hd2 _ N1), (Hd2 _ N2). apply Rs; auto.
    - intros g b' Hg. change (used a g) in Hg. rewrite H2, H5. destruct (Nat.eq_dec g gh) as [->|Hgg].
      + rewrite B1. intros Eb. congruence.
      + rewrite (Hd2 _ Hgg). intros Eb. pose proof (Rp g b' Hg Eb).
        unfold s2, s1, set_h. destruct realloc; simpl; lia.
  Qed.

  Notation value := (value rank).
  Notation asked := (asked rank).
  Notation got := (got rank).

  Lemma lower_is (s : st) (a : ast) y : R s a -> In y (a_live a) -> h_lo (s_h s y) = lower rank a y.
  Proof.
    intros HR Hy. pose proof (R_hdl _ _ _ _ _ HR y Hy) as (_ & _ & H). unfold lower.
    destruct (a_arr a (a_grp a y)) as [[[lo hi] m]|]; destruct H as (E & _); exact E.
  Qed.
  Lemma upper_is (s : st) (a : ast) y : R s a -> In y (a_live a) -> h_hi (s_h s y) = upper rank a y.
  Proof.
    intros HR Hy. pose proof (R_hdl _ _ _ _ _ HR y Hy) as (_ & _ & H). unfold upper.
    destruct (a_arr a (a_grp a y)) as [[[lo hi] m]|]; destruct H as (_ & E & _); exact E.
  Qed.
  Lemma deref_is (s : st) (a : ast) r : R s a -> exists_ref a r -> live_ref s r = true /\ deref s r = value a r.
  Proof.
    intros HR. destruct r as [v|y|y]; cbn; intros H; [auto| |]; (split; [apply mem_In; rewrite (R_live _ _ _ _ _ HR); exact H|]).
    - apply lower_is; auto.
    - apply upper_is; auto.
  Qed.

  (** Resizing with references. *)
  Lemma between_step (s : st) (a : ast) h lo hi : R s a -> In h (a_live a) -> exists_ref a lo -> exists_ref a hi ->
    shape_ok (fst (got a h (Between lo hi))) (snd (got a h (Between lo hi))) ->
    exists s', op_resize_ref h lo hi s = Some s' /\
      R s' (astep (Resize h (fst (got a h (Between lo hi))) (snd (got a h (Between lo hi)))) a).
  Proof.
    intros HR Hh El Eh Hs. destruct (deref_is _ _ _ HR El) as [Ll Dl], (deref_is _ _ _ HR Eh) as [Lh Dh].
    apply (R_resize_ref s a h lo hi); auto; rewrite Dl, Dh; unfold got; cbn [fst snd].
    - destruct lo as [v|y|y]; cbn [deref]; [reflexivity| |]; unfold set_h; cbn [s_h]; unfold upd;
        destruct (Nat.eqb_spec y h) as [->|N]; cbn [h_lo h_hi]; auto.
    - destruct hi as [v|y|y]; cbn [deref]; [reflexivity| |]; unfold set_h; cbn [s_h]; unfold upd;
        destruct (Nat.eqb_spec y h) as [->|N]; cbn [h_lo h_hi]; auto.
  Qed.
  Lemma given_step (s : st) (a : ast) h lo hi : R s a -> In h (a_live a) -> shape_ok lo hi ->
    exists s', op_resize_ref h (Given lo) (Given hi) s = Some s' /\ R s' (astep (Resize h lo hi) a).
  Proof. intros HR Hh Hs. apply (between_step s a h (Given lo) (Given hi)); cbn; auto. Qed.
  Lemma like_step (s : st) (a : ast) h y : R s a -> In h (a_live a) -> In y (a_live a) -> shape_ok (lower rank a y) (upper rank a y) ->
    exists s', op_resize_ref h (LoOf y) (HiOf y) s = Some s' /\ R s' (astep (Resize h (lower rank a y) (upper rank a y)) a).
  Proof. intros HR Hh Hy Hs. apply (between_step s a h (LoOf y) (HiOf y)); cbn; auto. Qed.

  Lemma minus_ones_is v : minus_ones v = map (fun n => n - 1) v.
  Proof. unfold minus_ones. induction v as [|x v IH]; cbn; [reflexivity|]. now rewrite IH. Qed.

  Lemma resize_by_step (s : st) (a : ast) h e : R s a -> exists_extent a e -> In h (a_live a) -> shape_ok (fst (got a h e)) (snd (got a h e)) ->
    exists s', op_resize_by junk rank ord pol h e s = Some s' /\ R s' (astep (Resize h (fst (got a h e)) (snd (got a h e))) a).
  Proof.
    intros HR He Hh Hs. destruct e as [d|lo hi|lo hi|y|y]; cbn [op_resize_by]; cbn [exists_extent] in He.
    - destruct (deref_is _ _ _ HR He) as [-> ->]. apply given_step; auto.
    - destruct He. apply between_step; auto.
    - apply given_step; auto.
    - apply like_step; auto.
    - apply like_step; auto.
  Qed.

  (** A new grid changes no other. *)
  Lemma value_new (s : st) (a : ast) h r : R s a -> ~ In h (a_live a) -> exists_ref a r -> value (astep (New h) a) r = value a r /\ exists_ref (astep (New h) a) r.
  Proof.
    intros HR N. assert (K : forall y, In y (a_live a) -> y <> h /\ a_grp a y <> a_n a).
    { intros y Hy. split; [intros ->; tauto|]. pose proof (R_hdl _ _ _ _ _ HR y Hy) as (_ & H & _). rewrite (R_n _ _ _ _ _ HR) in H. lia. }
    destruct r as [v|y|y]; cbn; intros Hy; auto; destruct (K y Hy) as [K1 K2]; (split; [|auto]);
      unfold lower, upper; cbn; rewrite (upd_other _ _ _ _ K1), (upd_other _ _ _ _ K2); reflexivity.
  Qed.
  Lemma got_new (s : st) (a : ast) h e : R s a -> ~ In h (a_live a) -> exists_extent a e ->
    got (astep (New h) a) h e = asked a e /\ exists_extent (astep (New h) a) e.
  Proof.
    intros HR N He.
    assert (K : forall y, In y (a_live a) -> Nat.eqb y h = false) by (intros y Hy; apply Nat.eqb_neq; intros ->; tauto).
    destruct e as [d|lo hi|lo hi|y|y]; cbn [exists_extent] in He.
    - destruct (value_new s a h d HR N He) as [E L]. cbn [got ExtentSpec.got ExtentSpec.asked]. rewrite E. split; [reflexivity|exact L].
    - destruct He as [H1 H2]. destruct (value_new s a h lo HR N H1) as [E1 L1], (value_new s a h hi HR N H2) as [E2 L2].
      cbn [ExtentSpec.got ExtentSpec.asked]. rewrite E1, E2. split; [|split; [exact L1|exact L2]].
      f_equal; [destruct lo as [v|y|y]|destruct hi as [v|y|y]]; try reflexivity; rewrite K; auto.
    - auto.
    - destruct (value_new s a h (LoOf y) HR N He) as [E L], (value_new s a h (HiOf y) HR N He) as [E2 _].
      cbn [ExtentSpec.value] in E, E2. cbn [ExtentSpec.got ExtentSpec.asked]. rewrite E, E2. split; [reflexivity|exact L].
    - destruct (value_new s a h (LoOf y) HR N He) as [E L], (value_new s a h (HiOf y) HR N He) as [E2 _].
      cbn [ExtentSpec.value] in E, E2. cbn [ExtentSpec.got ExtentSpec.asked]. rewrite E, E2. split; [reflexivity|exact L].
  Qed.

  Lemma make_is h e (s s' : st) (a : ast) : R s a -> exists_extent a e -> op_new avg0 rank h s = Some s' -> R s' (astep (New h) a) ->
    ~ In h (a_live a) -> op_make junk avg0 rank ord pol h e s = op_resize_by junk rank ord pol h e s'.
  Proof.
    intros HR He E HR' N. destruct (got_new s a h e HR N He) as [_ L].
    destruct e as [d|lo hi|lo hi|y|y]; cbn [op_make op_resize_by]; rewrite E; cbn [exists_extent] in *.
    - destruct (deref_is _ _ _ HR He) as [-> ->]. destruct (deref_is _ _ _ HR' L) as [-> ->].
      destruct (value_new s a h d HR N He) as [-> _]. now rewrite minus_ones_is.
    - destruct He as [H1 H2]. destruct (deref_is _ _ _ HR H1) as [-> _], (deref_is _ _ _ HR H2) as [-> _]. reflexivity.
    - reflexivity.
    - rewrite (proj2 (mem_In y (s_live s))) by (rewrite (R_live _ _ _ _ _ HR); exact He). reflexivity.
    - rewrite (proj2 (mem_In y (s_live s))) by (rewrite (R_live _ _ _ _ _ HR); exact He). reflexivity.
  Qed.

  Notation legal := (alegal_run ord (assign_safe is_lazy)).
  Lemma legal_app (l1 : list (op V)) : forall l2 (a : ast), legal (l1 ++ l2) a -> legal l1 a /\ legal l2 (after l1 a).
  Proof.
    induction l1 as [|o l1 IH]; intros l2 a H; [split; [exact I|exact H]|]. destruct H as (H1 & H2 & H3).
    destruct (IH _ _ H3) as [K1 K2]. split; [split; auto|exact K2].
  Qed.
  Lemma obs_app (l1 : list (op V)) : forall l2 (a : ast) o1 o2, aobs_run rank l1 a o1 -> aobs_run rank l2 (after l1 a) o2 -> aobs_run rank (l1 ++ l2) a (o1 ++ o2).
  Proof.
    induction l1 as [|o l1 IH]; intros l2 a o1 o2 H1 H2.
    - cbn in H1. subst o1. exact H2.
    - destruct H1 as (p & q & -> & H1 & H3). cbn [app aobs_run]. exists p, (q ++ o2). rewrite app_assoc. split; [reflexivity|]. split; [exact H1|]. apply IH; auto.
  Qed.

  Lemma xstep_refines (s : st) (a : ast) o : R s a -> refers a o -> legal (meaning rank got a o) a ->
    exists s' obs, xstep junk avg0 rank ord pol o s = Some (s', obs) /\ aobs_run rank (meaning rank got a o) a obs /\
      R s' (after (meaning rank got a o) a).
  Proof.
    intros HR He Hl. destruct o as [o|h e|h e]; cbn [meaning xstep] in *.
    - destruct Hl as (H1 & H2 & _). destruct (step_refines junk avg0 rank ord pol pol_ok s a o HR H1 H2) as (s' & obs & E & O & HR').
      exists s', obs. split; [exact E|]. split; [|exact HR']. exists obs, []. rewrite app_nil_r. cbn. auto.
    - cbn [alegal_run alegal] in Hl. destruct Hl as (N & _ & (Hin & Hs) & _ & _). cbn [refers] in He.
      destruct (R_step_new avg0 rank ord pol s a h HR N) as (s1 & E1 & HR1).
      rewrite (make_is h e s s1 a HR He E1 HR1 N). destruct (got_new s a h e HR N He) as [G L]. rewrite <- G in *.
      destruct (resize_by_step s1 _ h e HR1 L Hin Hs) as (s2 & -> & HR2).
      exists s2, []. split; [reflexivity|]. split; [|exact HR2]. cbn [aobs_run aobs]. exists [], []. split; [reflexivity|]. split; [reflexivity|]. exists [], []. auto.
    - cbn [alegal_run alegal] in Hl. destruct Hl as ((Hin & Hs) & _ & _). cbn [refers] in He.
      destruct (resize_by_step s a h e HR He Hin Hs) as (s2 & -> & HR2).
      exists s2, []. split; [reflexivity|]. split; [|exact HR2]. cbn [aobs_run aobs]. exists [], []. auto.
  Qed.

  Lemma xrun_refines os : forall (s : st) (a : ast), R s a -> all_steps rank got refers os a -> legal (program rank got os a) a ->
    exists s' obs, xrun junk avg0 rank ord pol os s = Some (s', obs) /\ aobs_run rank (program rank got os a) a obs.
  Proof.
    induction os as [|o os IH]; intros s a HR Hr Hl; cbn [xrun program all_steps] in *.
    - exists s, []. split; reflexivity.
    - destruct Hr as [Hr Hrs]. destruct (legal_app _ _ _ Hl) as [L1 L2].
      destruct (xstep_refines s a o HR Hr L1) as (s1 & o1 & -> & O1 & HR1).
      destruct (IH s1 _ HR1 Hrs L2) as (s2 & o2 & -> & O2). exists s2, (o1 ++ o2). split; [reflexivity|]. apply obs_app; auto.
  Qed.

  (** Programs without swaps get what they ask for. *)
  Lemma got_asked (a : ast) h e : ~ swaps h e -> got a h e = asked a e.
  Proof.
    destruct e as [d|lo hi|lo hi|y|y]; cbn; auto. intros N. f_equal.
    - destruct lo as [v|y|y]; auto. destruct (Nat.eqb_spec y h) as [->|]; auto. tauto.
    - destruct hi as [v|y|y]; auto. destruct (Nat.eqb_spec y h) as [->|]; auto. tauto.
  Qed.
  Lemma meaning_same (a : ast) o : no_swap a o -> meaning rank got a o = meaning rank (by_value rank) a o.
  Proof. intros [_ N]. destruct o as [o|h e|h e]; auto. cbn. unfold by_value. now rewrite (got_asked a h e N). Qed.
  Lemma program_same os : forall a : ast, all_steps rank (by_value rank) no_swap os a ->
    program rank got os a = program rank (by_value rank) os a /\ all_steps rank got refers os a.
  Proof.
    induction os as [|o os IH]; intros a; cbn [program all_steps]; [auto|]. intros [N H]. rewrite (meaning_same a o N).
    destruct (IH _ H) as [E L]. rewrite E. split; [reflexivity|]. split; [exact (proj1 N)|exact L].
  Qed.

  Lemma extents_exact (os : list (xop V)) : all_steps rank got refers os ainit -> legal (program rank got os ainit) ainit ->
    exists s obs, xrun junk avg0 rank ord pol os (init avg0) = Some (s, obs) /\ aobs_run rank (program rank got os ainit) ainit obs.
  Proof. apply xrun_refines. apply R_init. Qed.
  Lemma extents (os : list (xop V)) : all_steps rank (by_value rank) no_swap os ainit -> legal (program rank (by_value rank) os ainit) ainit ->
    exists s obs, xrun junk avg0 rank ord pol os (init avg0) = Some (s, obs) /\ aobs_run rank (program rank (by_value rank) os ainit) ainit obs.
  Proof. intros H. destruct (program_same os ainit H) as [E L]. rewrite <- E. apply extents_exact. exact L. Qed.

  (** In any state: a call that does not swap is [resize] to the bounds its arguments have. *)
  Lemma ref_same h lo hi (s : st) : live_ref s lo = true -> live_ref s hi = true -> ~ swaps h (Between lo hi) ->
    op_resize_ref h lo hi s = op_resize junk ord pol h (deref s lo) (deref s hi) s.
  Proof.
    intros L1 L2 N. unfold op_resize_ref, op_resize. rewrite L1, L2. change (negb true) with false. rewrite !orb_false_r.
    set (s0 := set_h s h _).
    assert (E1 : deref s0 lo = deref s lo).
    { destruct lo as [v|y|y]; cbn [deref]; auto; unfold s0, set_h; cbn [s_h]; unfold upd; destruct (Nat.eqb_spec y h) as [->|]; first [reflexivity|exfalso; apply N; cbn; tauto]. }
    assert (E2 : deref s0 hi = deref s hi).
    { destruct hi as [v|y|y]; cbn [deref]; auto; unfold s0, set_h; cbn [s_h]; unfold upd; destruct (Nat.eqb_spec y h) as [->|]; first [reflexivity|exfalso; apply N; cbn; tauto]. }
    rewrite E1, E2. reflexivity.
  Qed.
  Lemma resize_same h e (s : st) : live_extent s e -> ~ swaps h e ->
    op_resize_by junk rank ord pol h e s = op_resize junk ord pol h (fst (now rank s e)) (snd (now rank s e)) s.
  Proof.
    intros L N. destruct e as [d|lo hi|lo hi|y|y]; cbn [op_resize_by now fst snd live_extent] in *.
    - rewrite L. apply (ref_same h (Given _) (Given _)); cbn; auto. intros [? | ?]; discriminate.
    - destruct L. apply ref_same; auto.
    - apply (ref_same h (Given _) (Given _)); cbn; auto. intros [? | ?]; discriminate.
    - apply (ref_same h (LoOf _) (HiOf _)); cbn; auto. intros [? | ?]; discriminate.
    - apply (ref_same h (LoOf _) (HiOf _)); cbn; auto. intros [? | ?]; discriminate.
  Qed.
  Lemma new_ref h (s s' : st) r : op_new avg0 rank h s = Some s' -> live_ref s r = true ->
    live_ref s' r = true /\ deref s' r = deref s r /\ r <> LoOf h /\ r <> HiOf h.
  Proof.
    unfold op_new. destruct (mem h (s_live s)) eqn:M; [discriminate|]. intros E. injection E as <-.
    destruct r as [v|y|y]; cbn [live_ref deref]; intros L; [repeat split; auto; discriminate| |];
      (assert (N : y <> h) by (intros ->; congruence)); cbn [s_live s_h];
      (split; [apply mem_In; right; apply mem_In; exact L|]); rewrite upd_other by exact N; repeat split; congruence.
  Qed.
  Lemma make_same h e (s s' : st) : live_extent s e -> op_new avg0 rank h s = Some s' ->
    op_make junk avg0 rank ord pol h e s = op_resize junk ord pol h (fst (now rank s e)) (snd (now rank s e)) s'.
  Proof.
    intros L E. destruct e as [d|lo hi|lo hi|y|y]; cbn [op_make now fst snd live_extent] in *; rewrite ?E.
    - rewrite L, minus_ones_is. apply (ref_same h (Given _) (Given _)); cbn; auto. intros [? | ?]; discriminate.
    - destruct L as [L1 L2]. rewrite L1, L2. cbn [andb]. destruct (new_ref h s s' lo E L1) as (A1 & A2 & A3 & A4), (new_ref h s s' hi E L2) as (B1 & B2 & B3 & B4).
      rewrite <- A2, <- B2. apply ref_same; auto. intros [? | ?]; contradiction.
    - apply (ref_same h (Given _) (Given _)); cbn; auto. intros [? | ?]; discriminate.
    - rewrite L. destruct (new_ref h s s' (LoOf y) E L) as (A1 & A2 & A3 & A4), (new_ref h s s' (HiOf y) E L) as (B1 & B2 & B3 & B4).
      cbn [deref] in *. rewrite <- A2, <- B2. apply (ref_same h (LoOf _) (HiOf _)); auto. intros [? | ?]; discriminate.
    - rewrite L. destruct (new_ref h s s' (LoOf y) E L) as (A1 & A2 & A3 & A4), (new_ref h s s' (HiOf y) E L) as (B1 & B2 & B3 & B4).
      cbn [deref] in *. rewrite <- A2, <- B2. apply (ref_same h (LoOf _) (HiOf _)); auto. intros [? | ?]; discriminate.
  Qed.
End Proofs.
