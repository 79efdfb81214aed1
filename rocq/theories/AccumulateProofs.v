(** Accumulation over all dimensions sums over all periodic images. *)
From Coq Require Import Permutation.
From Verif Require Import Vec GridSpec RangeModel BoxFacts RangeProofs StorageModel GridModel GridOpSpec GridProofs
  BoundaryModel BoundarySpec BoundaryProofs SerialProofs SubGridProofs.

Section Acc.
  Context {V : Type}.
  Variables (plus : V -> V -> V) (zero : V).
  Hypothesis plus_comm : forall a b, plus a b = plus b a.
  Hypothesis plus_assoc : forall a b c, plus (plus a b) c = plus a (plus b c).
  Hypothesis plus_0 : forall a, plus zero a = a.

  Let sum := sum_over plus zero.

  Lemma sum_app m l1 l2 : sum m (l1 ++ l2) = plus (sum m l1) (sum m l2).
  Proof.
    induction l1 as [|q l1 IH]; unfold sum in *; cbn [app sum_over].
    - symmetry. apply plus_0.
    - rewrite IH, plus_assoc. reflexivity.
  Qed.

  Lemma sum_perm m l1 l2 : Permutation l1 l2 -> sum m l1 = sum m l2.
  Proof.
    induction 1 as [|x l l' _ IH|x y l|l l' l'' _ IH1 _ IH2]; unfold sum in *; cbn [sum_over].
    1: reflexivity. 1: rewrite IH; reflexivity. 2: congruence.
    rewrite <- !plus_assoc, (plus_comm (m y)). reflexivity.
  Qed.

  Variables (lo hi : vec) (delta : Z).
  Let b := mkBd lo hi delta.
  Hypothesis Ok : box_ok lo hi.
  Hypothesis Hdelta : 1 <= delta.
  Hypothesis Hn : inner_at_least lo hi delta (2 * delta).
  Variable g : grid.
  Hypothesis Ins : inside_grid g lo hi.
  Let ext := inner_extent lo hi delta.

  (** Same cell as far as the first [k] dimensions are concerned. *)
  Definition class_k (k : nat) (p q : vec) : Prop :=
    length q = length p /\ forall i, (i < length p)%nat ->
      if (i <? k)%nat then (vget p i - vget q i) mod ext i = 0 else vget q i = vget p i.

  Definition class_kb (k : nat) (p q : vec) : bool :=
    forallb (fun i => if (i <? k)%nat then (vget p i - vget q i) mod ext i =? 0 else vget q i =? vget p i) (seq 0 (length p)).

  Lemma class_kb_iff k p q : length q = length p -> class_kb k p q = true <-> class_k k p q.
  Proof.
    intros L. unfold class_kb, class_k. rewrite forallb_forall. split.
    - intros H. split; [exact L|]. intros i Hi. specialize (H i (proj2 (in_seq _ _ _) (conj (Nat.le_0_l i) Hi))).
      destruct (i <? k)%nat; apply Z.eqb_eq, H.
    - intros [_ H] i Hi. apply in_seq in Hi. specialize (H i ltac:(lia)). destruct (i <? k)%nat; apply Z.eqb_eq, H.
  Qed.

  Definition cells (k : nat) (p : vec) : list vec := filter (class_kb k p) (box lo hi).

  Lemma cells_In k p q : length p = length lo -> In q (cells k p) <-> in_box lo hi q /\ class_k k p q.
  Proof.
    intros L. unfold cells. rewrite filter_In, box_In. split.
    - intros [A B]. split; [exact A|]. apply class_kb_iff; [|exact B]. apply in_box_length in A. lia.
    - intros [A B]. split; [exact A|]. apply class_kb_iff; [apply B|exact B].
  Qed.
  Lemma cells_NoDup k p : NoDup (cells k p).
  Proof. apply NoDup_filter, box_NoDup. Qed.

  (** The cells of the domain one period away in dimension [d]. *)
  Definition partner (d : nat) (p : vec) : option vec :=
    if vget p d + ext d <=? vget hi d then Some (shift_d d (ext d) p)
    else if vget lo d <=? vget p d - ext d then Some (shift_d d (- ext d) p)
    else None.

  Lemma acc_dim_partner d (h : heap V) m k : (d < length lo)%nat -> represents g h m -> (fuel_bound lo hi delta d <= k)%nat ->
    exists h' m', serial_accumulate_dim plus k b g d h = Some (Some h') /\ represents g h' m' /\
      (forall p, in_box lo hi p -> m' p = match partner d p with Some q => plus (m p) (m q) | None => m p end) /\
      (forall p, ~ in_box lo hi p -> m' p = m p) /\
      (forall c, c <> g_block g -> h' c = h c).
  Proof.
    intros Hd Hr Hk. pose proof (box_ok_length _ _ Ok) as L.
    pose proof (Hn d Hd) as Hn2. fold (ext d) in Hn2.
    destruct (accumulate_dim_ok lo hi delta d Ok Hd Hdelta g Ins plus Hn2 h m k Hr Hk)
      as (h' & m' & E & Hr' & A & B & C & F).
    fold (ext d) in A, B.
    assert (En : ext d = vget hi d - vget lo d + 1 - 2 * delta) by reflexivity.
    exists h', m'. split; [exact E|]. split; [exact Hr'|]. split; [|split; [|exact F]].
    2: { intros p Hp. apply C. left. exact Hp. }
    intros p Hp. pose proof Hp as Hs. apply (in_box_slab_whole lo hi d) in Hs; [|exact L|exact Hd].
    assert (Lp : length p = length lo) by apply Hs. destruct Hs as (_ & Hc & Ho). unfold partner.
    destruct (Z.leb_spec (vget p d + ext d) (vget hi d)) as [X|X].
    - destruct (Z_lt_dec (vget p d) (vget lo d + delta)) as [Y|Y].
      + apply A. split; [exact Lp|]. split; [lia|exact Ho].
      + destruct (B (shift_d d (ext d) p)) as [_ B2].
        { apply slab_shift; [exact Hd|exact Lp|]. split; [exact Lp|]. split; [lia|exact Ho]. }
        rewrite shift_d_shift in B2 by lia. rewrite Z.add_opp_diag_r, shift_d_0 in B2. rewrite B2. apply plus_comm.
    - destruct (Z.leb_spec (vget lo d) (vget p d - ext d)) as [X2|X2].
      + destruct (Z_lt_dec (vget hi d - delta) (vget p d)) as [Y|Y].
        * apply B. split; [exact Lp|]. split; [lia|exact Ho].
        * destruct (A (shift_d d (- ext d) p)) as [_ A2].
          { apply slab_shift; [exact Hd|exact Lp|]. split; [exact Lp|]. split; [lia|exact Ho]. }
          rewrite shift_d_shift in A2 by lia. rewrite Z.add_opp_diag_l, shift_d_0 in A2. rewrite A2. apply plus_comm.
      + apply C. right. lia.
  Qed.

  Lemma partner_in d p q : (d < length lo)%nat -> in_box lo hi p -> partner d p = Some q -> in_box lo hi q.
  Proof.
    intros Hd Hp E. pose proof (box_ok_length _ _ Ok) as L. pose proof (Hn d Hd) as Hn2. fold (ext d) in Hn2.
    apply (in_box_slab_whole lo hi d) in Hp; [|exact L|exact Hd]. assert (Lp : length p = length lo) by apply Hp.
    destruct Hp as (_ & Hc & Ho). unfold partner in E.
    destruct (Z.leb_spec (vget p d + ext d) (vget hi d)) as [X|X].
    - injection E as <-. apply (in_box_slab_whole lo hi d); [exact L|exact Hd|]. apply slab_shift; [exact Hd|exact Lp|].
      split; [exact Lp|]. split; [lia|exact Ho].
    - destruct (Z.leb_spec (vget lo d) (vget p d - ext d)) as [X2|X2]; [|discriminate]. injection E as <-.
      apply (in_box_slab_whole lo hi d); [exact L|exact Hd|]. apply slab_shift; [exact Hd|exact Lp|].
      split; [exact Lp|]. split; [lia|exact Ho].
  Qed.

  Lemma class_shift k p c : (k < length p)%nat -> (c = ext k \/ c = - ext k) -> 0 < ext k -> forall q,
    class_k k (shift_d k c p) q -> class_k (S k) p q.
  Proof.
    intros Hk Hc He q [Lq H]. rewrite shift_d_length in *. split; [exact Lq|]. intros i Hi. specialize (H i Hi).
    destruct (Nat.eq_dec k i) as [<-|Ne].
    - rewrite shift_d_same in H by exact Hk. rewrite Nat.ltb_irrefl in H. destruct (Nat.ltb_spec k (S k)); [|lia].
      rewrite H. destruct Hc as [->| ->].
      + replace (vget p k - (vget p k + ext k)) with (- ext k) by lia. apply Z.mod_opp_l_z; [lia|]. apply Z.mod_same. lia.
      + replace (vget p k - (vget p k + - ext k)) with (ext k) by lia. apply Z.mod_same. lia.
    - rewrite shift_d_other in H by exact Ne.
      destruct (Nat.ltb_spec i k), (Nat.ltb_spec i (S k)); try lia; exact H.
  Qed.

  Lemma class_weaken k p q : (k < length p)%nat -> class_k k p q -> class_k (S k) p q.
  Proof.
    intros Hk [Lq H]. split; [exact Lq|]. intros i Hi. specialize (H i Hi).
    destruct (Nat.ltb_spec i k), (Nat.ltb_spec i (S k)); try lia; try exact H.
    rewrite H, Z.sub_diag. reflexivity.
  Qed.

  (** The step: cells of the class up to dimension [k]. *)
  Lemma cells_step k p : (k < length lo)%nat -> in_box lo hi p ->
    Permutation (cells (S k) p)
      (cells k p ++ match partner k p with Some q => cells k q | None => [] end).
  Proof.
    intros Hk Hp. pose proof (box_ok_length _ _ Ok) as L.
    assert (Lp : length p = length lo) by (apply in_box_length in Hp; tauto).
    pose proof (Hn k Hk) as Hn2. fold (ext k) in Hn2.
    assert (En : ext k = vget hi k - vget lo k + 1 - 2 * delta) by reflexivity.
    assert (Hck : vget lo k <= vget p k <= vget hi k) by (apply in_box_vget in Hp; apply Hp, Hk).
    assert (Comp : forall c q, (c = ext k \/ c = - ext k) -> class_k k p q -> class_k k (shift_d k c p) q -> False).
    { intros c q Hc [_ H1] [_ H2]. specialize (H1 k ltac:(lia)). rewrite shift_d_length in H2. specialize (H2 k ltac:(lia)).
      rewrite Nat.ltb_irrefl in H1, H2. rewrite shift_d_same in H2 by lia. lia. }
    assert (Shf : forall c q, class_k (S k) p q -> vget q k = vget p k + c -> class_k k (shift_d k c p) q).
    { intros c q [Lq H] Ec. split; [rewrite shift_d_length; exact Lq|]. rewrite shift_d_length. intros i Hi.
      destruct (Nat.eq_dec k i) as [<-|Ne].
      - rewrite Nat.ltb_irrefl, shift_d_same by lia. exact Ec.
      - rewrite shift_d_other by exact Ne. specialize (H i Hi).
        destruct (Nat.ltb_spec i k), (Nat.ltb_spec i (S k)); try lia; exact H. }
    assert (Dist : forall q, in_box lo hi q -> class_k (S k) p q ->
              vget q k = vget p k + 0 \/ vget q k = vget p k + ext k \/ vget q k = vget p k + - ext k).
    { intros q Hq [Lq H]. specialize (H k ltac:(lia)). destruct (Nat.ltb_spec k (S k)); [|lia].
      apply Z.mod_divide in H; [|lia]. destruct H as [c Hc].
      assert (Hqk : vget lo k <= vget q k <= vget hi k) by (apply in_box_vget in Hq; apply Hq, Hk).
      assert (-2 < c < 2) by nia. assert (c = -1 \/ c = 0 \/ c = 1) as [->|[->| ->]] by lia; lia. }
    apply NoDup_Permutation.
    - apply cells_NoDup.
    - destruct (partner k p) as [q|] eqn:Eq; [|rewrite app_nil_r; apply cells_NoDup].
      assert (Lq : length q = length lo) by (pose proof (partner_in k p q Hk Hp Eq) as K; apply in_box_length in K; tauto).
      assert (Nin : forall x, In x (cells k p) -> ~ In x (cells k q)).
      { intros x H1 H2. apply cells_In in H1; [|exact Lp]. apply cells_In in H2; [|exact Lq].
        unfold partner in Eq. destruct (vget p k + ext k <=? vget hi k).
        - injection Eq as <-. eapply Comp; [left; reflexivity|apply H1|apply H2].
        - destruct (vget lo k <=? vget p k - ext k); [|discriminate]. injection Eq as <-.
          eapply Comp; [right; reflexivity|apply H1|apply H2]. }
      revert Nin. generalize (cells_NoDup k p) (cells_NoDup k q). generalize (cells k p) (cells k q).
      intros l1 l2 N1 N2 Nin. induction l1 as [|x l1 IH]; [exact N2|]. inversion N1; subst. simpl. constructor.
      + rewrite in_app_iff. intros [K|K]; [contradiction|]. apply (Nin x); [left; reflexivity|exact K].
      + apply IH; [assumption|]. intros y Hy. apply Nin. right; exact Hy.
    - intros q. rewrite in_app_iff, !cells_In by exact Lp. split.
      + intros [Hq Hc]. destruct (Dist q Hq Hc) as [D|[D|D]].
        * left. split; [exact Hq|]. specialize (Shf 0 q Hc D). rewrite shift_d_0 in Shf. exact Shf.
        * right. assert (Hqk : vget lo k <= vget q k <= vget hi k) by (apply in_box_vget in Hq; apply Hq, Hk).
          unfold partner. destruct (Z.leb_spec (vget p k + ext k) (vget hi k)); [|lia].
          apply cells_In; [rewrite shift_d_length; exact Lp|]. split; [exact Hq|]. apply Shf; assumption.
        * right. assert (Hqk : vget lo k <= vget q k <= vget hi k) by (apply in_box_vget in Hq; apply Hq, Hk).
          unfold partner. destruct (Z.leb_spec (vget p k + ext k) (vget hi k)); [lia|].
          destruct (Z.leb_spec (vget lo k) (vget p k - ext k)); [|lia].
          apply cells_In; [rewrite shift_d_length; exact Lp|]. split; [exact Hq|]. apply Shf; assumption.
      + intros [[Hq Hc]|H].
        * split; [exact Hq|]. apply class_weaken; [lia|exact Hc].
        * destruct (partner k p) as [r|] eqn:Er; [|destruct H].
          assert (Lr : length r = length lo) by (pose proof (partner_in k p r Hk Hp Er) as K; apply in_box_length in K; tauto).
          apply cells_In in H; [|exact Lr]. destruct H as [Hq Hc]. split; [exact Hq|].
          unfold partner in Er. destruct (vget p k + ext k <=? vget hi k).
          -- injection Er as <-. eapply class_shift; [lia|left; reflexivity|lia|exact Hc].
          -- destruct (vget lo k <=? vget p k - ext k); [|discriminate]. injection Er as <-.
             eapply class_shift; [lia|right; reflexivity|lia|exact Hc].
  Qed.

  Lemma cells_0 p : in_box lo hi p -> Permutation (cells 0 p) [p].
  Proof.
    intros Hp. assert (Lp : length p = length lo) by (apply in_box_length in Hp; tauto).
    apply NoDup_Permutation; [apply cells_NoDup|constructor; [intros []|constructor]|].
    intros q. rewrite cells_In by exact Lp. simpl. split.
    - intros [_ [Lq H]]. left. apply vec_ext; [congruence|]. intros i Hi. symmetry. apply (H i). lia.
    - intros [<-|[]]. split; [exact Hp|]. split; [reflexivity|]. intros i Hi. reflexivity.
  Qed.

  Lemma over_dims_app f l2 : forall l1 (h0 hx : heap V), over_dims f l1 h0 = Some (Some hx) ->
    over_dims f (l1 ++ l2) h0 = over_dims f l2 hx.
  Proof.
    induction l1 as [|x l1 IHl]; intros h0 hx; cbn [app over_dims].
    - congruence.
    - destruct (f x h0) as [[h3|]|]; try discriminate. apply IHl.
  Qed.

  Lemma accumulate_prefix k fuel : (fuel_all lo hi delta <= fuel)%nat -> (k <= length lo)%nat ->
    forall (h : heap V) m, represents g h m ->
    exists h' m', over_dims (serial_accumulate_dim plus fuel b g) (seq 0 k) h = Some (Some h') /\ represents g h' m' /\
      (forall p, in_box lo hi p -> m' p = sum m (cells k p)) /\
      (forall p, ~ in_box lo hi p -> m' p = m p) /\
      (forall c, c <> g_block g -> h' c = h c).
  Proof.
    intros Hf. induction k as [|k IH]; intros Hk h m Hr.
    - exists h, m. split; [reflexivity|]. split; [exact Hr|]. split; [|auto]. intros p Hp.
      rewrite (sum_perm m _ _ (cells_0 p Hp)). unfold sum. cbn [sum_over]. rewrite plus_comm. symmetry. apply plus_0.
    - destruct (IH ltac:(lia) h m Hr) as (h1 & m1 & E1 & Hr1 & A1 & B1 & F1).
      destruct (acc_dim_partner k h1 m1 fuel ltac:(lia) Hr1) as (h2 & m2 & E2 & Hr2 & A2 & B2 & F2);
        [pose proof (fuel_all_ge lo hi delta k ltac:(lia)); lia|].
      exists h2, m2. split; [|split; [exact Hr2|split; [|split]]].
      + rewrite seq_S. cbn [Nat.add]. rewrite (over_dims_app _ _ _ _ _ E1). cbn [over_dims]. rewrite E2. reflexivity.
      + intros p Hp. rewrite A2 by exact Hp. rewrite (sum_perm m _ _ (cells_step k p ltac:(lia) Hp)), sum_app.
        destruct (partner k p) as [q|] eqn:Eq.
        * rewrite (A1 p Hp), (A1 q (partner_in k p q ltac:(lia) Hp Eq)). reflexivity.
        * rewrite (A1 p Hp). unfold sum. cbn [sum_over]. rewrite plus_comm. symmetry. apply plus_0.
      + intros p Hp. rewrite B2, B1 by exact Hp. reflexivity.
      + intros c Hc. rewrite F2, F1 by exact Hc. reflexivity.
  Qed.

  Lemma accumulate_ok fuel (h : heap V) m : (fuel_all lo hi delta <= fuel)%nat -> represents g h m ->
    exists h', serial_accumulate plus fuel b g h = Some (Some h') /\
      (forall p l, in_box lo hi p -> NoDup l ->
         (forall q, In q l <-> in_box lo hi q /\ same_cell lo hi delta p q) ->
         grid_read g h' p = Some (sum_over plus zero m l)) /\
      (forall p, in_box (g_lo g) (g_hi g) p -> ~ in_box lo hi p -> grid_read g h' p = Some (m p)) /\
      (forall c, c <> g_block g -> h' c = h c).
  Proof.
    intros Hf Hr. destruct (accumulate_prefix (length lo) fuel Hf ltac:(lia) h m Hr) as (h' & m' & E & Hr' & A & B & F).
    exists h'. split; [exact E|]. split; [|split; [|exact F]].
    - intros p l Hp Nd Hl. assert (Lp : length p = length lo) by (apply in_box_length in Hp; tauto).
      rewrite (proj2 Hr' p (Ins p Hp)), A by exact Hp. f_equal. apply sum_perm. apply NoDup_Permutation; [apply cells_NoDup|exact Nd|].
      intros q. rewrite cells_In, Hl by exact Lp. split; intros [H1 [H2 H3]]; (split; [exact H1|split; [exact H2|]]).
      + intros d Hd. specialize (H3 d Hd). destruct (Nat.ltb_spec d (length lo)); [exact H3|lia].
      + intros i Hi. destruct (Nat.ltb_spec i (length lo)); [apply H3, Hi|lia].
    - intros p Hp Np. rewrite (proj2 Hr' p Hp), B by exact Np. reflexivity.
  Qed.
End Acc.

Lemma serial_accumulate_sums V (plus : V -> V -> V) zero (g : grid) (h : heap V) m lo hi delta :
  (forall a b, plus a b = plus b a) -> (forall a b c, plus (plus a b) c = plus a (plus b c)) -> (forall a, plus zero a = a) ->
  represents g h m -> box_ok lo hi -> inside_grid g lo hi ->
  1 <= delta -> inner_at_least lo hi delta (2 * delta) ->
  exists N, forall fuel, (N <= fuel)%nat ->
  exists h', serial_accumulate plus fuel (mkBd lo hi delta) g h = Some (Some h') /\
    (forall p l, in_box lo hi p -> NoDup l ->
       (forall q, In q l <-> in_box lo hi q /\ same_cell lo hi delta p q) ->
       grid_read g h' p = Some (sum_over plus zero m l)) /\
    (forall p, in_box (g_lo g) (g_hi g) p -> ~ in_box lo hi p -> grid_read g h' p = Some (m p)) /\
    (forall c, c <> g_block g -> h' c = h c).
Proof.
  intros Hc Ha H0 Hr Ok Ins Hd Hn. exists (fuel_all lo hi delta). intros fuel Hf.
  apply accumulate_ok; assumption.
Qed.

(** Such a list exists for every cell. *)
Lemma images_exist lo hi delta p : length p = length lo ->
  exists l, NoDup l /\ forall q, In q l <-> in_box lo hi q /\ same_cell lo hi delta p q.
Proof.
  intros Lp. exists (cells lo hi delta (length lo) p). split; [apply cells_NoDup|].
  intros q. rewrite cells_In by exact Lp. split; intros [H1 [H2 H3]]; (split; [exact H1|split; [exact H2|]]).
  - intros d Hd. specialize (H3 d Hd). destruct (Nat.ltb_spec d (length lo)); [exact H3|lia].
  - intros i Hi. destruct (Nat.ltb_spec i (length lo)); [apply H3, Hi|lia].
Qed.
