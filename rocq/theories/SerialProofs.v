(** Proofs about the serial exchange and accumulate. *)
From Verif Require Import Vec GridSpec RangeModel BoxFacts RangeProofs StorageModel GridModel GridOpSpec GridProofs
  BoundaryModel BoundarySpec BoundaryProofs.

Local Arguments Z.add : simpl never.
Local Arguments Z.sub : simpl never.
Local Arguments Z.mul : simpl never.

Definition unit_vec (r d : nat) (n : Z) : vec := vset (repeat 0 r) d n.
Definition shift_d (d : nat) (n : Z) (p : vec) : vec := vset p d (vget p d + n).

Lemma unit_vec_length r d n : length (unit_vec r d n) = r.
Proof. unfold unit_vec. rewrite vset_length. apply repeat_length. Qed.

Lemma vget_repeat0 r i : vget (repeat 0 r) i = 0.
Proof. unfold vget. revert i. induction r as [|r IH]; intros [|i]; simpl; auto. Qed.

Lemma vadd_unit r d n p : length p = r -> (d < r)%nat -> vadd p (unit_vec r d n) = shift_d d n p.
Proof.
  intros L Hd. apply vec_ext.
  - unfold vadd, shift_d. rewrite vmap2_len, vset_length by (rewrite unit_vec_length; lia). reflexivity.
  - intros i Hi. unfold vadd in Hi |- *. rewrite vmap2_len in Hi by (rewrite unit_vec_length; lia).
    rewrite vget_vmap2 by (rewrite ?unit_vec_length; lia). unfold unit_vec, shift_d.
    destruct (Nat.eq_dec d i) as [<-|Ne].
    + rewrite !vget_vset_same by (rewrite ?repeat_length; lia). reflexivity.
    + rewrite !vget_vset_other by exact Ne. rewrite vget_repeat0. lia.
Qed.

Lemma vset_vget_id p d : vset p d (vget p d) = p.
Proof.
  apply vec_ext; [apply vset_length|]. intros i Hi. rewrite vset_length in Hi.
  destruct (Nat.eq_dec d i) as [<-|Ne]; [apply vget_vset_same, Hi|apply vget_vset_other, Ne].
Qed.

Lemma vset_vset p d x y : vset (vset p d x) d y = vset p d y.
Proof.
  apply vec_ext; [rewrite !vset_length; reflexivity|]. intros i Hi. rewrite !vset_length in Hi.
  destruct (Nat.eq_dec d i) as [<-|Ne].
  - rewrite !vget_vset_same by (rewrite ?vset_length; lia). reflexivity.
  - rewrite !vget_vset_other by exact Ne. reflexivity.
Qed.

Lemma shift_d_length d n p : length (shift_d d n p) = length p.
Proof. apply vset_length. Qed.

Lemma shift_d_same d n p : (d < length p)%nat -> vget (shift_d d n p) d = vget p d + n.
Proof. intros H. apply vget_vset_same, H. Qed.
Lemma shift_d_other d n p i : d <> i -> vget (shift_d d n p) i = vget p i.
Proof. intros H. apply vget_vset_other, H. Qed.

Lemma shift_d_shift d a b p : (d < length p)%nat -> shift_d d a (shift_d d b p) = shift_d d (b + a) p.
Proof.
  intros H. unfold shift_d. rewrite vget_vset_same by exact H. rewrite vset_vset. f_equal. lia.
Qed.
Lemma shift_d_0 d p : shift_d d 0 p = p.
Proof. unfold shift_d. rewrite Z.add_0_r. apply vset_vget_id. Qed.

(** Boxes that differ from the whole domain in one dimension. *)
Definition slab (lo hi : vec) (d : nat) (a b : Z) (p : vec) : Prop :=
  length p = length lo /\ a <= vget p d <= b /\
  forall i, (i < length lo)%nat -> i <> d -> vget lo i <= vget p i <= vget hi i.

Lemma in_box_slab lo hi d a b p : length hi = length lo -> (d < length lo)%nat ->
  in_box (vset lo d a) (vset hi d b) p <-> slab lo hi d a b p.
Proof.
  intros L Hd. rewrite in_box_vget. unfold slab. rewrite !vset_length. split.
  - intros (_ & Lp & H). split; [exact Lp|]. split.
    + specialize (H d Hd). rewrite !vget_vset_same in H by lia. exact H.
    + intros i Hi Ne. specialize (H i Hi). rewrite !vget_vset_other in H by congruence. exact H.
  - intros (Lp & H1 & H2). split; [lia|]. split; [exact Lp|]. intros i Hi.
    destruct (Nat.eq_dec d i) as [<-|Ne].
    + rewrite !vget_vset_same by lia. exact H1.
    + rewrite !vget_vset_other by exact Ne. apply H2; auto.
Qed.

Lemma in_box_slab_whole lo hi d p : length hi = length lo -> (d < length lo)%nat ->
  in_box lo hi p <-> slab lo hi d (vget lo d) (vget hi d) p.
Proof.
  intros L Hd. rewrite <- in_box_slab by assumption. rewrite !vset_vget_id. reflexivity.
Qed.

Lemma slab_shift lo hi d a b n p : (d < length lo)%nat -> length p = length lo ->
  slab lo hi d a b (shift_d d n p) <-> slab lo hi d (a - n) (b - n) p.
Proof.
  intros Hd L. unfold slab. rewrite shift_d_length, shift_d_same by lia. split.
  - intros (_ & H1 & H2). split; [exact L|]. split; [lia|]. intros i Hi Ne. specialize (H2 i Hi Ne).
    rewrite shift_d_other in H2 by congruence. exact H2.
  - intros (_ & H1 & H2). split; [exact L|]. split; [lia|]. intros i Hi Ne.
    rewrite shift_d_other by congruence. apply H2; assumption.
Qed.

Lemma slab_sub lo hi d a b a' b' p : a' <= a -> b <= b' -> slab lo hi d a b p -> slab lo hi d a' b' p.
Proof. intros H1 H2 (A & B & C). split; [exact A|]. split; [lia|exact C]. Qed.

Lemma slab_comp lo hi d a b p : slab lo hi d a b p -> a <= vget p d <= b.
Proof. intros (_ & H & _). exact H. Qed.

Lemma box_ok_slab lo hi d a b : box_ok lo hi -> (d < length lo)%nat -> a <= b -> box_ok (vset lo d a) (vset hi d b).
Proof.
  intros Ok Hd Hab. pose proof (box_ok_length _ _ Ok) as L. apply box_ok_vget in Ok. destruct Ok as [_ Ok].
  apply box_ok_vget. rewrite !vset_length. split; [exact L|]. intros i Hi. destruct (Nat.eq_dec d i) as [<-|Ne].
  - rewrite !vget_vset_same by lia. exact Hab.
  - rewrite !vget_vset_other by exact Ne. apply Ok, Hi.
Qed.

Lemma NoDup_map_in {A B} (f : A -> B) l :
  (forall x y, In x l -> In y l -> f x = f y -> x = y) -> NoDup l -> NoDup (map f l).
Proof.
  induction l as [|a l IH]; intros Hf Nd; simpl; [constructor|]. inversion Nd; subst. constructor.
  - rewrite in_map_iff. intros (x & E & Hx). apply Hf in E; [subst; contradiction|right; exact Hx|left; reflexivity].
  - apply IH; [|assumption]. intros x y Hx Hy. apply Hf; right; assumption.
Qed.

Section Dim.
  Variables (lo hi : vec) (delta : Z) (d : nat).
  Let b := mkBd lo hi delta.
  Let n := inner_extent lo hi delta d.
  Hypothesis Ok : box_ok lo hi.
  Hypothesis Hd : (d < length lo)%nat.
  Hypothesis Hdelta : 1 <= delta.

  Let L : length hi = length lo := box_ok_length _ _ Ok.
  Let sh := unit_vec (length lo) d n.

  Lemma loGhost_eq : ghost_domain b d Min = mkRange (vset lo d (vget lo d)) (vset hi d (vget lo d + delta - 1)).
  Proof. unfold ghost_domain, b. cbn [bd_lo bd_hi bd_delta]. rewrite vset_vget_id. reflexivity. Qed.
  Lemma hiGhost_eq : ghost_domain b d Max = mkRange (vset lo d (vget hi d - delta + 1)) (vset hi d (vget hi d)).
  Proof. unfold ghost_domain, b. cbn [bd_lo bd_hi bd_delta]. rewrite vset_vget_id. reflexivity. Qed.
  Lemma loSource_eq : source_domain b d Min =
    mkRange (vset lo d (vget lo d + delta)) (vset hi d (vget lo d + delta + delta - 1)).
  Proof. unfold source_domain, b. cbn [bd_lo bd_hi bd_delta]. rewrite vget_vset_same by lia. reflexivity. Qed.
  Lemma hiSource_eq : source_domain b d Max =
    mkRange (vset lo d (vget hi d - delta - delta + 1)) (vset hi d (vget hi d - delta)).
  Proof. unfold source_domain, b. cbn [bd_lo bd_hi bd_delta]. rewrite vget_vset_same by lia. reflexivity. Qed.

  Lemma pair_slabs k a c a' c' : a <= c -> a' = a + n -> c' = c + n ->
    (Z.to_nat (box_size (vset lo d a) (vset hi d c)) <= k)%nat ->
    pair_visits k (mkRange (vset lo d a) (vset hi d c)) (mkRange (vset lo d a') (vset hi d c')) =
    Some (map (fun p => (p, shift_d d n p)) (box (vset lo d a) (vset hi d c))).
  Proof.
    intros Hac -> -> Hk.
    rewrite (pair_visits_shift _ _ _ _ sh); [| | |  | |exact Hk].
    - f_equal. apply map_ext_in. intros p Hp. f_equal. unfold sh. apply vadd_unit; [|exact Hd].
      apply box_In in Hp. apply in_box_length in Hp. rewrite vset_length in Hp. apply Hp.
    - apply box_ok_slab; assumption.
    - unfold sh. rewrite unit_vec_length, vset_length. reflexivity.
    - unfold sh. rewrite vadd_unit by (rewrite ?vset_length; lia). unfold shift_d.
      rewrite vget_vset_same, vset_vset by lia. reflexivity.
    - unfold sh. rewrite vadd_unit by (rewrite ?vset_length; lia). unfold shift_d.
      rewrite vget_vset_same, vset_vset by lia. reflexivity.
  Qed.

  Lemma swap_pairs (l : list vec) : Forall (fun p => length p = length lo) l ->
    map swap (map (fun p => (p, shift_d d n p)) l) =
    map (fun p => (p, shift_d d (- n) p)) (map (shift_d d n) l).
  Proof.
    intros H. rewrite !map_map. apply map_ext_in. intros p Hp. rewrite Forall_forall in H. specialize (H p Hp).
    unfold swap. cbn [fst snd]. rewrite shift_d_shift by lia. rewrite Z.add_opp_diag_r, shift_d_0. reflexivity.
  Qed.

  Lemma in_shifted a c p : In p (map (shift_d d n) (box (vset lo d a) (vset hi d c))) <-> slab lo hi d (a + n) (c + n) p.
  Proof.
    rewrite in_map_iff. split.
    - intros (q & <- & Hq). apply box_In, in_box_slab in Hq; try assumption.
      apply slab_shift; [exact Hd|apply Hq|]. replace (a + n - n) with a by lia. replace (c + n - n) with c by lia. exact Hq.
    - intros Hp. assert (Lp : length p = length lo) by apply Hp.
      exists (shift_d d (- n) p). split.
      + rewrite shift_d_shift by lia. rewrite Z.add_opp_diag_l. apply shift_d_0.
      + apply box_In, in_box_slab; try assumption. apply slab_shift; [exact Hd|exact Lp|].
        replace (a - - n) with (a + n) by lia. replace (c - - n) with (c + n) by lia. exact Hp.
  Qed.

  Lemma in_plain a c p : In p (box (vset lo d a) (vset hi d c)) <-> slab lo hi d a c p.
  Proof. rewrite box_In. apply in_box_slab; assumption. Qed.

  Definition fuel_bound : nat :=
    Nat.max (Z.to_nat (box_size (vset lo d (vget lo d)) (vset hi d (vget lo d + delta - 1))))
            (Z.to_nat (box_size (vset lo d (vget lo d + delta)) (vset hi d (vget lo d + delta + delta - 1)))).

  Lemma pairs1 k : (fuel_bound <= k)%nat ->
    pair_visits k (ghost_domain b d Min) (source_domain b d Max) =
    Some (map (fun p => (p, shift_d d n p)) (box (vset lo d (vget lo d)) (vset hi d (vget lo d + delta - 1)))).
  Proof.
    intros Hk. rewrite loGhost_eq, hiSource_eq. apply pair_slabs.
    - lia.
    - unfold n, inner_extent. lia.
    - unfold n, inner_extent. lia.
    - unfold fuel_bound in Hk. lia.
  Qed.

  Lemma pairs2 k : (fuel_bound <= k)%nat ->
    exists l, pair_visits k (source_domain b d Min) (ghost_domain b d Max) = Some l /\
      map swap l = map (fun p => (p, shift_d d (- n) p))
        (map (shift_d d n) (box (vset lo d (vget lo d + delta)) (vset hi d (vget lo d + delta + delta - 1)))).
  Proof.
    intros Hk. rewrite loSource_eq, hiGhost_eq.
    eexists. split.
    - apply pair_slabs.
      + lia.
      + unfold n, inner_extent. lia.
      + unfold n, inner_extent. lia.
      + unfold fuel_bound in Hk. lia.
    - apply swap_pairs. apply Forall_forall. intros p Hp. apply in_plain in Hp. apply Hp.
  Qed.

  (** Where a coordinate comes from after the exchange of dimension [d]. *)
  Definition wrapc (x : Z) : Z :=
    if x <? vget lo d + delta then x + n else if vget hi d - delta <? x then x - n else x.

  Section Memory.
    Context {V : Type}.
    Variable g : grid.
    Hypothesis Ins : inside_grid g lo hi.

    Lemma slab_in_grid a c p : vget lo d <= a -> c <= vget hi d -> slab lo hi d a c p -> in_box (g_lo g) (g_hi g) p.
    Proof.
      intros Ha Hc H. apply Ins. apply (in_box_slab_whole lo hi d); [exact L|exact Hd|].
      eapply slab_sub; [exact Ha|exact Hc|exact H].
    Qed.

    Hypothesis Hn : delta <= n.

    Lemma exchange_dim_ok (h : heap V) m k : represents g h m -> (fuel_bound <= k)%nat ->
      exists h' m', serial_exchange_dim k b g d h = Some (Some h') /\ represents g h' m' /\
        (forall p, in_box lo hi p -> m' p = m (vset p d (wrapc (vget p d)))) /\
        (forall p, ~ in_box lo hi p -> m' p = m p) /\
        (forall c, c <> g_block g -> h' c = h c).
    Proof.
      intros Hr Hk. unfold serial_exchange_dim. rewrite pairs1 by exact Hk.
      assert (En : n = vget hi d - vget lo d + 1 - 2 * delta) by reflexivity.
      destruct (copy_cells_spec g (shift_d d n)
                  (box (vset lo d (vget lo d)) (vset hi d (vget lo d + delta - 1))) h m Hr)
        as (h1 & m1 & -> & Hr1 & A1 & B1 & F1).
      { intros p Hp. apply in_plain in Hp. assert (Lp : length p = length lo) by apply Hp.
        split; [|split].
        - eapply slab_in_grid; [| |exact Hp]; lia.
        - apply (slab_in_grid (vget lo d + n) (vget lo d + delta - 1 + n)); [lia|lia|].
          apply slab_shift; [exact Hd|exact Lp|]. eapply slab_sub; [| |exact Hp]; lia.
        - rewrite in_plain. intros K. apply slab_comp in K. apply slab_comp in Hp.
          rewrite shift_d_same in K by lia. lia. }
      destruct (pairs2 k Hk) as (l2 & -> & E2). rewrite E2.
      destruct (copy_cells_spec g (shift_d d (- n))
                  (map (shift_d d n) (box (vset lo d (vget lo d + delta)) (vset hi d (vget lo d + delta + delta - 1)))) h1 m1 Hr1)
        as (h2 & m2 & -> & Hr2 & A2 & B2 & F2).
      { intros p Hp. apply in_shifted in Hp. assert (Lp : length p = length lo) by apply Hp.
        split; [|split].
        - eapply slab_in_grid; [| |exact Hp]; lia.
        - apply (slab_in_grid (vget lo d + delta) (vget lo d + delta + delta - 1)); [lia|lia|].
          apply slab_shift; [exact Hd|exact Lp|]. eapply slab_sub; [| |exact Hp]; lia.
        - rewrite in_shifted. intros K. apply slab_comp in K. apply slab_comp in Hp.
          rewrite shift_d_same in K by lia. lia. }
      exists h2, m2. split; [reflexivity|]. split; [exact Hr2|]. split; [|split].
      - intros p Hp. pose proof Hp as Hs. apply (in_box_slab_whole lo hi d) in Hs; [|exact L|exact Hd].
        assert (Lp : length p = length lo) by apply Hs. pose proof (slab_comp _ _ _ _ _ _ Hs) as Hc.
        unfold wrapc. destruct (Z.ltb_spec (vget p d) (vget lo d + delta)) as [C1|C1].
        + rewrite B2.
          * rewrite A1; [reflexivity|]. apply in_plain. split; [exact Lp|]. split; [lia|apply Hs].
          * rewrite in_shifted. intros K. apply slab_comp in K. lia.
        + destruct (Z.ltb_spec (vget hi d - delta) (vget p d)) as [C2|C2].
          * rewrite A2.
            -- rewrite B1; [reflexivity|]. rewrite in_plain. intros K. apply slab_comp in K.
               rewrite shift_d_same in K by lia. lia.
            -- apply in_shifted. split; [exact Lp|]. split; [lia|apply Hs].
          * rewrite B2, B1.
            -- rewrite vset_vget_id. reflexivity.
            -- rewrite in_plain. intros K. apply slab_comp in K. lia.
            -- rewrite in_shifted. intros K. apply slab_comp in K. lia.
      - intros p Hp. rewrite B2, B1; [reflexivity| |].
        + rewrite in_plain. intros K. apply Hp. apply (in_box_slab_whole lo hi d); [exact L|exact Hd|].
          eapply slab_sub; [| |exact K]; lia.
        + rewrite in_shifted. intros K. apply Hp. apply (in_box_slab_whole lo hi d); [exact L|exact Hd|].
          eapply slab_sub; [| |exact K]; lia.
      - intros c Hc. rewrite F2, F1 by exact Hc. reflexivity.
    Qed.

    Variable plus : V -> V -> V.
    Hypothesis Hn2 : 2 * delta <= n.

    Lemma accumulate_dim_ok (h : heap V) m k : represents g h m -> (fuel_bound <= k)%nat ->
      exists h' m', serial_accumulate_dim plus k b g d h = Some (Some h') /\ represents g h' m' /\
        (forall p, slab lo hi d (vget lo d) (vget lo d + delta - 1) p ->
           m' p = plus (m p) (m (shift_d d n p)) /\ m' (shift_d d n p) = plus (m p) (m (shift_d d n p))) /\
        (forall p, slab lo hi d (vget hi d - delta + 1) (vget hi d) p ->
           m' p = plus (m p) (m (shift_d d (- n) p)) /\ m' (shift_d d (- n) p) = plus (m p) (m (shift_d d (- n) p))) /\
        (forall p, ~ in_box lo hi p \/ vget lo d + 2 * delta <= vget p d <= vget hi d - 2 * delta -> m' p = m p) /\
        (forall c, c <> g_block g -> h' c = h c).
    Proof.
      intros Hr Hk. unfold serial_accumulate_dim. rewrite pairs1 by exact Hk.
      assert (En : n = vget hi d - vget lo d + 1 - 2 * delta) by reflexivity.
      destruct (acc_cells_spec plus g (shift_d d n)
                  (box (vset lo d (vget lo d)) (vset hi d (vget lo d + delta - 1))) h m Hr)
        as (h1 & m1 & -> & Hr1 & A1 & B1 & F1).
      { apply box_NoDup. }
      { intros p q Hp Hq E. apply in_plain in Hp. apply in_plain in Hq.
        assert (Lp : length p = length lo) by apply Hp. assert (Lq : length q = length lo) by apply Hq.
        apply (f_equal (shift_d d (- n))) in E. rewrite !shift_d_shift in E by lia.
        rewrite Z.add_opp_diag_r, !shift_d_0 in E. exact E. }
      { intros p Hp. apply in_plain in Hp. assert (Lp : length p = length lo) by apply Hp.
        split; [|split].
        - eapply slab_in_grid; [| |exact Hp]; lia.
        - apply (slab_in_grid (vget lo d + n) (vget lo d + delta - 1 + n)); [lia|lia|].
          apply slab_shift; [exact Hd|exact Lp|]. eapply slab_sub; [| |exact Hp]; lia.
        - rewrite in_plain. intros K. apply slab_comp in K. apply slab_comp in Hp.
          rewrite shift_d_same in K by lia. lia. }
      destruct (pairs2 k Hk) as (l2 & -> & E2). rewrite E2.
      destruct (acc_cells_spec plus g (shift_d d (- n))
                  (map (shift_d d n) (box (vset lo d (vget lo d + delta)) (vset hi d (vget lo d + delta + delta - 1)))) h1 m1 Hr1)
        as (h2 & m2 & -> & Hr2 & A2 & B2 & F2).
      { apply NoDup_map_in; [|apply box_NoDup].
        intros p q Hp Hq E. apply in_plain in Hp. apply in_plain in Hq.
        assert (Lp : length p = length lo) by apply Hp. assert (Lq : length q = length lo) by apply Hq.
        apply (f_equal (shift_d d (- n))) in E. rewrite !shift_d_shift in E by lia.
        rewrite Z.add_opp_diag_r, !shift_d_0 in E. exact E. }
      { intros p q Hp Hq E. apply in_shifted in Hp. apply in_shifted in Hq.
        assert (Lp : length p = length lo) by apply Hp. assert (Lq : length q = length lo) by apply Hq.
        apply (f_equal (shift_d d n)) in E. rewrite !shift_d_shift in E by lia.
        rewrite Z.add_opp_diag_l, !shift_d_0 in E. exact E. }
      { intros p Hp. apply in_shifted in Hp. assert (Lp : length p = length lo) by apply Hp.
        split; [|split].
        - eapply slab_in_grid; [| |exact Hp]; lia.
        - apply (slab_in_grid (vget lo d + delta) (vget lo d + delta + delta - 1)); [lia|lia|].
          apply slab_shift; [exact Hd|exact Lp|]. eapply slab_sub; [| |exact Hp]; lia.
        - rewrite in_shifted. intros K. apply slab_comp in K. apply slab_comp in Hp.
          rewrite shift_d_same in K by lia. lia. }
      (* a cell outside both pairs of slabs keeps its value *)
      assert (U1 : forall q, (forall p, slab lo hi d (vget lo d) (vget lo d + delta - 1) p -> q <> p /\ q <> shift_d d n p) ->
                             m1 q = m q).
      { intros q Hq. apply B1.
        - rewrite in_plain. intros K. exact (proj1 (Hq q K) eq_refl).
        - intros p Hp. apply in_plain in Hp. apply Hq, Hp. }
      assert (U2 : forall q, (forall p, slab lo hi d (vget hi d - delta + 1) (vget hi d) p -> q <> p /\ q <> shift_d d (- n) p) ->
                             m2 q = m1 q).
      { intros q Hq. apply B2.
        - rewrite in_shifted. intros K. refine (proj1 (Hq q _) eq_refl). eapply slab_sub; [| |exact K]; lia.
        - intros p Hp. apply in_shifted in Hp. apply Hq. eapply slab_sub; [| |exact Hp]; lia. }
      exists h2, m2. split; [reflexivity|]. split; [exact Hr2|]. split; [|split; [|split]].
      - intros p Hp. pose proof (slab_comp _ _ _ _ _ _ Hp) as Hc. assert (Lp : length p = length lo) by apply Hp.
        rewrite !U2.
        + apply A1. apply in_plain, Hp.
        + intros q Hq. pose proof (slab_comp _ _ _ _ _ _ Hq) as Hcq. assert (Lq : length q = length lo) by apply Hq.
          split; intros E; apply (f_equal (fun v => vget v d)) in E; rewrite !shift_d_same in E by lia; lia.
        + intros q Hq. pose proof (slab_comp _ _ _ _ _ _ Hq) as Hcq. assert (Lq : length q = length lo) by apply Hq.
          split; intros E; apply (f_equal (fun v => vget v d)) in E; rewrite ?shift_d_same in E by lia; lia.
      - intros p Hp. pose proof (slab_comp _ _ _ _ _ _ Hp) as Hc. assert (Lp : length p = length lo) by apply Hp.
        rewrite <- (U1 p), <- (U1 (shift_d d (- n) p)).
        + apply A2. apply in_shifted. eapply slab_sub; [| |exact Hp]; lia.
        + intros q Hq. pose proof (slab_comp _ _ _ _ _ _ Hq) as Hcq. assert (Lq : length q = length lo) by apply Hq.
          split; intros E; apply (f_equal (fun v => vget v d)) in E; rewrite !shift_d_same in E by lia; lia.
        + intros q Hq. pose proof (slab_comp _ _ _ _ _ _ Hq) as Hcq. assert (Lq : length q = length lo) by apply Hq.
          split; intros E; apply (f_equal (fun v => vget v d)) in E; rewrite ?shift_d_same in E by lia; lia.
      - intros p Hp. rewrite U2, U1; [reflexivity| |].
        + intros q Hq. pose proof (slab_comp _ _ _ _ _ _ Hq) as Hcq. assert (Lq : length q = length lo) by apply Hq.
          destruct Hp as [Hp|Hp].
          * split; intros ->; apply Hp; apply (in_box_slab_whole lo hi d); try assumption.
            -- eapply slab_sub; [| |exact Hq]; lia.
            -- apply slab_shift; [exact Hd|exact Lq|]. eapply slab_sub; [| |exact Hq]; lia.
          * split; intros ->; rewrite ?shift_d_same in Hp by lia; lia.
        + intros q Hq. pose proof (slab_comp _ _ _ _ _ _ Hq) as Hcq. assert (Lq : length q = length lo) by apply Hq.
          destruct Hp as [Hp|Hp].
          * split; intros ->; apply Hp; apply (in_box_slab_whole lo hi d); try assumption.
            -- eapply slab_sub; [| |exact Hq]; lia.
            -- apply slab_shift; [exact Hd|exact Lq|]. eapply slab_sub; [| |exact Hq]; lia.
          * split; intros ->; rewrite ?shift_d_same in Hp by lia; lia.
      - intros c Hc. rewrite F2, F1 by exact Hc. reflexivity.
    Qed.
  End Memory.
End Dim.

(** ** All dimensions *)

(** The position whose value reaches [p] after the first [k] dimensions have been exchanged. *)
Definition wrapv (lo hi : vec) (delta : Z) (k : nat) (p : vec) : vec :=
  map (fun i => if (i <? k)%nat then wrapc lo hi delta i (vget p i) else vget p i) (seq 0 (length p)).

Lemma wrapv_length lo hi delta k p : length (wrapv lo hi delta k p) = length p.
Proof. unfold wrapv. rewrite map_length, seq_length. reflexivity. Qed.

Lemma vget_map_seq f n i : (i < n)%nat -> vget (map f (seq 0 n)) i = f i.
Proof.
  intros H. unfold vget. rewrite (nth_indep _ 0 (f 0%nat)) by (rewrite map_length, seq_length; lia).
  rewrite (map_nth f (seq 0 n) 0%nat i), seq_nth by lia. reflexivity.
Qed.

Lemma wrapv_vget lo hi delta k p i : (i < length p)%nat ->
  vget (wrapv lo hi delta k p) i = if (i <? k)%nat then wrapc lo hi delta i (vget p i) else vget p i.
Proof. intros H. unfold wrapv. rewrite vget_map_seq by exact H. reflexivity. Qed.

Lemma wrapv_0 lo hi delta p : wrapv lo hi delta 0 p = p.
Proof. apply vec_ext; [apply wrapv_length|]. intros i Hi. rewrite wrapv_length in Hi. rewrite wrapv_vget by exact Hi. reflexivity. Qed.

Lemma wrapv_S lo hi delta k p : (k < length p)%nat ->
  wrapv lo hi delta k (vset p k (wrapc lo hi delta k (vget p k))) = wrapv lo hi delta (S k) p.
Proof.
  intros Hk. apply vec_ext; [rewrite !wrapv_length; apply vset_length|].
  intros i Hi. rewrite wrapv_length, vset_length in Hi. rewrite !wrapv_vget by (rewrite ?vset_length; lia).
  destruct (Nat.eq_dec k i) as [<-|Ne].
  - rewrite vget_vset_same by exact Hk. rewrite Nat.ltb_irrefl. destruct (Nat.ltb_spec k (S k)); [reflexivity|lia].
  - rewrite vget_vset_other by exact Ne. destruct (Nat.ltb_spec i k), (Nat.ltb_spec i (S k)); try reflexivity; lia.
Qed.

Section All.
  Variables (lo hi : vec) (delta : Z).
  Let b := mkBd lo hi delta.
  Hypothesis Ok : box_ok lo hi.
  Hypothesis Hdelta : 1 <= delta.

  Definition fuel_all : nat := fold_right Nat.max O (map (fuel_bound lo hi delta) (seq 0 (length lo))).

  Lemma fuel_all_ge d : (d < length lo)%nat -> (fuel_bound lo hi delta d <= fuel_all)%nat.
  Proof.
    intros Hd. unfold fuel_all. assert (Hin : In (fuel_bound lo hi delta d) (map (fuel_bound lo hi delta) (seq 0 (length lo)))).
    { apply in_map, in_seq. lia. }
    induction (map _ _) as [|x l IH]; [destruct Hin|]. simpl. destruct Hin as [->|Hin]; [lia|]. specialize (IH Hin). lia.
  Qed.

  Lemma wrapc_in d x : (d < length lo)%nat -> delta <= inner_extent lo hi delta d ->
    vget lo d <= x <= vget hi d ->
    vget lo d + delta <= wrapc lo hi delta d x <= vget hi d - delta /\
    (x - wrapc lo hi delta d x) mod inner_extent lo hi delta d = 0.
  Proof.
    intros Hd Hn Hx. unfold wrapc. unfold inner_extent in *.
    destruct (Z.ltb_spec x (vget lo d + delta)).
    - split; [lia|]. rewrite Z.sub_add_distr, Z.sub_diag, Z.sub_0_l. apply Z.mod_opp_l_z; [lia|]. apply Z.mod_same. lia.
    - destruct (Z.ltb_spec (vget hi d - delta) x).
      + split; [lia|]. replace (x - _) with (vget hi d - vget lo d + 1 - 2 * delta) by lia. apply Z.mod_same. lia.
      + split; [lia|]. rewrite Z.sub_diag. reflexivity.
  Qed.

  Lemma wrapv_image p : inner_at_least lo hi delta delta -> in_box lo hi p ->
    periodic_image lo hi delta p (wrapv lo hi delta (length lo) p).
  Proof.
    intros Hn Hp. apply in_box_vget in Hp. destruct Hp as (_ & Lp & Hp). split; [apply wrapv_length|].
    intros d Hd. rewrite wrapv_vget by exact Hd. destruct (Nat.ltb_spec d (length lo)); [|lia].
    apply wrapc_in; [lia|apply Hn; lia|apply Hp; lia].
  Qed.

  Lemma image_unique p q q' : 0 <= delta -> (forall d, (d < length p)%nat -> 1 <= inner_extent lo hi delta d) ->
    periodic_image lo hi delta p q -> periodic_image lo hi delta p q' -> q = q'.
  Proof.
    intros _ Hn [L1 H1] [L2 H2]. apply vec_ext; [congruence|]. intros i Hi. rewrite L1 in Hi.
    destruct (H1 i Hi) as [A1 B1]. destruct (H2 i Hi) as [A2 B2]. specialize (Hn i Hi).
    unfold inner_extent in *. set (n := vget hi i - vget lo i + 1 - 2 * delta) in *.
    apply Z.mod_divide in B1; [|lia]. apply Z.mod_divide in B2; [|lia].
    destruct B1 as [k1 B1]. destruct B2 as [k2 B2].
    assert (E : vget q i - vget q' i = (k2 - k1) * n) by lia.
    assert (k2 - k1 = 0) by (apply Zle_antisym; nia). nia.
  Qed.

  Section Memory.
    Context {V : Type}.
    Variable g : grid.
    Hypothesis Ins : inside_grid g lo hi.

    Lemma vset_wrap_in_box d p : (d < length lo)%nat -> delta <= inner_extent lo hi delta d ->
      in_box lo hi p -> in_box lo hi (vset p d (wrapc lo hi delta d (vget p d))).
    Proof.
      intros Hd Hn Hp. apply in_box_vget in Hp. destruct Hp as (L & Lp & Hp). apply in_box_vget.
      rewrite vset_length. split; [exact L|]. split; [exact Lp|]. intros i Hi.
      destruct (Nat.eq_dec d i) as [<-|Ne].
      - rewrite vget_vset_same by lia. pose proof (wrapc_in d (vget p d) Hd Hn (Hp d Hd)). lia.
      - rewrite vget_vset_other by exact Ne. apply Hp, Hi.
    Qed.

    Lemma exchange_prefix (Hn : inner_at_least lo hi delta delta) k fuel :
      (fuel_all <= fuel)%nat -> (k <= length lo)%nat -> forall (h : heap V) m, represents g h m ->
      exists h' m', over_dims (serial_exchange_dim fuel b g) (seq 0 k) h = Some (Some h') /\ represents g h' m' /\
        (forall p, in_box lo hi p -> m' p = m (wrapv lo hi delta k p)) /\
        (forall p, ~ in_box lo hi p -> m' p = m p) /\
        (forall c, c <> g_block g -> h' c = h c).
    Proof.
      intros Hf. induction k as [|k IH]; intros Hk h m Hr.
      - exists h, m. split; [reflexivity|]. split; [exact Hr|]. split; [|auto]. intros p Hp. rewrite wrapv_0. reflexivity.
      - destruct (IH ltac:(lia) h m Hr) as (h1 & m1 & E1 & Hr1 & A1 & B1 & F1).
        destruct (exchange_dim_ok lo hi delta k Ok ltac:(lia) Hdelta g Ins (Hn k ltac:(lia)) h1 m1 fuel Hr1)
          as (h2 & m2 & E2 & Hr2 & A2 & B2 & F2); [pose proof (fuel_all_ge k ltac:(lia)); lia|].
        exists h2, m2. split; [|split; [exact Hr2|split; [|split]]].
        + rewrite seq_S. cbn [plus].
          assert (AppD : forall l2 l1 h0 hx, over_dims (serial_exchange_dim fuel b g) l1 h0 = Some (Some hx) ->
                    over_dims (V:=V) (serial_exchange_dim fuel b g) (l1 ++ l2) h0 =
                    over_dims (serial_exchange_dim fuel b g) l2 hx).
          { intros l2. induction l1 as [|x l1 IHl]; intros h0 hx; cbn [app over_dims].
            - congruence.
            - destruct (serial_exchange_dim fuel b g x h0) as [[h3|]|]; try discriminate. apply IHl. }
          rewrite (AppD _ _ _ _ E1). cbn [over_dims]. fold b in E2. rewrite E2. reflexivity.
        + intros p Hp. assert (Lp : length p = length lo) by (apply in_box_length in Hp; tauto).
          rewrite A2 by exact Hp. rewrite A1 by (apply vset_wrap_in_box; [lia|apply Hn; lia|exact Hp]).
          rewrite wrapv_S by lia. reflexivity.
        + intros p Hp. rewrite B2, B1 by exact Hp. reflexivity.
        + intros c Hc. rewrite F2, F1 by exact Hc. reflexivity.
    Qed.

    Lemma exchange_ok (Hn : inner_at_least lo hi delta delta) fuel (h : heap V) m :
      (fuel_all <= fuel)%nat -> represents g h m ->
      exists h' m', serial_exchange fuel b g h = Some (Some h') /\ represents g h' m' /\
        (forall p q, in_box lo hi p -> periodic_image lo hi delta p q -> m' p = m q) /\
        (forall p, ~ in_box lo hi p -> m' p = m p) /\
        (forall c, c <> g_block g -> h' c = h c).
    Proof.
      intros Hf Hr. destruct (exchange_prefix Hn (length lo) fuel Hf ltac:(lia) h m Hr) as (h' & m' & E & Hr' & A & B & F).
      exists h', m'. split; [exact E|]. split; [exact Hr'|]. split; [|split; assumption].
      intros p q Hp Hq. rewrite A by exact Hp. f_equal. eapply image_unique; [lia| |apply wrapv_image; assumption|exact Hq].
      intros d Hd. assert (Lp : length p = length lo) by (apply in_box_length in Hp; tauto).
      specialize (Hn d ltac:(lia)). lia.
    Qed.
  End Memory.
End All.
