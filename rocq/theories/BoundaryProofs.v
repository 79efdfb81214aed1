(** Proofs about boundaries, serial exchange and views. *)
From Verif Require Import Vec GridSpec RangeModel BoxFacts RangeProofs StorageModel GridModel GridOpSpec GridProofs
  BoundaryModel BoundarySpec.

Local Arguments Z.add : simpl never.
Local Arguments Z.sub : simpl never.
Local Arguments Z.mul : simpl never.

(** ** Vectors by components *)

Lemma in_box_vget lo hi p : in_box lo hi p <->
  length hi = length lo /\ length p = length lo /\
  forall i, (i < length lo)%nat -> vget lo i <= vget p i <= vget hi i.
Proof.
  split.
  - intros H. pose proof (in_box_length _ _ _ H) as [L1 L2]. split; [exact L2|]. split; [exact L1|].
    revert hi p H L1 L2. induction lo as [|l lo IH]; intros [|h hi] [|x p]; simpl; try tauto; try lia.
    intros [H1 H2] L1 L2 [|i] Hi; [exact H1|]. rewrite !vget_cons_S. apply IH; auto; lia.
  - intros (L1 & L2 & H). revert hi p L1 L2 H. induction lo as [|l lo IH]; intros [|h hi] [|x p]; simpl; try lia; auto.
    intros L1 L2 H. split; [apply (H 0%nat); lia|]. apply IH; try lia. intros i Hi. apply (H (S i)). lia.
Qed.

Lemma box_ok_vget lo hi : box_ok lo hi <->
  length hi = length lo /\ forall i, (i < length lo)%nat -> vget lo i <= vget hi i.
Proof.
  split.
  - intros H. split; [apply box_ok_length, H|]. intros i Hi.
    pose proof (box_ok_in_box_lo _ _ H) as B. apply in_box_vget in B. apply B, Hi.
  - intros [L H]. revert hi L H. induction lo as [|l lo IH]; intros [|h hi]; simpl; try lia; auto.
    intros L H. split; [apply (H 0%nat); lia|]. apply IH; [lia|]. intros i Hi. apply (H (S i)). lia.
Qed.

Definition vadd (a b : vec) : vec := vmap2 Z.add a b.

Lemma vmap2_len f a b : length a = length b -> length (vmap2 f a b) = length a.
Proof. revert b. induction a as [|x a IH]; intros [|y b]; simpl; try lia. intros H. rewrite IH; lia. Qed.

Lemma vget_vmap2 f a b i : length a = length b -> (i < length a)%nat -> vget (vmap2 f a b) i = f (vget a i) (vget b i).
Proof.
  revert b i. induction a as [|x a IH]; intros [|y b] i; simpl; try lia. intros L Hi.
  destruct i as [|i]; [reflexivity|]. rewrite !vget_cons_S. apply IH; lia.
Qed.

(** ** The increment commutes with translation *)
Lemma inc_shift lo hi sh p : length hi = length lo -> length p = length lo -> length sh = length lo ->
  inc (vadd lo sh) (vadd hi sh) (vadd p sh) = let '(q, c) := inc lo hi p in (vadd q sh, c).
Proof.
  revert hi sh p. induction lo as [|l lo IH]; intros [|h hi] [|s sh] [|x p]; cbn [length inc vadd vmap2]; try lia; auto.
  intros L1 L2 L3. fold (vadd lo sh) (vadd hi sh) (vadd p sh). rewrite IH by lia.
  destruct (inc lo hi p) as [q c]. destruct c; [|reflexivity].
  replace (x + s + 1 >? h + s) with (x + 1 >? h); [destruct (x + 1 >? h); cbn [vadd vmap2]; [reflexivity|]|].
  - f_equal. f_equal. lia.
  - rewrite !Z.gtb_ltb. destruct (Z.ltb_spec h (x + 1)), (Z.ltb_spec (h + s) (x + s + 1)); try reflexivity; lia.
Qed.

Lemma inc_length lo hi p : length hi = length lo -> length p = length lo -> length (fst (inc lo hi p)) = length lo.
Proof.
  revert hi p. induction lo as [|l lo IH]; intros [|h hi] [|x p]; cbn [length inc]; try lia; auto.
  intros L1 L2. specialize (IH hi p). destruct (inc lo hi p) as [q c]. cbn [fst] in IH.
  destruct c; [destruct (x + 1 >? h)|]; simpl; rewrite IH; lia.
Qed.

Lemma pair_loop_shift lo hi sh n : length hi = length lo -> length sh = length lo -> forall p e e',
  length p = length lo ->
  pair_loop n (mkRange lo hi) (mkRange (vadd lo sh) (vadd hi sh)) (mkIter p e) (mkIter (vadd p sh) e') =
  option_map (map (fun q => (q, vadd q sh))) (range_loop n (mkRange lo hi) (mkIter p e)).
Proof.
  intros L1 L2. induction n as [|n IH]; intros p e e' L3; cbn [pair_loop range_loop].
  - destruct (iter_eqb _ _); reflexivity.
  - destruct (iter_eqb _ _); [reflexivity|].
    rewrite !iter_incr_inc by (rewrite ?vmap2_len; unfold vadd; rewrite ?vmap2_len; lia).
    rewrite inc_shift by lia. pose proof (inc_length lo hi p L1 L3) as Li.
    destruct (inc lo hi p) as [q c]. cbn [fst] in Li. rewrite IH by exact Li.
    destruct (range_loop n (mkRange lo hi) (mkIter q (c || e))); reflexivity.
Qed.

Lemma pair_visits_shift lo hi lo2 hi2 sh n : box_ok lo hi -> length sh = length lo ->
  lo2 = vadd lo sh -> hi2 = vadd hi sh -> (Z.to_nat (box_size lo hi) <= n)%nat ->
  pair_visits n (mkRange lo hi) (mkRange lo2 hi2) = Some (map (fun q => (q, vadd q sh)) (box lo hi)).
Proof.
  intros Ok L -> -> Hn. unfold pair_visits, range_begin. cbn [r_lo].
  rewrite pair_loop_shift by (auto; apply box_ok_length, Ok).
  change (range_loop n (mkRange lo hi) (mkIter lo false)) with (range_visits n (mkRange lo hi)).
  rewrite range_visits_box by assumption. reflexivity.
Qed.

(** ** Reads and writes through [represents] *)
Section Rep.
  Context {V : Type}.

  Lemma rep_write (g : grid) (h : heap V) m p v : represents g h m -> in_box (g_lo g) (g_hi g) p ->
    exists h', grid_write g h p v = Some h' /\ represents g h' (fun q => if veqb q p then v else m q) /\
               (forall b, b <> g_block g -> h' b = h b).
  Proof.
    intros [Hw Hr] Hp. destruct (grid_write_ok g h p v Hw Hp) as (h' & E & Hw' & _ & Fr & Hr').
    exists h'. split; [exact E|]. split; [|exact Fr]. split; [exact Hw'|]. intros q Hq. rewrite Hr' by exact Hq.
    destruct (veqb q p); [reflexivity|]. apply Hr, Hq.
  Qed.

  Lemma veqb_refl p : veqb p p = true.
  Proof. apply veqb_eq. reflexivity. Qed.
  Lemma veqb_neq p q : p <> q -> veqb p q = false.
  Proof. intros H. destruct (veqb p q) eqn:E; [|reflexivity]. apply veqb_eq in E. contradiction. Qed.

  Lemma vec_dec (p q : vec) : {p = q} + {p <> q}.
  Proof. apply list_eq_dec, Z.eq_dec. Qed.

  (** Copying cells [f p -> p]. *)
  Lemma copy_cells_spec (g : grid) (f : vec -> vec) : forall l (h : heap V) m, represents g h m ->
    (forall p, In p l -> in_box (g_lo g) (g_hi g) p /\ in_box (g_lo g) (g_hi g) (f p) /\ ~ In (f p) l) ->
    exists h' m', copy_cells g (map (fun p => (p, f p)) l) h = Some h' /\ represents g h' m' /\
      (forall q, In q l -> m' q = m (f q)) /\ (forall q, ~ In q l -> m' q = m q) /\
      (forall b, b <> g_block g -> h' b = h b).
  Proof.
    induction l as [|p l IH]; intros h m Hr Hl; cbn [map copy_cells].
    - exists h, m. split; [reflexivity|]. split; [exact Hr|]. split; [intros q []|]. auto.
    - destruct (Hl p (or_introl eq_refl)) as (Hp & Hf & Nf).
      rewrite (proj2 Hr (f p) Hf). destruct (rep_write g h m p (m (f p)) Hr Hp) as (h1 & -> & Hr1 & Fr1).
      destruct (IH h1 _ Hr1) as (h' & m' & E & Hr' & H1 & H2 & Fr).
      { intros q Hq. destruct (Hl q (or_intror Hq)) as (A & B & C). split; [exact A|]. split; [exact B|].
        intros K. apply C. right; exact K. }
      exists h', m'. split; [exact E|]. split; [exact Hr'|]. split; [|split].
      + intros q Hq. destruct (in_dec vec_dec q l) as [Hin|Hn].
        * rewrite H1 by exact Hin. rewrite veqb_neq; [reflexivity|]. intros E'.
          destruct (Hl q (or_intror Hin)) as (_ & _ & C). apply C. left. auto.
        * destruct Hq as [<-|Hq]; [|contradiction]. rewrite H2 by exact Hn. rewrite veqb_refl. reflexivity.
      + intros q Hq. rewrite H2 by (intros K; apply Hq; right; exact K). rewrite veqb_neq; [reflexivity|].
        intros ->. apply Hq. left; reflexivity.
      + intros b Hb. rewrite Fr by exact Hb. apply Fr1, Hb.
  Qed.

  Lemma write_cells_spec (g : grid) (v : V) : forall l (h : heap V) m, represents g h m ->
    (forall p, In p l -> in_box (g_lo g) (g_hi g) p) ->
    exists h' m', write_cells g l v h = Some h' /\ represents g h' m' /\
      (forall q, In q l -> m' q = v) /\ (forall q, ~ In q l -> m' q = m q) /\
      (forall b, b <> g_block g -> h' b = h b).
  Proof.
    induction l as [|p l IH]; intros h m Hr Hl; cbn [write_cells].
    - exists h, m. split; [reflexivity|]. split; [exact Hr|]. split; [intros q []|]. auto.
    - destruct (rep_write g h m p v Hr (Hl p (or_introl eq_refl))) as (h1 & -> & Hr1 & Fr1).
      destruct (IH h1 _ Hr1) as (h' & m' & E & Hr' & H1 & H2 & Fr).
      { intros q Hq. apply Hl. right; exact Hq. }
      exists h', m'. split; [exact E|]. split; [exact Hr'|]. split; [|split].
      + intros q Hq. destruct (in_dec vec_dec q l) as [Hin|Hn]; [apply H1, Hin|].
        destruct Hq as [<-|Hq]; [|contradiction]. rewrite H2 by exact Hn. rewrite veqb_refl. reflexivity.
      + intros q Hq. rewrite H2 by (intros K; apply Hq; right; exact K). rewrite veqb_neq; [reflexivity|].
        intros ->. apply Hq. left; reflexivity.
      + intros b Hb. rewrite Fr by exact Hb. apply Fr1, Hb.
  Qed.

  Variable plus : V -> V -> V.

  (** Accumulating pairs [(p, f p)]. *)
  Lemma acc_cells_spec (g : grid) (f : vec -> vec) : forall l (h : heap V) m, represents g h m -> NoDup l ->
    (forall p q, In p l -> In q l -> f p = f q -> p = q) ->
    (forall p, In p l -> in_box (g_lo g) (g_hi g) p /\ in_box (g_lo g) (g_hi g) (f p) /\ ~ In (f p) l) ->
    exists h' m', acc_cells plus g (map (fun p => (p, f p)) l) h = Some h' /\ represents g h' m' /\
      (forall q, In q l -> m' q = plus (m q) (m (f q)) /\ m' (f q) = plus (m q) (m (f q))) /\
      (forall q, ~ In q l -> (forall p, In p l -> q <> f p) -> m' q = m q) /\
      (forall b, b <> g_block g -> h' b = h b).
  Proof.
    induction l as [|p l IH]; intros h m Hr Nd Inj Hl; cbn [map acc_cells].
    - exists h, m. split; [reflexivity|]. split; [exact Hr|]. split; [intros q []|]. auto.
    - inversion Nd as [|? ? Np Nd']; subst. destruct (Hl p (or_introl eq_refl)) as (Hp & Hf & Nf).
      rewrite (proj2 Hr (f p) Hf), (proj2 Hr p Hp).
      destruct (rep_write g h m p (plus (m p) (m (f p))) Hr Hp) as (h1 & -> & Hr1 & Fr1).
      rewrite (proj2 Hr1 p Hp), veqb_refl.
      destruct (rep_write g h1 _ (f p) (plus (m p) (m (f p))) Hr1 Hf) as (h2 & -> & Hr2 & Fr2).
      destruct (IH h2 _ Hr2 Nd') as (h' & m' & E & Hr' & H1 & H2 & Fr).
      { intros a b Ha Hb. apply Inj; right; assumption. }
      { intros q Hq. destruct (Hl q (or_intror Hq)) as (A & B & C). split; [exact A|]. split; [exact B|].
        intros K. apply C. right; exact K. }
      assert (Nfp : f p <> p) by (intros E'; apply Nf; left; auto).
      exists h', m'. split; [exact E|]. split; [exact Hr'|]. split; [|split].
      + intros q [<-|Hq].
        * split.
          -- rewrite H2; [|exact Np|].
             ++ rewrite veqb_neq by congruence. rewrite veqb_refl. reflexivity.
             ++ intros r Hr0 E'. destruct (Hl r (or_intror Hr0)) as (_ & _ & C). apply C. left. auto.
          -- rewrite H2.
             ++ rewrite veqb_refl. reflexivity.
             ++ intros K. apply Nf. right; exact K.
             ++ intros r Hr0 E'. apply Inj in E'; [subst; contradiction|left; reflexivity|right; exact Hr0].
        * destruct (H1 q Hq) as [A B].
          assert (Q1 : q <> p) by congruence.
          assert (Q2 : q <> f p) by (intros ->; apply Nf; right; exact Hq).
          assert (Q3 : f q <> p) by (intros E'; destruct (Hl q (or_intror Hq)) as (_ & _ & C); apply C; left; auto).
          assert (Q4 : f q <> f p) by (intros E'; apply Inj in E'; [congruence|right; exact Hq|left; reflexivity]).
          rewrite !(veqb_neq q), !(veqb_neq (f q)) in A by assumption.
          rewrite !(veqb_neq q), !(veqb_neq (f q)) in B by assumption.
          split; assumption.
      + intros q Hq Hq2. rewrite H2.
        * rewrite !veqb_neq; [reflexivity| |].
          -- intros ->. apply Hq. left; reflexivity.
          -- apply Hq2. left; reflexivity.
        * intros K. apply Hq. right; exact K.
        * intros r Hr0. apply Hq2. right; exact Hr0.
      + intros b Hb. rewrite Fr, Fr2 by exact Hb. apply Fr1, Hb.
  Qed.
End Rep.
