(** Proofs about diagnostics and readers within programs. *)
From Verif Require Import Vec GridSpec StorageSpec StorageModel GridModel GridOpSpec ShareModel ShareSpec
  BoxFacts RangeProofs StorageProofs GridProofs ShareProofs HdfModel HdfSpec HdfProofs LiveModel LiveSpec.

Local Arguments Z.mul : simpl never.
Local Arguments Z.add : simpl never.
Local Arguments Z.sub : simpl never.
Local Arguments Z.of_nat : simpl never.

(** ** Memory that is larger than the grid *)
Lemma list_set_app {X} (l l2 : list X) k v : (k < length l)%nat -> list_set (l ++ l2) k v = list_set l k v ++ l2.
Proof.
  revert k; induction l as [|x l IH]; intros k H; cbn in H; [lia|]. destruct k; cbn; [reflexivity|].
  rewrite IH by lia. reflexivity.
Qed.
Lemma read_extend {X} (h ht : heap X) b l2 k v : h b = ht b ++ l2 -> read_elem ht b k = Some v -> read_elem h b k = Some v.
Proof.
  intros E. unfold read_elem. destruct (k <? 0); [discriminate|]. rewrite E. intros H.
  rewrite nth_error_app1; [exact H|]. apply nth_error_Some. congruence.
Qed.
Lemma copy_out_extend {X} (h ht : heap X) b l2 : h b = ht b ++ l2 -> forall ps data x,
  copy_out ps b ht data = Done x -> copy_out ps b h data = Done x.
Proof.
  intros E. induction ps as [|[m f] ps IH]; intros data x; cbn [copy_out]; [auto|].
  destruct (read_elem ht b m) as [v|] eqn:Er; [|discriminate]. rewrite (read_extend h ht b l2 m v E Er). apply IH.
Qed.
Lemma copy_in_extend {X} b l2 data : forall ps (h ht ht' : heap X), h b = ht b ++ l2 -> copy_in ps b data ht = Done ht' ->
  exists h', copy_in ps b data h = Done h' /\ h' b = ht' b ++ l2 /\ length (ht' b) = length (ht b).
Proof.
  induction ps as [|[m f] ps IH]; intros h ht ht' E; cbn [copy_in].
  - intros H. injection H as <-. exists h. auto.
  - destruct (nth_error data (Z.to_nat f)) as [v|]; [|discriminate]. unfold write_elem.
    destruct (_ || _) eqn:Eb; [discriminate|]. apply orb_false_iff in Eb. destruct Eb as [E1 E2].
    apply Z.ltb_ge in E1. apply Z.leb_gt in E2. intros H.
    assert (E3 : (m <? 0) || (Z.of_nat (length (h b)) <=? m) = false).
    { apply orb_false_iff. split; [apply Z.ltb_ge; lia|]. apply Z.leb_gt. rewrite E, app_length. lia. }
    rewrite E3. edestruct (IH (fun b' => if Nat.eqb b' b then list_set (h b) (Z.to_nat m) v else h b')
      (fun b' => if Nat.eqb b' b then list_set (ht b) (Z.to_nat m) v else ht b')) as (h' & A & B & C); [|exact H|].
    + rewrite Nat.eqb_refl, E. apply list_set_app. lia.
    + exists h'. split; [exact A|]. split; [exact B|]. rewrite C. rewrite Nat.eqb_refl. apply list_set_length.
Qed.
Lemma write_part_extend {X} c (h ht : heap X) l2 ds x : h (g_block (c_grid c)) = ht (g_block (c_grid c)) ++ l2 ->
  write_part c ht ds = Done x -> write_part c h ds = Done x.
Proof.
  intros E. unfold write_part. destruct (slabs_of c) as [s| |]; cbn [io_bind]; try discriminate.
  destruct (pairs s (d_dims ds)) as [ps| |]; cbn [io_bind]; try discriminate.
  destruct (copy_out ps (g_block (c_grid c)) ht (d_data ds)) as [l| |] eqn:Ec; cbn [io_bind]; try discriminate.
  rewrite (copy_out_extend h ht _ l2 E _ _ _ Ec). auto.
Qed.

(** Memory [h] of a container extends the memory [ht] that its grid needs. *)
Definition larger {X} (x y : container * heap X) : Prop :=
  fst x = fst y /\ exists l2, snd x (g_block (c_grid (fst x))) = snd y (g_block (c_grid (fst x))) ++ l2.
Lemma write_parts_extend {X} (ps pts : list (container * heap X)) : Forall2 larger ps pts -> forall ds x,
  write_parts pts ds = Done x -> write_parts ps ds = Done x.
Proof.
  induction 1 as [|[c h] [c' ht] ps pts [E [l2 L]] F IH]; intros ds x; cbn [write_parts]; [auto|].
  cbn [fst snd] in E, L. subst c'. destruct (write_part c ht ds) as [y| |] eqn:Ew; cbn [io_bind]; try discriminate.
  rewrite (write_part_extend c h ht l2 ds y L Ew). cbn [io_bind]. apply IH.
Qed.
Lemma create_extend {X} (zero : X) ps pts : Forall2 larger ps pts -> create zero ps = create zero pts.
Proof.
  induction 1 as [|[c h] [c' ht] ps pts [E _] F IH]; [reflexivity|]. cbn [fst] in E. subst c'. cbn [create].
  destruct F as [|[c1 h1] [c1' h1'] ? ? [E1 _] F]; [reflexivity|]. rewrite IH. reflexivity.
Qed.
Lemma parallel_write_extend {X} (zero : X) ps pts x : Forall2 larger ps pts ->
  parallel_write zero pts = Done x -> parallel_write zero ps = Done x.
Proof.
  intros F. unfold parallel_write. rewrite (create_extend zero ps pts F).
  destruct (create zero pts) as [ds| |]; cbn [io_bind]; try discriminate. now apply write_parts_extend.
Qed.

Lemma inside_in_box : forall lo hi p, inside lo hi p = true <-> in_box lo hi p.
Proof.
  induction lo as [|l lo IH]; intros [|h hi] [|x p]; cbn; try (split; [discriminate|tauto]); try tauto.
  rewrite !andb_true_iff, !Z.leb_le, IH. tauto.
Qed.
Lemma inner_part ghost lo hi : match ghost with Some n => 0 <= n | None => True end ->
  part_of (fst (inner ghost lo hi)) (snd (inner ghost lo hi)) lo hi.
Proof.
  intros G p. destruct ghost as [n|]; cbn [inner fst snd]; [|auto]. revert hi p.
  induction lo as [|l lo IH]; intros [|h hi] [|x p]; cbn; try tauto. intros [H1 H2]. split; [lia|]. now apply IH.
Qed.
Lemma rem_fresh x l : ~ In x l -> rem x l = l.
Proof.
  unfold rem. induction l as [|y l IH]; cbn; [reflexivity|]. intros H.
  destruct (Nat.eqb_spec y x); [exfalso; tauto|]. cbn. f_equal. apply IH. tauto.
Qed.

Section Live.
  Context {V A : Type}.
  Variable junk : V.
  Variable avg0 : A.
  Variable rank : nat.
  Variable pol : policy A.
  Hypothesis pol_ok : forall next shrink extra, pol = Lazy next shrink extra -> forall a, 0 <= extra a.
  Notation ord := COrder.
  Notation st := (@st V A).
  Notation R := (R rank COrder pol).
  Notation step_refines := (step_refines junk avg0 rank COrder pol pol_ok).

  (** ** Several grid operations *)
  Fixpoint asteps' (os : list (op V)) (a : @ast V) : @ast V := match os with [] => a | o :: os' => asteps' os' (astep o a) end.
  Lemma run_R os : forall s a, R s a -> alegal_run ord (assign_safe (is_lazy pol)) os a ->
    exists s' obs, run junk avg0 rank ord pol os s = Some (s', obs) /\ aobs_run rank os a obs /\ R s' (asteps' os a).
  Proof.
    induction os as [|o os IH]; intros s a HR Hl; cbn [run alegal_run aobs_run asteps'] in *.
    - exists s, []. auto.
    - destruct Hl as (H1 & H2 & H3). destruct (step_refines s a o HR H1 H2) as (s1 & o1 & -> & Ho1 & HR1).
      destruct (IH s1 _ HR1 H3) as (s2 & o2 & -> & Ho2 & HR2). exists s2, (o1 ++ o2). split; [reflexivity|]. split; [|exact HR2].
      exists o1, o2. auto.
  Qed.

  (** ** Changing the contents of a block *)
  Lemma R_block (s : st) (a : @ast V) h lo hi m b l l' m' : R s a -> In h (a_live a) -> a_arr a (a_grp a h) = Some (lo, hi, m) ->
    d_ptr (s_d s (a_grp a h)) = Some b -> s_blk s b = Some l -> length l' = length l ->
    (forall p v, in_box lo hi p -> m' p = Some v -> nth_error l' (Z.to_nat (gp ord lo hi p)) = Some v) ->
    R (mkSt (s_live s) (s_h s) (s_d s) (s_nd s) (upd (s_blk s) b (Some l')) (s_nb s))
      (mkA (a_live a) (a_grp a) (upd (a_arr a) (a_grp a h) (Some (lo, hi, m'))) (a_n a)).
  Proof.
    intros HR Hh Ea E1 E3 El Hm. pose proof HR as [Rl Rn Rh Rb Ru Rs Rp].
    set (gh := a_grp a h) in *. assert (Hgh : ShareProofs.used a gh) by (exists h; auto).
    constructor; cbn [a_live a_grp a_arr a_n s_live s_nd s_h s_d s_blk s_nb]; auto.
    - intros x Hx. pose proof (Rh x Hx) as (G1 & G2 & G3). unfold hdl_ok, cap_ok in *.
      cbn [a_live a_grp a_arr a_n s_live s_nd s_h s_d s_blk s_nb]. split; [exact G1|]. split; [exact G2|].
      assert (Hcap : forall buf, (is_lazy pol = true -> match d_ptr (s_d s (a_grp a x)) with None => True | Some b0 =>
                match s_blk s b0 with None => False | Some l0 => buf <= Z.of_nat (length l0) end end) ->
              is_lazy pol = true -> match d_ptr (s_d s (a_grp a x)) with None => True | Some b0 =>
                match upd (s_blk s) b (Some l') b0 with None => False | Some l0 => buf <= Z.of_nat (length l0) end end).
      { intros buf H Hz. specialize (H Hz). destruct (d_ptr (s_d s (a_grp a x))) as [b0|]; auto.
        unfold upd. destruct (Nat.eqb_spec b0 b) as [->|]; auto. rewrite E3 in H. now rewrite El. }
      destruct (Nat.eq_dec (a_grp a x) gh) as [Eg|Eg].
      + rewrite Eg in *. rewrite upd_same. rewrite Ea in G3. destruct G3 as (F1 & F2 & F3 & F4 & F5 & F6).
        split; [exact F1|]. split; [exact F2|]. split; [exact F3|]. split; [exact F4|]. split; [exact F5|]. apply Hcap. exact F6.
      + rewrite upd_other by auto. destruct (a_arr a (a_grp a x)) as [[[lo0 hi0] m0]|]; auto.
        destruct G3 as (F1 & F2 & F3 & F4 & F5 & F6).
        split; [exact F1|]. split; [exact F2|]. split; [exact F3|]. split; [exact F4|]. split; [exact F5|]. apply Hcap. exact F6.
    - intros g Hg. change (ShareProofs.used a g) in Hg. unfold blk_ok. cbn [a_live a_grp a_arr a_n s_live s_nd s_h s_d s_blk s_nb].
      destruct (Nat.eq_dec g gh) as [->|Hgg].
      + rewrite upd_same. pose proof (Rb gh Hgh) as H. unfold blk_ok in H. rewrite Ea in H.
        destruct H as (Hs & b' & l0 & G1 & G2 & G3 & G4 & G5). split; [exact Hs|].
        assert (b' = b) by congruence. subst b'. assert (l0 = l) by congruence. subst l0.
        exists b, l'. rewrite upd_same, El. auto.
      + rewrite upd_other by auto. pose proof (Rb g Hg) as H. unfold blk_ok in H.
        destruct (a_arr a g) as [[[lo0 hi0] m0]|]; auto.
        destruct H as (Hs & b' & l0 & G1 & G2 & G3 & G4 & G5). split; auto. exists b', l0. repeat split; auto.
        rewrite upd_other; auto. intros ->. apply Hgg. eapply Rs; eauto.
  Qed.

  (** ** The invariant *)
  Definition good (t : target) : Prop :=
    small (t_gmin t) (t_gmax t) /\ small (t_lo t) (t_hi t) /\ box_ok (t_ilo t) (t_ihi t) /\
    part_of (t_ilo t) (t_ihi t) (t_lo t) (t_hi t) /\ part_of (t_ilo t) (t_ihi t) (t_gmin t) (t_gmax t).
  Definition lonely (a : @ast V) (x : nat) : Prop :=
    (forall y, In y (a_live a) -> a_grp a y = a_grp a x -> y = x) /\ a_arr a (a_grp a x) = None.
  Definition diag_ok (a : @ast V) (k : held) (q : diag) : Prop :=
    k_field k = a_field q /\ k_grid k = a_grid q /\ In (a_field q) (a_live a) /\ In (a_grid q) (a_live a) /\ a_field q <> a_grid q /\
    match a_target q with
    | None => k_bounds k = None /\ lonely a (a_field q) /\ lonely a (a_grid q)
    | Some t => k_bounds k = Some (t_gmin t, t_gmax t, t_ilo t, t_ihi t) /\ a_grp a (a_field q) = t_grp t /\ a_grp a (a_grid q) = t_grp t /\ good t
    end.
  Definition own (q : diag) (x : nat) : Prop := x = a_field q \/ x = a_grid q.
  Definition LR (z : @lstate V A) (w : @last V) : Prop :=
    R (fst z) (fst w) /\
    (forall d, match snd z d, snd w d with None, None => True | Some k, Some q => diag_ok (fst w) k q | _, _ => False end) /\
    (forall d d' q q' x, snd w d = Some q -> snd w d' = Some q' -> own q x -> own q' x -> d = d').

  Lemma LR_init : LR (linit avg0) lainit.
  Proof. split; [apply R_init|]. split; [intros d; exact I|]. cbn. intros; discriminate. Qed.

  Lemma grp_lt (s : st) (a : @ast V) x : R s a -> In x (a_live a) -> (a_grp a x < a_n a)%nat.
  Proof. intros HR Hx. apply (used_lt rank ord pol s a _ HR). exists x. auto. Qed.

  (** A grid operation that does not mention them leaves the grids of a diagnostic alone. *)
  Lemma lonely_step (s : st) (a : @ast V) o x : R s a -> alegal ord o a -> In x (a_live a) -> ~ mentions o x -> lonely a x ->
    lonely (astep o a) x /\ In x (a_live (astep o a)).
  Proof.
    intros HR Hl Hx Nm [L1 L2]. pose proof (grp_lt s a x HR Hx) as Hlt. unfold lonely.
    destruct o as [h|h src|h src|h|h lo hi|h idx v|h idx|h]; cbn [mentions alegal astep a_live a_grp a_arr] in *.
    - split; [|now right]. rewrite upd_other by auto. split; [|rewrite upd_other by lia; exact L2].
      intros y [<-|Hy]; [rewrite upd_same; lia|]. destruct (Nat.eq_dec y h) as [->|N]; [tauto|]. rewrite upd_other by auto. now apply L1.
    - split; [|now right]. rewrite upd_other by tauto. split; [|exact L2].
      intros y [<-|Hy].
      + rewrite upd_same. intros E. exfalso. apply Nm. right. symmetry. apply L1; tauto.
      + destruct (Nat.eq_dec y h) as [->|N]; [tauto|]. rewrite upd_other by auto. now apply L1.
    - split; [|exact Hx]. rewrite upd_other by tauto. split; [|exact L2].
      intros y Hy. destruct (Nat.eq_dec y h) as [->|N].
      + rewrite upd_same. intros E. exfalso. apply Nm. right. symmetry. apply L1; tauto.
      + rewrite upd_other by auto. now apply L1.
    - split; [|apply rem_In; split; auto]. split; [|exact L2]. intros y Hy. apply rem_In in Hy. apply L1. tauto.
    - split; [|exact Hx]. split; [exact L1|]. rewrite upd_other; [exact L2|]. intros E.
      destruct Hl as [Hh _]. specialize (L1 h Hh (eq_sym E)). congruence.
    - destruct Hl as [Hh (lo & hi & m & Ea & _)]. rewrite Ea. cbn [a_live a_grp a_arr]. split; [|exact Hx]. split; [exact L1|].
      rewrite upd_other; [exact L2|]. intros E. specialize (L1 h Hh (eq_sym E)). congruence.
    - auto.
    - auto.
  Qed.
  Lemma kept_step (a : @ast V) o x : alegal ord o a -> In x (a_live a) -> ~ mentions o x ->
    a_grp (astep o a) x = a_grp a x /\ In x (a_live (astep o a)).
  Proof.
    intros Hl Hx Nm. destruct o as [h|h src|h src|h|h lo hi|h idx v|h idx|h]; cbn [mentions alegal astep a_live a_grp a_arr] in *.
    - split; [apply upd_other; auto|now right].
    - split; [apply upd_other; tauto|now right].
    - split; [apply upd_other; tauto|auto].
    - split; [reflexivity|apply rem_In; split; auto].
    - auto.
    - destruct (a_arr a (a_grp a h)) as [[[lo hi] m]|]; auto.
    - auto.
    - auto.
  Qed.
  Lemma diag_step (s : st) (a : @ast V) o k q : R s a -> alegal ord o a -> ~ mentions o (a_field q) -> ~ mentions o (a_grid q) ->
    diag_ok a k q -> diag_ok (astep o a) k q.
  Proof.
    intros HR Hl N1 N2 (E1 & E2 & I1 & I2 & Ne & T). destruct (kept_step a o _ Hl I1 N1) as [G1 J1], (kept_step a o _ Hl I2 N2) as [G2 J2].
    repeat split; try assumption. destruct (a_target q) as [t|].
    - destruct T as (T1 & T2 & T3 & T4). rewrite G1, G2. auto.
    - destruct T as (T1 & T2 & T3). split; [exact T1|].
      split; [apply (lonely_step s a o _ HR Hl I1 N1 T2)|apply (lonely_step s a o _ HR Hl I2 N2 T3)].
  Qed.

  (** ** What is passed to [writeGrid] *)
  Definition snap_ok (x : container * heap V) (e : @output V) : Prop :=
    exists ht l2, fits (o_gmin e) (o_gmax e) (fst x) ht /\ snd x (g_block (c_grid (fst x))) = ht (g_block (c_grid (fst x))) ++ l2 /\
      c_lmin (fst x) = o_lo e /\ c_lmax (fst x) = o_hi e /\
      forall p v, in_box (o_lo e) (o_hi e) p -> o_val e p = Some v -> grid_read (c_grid (fst x)) ht p = Some v.

  Definition cut (h : heap V) (b n : nat) : heap V := fun x => if Nat.eqb x b then firstn n (h x) else h x.
  Lemma container_ok (s : st) (a : @ast V) k q t v : R s a -> diag_ok a k q -> a_target q = Some t -> a_arr a (t_grp t) = Some (t_lo t, t_hi t, v) ->
    exists b l c, container_at ord s k = Some c /\ c = mkContainer (mkGrid ord b (t_lo t) (t_hi t)) (t_gmin t) (t_gmax t) (t_ilo t) (t_ihi t) /\
      d_ptr (s_d s (t_grp t)) = Some b /\ s_blk s b = Some l /\ box_size (t_lo t) (t_hi t) <= Z.of_nat (length l) /\
      (forall p v0, in_box (t_lo t) (t_hi t) p -> v p = Some v0 -> nth_error l (Z.to_nat (gp ord (t_lo t) (t_hi t) p)) = Some v0) /\
      fits (t_gmin t) (t_gmax t) c (cut (heap_of s) b (Z.to_nat (box_size (t_lo t) (t_hi t)))).
  Proof.
    intros HR (E1 & E2 & I1 & I2 & Ne & T) Et Ea. rewrite Et in T. destruct T as (T1 & T2 & T3 & (S1 & S2 & B & P1 & P2)).
    pose proof (R_hdl _ _ _ _ _ HR (a_grid q) I2) as (Eh & _ & H). rewrite T3, Ea in H. destruct H as (F1 & F2 & F3 & F4 & F5 & F6).
    pose proof (R_blk _ _ _ _ _ HR (t_grp t) (ex_intro _ (a_grid q) (conj I2 T3))) as Hb. unfold blk_ok in Hb. rewrite Ea in Hb.
    destruct Hb as ((N & Bo & Si & Cf) & b & l & D1 & D2 & D3 & D4 & D5).
    exists b, l, (mkContainer (mkGrid ord b (t_lo t) (t_hi t)) (t_gmin t) (t_gmax t) (t_ilo t) (t_ihi t)).
    split. { unfold container_at, grid_at. rewrite E2, Eh, T3, D1, F1, F2, T1. reflexivity. }
    split; [reflexivity|]. split; [exact D1|]. split; [exact D3|]. split; [exact D4|]. split; [exact D5|].
    assert (0 <= box_size (t_lo t) (t_hi t)) as Nn.
    { destruct (part_corners _ _ _ _ B P1) as [Ac _]. pose proof (box_size_nonneg _ _ _ Ac). lia. }
    unfold fits. cbn [c_grid c_gmin c_gmax c_lmin c_lmax g_order g_lo g_hi]. split; [|auto 10].
    unfold grid_wf. cbn [g_lo g_hi g_block g_order]. split; [exact N|]. split; [exact Bo|]. split; [|split; [exact Si|exact Cf]].
    unfold cut. rewrite Nat.eqb_refl. unfold heap_of. rewrite D3, firstn_length. lia.
  Qed.

  Lemma cut_read (s : st) b l lo hi p : s_blk s b = Some l -> in_box lo hi p ->
    grid_wf (mkGrid ord b lo hi) (cut (@heap_of V A s) b (Z.to_nat (box_size lo hi))) ->
    grid_read (mkGrid ord b lo hi) (cut (heap_of s) b (Z.to_nat (box_size lo hi))) p = nth_error l (Z.to_nat (gp ord lo hi p)).
  Proof.
    intros E Hp W. rewrite grid_read_elem by assumption. pose proof (gp_bound ord lo hi p Hp) as G.
    unfold read_elem. cbn [g_block]. change (g_pos (mkGrid ord b lo hi) p) with (gp ord lo hi p).
    destruct (Z.ltb_spec (gp ord lo hi p) 0); [lia|]. unfold cut. rewrite Nat.eqb_refl. unfold heap_of. rewrite E.
    clear -G. set (k := Z.to_nat (gp ord lo hi p)). set (n := Z.to_nat (box_size lo hi)). assert (k < n)%nat by lia. clearbody k n. clear G.
    revert n l H; induction k as [|k IH]; intros [|n] l H; try lia; destruct l as [|y l]; cbn; try reflexivity. apply IH. lia.
  Qed.

  (** ** One step *)
  Lemma seen_map l : seen (map (@LSee V) l) = l.
  Proof. induction l; cbn; f_equal; auto. Qed.
  Lemma files_map l : files (map (@LSee V) l) = [].
  Proof. induction l; cbn; auto. Qed.
  Lemma seen_app (l l' : list (lout V)) : seen (l ++ l') = seen l ++ seen l'.
  Proof. induction l as [|[]]; cbn; rewrite ?IHl; reflexivity. Qed.
  Lemma files_app (l l' : list (lout V)) : files (l ++ l') = files l ++ files l'.
  Proof. induction l as [|[]]; cbn; rewrite ?IHl; reflexivity. Qed.

  Definition step_out (o : lop V) (w : @last V) (l : list (lout V)) : Prop :=
    match o with
    | LProg o => aobs rank o (fst w) (seen l) /\ files l = []
    | LOut d => seen l = [] /\ Forall2 snap_ok (files l) (outputs [LOut d] w)
    | _ => seen l = [] /\ files l = []
    end.

  Lemma lstep_ok o z w : LR z w -> llegal (is_lazy pol) o w ->
    exists z' l, lstep junk avg0 rank ord pol o z = Some (z', l) /\ LR z' (lastep o w) /\ step_out o w l.
  Proof.
    destruct z as [s m], w as [a q]. intros (HR & HD & HO) Hl. cbn [fst snd] in *.
    destruct o as [o|d hf hc|d src t ghost gmin gmax|d|d file]; cbn [llegal] in Hl.
    - destruct Hl as (H1 & H2 & H3). destruct (step_refines s a o HR H1 H2) as (s1 & o1 & E & Ho & HR1).
      unfold lstep. cbn [run]. rewrite E. cbn [see option_map fst snd]. eexists _, _. split; [reflexivity|]. split.
      + split; [exact HR1|]. split; [|exact HO]. cbn [fst snd lastep]. intros d. specialize (HD d).
        destruct (m d) as [k|], (q d) as [k'|] eqn:Eq; try exact HD. destruct (H3 d k' Eq) as [N1 N2].
        now apply (diag_step s a o k k' HR H1 N1 N2).
      + cbn [step_out fst]. rewrite app_nil_r. rewrite seen_map, files_map. auto.
    - destruct Hl as (H1 & H2 & H3 & H4).
      assert (L1 : alegal ord (@New V hf) a) by exact H2.
      assert (L2 : alegal ord (@New V hc) (astep (New hf) a)) by (cbn; intros [->|X]; tauto).
      destruct (run_R [New hf; New hc] s a HR) as (s1 & o1 & E & Ho & HR1).
      { cbn [alegal_run]. split; [exact L1|]. split; [exact I|]. split; [exact L2|]. split; [exact I|exact I]. }
      destruct (step_refines s a (New hf) HR L1 I) as (s0 & o0 & E0 & _ & HR0).
      unfold lstep. rewrite E. cbn [see option_map fst snd]. eexists _, _. split; [reflexivity|]. split.
      + split; [exact HR1|]. cbn [fst snd lastep].
        set (a2 := astep (New hc) (astep (New hf) a)).
        assert (Hold : forall d0 k k', m d0 = Some k -> q d0 = Some k' -> diag_ok a2 k k').
        { intros d0 k k' Ek Ek'. specialize (HD d0). rewrite Ek, Ek' in HD. pose proof HD as (_ & _ & J1 & J2 & _).
          assert (forall x, In x (a_live a) -> ~ mentions (@New V hf) x /\ ~ mentions (@New V hc) x) as Nm by (intros x Hx; split; cbn; intros ->; tauto).
          apply (diag_step s0 (astep (New hf) a) (New hc) k k' HR0 L2); try apply Nm; auto.
          apply (diag_step s a (New hf) k k' HR L1); try apply Nm; auto. }
        split.
        * intros d0. destruct (Nat.eq_dec d0 d) as [->|Nd].
          -- rewrite !upd_same. unfold diag_ok. cbn [k_field k_grid a_field a_grid a_target k_bounds a2 astep a_live].
             split; [reflexivity|]. split; [reflexivity|]. split; [right; left; reflexivity|]. split; [left; reflexivity|]. split; [exact H4|].
             split; [reflexivity|]. unfold lonely. cbn [a_live a_grp a_arr a_n]. repeat rewrite upd_same.
             split.
             ++ rewrite (upd_other _ hc _ hf) by auto. rewrite upd_same. split; [|rewrite upd_other by lia; apply upd_same].
                intros y [<-|[<-|Hy]]; [rewrite upd_same; lia|auto|]. rewrite upd_other by (intros ->; tauto). rewrite upd_other by (intros ->; tauto).
                pose proof (grp_lt s a y HR Hy). lia.
             ++ split; [|reflexivity]. intros y [<-|[<-|Hy]]; [auto| |].
                ** rewrite (upd_other _ hc _ hf) by auto. rewrite upd_same. lia.
                ** rewrite upd_other by (intros ->; tauto). rewrite upd_other by (intros ->; tauto). pose proof (grp_lt s a y HR Hy). lia.
          -- rewrite !upd_other by auto. specialize (HD d0). destruct (m d0) as [k|] eqn:Em, (q d0) as [k'|] eqn:Eq; try exact HD. eapply Hold; eauto.
        * intros d1 d2 q1 q2 x Q1 Q2 O1 O2.
          assert (forall d0 k', q d0 = Some k' -> own k' x -> In x (a_live a)) as Lv.
          { intros d0 k' Ek' Ow. specialize (HD d0). rewrite Ek' in HD. destruct (m d0) as [k|]; [|tauto]. destruct HD as (_ & _ & J1 & J2 & _). destruct Ow as [->| ->]; auto. }
          destruct (Nat.eq_dec d1 d) as [->|N1], (Nat.eq_dec d2 d) as [->|N2]; auto.
          -- rewrite upd_same in Q1. rewrite upd_other in Q2 by auto. injection Q1 as <-. specialize (Lv _ _ Q2 O2). destruct O1 as [->| ->]; cbn in Lv; tauto.
          -- rewrite upd_same in Q2. rewrite upd_other in Q1 by auto. injection Q2 as <-. specialize (Lv _ _ Q1 O1). destruct O2 as [->| ->]; cbn in Lv; tauto.
          -- rewrite upd_other in Q1 by auto. rewrite upd_other in Q2 by auto. eapply HO; eauto.
      + cbn [step_out]. rewrite seen_map, files_map. cbn [aobs_run aobs] in Ho. destruct Ho as (x1 & x2 & -> & -> & x3 & x4 & -> & -> & ->). auto.
    - destruct Hl as (hf & hc & lo & hi & v & Eq & Hs & Ht & Np & Ea & S1 & S2 & B & G & P).
      pose proof (HD d) as HDd. rewrite Eq in HDd. destruct (m d) as [k|] eqn:Em; [|tauto].
      destruct HDd as (E1 & E2 & I1 & I2 & Ne & T). cbn [a_field a_grid a_target] in *. destruct T as (T1 & [A1 N1] & [A2 N2]).
      destruct (Np d _ Eq) as [Sf Sc]. cbn [a_field a_grid] in Sf, Sc.
      assert (Tf : t <> hf) by (intros ->; tauto). assert (Tc : t <> hc) by (intros ->; tauto).
      set (g := a_grp a src) in *.
      set (a1 := astep (@Assign V hf src) a). set (a2 := astep (@Copy V t hf) a1). set (a3 := astep (@Assign V hc t) a2).
      assert (Gf : a_grp a1 hf = g) by (cbn; apply upd_same).
      assert (L1 : alegal_run ord (assign_safe (is_lazy pol)) [Assign hf src; Copy t hf; Assign hc t] a).
      { cbn [alegal_run]. fold a1 a2. split; [cbn; auto|]. split.
        - cbn [assign_safe]. right. split; [|auto]. intros y Hy E. now apply A1.
        - split; [split; cbn; auto|]. split; [exact I|]. split; [split; cbn; auto|]. split; [|exact I].
          cbn [assign_safe]. right.
          assert (Gc : a_grp a2 hc = a_grp a hc) by (cbn; rewrite upd_other by auto; apply upd_other; auto).
          rewrite Gc. split; [|cbn; auto]. assert (Ng : g <> a_grp a hc) by (intros E; unfold g in E; apply A2 in E; auto; congruence).
          cbn [a2 a1 astep a_live a_grp]. fold g. rewrite (upd_same _ hf). intros y [<-|Hy]; [rewrite upd_same; congruence|].
          rewrite upd_other by (intros ->; tauto). destruct (Nat.eq_dec y hf) as [->|Nf]; [rewrite upd_same; congruence|].
          rewrite upd_other by auto. now apply A2. }
      destruct (run_R _ s a HR L1) as (s1 & o1 & Er & Ho & HR1). cbn [asteps'] in HR1. fold a1 a2 a3 in HR1.
      assert (It : In t (a_live a3)) by (cbn; auto).
      assert (Gt : a_grp a3 t = g).
      { cbn [a3 a2 a1 astep a_grp]. rewrite (upd_other _ hc) by auto. rewrite upd_same. apply upd_same. }
      assert (Bt : h_lo (s_h s1 t) = lo /\ h_hi (s_h s1 t) = hi).
      { pose proof (R_hdl _ _ _ _ _ HR1 t It) as (_ & _ & H). rewrite Gt in H. change (a_arr a3 g) with (a_arr a g) in H. rewrite Ea in H. tauto. }
      destruct (run_R [Destroy t] s1 a3 HR1) as (s2 & o2 & Er2 & Ho2 & HR2).
      { cbn [alegal_run]. split; [exact It|]. split; exact I. }
      unfold lstep. rewrite Em, E1, E2, Er, Er2. cbn [see option_map fst snd]. eexists _, _. split; [reflexivity|].
      destruct Bt as [-> ->]. cbn [asteps'] in HR2.
      cbn [lastep]. rewrite Eq. fold g. rewrite Ea. cbn [a_field a_grid].
      assert (Eb : astep (Destroy t) a3 = mkA (a_live a) (upd (upd (upd (a_grp a) hf g) t g) hc g) (a_arr a) (a_n a)).
      { cbn [a3 a2 a1 astep a_live a_grp a_arr a_n]. fold g. f_equal.
        - cbn [rem filter]. unfold rem. cbn [filter]. rewrite Nat.eqb_refl. cbn [negb]. apply (rem_fresh t (a_live a) Ht).
        - rewrite (upd_same _ t), (upd_same _ hf). reflexivity. }
      rewrite Eb in HR2. set (a4 := mkA (a_live a) _ _ _) in *.
      split; [|cbn [step_out]; rewrite seen_map, files_map; cbn [aobs_run aobs] in Ho2; destruct Ho2 as (x1 & x2 & -> & -> & ->); auto].
      assert (Go : forall x, x <> hf -> x <> hc -> x <> t -> a_grp a4 x = a_grp a x) by (intros x X1 X2 X3; cbn; rewrite !upd_other by auto; reflexivity).
      assert (Gf4 : a_grp a4 hf = g) by (cbn; rewrite upd_other by auto; rewrite upd_other by auto; apply upd_same).
      assert (Gc4 : a_grp a4 hc = g) by (cbn; apply upd_same).
      split; [exact HR2|]. cbn [fst snd]. split.
      + intros d0. destruct (Nat.eq_dec d0 d) as [->|Nd].
        * rewrite !upd_same. unfold diag_ok. cbn [k_field k_grid k_bounds a_field a_grid a_target].
          split; [reflexivity|]. split; [reflexivity|]. split; [exact I1|]. split; [exact I2|]. split; [exact Ne|].
          cbn [t_gmin t_gmax t_ilo t_ihi t_grp]. split; [destruct ghost; reflexivity|]. split; [exact Gf4|]. split; [exact Gc4|].
          unfold good. cbn [t_gmin t_gmax t_ilo t_ihi t_lo t_hi]. split; [exact S1|]. split; [exact S2|]. split; [exact B|]. split; [|exact P].
          now apply inner_part.
        * rewrite !upd_other by auto. specialize (HD d0). destruct (m d0) as [k0|] eqn:Em0, (q d0) as [q0|] eqn:Eq0; try exact HD.
          destruct HD as (F1 & F2 & J1 & J2 & Ne0 & T0). unfold diag_ok. repeat (split; [assumption|]).
          assert (Oth : forall x, own q0 x -> x <> hf /\ x <> hc /\ x <> t).
          { intros x Ox. split; [|split].
            - intros ->. apply Nd. eapply HO; [exact Eq0|exact Eq|exact Ox|left; reflexivity].
            - intros ->. apply Nd. eapply HO; [exact Eq0|exact Eq|exact Ox|right; reflexivity].
            - intros ->. destruct Ox as [-> | ->]; tauto. }
          destruct (Oth (a_field q0) (or_introl eq_refl)) as (X1 & X2 & X3), (Oth (a_grid q0) (or_intror eq_refl)) as (Y1 & Y2 & Y3).
          destruct (Np d0 _ Eq0) as [Sf0 Sc0].
          assert (Lon : forall x, own q0 x -> src <> x -> In x (a_live a) -> lonely a x -> lonely a4 x).
          { intros x Ox Sx Ix [La Lb]. destruct (Oth x Ox) as (Z1 & Z2 & Z3). unfold lonely. rewrite (Go x Z1 Z2 Z3). split; [|exact Lb].
            assert (Ng : g <> a_grp a x) by (intros E; unfold g in E; apply La in E; auto).
            intros y Hy. change (In y (a_live a)) in Hy. destruct (Nat.eq_dec y hf) as [->|]; [rewrite Gf4; congruence|].
            destruct (Nat.eq_dec y hc) as [->|]; [rewrite Gc4; congruence|]. rewrite Go by (auto; intros ->; tauto). now apply La. }
          destruct (a_target q0) as [t0|].
          -- destruct T0 as (U1 & U2 & U3 & U4). split; [exact U1|]. rewrite !Go by auto. auto.
          -- destruct T0 as (U1 & U2 & U3). split; [exact U1|]. split; [apply Lon; auto; left; reflexivity|apply Lon; auto; right; reflexivity].
      + intros d1 d2 q1 q2 x Q1 Q2 O1 O2.
        assert (forall d0 q0, upd q d (Some (mkDiag hf hc (Some (mkTarget g lo hi (fst (inner ghost lo hi)) (snd (inner ghost lo hi)) gmin gmax)))) d0 = Some q0 ->
          own q0 x -> exists q0', q d0 = Some q0' /\ own q0' x) as Back.
        { intros d0 q0 E Ow. destruct (Nat.eq_dec d0 d) as [->|N]; [rewrite upd_same in E; injection E as <-; exists (mkDiag hf hc None); auto|].
          rewrite upd_other in E by auto. eauto. }
        destruct (Back _ _ Q1 O1) as (r1 & R1 & R1'), (Back _ _ Q2 O2) as (r2 & R2 & R2'). eapply HO; eauto.
    - destruct Hl as (hf & hc & t & Eq & (v & Ea) & _). pose proof (HD d) as HDd. rewrite Eq in HDd. destruct (m d) as [k|] eqn:Em; [|tauto].
      destruct (container_ok s a k _ t v HR HDd eq_refl Ea) as (b & l & c & Ec & Dc & D1 & D3 & D4 & D5 & F).
      unfold lstep. rewrite Em, Ec. eexists _, _. split; [reflexivity|]. split; [split; [exact HR|split; [exact HD|exact HO]]|].
      cbn [step_out seen files]. split; [reflexivity|]. cbn [outputs snd fst]. rewrite Eq, Ea, app_nil_r. constructor; [|constructor].
      unfold snap_ok. cbn [fst snd o_gmin o_gmax o_lo o_hi o_val].
      exists (cut (heap_of s) b (Z.to_nat (box_size (t_lo t) (t_hi t)))), (skipn (Z.to_nat (box_size (t_lo t) (t_hi t))) l).
      split; [exact F|]. subst c. cbn [c_grid g_block c_lmin c_lmax].
      split. { unfold cut. rewrite Nat.eqb_refl. unfold heap_of. rewrite D3. symmetry. apply firstn_skipn. }
      split; [reflexivity|]. split; [reflexivity|]. intros p v0 Hp Hv. destruct F as (W & _ & _ & _ & _ & _ & _ & P1 & _). cbn [c_grid c_lmin c_lmax g_lo g_hi] in W, P1.
      rewrite (cut_read s b l _ _ p D3 (P1 p Hp) W). apply D5; auto.
    - destruct Hl as (hf & hc & t & Eq & (v & Ea) & Df & Cf). pose proof (HD d) as HDd. rewrite Eq in HDd. destruct (m d) as [k|] eqn:Em; [|tauto].
      destruct (container_ok s a k _ t v HR HDd eq_refl Ea) as (b & l & c & Ec & Dc & D1 & D3 & D4 & D5 & F).
      set (n := Z.to_nat (box_size (t_lo t) (t_hi t))) in *.
      destruct (parallel_reads _ _ _ _ file F Df Cf) as (ht' & Er & W' & V1 & V2 & _).
      assert (Eh : heap_of s b = cut (heap_of s) b n b ++ skipn n l).
      { unfold cut. rewrite Nat.eqb_refl. unfold heap_of. rewrite D3. symmetry. apply firstn_skipn. }
      unfold parallel_read in Er.
      destruct (slabs_of c) as [sl| |] eqn:Esl; cbn [io_bind] in Er; try discriminate.
      destruct (pairs sl (d_dims file)) as [ps| |] eqn:Eps; cbn [io_bind] in Er; try discriminate.
      assert (Eb : g_block (c_grid c) = b) by (subst c; reflexivity). rewrite Eb in *.
      destruct (copy_in_extend b (skipn n l) (d_data file) ps (heap_of s) _ ht' Eh Er) as (h' & E' & Eh' & Len).
      unfold lstep. rewrite Em, Ec. unfold parallel_read. rewrite Esl. cbn [io_bind]. rewrite Eps. cbn [io_bind]. rewrite Eb, E'.
      eexists _, _. split; [reflexivity|]. split; [|split; reflexivity].
      pose proof HDd as (_ & _ & _ & I2 & _ & (T1 & T2 & T3 & T4)). cbn [a_field a_grid a_target] in *.
      cbn [lastep]. rewrite Eq, Ea.
      split; [|split; [|exact HO]]; cbn [fst snd].
      + assert (Ll : length (h' b) = length l).
        { rewrite Eh', app_length, Len. unfold cut. rewrite Nat.eqb_refl. unfold heap_of. rewrite D3, firstn_length, skipn_length. lia. }
        rewrite <- T3. apply (R_block s a hc (t_lo t) (t_hi t) v b l (h' b)); auto; try (rewrite T3; assumption).
        intros p v0 Hp Hv.
        assert (Gr : nth_error (h' b) (Z.to_nat (gp ord (t_lo t) (t_hi t) p)) = grid_read (c_grid c) ht' p).
        { subst c. cbn [c_grid] in *. rewrite grid_read_elem by assumption. pose proof (gp_bound ord _ _ p Hp) as Gb. unfold read_elem. cbn [g_block].
          change (g_pos (mkGrid ord b (t_lo t) (t_hi t)) p) with (gp ord (t_lo t) (t_hi t) p).
          destruct (Z.ltb_spec (gp ord (t_lo t) (t_hi t) p) 0); [lia|]. rewrite Eh'. apply nth_error_app1.
          rewrite Len. unfold cut. rewrite Nat.eqb_refl. unfold heap_of. rewrite D3, firstn_length. lia. }
        rewrite Gr. destruct (inside (t_ilo t) (t_ihi t) p) eqn:In0.
        * apply inside_in_box in In0. destruct (V1 p) as (v1 & Sv & Rv); [unfold local_to; subst c; exact In0|]. rewrite Rv.
          unfold stored in Sv. unfold in_file in Hv. congruence.
        * assert (~ local_to c p) as Nl by (unfold local_to; subst c; cbn; rewrite <- inside_in_box; congruence).
          rewrite V2; [|subst c; exact Hp|exact Nl]. destruct F as (W & _). subst c. cbn [c_grid] in *. unfold n. rewrite (cut_read s b l _ _ p D3 Hp W). now apply D5.
      + intros d0. specialize (HD d0). destruct (m d0) as [k0|], (q d0) as [q0|]; try exact HD.
        destruct HD as (F1 & F2 & J1 & J2 & Ne0 & T0). unfold diag_ok. cbn [a_live a_grp a_arr]. repeat (split; [assumption|]).
        destruct (a_target q0) as [t0|]; [exact T0|]. destruct T0 as (U1 & [U2 U3] & [U4 U5]). split; [exact U1|]. unfold lonely. cbn [a_live a_grp a_arr].
        split; (split; [assumption|]); rewrite upd_other; auto; intros E; [rewrite E in U3|rewrite E in U5]; congruence.
  Qed.

  (** ** Whole programs *)
  Theorem live_refines os : forall z w, LR z w -> llegal_run (is_lazy pol) os w ->
    exists z' l, lrun junk avg0 rank ord pol os z = Some (z', l) /\ lobs_run rank os w (seen l) /\ Forall2 snap_ok (files l) (outputs os w).
  Proof.
    induction os as [|o os IH]; intros z w HL Hl; cbn [lrun llegal_run] in *.
    - exists z, []. cbn. auto.
    - destruct Hl as [H1 H2]. destruct (lstep_ok o z w HL H1) as (z1 & l1 & -> & HL1 & Ho).
      destruct (IH z1 _ HL1 H2) as (z2 & l2 & -> & Ho2 & Hf). exists z2, (l1 ++ l2). split; [reflexivity|]. rewrite seen_app, files_app.
      destruct o; cbn [step_out] in Ho; cbn [lobs_run].
      + destruct Ho as [Ha Hb]. rewrite Hb. split; [exists (seen l1), (seen l2); auto|]. cbn [outputs app]. exact Hf.
      + destruct Ho as [-> ->]. auto.
      + destruct Ho as [-> ->]. auto.
      + destruct Ho as [-> Ho]. split; [exact Ho2|]. cbn [outputs] in *. rewrite app_nil_r in Ho. apply Forall2_app; assumption.
      + destruct Ho as [-> ->]. auto.
  Qed.

  (** The files written by several processes. *)
  Lemma live_files (zero : V) gmin gmax (progs : list (list (lop V))) (es : list output) n : progs <> [] ->
    Forall2 (fun prog e => llegal_run (is_lazy pol) prog lainit /\ nth_error (outputs prog lainit) n = Some e) progs es ->
    Forall (fun e => o_gmin e = gmin /\ o_gmax e = gmax) es -> apart es ->
    exists snaps ds,
      Forall2 (fun prog x => exists z l, lrun junk avg0 rank ord pol prog (linit avg0) = Some (z, l) /\ nth_error (files l) n = Some x) progs snaps /\
      parallel_write zero snaps = Done ds /\ d_dims ds = sizes gmin gmax /\
      forall e p v, In e es -> in_box (o_lo e) (o_hi e) p -> o_val e p = Some v -> stored ds (relative gmin p) v.
  Proof.
    intros Ne F Fg Ap.
    assert (exists snaps, Forall2 (fun prog x => exists z l, lrun junk avg0 rank ord pol prog (linit avg0) = Some (z, l) /\ nth_error (files l) n = Some x) progs snaps /\
      Forall2 snap_ok snaps es) as (snaps & Fs & Fo).
    { clear Ne Fg Ap. induction F as [|prog e progs es [Hl He] F IH]; [exists []; auto|].
      destruct IH as (snaps & A1 & A2). destruct (live_refines prog (linit avg0) lainit LR_init Hl) as (z & l & Er & _ & Hf).
      assert (exists x, nth_error (files l) n = Some x /\ snap_ok x e) as (x & Ex & Sx).
      { clear -Hf He. revert n He. induction Hf as [|x y lx ly Hxy Hf IH]; intros [|n] He; cbn in *; try discriminate; eauto. injection He as <-. eauto. }
      exists (x :: snaps). split; constructor; eauto. }
    assert (exists cut_snaps, Forall2 larger snaps cut_snaps /\ Forall (fun x => fits gmin gmax (fst x) (snd x)) cut_snaps /\
      disjoint (map fst cut_snaps) /\ Forall2 (fun x e => c_lmin (fst x) = o_lo e /\ c_lmax (fst x) = o_hi e /\
        forall p v, in_box (o_lo e) (o_hi e) p -> o_val e p = Some v -> grid_read (c_grid (fst x)) (snd x) p = Some v) cut_snaps es) as (cs & C1 & C2 & C3 & C4).
    { clear F Fs Ne. induction Fo as [|x e snaps es (ht & l2 & H1 & H2 & H3 & H4 & H5) Fo IH].
      - exists []. cbn. repeat split; auto.
      - inversion Fg as [|? ? [G1 G2] Fg']; subst. destruct Ap as [Ap0 Ap]. destruct (IH Fg' Ap) as (cs & C1 & C2 & C3 & C4).
        exists ((fst x, ht) :: cs). split; [constructor; [split; [reflexivity|exists l2; exact H2]|exact C1]|].
        split; [constructor; [exact H1|exact C2]|]. split; [|constructor; auto]. cbn [map fst disjoint]. split; [|exact C3].
        intros c' p Hc Hp Hp'. apply in_map_iff in Hc. destruct Hc as (y & <- & Hy).
        assert (exists e', In e' es /\ c_lmin (fst y) = o_lo e' /\ c_lmax (fst y) = o_hi e') as (e' & He' & L1 & L2).
        { clear -C4 Hy. induction C4 as [|a0 b0 la lb (Q1 & Q2 & _) C4 IH]; [destruct Hy|]. destruct Hy as [->|Hy]; [exists b0; cbn; auto|].
          destruct (IH Hy) as (e' & I1 & I2). exists e'. cbn; auto. }
        apply (Ap0 e' p He'); [rewrite <- H3, <- H4; exact Hp|rewrite <- L1, <- L2; exact Hp']. }
    destruct (parallel_written zero gmin gmax cs) as (ds & E & D & _ & St & _); auto.
    { intros ->. inversion C1; subst. inversion Fs; subst. congruence. }
    exists snaps, ds. split; [exact Fs|]. split; [exact (parallel_write_extend zero snaps cs ds C1 E)|]. split; [exact D|].
    intros e p v He Hp Hv.
    assert (exists x, In x cs /\ c_lmin (fst x) = o_lo e /\ c_lmax (fst x) = o_hi e /\ grid_read (c_grid (fst x)) (snd x) p = Some v) as ([c h] & Hx & L1 & L2 & Rd).
    { clear -C4 He Hp Hv. induction C4 as [|a0 b0 la lb (Q1 & Q2 & Q3) C4 IH]; [destruct He|]. destruct He as [->|He]; [exists a0; cbn; auto 6|].
      destruct (IH He) as (x & I1 & I2). exists x. cbn; auto. }
    cbn [fst snd] in *. destruct (St c h p Hx) as (v' & Rv & Sv); [unfold local_to; rewrite L1, L2; exact Hp|]. congruence.
  Qed.
End Live.
