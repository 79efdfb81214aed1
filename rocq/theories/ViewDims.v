(** What a view reports about itself after a history of operations (C21). *)
From Verif Require Import Vec GridSpec RangeModel StorageModel BoxFacts RangeProofs GridModel GridOpSpec GridProofs BoundaryModel BoundarySpec BoundaryProofs SubGridProofs BoundaryExamples.

(** The range given last, by the constructor or by a resize. *)
Definition last_range {V} (os : list (vop V)) (lo hi : vec) : vec * vec :=
  fold_left (fun r o => match o with VResize l h => (l, h) | _ => r end) os (lo, hi).

Lemma view_kept V cv cb fuel (os : list (vop V)) : forall s h s' h' out,
  sub_run cv cb fuel os s h = Some (Some (s', h', out)) ->
  sg_base s' = sg_base s /\ sg_dims s' = sg_dims s /\ (sg_lo s', sg_hi s') = last_range os (sg_lo s) (sg_hi s).
Proof.
  induction os as [|o os IH]; intros s h s' h' out H; simpl in H.
  - injection H as <- <- <-. repeat split.
  - unfold last_range. simpl fold_left. destruct o as [p|p v|v|lo hi].
    + destruct (sub_read cv cb s h p); [|discriminate].
      destruct (sub_run cv cb fuel os s h) as [[[[s1 h1] o1]|]|] eqn:E; try discriminate.
      injection H as <- <- <-. exact (IH _ _ _ _ _ E).
    + destruct (sub_write cv cb s h p v); [|discriminate]. exact (IH _ _ _ _ _ H).
    + destruct (sub_fill fuel s v h) as [[h1|]|]; try discriminate. exact (IH _ _ _ _ _ H).
    + apply IH in H. exact H.
Qed.

Lemma view_reports V cv cb fuel (os : list (vop V)) g lo hi h s' h' out :
  length hi = length lo ->
  sub_run cv cb fuel os (sub_new g lo hi) h = Some (Some (s', h', out)) ->
  sg_base s' = g /\ (sg_lo s', sg_hi s') = last_range os lo hi /\
  forall i, (i < length lo)%nat -> vget (sg_dims s') i = vget hi i - vget lo i + 1.
Proof.
  intros L H. apply view_kept in H. destruct H as (B & D & R). split; [exact B|]. split; [exact R|].
  intros i Hi. rewrite D. exact (dims_spec lo hi i L Hi).
Qed.

(** The debug policy uses the nearest cell of the range. *)
Lemma debug_nearest d pos lo hi : length lo = length pos -> box_ok lo hi ->
  length (fst (debug_check d pos lo hi)) = length pos /\
  forall i, (i < length pos)%nat ->
    vget (fst (debug_check d pos lo hi)) i = Z.max (vget lo i) (Z.min (vget hi i) (vget pos i)).
Proof.
  intros L Ok. pose proof (debug_loop_inv pos lo hi d (length pos) (le_n _) L Ok) as H. unfold debug_check.
  destruct (fold_left _ _ _) as [pc d']. destruct H as (H1 & H2 & _). split; [exact H1|exact H2].
Qed.

Lemma index_nearest cv cb g lo hi dims p q : box_ok lo hi -> length p = length lo -> length q = length lo ->
  (forall i, (i < length lo)%nat -> vget q i = Z.max (vget lo i) (Z.min (vget hi i) (vget p i))) ->
  in_box lo hi q /\
  (cv = CkDebug \/ cv = CkNone /\ cb = CkDebug -> sub_index cv cb (mkSub g lo hi dims) p = Some q) /\
  (cv = CkAssert \/ cv = CkNone /\ cb = CkAssert -> ~ in_box lo hi p -> sub_index cv cb (mkSub g lo hi dims) p = None).
Proof.
  intros Ok Lp Lq Hq. pose proof (proj1 (box_ok_vget lo hi) Ok) as [Lh Hlh].
  assert (Q : in_box lo hi q).
  { apply in_box_vget. split; [exact Lh|]. split; [exact Lq|]. intros i Hi. rewrite (Hq i Hi). specialize (Hlh i Hi). lia. }
  assert (D : run_check CkDebug p lo hi = Some q).
  { cbn [run_check]. f_equal. destruct (debug_nearest (mkDbg false 0 []) p lo hi (eq_sym Lp) Ok) as [A B].
    apply vec_ext; [congruence|]. intros i Hi. rewrite A in Hi. rewrite B by exact Hi. symmetry. apply Hq. lia. }
  split; [exact Q|]. unfold sub_index. cbn [sg_lo sg_hi]. split.
  - intros [->|[-> ->]].
    + rewrite D. apply run_check_in, Q.
    + cbn [run_check] in *. unfold noarg_check. exact D.
  - intros H N. pose proof (proj2 (assert_check_spec p lo hi (eq_sym Lp) ltac:(congruence)) N) as E.
    destruct H as [->|[-> ->]]; cbn [run_check]; unfold noarg_check; rewrite E; reflexivity.
Qed.

Lemma access_outside V cv cb g lo hi dims p q (v : V) (h : heap V) m :
  represents g h m -> view_range g lo hi -> length p = length lo -> length q = length lo ->
  (forall i, (i < length lo)%nat -> vget q i = Z.max (vget lo i) (Z.min (vget hi i) (vget p i))) ->
  (cv = CkDebug \/ cv = CkNone /\ cb = CkDebug ->
     sub_read cv cb (mkSub g lo hi dims) h p = Some (m q) /\
     exists h', sub_write cv cb (mkSub g lo hi dims) h p v = Some h' /\ grid_read g h' q = Some v /\
       forall x, in_box (g_lo g) (g_hi g) x -> x <> q -> grid_read g h' x = Some (m x)) /\
  (cv = CkAssert \/ cv = CkNone /\ cb = CkAssert -> ~ in_box lo hi p ->
     sub_read cv cb (mkSub g lo hi dims) h p = None /\ sub_write cv cb (mkSub g lo hi dims) h p v = None).
Proof.
  intros R [Ok Ins] Lp Lq Hq. destruct (index_nearest cv cb g lo hi dims p q Ok Lp Lq Hq) as (Q & I1 & I2).
  unfold sub_read, sub_write. cbn [sg_base]. split.
  - intros H. rewrite (I1 H). split; [exact (proj2 R q (Ins q Q))|].
    destruct (rep_write g h m q v R (Ins q Q)) as (h' & -> & R' & _). exists h'. split; [reflexivity|].
    split; [rewrite (proj2 R' q (Ins q Q)), veqb_refl; reflexivity|].
    intros x Hx N. rewrite (proj2 R' x Hx), veqb_neq by exact N. reflexivity.
  - intros H N. rewrite (I2 H N). split; reflexivity.
Qed.
