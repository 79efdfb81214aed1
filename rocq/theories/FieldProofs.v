(** Proofs about fields. *)
From Coq Require Import QArith Qround Qfield Lqa.
From Verif Require Import Vec GridSpec StorageModel GridModel ShareModel ShareSpec ShareProofs FieldModel FieldSpec.
Open Scope Z_scope.

Section FP.
  Context {V A : Type}.
  Variable junk : V.
  Variable avg0 : A.
  Variable rank : nat.
  Variable ord : order.
  Variable pol : policy A.
  Hypothesis pol_ok : forall next shrink extra, pol = Lazy next shrink extra -> forall a, 0 <= extra a.

  Notation ast := (@ast V).

  Lemma run_refines_R os : forall s a, R rank ord pol s a -> alegal_run ord (assign_safe (is_lazy pol)) os a ->
    exists s' obs, run junk avg0 rank ord pol os s = Some (s', obs) /\ aobs_run rank os a obs /\
                   R rank ord pol s' (asteps os a).
  Proof.
    induction os as [|o os IH]; intros s a HR Hl; cbn [run alegal_run aobs_run] in *.
    - exists s, []. auto.
    - destruct Hl as (H1 & H2 & H3).
      destruct (step_refines junk avg0 rank ord pol pol_ok s a o HR H1 H2) as (s1 & o1 & -> & Ho1 & HR1).
      destruct (IH s1 _ HR1 H3) as (s2 & o2 & -> & Ho2 & HR2).
      exists s2, (o1 ++ o2). split; auto. split; [exists o1, o2; auto|exact HR2].
  Qed.

  Definition FI (s : @fst_ V A) (a : ast) (rq : nat -> option request) : Prop :=
    R rank ord pol (f_share s) a /\
    forall h, In h (a_live a) ->
      f_ghost s h = option_map snd (rq h) /\
      match rq h with
      | None => True
      | Some r => exists m, a_arr a (a_grp a h) = Some (fst (grown r), snd (grown r), m)
      end.

  Lemma field_bounds_size size g :
    field_lo_size size g = fst (grown (size_request size g)) /\ field_hi_size size g = snd (grown (size_request size g)).
  Proof.
    unfold field_lo_size, field_hi_size, grown, size_request. cbn [fst snd]. rewrite !map_map. split; [reflexivity|].
    apply map_ext. intros; lia.
  Qed.

  Lemma inner_grown lo hi g :
    inner_lo (fst (grown (lo, hi, g))) g = lo /\ inner_hi (snd (grown (lo, hi, g))) g = hi.
  Proof.
    unfold inner_lo, inner_hi, grown. cbn [fst snd]. rewrite !map_map.
    split; (etransitivity; [|apply map_id]); apply map_ext; intros; lia.
  Qed.

  Lemma FI_init : FI (finit avg0) ainit (fun _ => None).
  Proof. split; [apply R_init|]. simpl. tauto. Qed.

  (** resize of [h] to request [r] *)
  Lemma FI_resize s a rq h r : FI s a rq -> In h (a_live a) -> request_ok ord r -> alone h a ->
    exists s', run junk avg0 rank ord pol [Resize h (fst (grown r)) (snd (grown r))] (f_share s) = Some (s', []) /\
      FI (mkF s' (upd (f_ghost s) h (Some (snd r))))
         (astep (Resize h (fst (grown r)) (snd (grown r))) a) (upd rq h (Some r)).
  Proof.
    intros [HR HI] Hh Ok Al.
    assert (Sh : shape_ok ord (fst (grown r)) (snd (grown r))).
    { destruct r as [[lo hi] g]. destruct Ok as (_ & _ & _ & Sh). exact Sh. }
    destruct (run_refines_R [Resize h (fst (grown r)) (snd (grown r))] (f_share s) a HR) as (s' & obs & E & O & HR').
    { simpl. auto. }
    destruct O as (o1 & o2 & -> & -> & ->). exists s'. split; [exact E|]. split; [exact HR'|].
    cbn [f_ghost a_live astep]. intros y Hy. destruct (Nat.eq_dec y h) as [->|Ny].
    - rewrite !(upd_same _ h). split; [reflexivity|]. cbn [a_arr a_grp]. rewrite upd_same. eexists; reflexivity.
    - rewrite !(upd_other _ h _ y Ny). destruct (HI y Hy) as [G1 G2]. split; [exact G1|]. destruct (rq y) as [r'|]; [|exact I].
      cbn [a_arr a_grp]. rewrite upd_other; [exact G2|]. intros E'. apply Ny, Al; assumption.
  Qed.

  Lemma FI_new s a rq h : FI s a rq -> ~ In h (a_live a) ->
    exists s', run junk avg0 rank ord pol [New h] (f_share s) = Some (s', []) /\
      FI (mkF s' (upd (f_ghost s) h None)) (astep (New h) a) (upd rq h None) /\ alone h (astep (New h) a).
  Proof.
    intros [HR HI] Hh.
    destruct (run_refines_R [New h] (f_share s) a HR) as (s' & obs & E & O & HR').
    { simpl. auto. }
    destruct O as (o1 & o2 & -> & -> & ->). exists s'. split; [exact E|].
    assert (Lt : forall y, In y (a_live a) -> (a_grp a y < a_n a)%nat).
    { intros y Hy. apply (used_lt rank ord pol (f_share s) a); [exact HR|]. exists y; auto. }
    split; [split; [exact HR'|]|].
    - cbn [f_ghost a_live astep]. intros y [<-|Hy].
      + rewrite !upd_same. split; [reflexivity|exact I].
      + assert (Ny : y <> h) by congruence. rewrite !(upd_other _ _ _ _ Ny).
        destruct (HI y Hy) as [G1 G2]. split; [exact G1|]. destruct (rq y) as [r'|]; [|exact I].
        cbn [a_arr a_grp]. rewrite upd_other by (rewrite upd_other by exact Ny; specialize (Lt y Hy); lia).
        rewrite upd_other by exact Ny. exact G2.
    - unfold alone. cbn [a_live a_grp astep]. intros y [<-|Hy]; [reflexivity|].
      rewrite upd_same. unfold upd. destruct (Nat.eqb_spec y h); [auto|]. intros E'. specialize (Lt y Hy). lia.
  Qed.

  Lemma run_app os1 os2 s s1 l1 s2 l2 :
    run junk avg0 rank ord pol os1 s = Some (s1, l1) -> run junk avg0 rank ord pol os2 s1 = Some (s2, l2) ->
    run junk avg0 rank ord pol (os1 ++ os2) s = Some (s2, l1 ++ l2).
  Proof.
    revert s l1. induction os1 as [|o os1 IH]; cbn [run app]; intros s l1 E1 E2.
    - injection E1 as <- <-. exact E2.
    - destruct (step junk avg0 rank ord pol o s) as [[s' o']|]; [|discriminate].
      destruct (run junk avg0 rank ord pol os1 s') as [[s'' o'']|] eqn:E; [|discriminate].
      injection E1 as <- <-. rewrite (IH _ _ E E2). rewrite app_assoc. reflexivity.
  Qed.

  Lemma upd_idem {B} (f : nat -> B) k v w : forall x, upd (upd f k v) k w x = upd f k w x.
  Proof. intros x. unfold upd. destruct (Nat.eqb x k); reflexivity. Qed.

  Lemma FI_ext s g1 g2 a rq1 rq2 : (forall x, g1 x = g2 x) -> (forall x, rq1 x = rq2 x) ->
    FI (mkF s g1) a rq1 -> FI (mkF s g2) a rq2.
  Proof. intros E1 E2 [HR HI]. split; [exact HR|]. intros h Hh. cbn [f_ghost]. rewrite <- E1, <- E2. apply HI, Hh. Qed.

  Lemma fstep_refines s a rq o : FI s a rq -> flegal ord o a rq -> resize_alone (is_lazy pol) o a ->
    exists s', fstep junk avg0 rank ord pol o s = Some (s', fobs o rq) /\
               FI s' (asteps (share_ops o) a) (request_after o rq).
  Proof.
    intros HF Hl Ha. pose proof HF as [HR HI]. unfold fstep.
    destruct o as [h|h size g|h lo hi g|h src|h src|h|h size g|h lo hi g|h].
    - destruct (FI_new s a rq h HF Hl) as (s' & E & HF' & _). cbn [share_ops]. rewrite E. cbn [layout_obs].
      eexists. split; [reflexivity|]. exact HF'.
    - destruct Hl as [Hh Ok]. destruct (FI_new s a rq h HF Hh) as (s1 & E1 & HF1 & Al).
      destruct (FI_resize _ _ _ h (size_request size g) HF1) as (s2 & E2 & HF2); [simpl; auto|exact Ok|exact Al|].
      cbn [share_ops]. destruct (field_bounds_size size g) as [-> ->].
      pose proof (run_app [New h] _ _ _ _ _ _ E1 E2) as E3. cbn [app] in E3. rewrite E3. cbn [layout_obs app].
      eexists. split; [reflexivity|]. eapply FI_ext; [| |exact HF2]; intros x; cbn [f_ghost]; apply upd_idem.
    - destruct Hl as [Hh Ok]. destruct (FI_new s a rq h HF Hh) as (s1 & E1 & HF1 & Al).
      destruct (FI_resize _ _ _ h (lo, hi, g) HF1) as (s2 & E2 & HF2); [simpl; auto|exact Ok|exact Al|].
      cbn [share_ops]. change (field_lo lo g) with (fst (grown (lo, hi, g))). change (field_hi hi g) with (snd (grown (lo, hi, g))).
      pose proof (run_app [New h] _ _ _ _ _ _ E1 E2) as E3. cbn [app] in E3. rewrite E3. cbn [layout_obs app].
      eexists. split; [reflexivity|]. eapply FI_ext; [| |exact HF2]; intros x; cbn [f_ghost]; apply upd_idem.
    - destruct Hl as [Hh Hs]. cbn [share_ops].
      destruct (run_refines_R [Copy h src] (f_share s) a HR) as (s' & obs & E & O & HR').
      { simpl. auto. }
      destruct O as (o1 & o2 & -> & -> & ->). rewrite E. cbn [layout_obs app].
      eexists. split; [reflexivity|]. split; [exact HR'|].
      cbn [f_ghost asteps fold_left astep a_live a_grp a_arr ghost_after request_after].
      intros y Hy. unfold upd. destruct (Nat.eqb_spec y h) as [->|Ny].
      + apply (HI src Hs).
      + destruct Hy as [Hy|Hy]; [congruence|]. apply (HI y Hy).
    - destruct Hl as [Hh Hs]. cbn [share_ops].
      destruct (run_refines_R [Assign h src] (f_share s) a HR) as (s' & obs & E & O & HR').
      { simpl. auto. }
      destruct O as (o1 & o2 & -> & -> & ->). rewrite E. cbn [layout_obs app].
      eexists. split; [reflexivity|]. split; [exact HR'|].
      cbn [f_ghost asteps fold_left astep a_live a_grp a_arr ghost_after request_after].
      intros y Hy. unfold upd. destruct (Nat.eqb_spec y h) as [->|Ny].
      + apply (HI src Hs).
      + apply (HI y Hy).
    - cbn [share_ops]. simpl in Hl.
      destruct (run_refines_R [Destroy h] (f_share s) a HR) as (s' & obs & E & O & HR').
      { simpl. auto. }
      destruct O as (o1 & o2 & -> & -> & ->). rewrite E. cbn [layout_obs app].
      eexists. split; [reflexivity|]. split; [exact HR'|].
      cbn [f_ghost asteps fold_left astep a_live a_grp a_arr ghost_after request_after].
      intros y Hy. apply rem_In in Hy. apply (HI y), Hy.
    - destruct Hl as [Hh Ok]. destruct (FI_resize _ _ _ h (size_request size g) HF Hh Ok Ha) as (s2 & E2 & HF2).
      cbn [share_ops]. destruct (field_bounds_size size g) as [-> ->]. rewrite E2. cbn [layout_obs].
      eexists. split; [reflexivity|]. exact HF2.
    - destruct Hl as [Hh Ok]. destruct (FI_resize _ _ _ h (lo, hi, g) HF Hh Ok Ha) as (s2 & E2 & HF2).
      cbn [share_ops]. change (field_lo lo g) with (fst (grown (lo, hi, g))). change (field_hi hi g) with (snd (grown (lo, hi, g))).
      rewrite E2. cbn [layout_obs].
      eexists. split; [reflexivity|]. exact HF2.
    - destruct Hl as [Hh Hr]. cbn [share_ops].
      destruct (run_refines_R [Bounds h] (f_share s) a HR) as (s' & obs & E & O & HR').
      { simpl. auto. }
      destruct O as (o1 & o2 & -> & -> & ->). rewrite E. destruct (HI h Hh) as [G1 G2].
      destruct (rq h) as [[[lo hi] g]|] eqn:Er; [|congruence]. destruct G2 as [m G2]. rewrite G2.
      cbn [app layout_obs]. rewrite G1. cbn [option_map snd]. destruct (inner_grown lo hi g) as [-> ->].
      eexists. split; [unfold fobs; rewrite Er; reflexivity|]. split; [exact HR'|exact HI].
  Qed.

  Theorem field_layout os : forall s a rq, FI s a rq -> flegal_run ord (resize_alone (is_lazy pol)) os a rq ->
    exists s', frun junk avg0 rank ord pol os s = Some (s', fobs_run os rq).
  Proof.
    induction os as [|o os IH]; intros s a rq HF Hl; cbn [frun flegal_run fobs_run] in *.
    - eexists; reflexivity.
    - destruct Hl as (H1 & H2 & H3). destruct (fstep_refines s a rq o HF H1 H2) as (s1 & -> & HF1).
      destruct (IH _ _ _ HF1 H3) as (s2 & ->). eexists; reflexivity.
  Qed.
End FP.

(** ** Positions in exact arithmetic *)
Section Pos.
  Open Scope Q_scope.

  Lemma inject_Z_minus a b : inject_Z (a - b) == inject_Z a - inject_Z b.
  Proof. unfold Z.sub. rewrite inject_Z_plus, inject_Z_opp. reflexivity. Qed.

  Lemma xnorm_q f x : ~ fd_dhi f == fd_dlo f ->
    xnorm q_arith f x ==
    (x - fd_dlo f) * inject_Z (cells f) / (fd_dhi f - fd_dlo f) - (1 # 2) * inject_Z (stag_int f)
      + inject_Z (fd_g f) + inject_Z (fd_lo f).
  Proof. intros H. unfold xnorm. simpl. reflexivity. Qed.

  Lemma nonzero_sub x y : ~ x == y -> ~ x - y == 0.
  Proof. intros H E. apply H. setoid_replace x with (x - y + y) by ring. rewrite E. ring. Qed.

  Lemma cells_nonzero (f : fdim Q) : (0 < cells f)%Z -> ~ inject_Z (cells f) == 0.
  Proof. intros H E. unfold inject_Z, Qeq in E. simpl in E. lia. Qed.

  Lemma xnorm_index f i : ~ fd_dhi f == fd_dlo f -> (0 < cells f)%Z ->
    xnorm q_arith f (index_to_position q_arith f i) == inject_Z i.
  Proof.
    intros H Hc. rewrite xnorm_q by exact H. unfold index_to_position. simpl.
    rewrite !inject_Z_minus. field. split; [apply cells_nonzero, Hc|apply nonzero_sub, H].
  Qed.

  Lemma Qfloor_inject (q : Q) i : q == inject_Z i -> Qfloor q = i.
  Proof. intros E. rewrite (Qfloor_comp q (inject_Z i) E). apply Qfloor_Z. Qed.

  Lemma round_trip_exact f i : ~ fd_dhi f == fd_dlo f -> (0 < cells f)%Z ->
    exists o, position_to_index q_arith f (index_to_position q_arith f i) = Some (i, o) /\ o == 0.
  Proof.
    intros H Hc. pose proof (xnorm_index f i H Hc) as E. unfold position_to_index.
    cbn [q_arith pa_floor pa_sub pa_of_int]. rewrite (Qfloor_inject _ _ E).
    eexists. split; [reflexivity|]. change (xnorm q_arith f (index_to_position q_arith f i) - inject_Z i == 0). rewrite E. ring.
  Qed.

  Lemma itp_q f i :
    index_to_position q_arith f i ==
    (fd_dhi f - fd_dlo f) * (inject_Z (i - fd_lo f) + (1 # 2) * inject_Z (stag_int f) - inject_Z (fd_g f)) / inject_Z (cells f) + fd_dlo f.
  Proof. reflexivity. Qed.

  (** The position as a function of [xnorm]. *)
  Lemma pos_of_xnorm f x : ~ fd_dhi f == fd_dlo f -> (0 < cells f)%Z ->
    x == (fd_dhi f - fd_dlo f) * (xnorm q_arith f x - inject_Z (fd_lo f) + (1 # 2) * inject_Z (stag_int f) - inject_Z (fd_g f)) / inject_Z (cells f) + fd_dlo f.
  Proof.
    intros H Hc. rewrite xnorm_q by exact H. field. split; [apply nonzero_sub, H|apply cells_nonzero, Hc].
  Qed.

  Lemma affine_mono w k c d u v : 0 < w -> 0 < k -> u <= v -> w * (u - c) / k + d <= w * (v - c) / k + d.
  Proof.
    intros Hw Hk Huv. apply Qplus_le_l. unfold Qdiv. apply Qmult_le_compat_r; [|apply Qlt_le_weak, Qinv_lt_0_compat, Hk].
    rewrite !(Qmult_comm w). apply Qmult_le_compat_r; [|apply Qlt_le_weak, Hw]. apply Qplus_le_l. exact Huv.
  Qed.
  Lemma affine_smono w k c d u v : 0 < w -> 0 < k -> u < v -> w * (u - c) / k + d < w * (v - c) / k + d.
  Proof.
    intros Hw Hk Huv. apply Qplus_lt_l. unfold Qdiv. apply Qmult_lt_compat_r; [apply Qinv_lt_0_compat, Hk|].
    rewrite !(Qmult_comm w). apply Qmult_lt_compat_r; [exact Hw|]. apply Qplus_lt_l. exact Huv.
  Qed.

  (** The index found is that of the grid point at or left of the position. *)
  Lemma index_left f x : fd_dlo f < fd_dhi f -> (0 < cells f)%Z ->
    exists i o, position_to_index q_arith f x = Some (i, o) /\
      index_to_position q_arith f i <= x /\ x < index_to_position q_arith f (i + 1) /\
      0 <= o /\ o < 1 /\
      x == (1 - o) * index_to_position q_arith f i + o * index_to_position q_arith f (i + 1).
  Proof.
    intros H Hc. assert (Hn : ~ fd_dhi f == fd_dlo f) by (intros E; rewrite E in H; apply (Qlt_irrefl _ H)).
    assert (Hw : 0 < fd_dhi f - fd_dlo f) by (apply (Qplus_lt_l _ _ (fd_dlo f)); ring_simplify; exact H).
    assert (Hk : 0 < inject_Z (cells f)) by (unfold Qlt, inject_Z; simpl; lia).
    set (X := xnorm q_arith f x). exists (Qfloor X), (X - inject_Z (Qfloor X)).
    pose proof (Qfloor_le X) as F1. pose proof (Qlt_floor X) as F2. rewrite inject_Z_plus in F2.
    set (c := inject_Z (fd_lo f) - (1 # 2) * inject_Z (stag_int f) + inject_Z (fd_g f)).
    assert (Ex : x == (fd_dhi f - fd_dlo f) * (X - c) / inject_Z (cells f) + fd_dlo f).
    { rewrite (pos_of_xnorm f x Hn Hc) at 1. fold X. unfold c. field. apply cells_nonzero, Hc. }
    assert (Ei : forall i, index_to_position q_arith f i == (fd_dhi f - fd_dlo f) * (inject_Z i - c) / inject_Z (cells f) + fd_dlo f).
    { intros i. rewrite itp_q, inject_Z_minus. unfold c. field. apply cells_nonzero, Hc. }
    split; [reflexivity|].
    split; [rewrite Ei, Ex; apply affine_mono; assumption|].
    split; [rewrite Ei, inject_Z_plus, Ex; apply affine_smono; assumption|].
    change (inject_Z 1) with 1 in F2. split; [lra|]. split; [lra|].
    rewrite !Ei, inject_Z_plus. rewrite Ex at 1. change (inject_Z 1) with 1. field. apply cells_nonzero, Hc.
  Qed.

  (** Where the grid points lie. *)
  Lemma positions ilo ihi g (stag : bool) dlo dhi i : (ilo <= ihi)%Z ->
    index_to_position q_arith (mkFD Q (ilo - g) (ihi + g) g stag dlo dhi) i ==
    dlo + (inject_Z (i - ilo) + (if stag then 1 # 2 else 0)) * ((dhi - dlo) / inject_Z (ihi - ilo + 1)).
  Proof.
    intros H. rewrite itp_q. cbn [fd_lo fd_hi fd_g fd_stag fd_dlo fd_dhi].
    assert (E : cells (mkFD Q (ilo - g) (ihi + g) g stag dlo dhi) = (ihi - ilo + 1)%Z) by (unfold cells; cbn [fd_hi fd_lo fd_g]; lia).
    rewrite E. assert (Hn : ~ inject_Z (ihi - ilo + 1) == 0) by (unfold Qeq, inject_Z; cbn; lia).
    rewrite !inject_Z_minus. destruct stag.
    - change (inject_Z (stag_int _)) with 1. field. exact Hn.
    - change (inject_Z (stag_int _)) with 0. field. exact Hn.
  Qed.
End Pos.
