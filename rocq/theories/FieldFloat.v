(** Positions and indices of fields in rounded arithmetic. *)
From Coq Require Import ZArith Reals Lra Lia Floats.SpecFloat.
From Flocq Require Import Core Relative.
From Verif Require Import FieldModel MpiFloatModel MpiFloat FieldFloatModel.
Open Scope R_scope.

Definition dbl (x : R) : Prop := generic_format radix2 (FLT_exp (-1074) 53) x.
Definition uu : R := / 9007199254740992.            (* 2^-53 *)
Definition eta : R := bpow radix2 (-1075).
Local Instance p53 : Prec_gt_0 53 := eq_refl.

Lemma rnd_dbl x : dbl (rnd64 x).
Proof. apply generic_format_round; [apply FLT_exp_valid; reflexivity|apply valid_rnd_N]. Qed.
Lemma rnd_id x : dbl x -> rnd64 x = x.
Proof. intros H. apply round_generic; [apply valid_rnd_N|exact H]. Qed.
Lemma eta_pos : 0 < eta.
Proof. apply bpow_gt_0. Qed.

(** The error of one operation. *)
Lemma err x : Rabs (rnd64 x - x) <= uu * Rabs x + eta.
Proof.
  destruct (error_N_FLT radix2 (-1074) 53 ltac:(reflexivity) (fun x => negb (Z.even x)) x) as (e & t & He & Ht & _ & E).
  change (rnd64 x = x * (1 + e) + t) in E. rewrite E. replace (x * (1 + e) + t - x) with (x * e + t) by ring.
  eapply Rle_trans; [apply Rabs_triang|]. apply Rplus_le_compat.
  - rewrite Rabs_mult, Rmult_comm. apply Rmult_le_compat_r; [apply Rabs_pos|]. eapply Rle_trans; [exact He|].
    unfold u_ro. change (bpow radix2 (- (53) + 1)) with (/ 4503599627370496). unfold uu. lra.
  - eapply Rle_trans; [exact Ht|]. right. unfold eta. change (/ 2) with (bpow radix2 (-1)). rewrite <- bpow_plus. reflexivity.
Qed.
Lemma errb x M : Rabs x <= M -> Rabs (rnd64 x - x) <= uu * M + eta.
Proof.
  intros H. eapply Rle_trans; [apply err|]. apply Rplus_le_compat_r. apply Rmult_le_compat_l; [unfold uu; lra|exact H].
Qed.

(** Multiples of 2^-11 up to 2^41 are binary64 numbers. *)
Lemma rnd_grain z : (Z.abs z < 2 ^ 53)%Z -> rnd64 (IZR z / 2048) = IZR z / 2048.
Proof.
  intros H. apply rnd_id. replace (IZR z / 2048) with (F2R (Float radix2 z (-11))).
  - apply generic_format_FLT. exists (Float radix2 z (-11)); [reflexivity|exact H|cbn; lia].
  - unfold F2R. cbn [Fnum Fexp]. change (bpow radix2 (-11)) with (/ 2048). reflexivity.
Qed.

Lemma bound_abs x M : - M <= x <= M -> Rabs x <= M.
Proof. intros H. now apply Rabs_le. Qed.
Lemma abs_bound x M : Rabs x <= M -> - M <= x <= M.
Proof. intros H. apply Rabs_le_inv. exact H. Qed.

Section Field.
  Variable f : fdim R.
  Let D := fd_dhi f - fd_dlo f.
  Let n := IZR (cells f).
  Let h := D / n.
  Hypothesis D_pos : bpow radix2 (-900) <= D.
  Hypothesis n_ok : (1 <= cells f <= 2 ^ 31)%Z.
  Hypothesis dlo_ok : Rabs (fd_dlo f) <= 1099511627776 * h.        (* 2^40 *)

  Lemma n_bound : 1 <= n <= 2147483648.
  Proof. unfold n. split; apply IZR_le; lia. Qed.
  Lemma D_big : 0 < D.
  Proof. eapply Rlt_le_trans; [|exact D_pos]. apply bpow_gt_0. Qed.
  Lemma h_n : h * n = D.
  Proof. unfold h. pose proof n_bound. field. lra. Qed.
  Lemma h_pos : 0 < h.
  Proof. pose proof n_bound. pose proof D_big. unfold h. apply Rmult_lt_0_compat; [lra|]. apply Rinv_0_lt_compat. lra. Qed.
  Lemma h_le_D : h <= D.
  Proof.
    pose proof n_bound. pose proof h_pos. rewrite <- h_n. rewrite <- (Rmult_1_r h) at 1. apply Rmult_le_compat_l; lra.
  Qed.
  Lemma eta_h : eta <= uu * h.
  Proof.
    pose proof n_bound as [N1 N2]. apply Rmult_le_reg_r with n; [lra|]. rewrite Rmult_assoc, h_n.
    apply Rle_trans with (eta * 2147483648); [apply Rmult_le_compat_l; [apply Rlt_le, eta_pos|exact N2]|].
    apply Rle_trans with (uu * bpow radix2 (-900)); [|apply Rmult_le_compat_l; [unfold uu; lra|exact D_pos]].
    unfold eta, uu. change 2147483648 with (bpow radix2 31). change (/ 9007199254740992) with (bpow radix2 (-53)).
    rewrite <- !bpow_plus. apply bpow_le. lia.
  Qed.
  Lemma eta_one : eta <= uu.
  Proof. unfold eta, uu. change (/ 9007199254740992) with (bpow radix2 (-53)). apply bpow_le. lia. Qed.

  Let L := rnd64 (fd_dhi f - fd_dlo f).
  Lemma L_close : Rabs (L - D) <= 2 * uu * D.
  Proof.
    pose proof (err D) as E. fold L. pose proof D_big. pose proof eta_h. pose proof h_le_D. pose proof h_pos.
    change (rnd64 D) with L in E. rewrite (Rabs_pos_eq D) in E by lra.
    assert (uu * h <= uu * D) by (apply Rmult_le_compat_l; [unfold uu; lra|assumption]). lra.
  Qed.
  Lemma n_rnd : rnd64 (IZR (cells f)) = n.
  Proof. apply rnd_int. lia. Qed.

  (** From a position to the normalised coordinate: [t] cells from the low end of the domain. *)
  Definition norm (x : R) : R := rnd64 (rnd64 (rnd64 (x - fd_dlo f) * n) / L).
  Lemma norm_close x t : Rabs t <= 8589934592 -> Rabs (x - fd_dlo f - h * t) <= / 4000 * h -> Rabs (norm x - t) <= / 2048.
  Proof.
    intros Ht Hx. pose proof n_bound as [N1 N2]. pose proof D_big as PD. pose proof h_pos as Ph. pose proof eta_h as Eh. pose proof eta_one as E1.
    pose proof h_le_D as HD. pose proof L_close as HL. apply abs_bound in HL, Ht, Hx.
    assert (B1 : Rabs (h * t) <= 8589934592 * h).
    { rewrite Rabs_mult, (Rabs_pos_eq h) by lra. rewrite Rmult_comm. apply Rmult_le_compat_r; [lra|apply bound_abs; lra]. }
    apply abs_bound in B1.
    unfold norm. set (C := rnd64 (x - fd_dlo f)).
    assert (HC : Rabs (C - h * t) <= / 3980 * h).
    { assert (HC1 : Rabs (C - (x - fd_dlo f)) <= uu * (8589934593 * h) + eta).
      { apply errb. apply bound_abs. lra. }
      apply abs_bound in HC1. apply bound_abs. unfold uu in *. lra. }
    assert (HCn : Rabs (C * n - D * t) <= / 3980 * D).
    { replace (C * n - D * t) with ((C - h * t) * n) by (rewrite <- h_n; ring). rewrite Rabs_mult, (Rabs_pos_eq n) by lra.
      rewrite <- h_n, <- Rmult_assoc. apply Rmult_le_compat_r; [lra|exact HC]. }
    set (Ev := rnd64 (C * n)).
    assert (B2 : Rabs (D * t) <= 8589934592 * D).
    { rewrite Rabs_mult, (Rabs_pos_eq D) by lra. rewrite Rmult_comm. apply Rmult_le_compat_r; [lra|apply bound_abs; lra]. }
    assert (EhD : uu * h <= uu * D) by (apply Rmult_le_compat_l; [unfold uu; lra|assumption]).
    apply abs_bound in B2, HCn.
    assert (HE : Rabs (Ev - D * t) <= / 3960 * D).
    { assert (HE1 : Rabs (Ev - C * n) <= uu * (8589934593 * D) + eta) by (apply errb; apply bound_abs; lra).
      apply abs_bound in HE1. apply bound_abs. unfold uu in *. lra. }
    apply abs_bound in HE.
    assert (HLp : 0 < L) by (unfold uu in *; lra).
    assert (HLt : Rabs (L * t - D * t) <= 2 * uu * D * 8589934592).
    { replace (L * t - D * t) with ((L - D) * t) by ring. rewrite Rabs_mult. apply Rmult_le_compat; try apply Rabs_pos; apply bound_abs; lra. }
    apply abs_bound in HLt.
    assert (HQ : Rabs (Ev / L - t) <= / 3800).
    { replace (Ev / L - t) with ((Ev - L * t) / L) by (field; lra). unfold Rdiv. rewrite Rabs_mult, Rabs_inv, (Rabs_pos_eq L) by lra.
      apply Rmult_le_reg_r with L; [exact HLp|]. rewrite Rmult_assoc, Rinv_l, Rmult_1_r by lra.
      apply bound_abs. unfold uu in *. lra. }
    apply abs_bound in HQ.
    assert (HY : Rabs (rnd64 (Ev / L) - Ev / L) <= uu * 8589934593 + eta) by (apply errb; apply bound_abs; lra).
    apply abs_bound in HY. apply bound_abs. unfold uu in *. lra.
  Qed.

  (** From cell coordinates to the position. *)
  Definition place (k : R) : R := rnd64 (rnd64 (rnd64 (L * k) / n) + fd_dlo f).
  Lemma place_close k : Rabs k <= 8589934592 -> Rabs (place k - (fd_dlo f + h * k)) <= / 4000 * h.
  Proof.
    intros Hk. pose proof n_bound as [N1 N2]. pose proof D_big as PD. pose proof h_pos as Ph. pose proof eta_h as Eh. pose proof eta_one as E1.
    pose proof h_le_D as HD. pose proof L_close as HL. apply abs_bound in HL, Hk.
    assert (EhD : uu * h <= uu * D) by (apply Rmult_le_compat_l; [unfold uu; lra|assumption]).
    unfold place. set (A := rnd64 (L * k)).
    assert (B2 : Rabs (D * k) <= 8589934592 * D).
    { rewrite Rabs_mult, (Rabs_pos_eq D) by lra. rewrite Rmult_comm. apply Rmult_le_compat_r; [lra|apply bound_abs; lra]. }
    assert (HLt : Rabs (L * k - D * k) <= 2 * uu * D * 8589934592).
    { replace (L * k - D * k) with ((L - D) * k) by ring. rewrite Rabs_mult. apply Rmult_le_compat; try apply Rabs_pos; apply bound_abs; lra. }
    apply abs_bound in HLt, B2.
    assert (HA : Rabs (A - D * k) <= 4 * uu * 8589934592 * D).
    { assert (HA1 : Rabs (A - L * k) <= uu * (8589934593 * D) + eta) by (apply errb; apply bound_abs; unfold uu in *; lra).
      apply abs_bound in HA1. apply bound_abs. unfold uu in *. lra. }
    assert (HAn : Rabs (A / n - h * k) <= 4 * uu * 8589934592 * h).
    { replace (A / n - h * k) with ((A - D * k) * / n) by (rewrite <- h_n; field; lra). rewrite Rabs_mult, Rabs_inv, (Rabs_pos_eq n) by lra.
      apply Rmult_le_reg_r with n; [lra|]. rewrite Rmult_assoc, Rinv_l, Rmult_1_r by lra. rewrite Rmult_assoc, h_n. exact HA. }
    assert (B1 : Rabs (h * k) <= 8589934592 * h).
    { rewrite Rabs_mult, (Rabs_pos_eq h) by lra. rewrite Rmult_comm. apply Rmult_le_compat_r; [lra|apply bound_abs; lra]. }
    apply abs_bound in HAn, B1. set (B := rnd64 (A / n)).
    assert (HB : Rabs (B - h * k) <= 8 * uu * 8589934592 * h).
    { assert (HB1 : Rabs (B - A / n) <= uu * (8589934593 * h) + eta) by (apply errb; apply bound_abs; unfold uu in *; lra).
      apply abs_bound in HB1. apply bound_abs. unfold uu in *. lra. }
    apply abs_bound in HB. pose proof (abs_bound _ _ dlo_ok) as Hd.
    assert (HP : Rabs (rnd64 (B + fd_dlo f) - (B + fd_dlo f)) <= uu * (1108101562370 * h) + eta) by (apply errb; apply bound_abs; unfold uu in *; lra).
    apply abs_bound in HP. apply bound_abs. unfold uu in *. lra.
  Qed.

  Let s := (if fd_stag f then / 2 else 0).
  Lemma stag_rnd : rnd64 (/ 2 * rnd64 (IZR (stag_int f))) = s.
  Proof.
    unfold stag_int, s. destruct (fd_stag f).
    - rewrite (rnd_int 1) by reflexivity. replace (/ 2 * 1) with (IZR 1024 / 2048) by lra. rewrite rnd_grain by reflexivity. lra.
    - rewrite (rnd_int 0) by reflexivity. rewrite Rmult_0_r. apply (rnd_int 0). reflexivity.
  Qed.
  Lemma s_grain : exists z, (0 <= z <= 1024)%Z /\ s = IZR z / 2048.
  Proof. unfold s. destruct (fd_stag f); [exists 1024%Z|exists 0%Z]; (split; [lia|lra]). Qed.

  Hypothesis lo_ok : (Z.abs (fd_lo f) <= 2 ^ 31)%Z.
  Hypothesis g_ok : (0 <= fd_g f <= 2 ^ 31)%Z.

  Lemma xnorm_is x : xnorm r64_arith f x = rnd64 (rnd64 (rnd64 (norm x - s) + IZR (fd_g f)) + IZR (fd_lo f)).
  Proof.
    unfold xnorm. cbn [r64_arith pa_add pa_sub pa_mul pa_div pa_of_int pa_half]. rewrite stag_rnd, n_rnd.
    rewrite (rnd_int (fd_g f)), (rnd_int (fd_lo f)) by lia. reflexivity.
  Qed.
  (** Rounding to the nearest keeps bounds that are multiples of 2^-11. *)
  Lemma rnd_between x a b : (Z.abs a < 2 ^ 53)%Z -> (Z.abs b < 2 ^ 53)%Z -> IZR a / 2048 <= x <= IZR b / 2048 ->
    IZR a / 2048 <= rnd64 x <= IZR b / 2048.
  Proof.
    intros Ha Hb [H1 H2]. split; [rewrite <- (rnd_grain a Ha)|rewrite <- (rnd_grain b Hb)]; apply rnd_le; assumption.
  Qed.

  (** Any position: the cell returned contains it up to a small part of a cell, and so does the offset. *)
  Lemma any_position x : Rabs (x - fd_dlo f) <= 8589934592 * h ->
    exists j o, position_to_index r64_arith f x = Some (j, o) /\ 0 <= o <= 1 /\
      Rabs (x - (fd_dlo f + h * (IZR (j - fd_lo f - fd_g f) + s + o))) <= / 1000 * h.
  Proof.
    intros Hx. pose proof h_pos as Ph. pose proof eta_one as E1. set (t := (x - fd_dlo f) / h).
    assert (Et : h * t = x - fd_dlo f) by (unfold t; field; lra).
    assert (Ht : Rabs t <= 8589934592).
    { apply Rmult_le_reg_l with h; [exact Ph|]. rewrite <- (Rabs_pos_eq h) at 1 by lra. rewrite <- Rabs_mult, Et. lra. }
    assert (HN : Rabs (norm x - t) <= / 2048) by (apply norm_close; [exact Ht|rewrite Et; apply bound_abs; lra]).
    apply abs_bound in HN, Ht. destruct s_grain as (z & Hz & Es).
    assert (Hs : 0 <= s <= / 2) by (unfold s; destruct (fd_stag f); lra).
    assert (Hg : 0 <= IZR (fd_g f) <= 2147483648) by (split; apply IZR_le; lia).
    assert (Hl : -2147483648 <= IZR (fd_lo f) <= 2147483648) by (split; apply IZR_le; lia).
    pose proof (xnorm_is x) as EX. set (X := xnorm r64_arith f x) in *.
    set (X1 := rnd64 (norm x - s)) in *. set (X2 := rnd64 (X1 + IZR (fd_g f))) in *.
    assert (H1 : Rabs (X1 - (norm x - s)) <= uu * 8589934593 + eta) by (apply errb; apply bound_abs; lra).
    apply abs_bound in H1.
    assert (H2 : Rabs (X2 - (X1 + IZR (fd_g f))) <= uu * 12884901890 + eta) by (apply errb; apply bound_abs; unfold uu in *; lra).
    apply abs_bound in H2.
    assert (H3 : Rabs (X - (X2 + IZR (fd_lo f))) <= uu * 17179869190 + eta) by (rewrite EX; apply errb; apply bound_abs; unfold uu in *; lra).
    apply abs_bound in H3.
    unfold position_to_index. fold X. cbn [r64_arith pa_floor pa_sub pa_of_int]. set (j := Zfloor X).
    pose proof (Zfloor_lb X) as F1. pose proof (Zfloor_ub X) as F2. fold j in F1, F2.
    assert (Hj : (Z.abs j <= 17179869190)%Z).
    { assert (-17179869190 < j + 1)%Z by (apply lt_IZR; rewrite plus_IZR; unfold uu in *; lra).
      assert (j <= 17179869190)%Z by (apply le_IZR; unfold uu in *; lra). lia. }
    rewrite (rnd_int j) by lia. eexists _, _. split; [reflexivity|].
    pose proof (rnd_between (X - IZR j) 0 2048 ltac:(lia) ltac:(lia)) as Hr.
    assert (H4 : Rabs (rnd64 (X - IZR j) - (X - IZR j)) <= uu * 1 + eta) by (apply errb; apply bound_abs; lra).
    apply abs_bound in H4. split; [lra|].
    set (o := rnd64 (X - IZR j)) in *.
    replace (x - (fd_dlo f + h * (IZR (j - fd_lo f - fd_g f) + s + o))) with (h * (t - (IZR (j - fd_lo f - fd_g f) + s + o))) by (rewrite <- Et || idtac; rewrite Rmult_minus_distr_l, Et; ring).
    rewrite Rabs_mult, (Rabs_pos_eq h) by lra. rewrite Rmult_comm. apply Rmult_le_compat_r; [lra|]. rewrite !minus_IZR.
    apply bound_abs. unfold uu in *. lra.
  Qed.

  Variable i : Z.
  Hypothesis i_ok : (Z.abs i <= 2 ^ 31)%Z.
  (** The coordinate of index [i], in cells from the low end of the domain. *)
  Let k := IZR (i - fd_lo f - fd_g f) + s.
  Lemma k_bound : Rabs k <= 8589934592.
  Proof.
    apply bound_abs. unfold k. destruct s_grain as (z & Hz & Es). rewrite Es.
    assert (H1 : -6442450944 <= IZR (i - fd_lo f - fd_g f) <= 6442450944) by (split; apply IZR_le; lia).
    assert (H2 : 0 <= IZR z <= 1024) by (split; apply IZR_le; lia). lra.
  Qed.
  Lemma position_is : index_to_position r64_arith f i = place k.
  Proof.
    unfold index_to_position. cbn [r64_arith pa_add pa_sub pa_mul pa_div pa_of_int pa_half]. rewrite stag_rnd, n_rnd.
    rewrite (rnd_int (fd_g f)), (rnd_int (i - fd_lo f)) by lia. destruct s_grain as (z & Hz & Es).
    assert (E1 : rnd64 (IZR (i - fd_lo f) + s) = IZR (i - fd_lo f) + s).
    { rewrite Es. replace (IZR (i - fd_lo f) + IZR z / 2048) with (IZR ((i - fd_lo f) * 2048 + z) / 2048) by (rewrite plus_IZR, mult_IZR; field).
      apply rnd_grain. lia. }
    rewrite E1.
    assert (E2 : rnd64 (IZR (i - fd_lo f) + s - IZR (fd_g f)) = k).
    { unfold k. rewrite Es. replace (IZR (i - fd_lo f) + IZR z / 2048 - IZR (fd_g f)) with (IZR ((i - fd_lo f - fd_g f) * 2048 + z) / 2048)
        by (rewrite plus_IZR, mult_IZR, !minus_IZR; field).
      rewrite rnd_grain by lia. rewrite plus_IZR, mult_IZR, !minus_IZR. field. }
    rewrite E2. reflexivity.
  Qed.

  (** The position is that of the grid point, up to a small part of a cell. *)
  Lemma position_rounded : Rabs (index_to_position r64_arith f i - (fd_dlo f + h * k)) <= / 4000 * h.
  Proof. rewrite position_is. apply place_close. apply k_bound. Qed.

  (** Back to the index: it, or the one before with an offset close to 1. *)
  Lemma round_trip : exists j o, position_to_index r64_arith f (index_to_position r64_arith f i) = Some (j, o) /\
    ((j = i /\ 0 <= o <= / 2048) \/ (j = (i - 1)%Z /\ 1 - / 2048 <= o <= 1)).
  Proof.
    pose proof position_rounded as HP. pose proof k_bound as Hk.
    assert (HN : Rabs (norm (index_to_position r64_arith f i) - k) <= / 2048).
    { apply norm_close; [exact Hk|]. replace (index_to_position r64_arith f i - fd_dlo f - h * k) with (index_to_position r64_arith f i - (fd_dlo f + h * k)) by ring. exact HP. }
    apply abs_bound in HN. destruct s_grain as (z & Hz & Es).
    set (m := (i - fd_lo f - fd_g f)%Z) in *.
    assert (X1 : IZR (m * 2048 - 1) / 2048 <= rnd64 (norm (index_to_position r64_arith f i) - s) <= IZR (m * 2048 + 1) / 2048).
    { apply rnd_between; try (unfold m; lia). rewrite minus_IZR, plus_IZR, mult_IZR. unfold k in HN. fold m in HN. lra. }
    assert (X2 : IZR ((m + fd_g f) * 2048 - 1) / 2048 <= rnd64 (rnd64 (norm (index_to_position r64_arith f i) - s) + IZR (fd_g f)) <= IZR ((m + fd_g f) * 2048 + 1) / 2048).
    { apply rnd_between; try (unfold m; lia). rewrite minus_IZR, plus_IZR, !mult_IZR in *. rewrite ?plus_IZR in *. lra. }
    assert (X3 : IZR (i * 2048 - 1) / 2048 <= xnorm r64_arith f (index_to_position r64_arith f i) <= IZR (i * 2048 + 1) / 2048).
    { rewrite xnorm_is. apply rnd_between; try lia. assert (Ei : IZR i = IZR m + IZR (fd_g f) + IZR (fd_lo f)) by (rewrite <- !plus_IZR; f_equal; unfold m; lia).
      revert X1 X2; rewrite ?minus_IZR, ?plus_IZR, ?mult_IZR; rewrite ?plus_IZR; intros; lra. }
    set (X := xnorm r64_arith f (index_to_position r64_arith f i)) in *.
    rewrite minus_IZR, plus_IZR, mult_IZR in X3.
    unfold position_to_index. fold X. cbn [r64_arith pa_floor pa_sub pa_of_int].
    destruct (Rle_lt_dec (IZR i) X) as [Hge|Hlt].
    - assert (EF : Zfloor X = i) by (apply Zfloor_imp; rewrite plus_IZR; lra).
      rewrite EF. eexists _, _. split; [reflexivity|]. left. split; [reflexivity|]. rewrite (rnd_int i) by lia.
      pose proof (rnd_between (X - IZR i) 0 1 ltac:(lia) ltac:(lia)) as Hr. lra.
    - assert (EF : Zfloor X = (i - 1)%Z) by (apply Zfloor_imp; rewrite plus_IZR, minus_IZR; lra).
      rewrite EF. eexists _, _. split; [reflexivity|]. right. split; [reflexivity|]. rewrite (rnd_int (i - 1)) by lia. rewrite minus_IZR.
      pose proof (rnd_between (X - (IZR i - 1)) 2047 2048 ltac:(lia) ltac:(lia)) as Hr. lra.
  Qed.
End Field.

(** The coordinate of grid point [i], in cells from the low end of the domain. *)
Definition cell_coord (ilo : Z) (stag : bool) (i : Z) : R := IZR (i - ilo) + (if stag then / 2 else 0).
(** The sizes for which one double separates the grid points well: at most 2^31 cells and ghost
    cells, indices of that size, a domain that is not tiny and not too far from zero, measured in
    cells. *)
Definition moderate (ilo ihi g : Z) (dlo dhi : R) : Prop :=
  (ilo <= ihi)%Z /\ (ihi - ilo + 1 <= 2 ^ 31)%Z /\ (Z.abs (ilo - g) <= 2 ^ 31)%Z /\ (0 <= g <= 2 ^ 31)%Z /\
  bpow radix2 (-900) <= dhi - dlo /\ Rabs dlo <= 2 ^ 40 * ((dhi - dlo) / IZR (ihi - ilo + 1)).

Section Stated.
  Variables (ilo ihi g : Z) (stag : bool) (dlo dhi : R) (M : moderate ilo ihi g dlo dhi).
  Let f := mkFD R (ilo - g) (ihi + g) g stag dlo dhi.
  Let h := (dhi - dlo) / IZR (ihi - ilo + 1).
  Lemma cells_f : cells f = (ihi - ilo + 1)%Z.
  Proof. unfold cells, f. cbn [fd_lo fd_hi fd_g]. clear. lia. Qed.
  Lemma two40 : 2 ^ 40 = 1099511627776.
  Proof. replace (2 ^ 40) with (IZR (2 ^ 40)) by (rewrite (pow_IZR 2 40); reflexivity). reflexivity. Qed.

  Lemma stated_position i : (Z.abs i <= 2 ^ 31)%Z ->
    Rabs (index_to_position r64_arith f i - (dlo + cell_coord ilo stag i * h)) <= / 4000 * h.
  Proof.
    destruct M as (M1 & M2 & M3 & M4 & M5 & M6). intros Hi. rewrite two40 in M6.
    pose proof (position_rounded f) as P. rewrite cells_f in P.
    specialize (P M5 ltac:(lia) M6 M3 M4 i Hi). cbn [f fd_lo fd_g fd_dlo fd_dhi fd_stag] in P.
    replace (i - (ilo - g) - g)%Z with (i - ilo)%Z in P by lia. unfold cell_coord. rewrite (Rmult_comm _ h). exact P.
  Qed.
  Lemma stated_round_trip i : (Z.abs i <= 2 ^ 31)%Z ->
    exists j o, position_to_index r64_arith f (index_to_position r64_arith f i) = Some (j, o) /\
      ((j = i /\ 0 <= o <= / 2048) \/ (j = (i - 1)%Z /\ 1 - / 2048 <= o <= 1)).
  Proof.
    destruct M as (M1 & M2 & M3 & M4 & M5 & M6). intros Hi. rewrite two40 in M6.
    pose proof (round_trip f) as P. rewrite cells_f in P. exact (P M5 ltac:(lia) M6 M3 M4 i Hi).
  Qed.
  Lemma stated_any x : Rabs (x - dlo) <= 2 ^ 33 * h ->
    exists j o, position_to_index r64_arith f x = Some (j, o) /\ 0 <= o <= 1 /\
      Rabs (x - (dlo + (cell_coord ilo stag j + o) * h)) <= / 1000 * h.
  Proof.
    destruct M as (M1 & M2 & M3 & M4 & M5 & M6). intros Hx.
    replace (2 ^ 33) with 8589934592 in Hx by (replace (2 ^ 33) with (IZR (2 ^ 33)) by (rewrite (pow_IZR 2 33); reflexivity); reflexivity).
    pose proof (any_position f) as P. rewrite cells_f in P.
    destruct (P M5 ltac:(lia) M3 M4 x Hx) as (j & o & E & B & C). exists j, o. split; [exact E|]. split; [exact B|].
    cbn [f fd_lo fd_g fd_dlo fd_dhi fd_stag] in C. replace (j - (ilo - g) - g)%Z with (j - ilo)%Z in C by lia.
    unfold cell_coord. rewrite (Rmult_comm _ h). exact C.
  Qed.
End Stated.

Lemma ex_moderate : moderate 0 48 2 (-1) 1000 /\ moderate (-5) 1000000 1 100000 100001.
Proof.
  assert (H900 : bpow radix2 (-900) <= 1) by (change 1 with (bpow radix2 0); apply bpow_le; lia).
  unfold moderate. split; (split; [lia|]; split; [lia|]; split; [lia|]; split; [lia|]; rewrite two40; split; [lra|]).
  - change (48 - 0 + 1)%Z with 49%Z. rewrite Rabs_left by lra. lra.
  - change (1000000 - -5 + 1)%Z with 1000006%Z. rewrite Rabs_pos_eq by lra. lra.
Qed.

Open Scope Z_scope.
(** The floor used for binary64 numbers is the floor. *)
Lemma sf_floor_is_floor : forall s m e, exists n, sf_floor (S754_finite s m e) = Some n /\
  (IZR n <= IZR (if s then Zneg m else Zpos m) * powerRZ 2 e < IZR n + 1)%R.
Proof.
  intros s m e. set (z := if s then Z.neg m else Z.pos m).
  assert (E : sf_floor (S754_finite s m e) = Some (Zfloor (IZR z * powerRZ 2 e))).
  { unfold sf_floor. fold z. f_equal. change 2%R with (IZR radix2). rewrite <- bpow_powerRZ. destruct e as [|p|p].
    - simpl bpow. rewrite Rmult_1_r, Zfloor_IZR. reflexivity.
    - rewrite <- (IZR_Zpower radix2) by lia. rewrite <- mult_IZR, Zfloor_IZR. reflexivity.
    - change (Z.neg p) with (- Z.pos p). rewrite bpow_opp, <- (IZR_Zpower radix2) by lia.
      change (IZR z * / IZR (radix2 ^ Z.pos p))%R with (IZR z / IZR (radix2 ^ Z.pos p))%R.
      rewrite Zfloor_div; [reflexivity|]. change (radix_val radix2) with 2. pose proof (Z.pow_pos_nonneg 2 (Z.pos p)). lia. }
  exists (Zfloor (IZR z * powerRZ 2 e)). split; [exact E|]. split; [apply Zfloor_lb|apply Zfloor_ub].
Qed.
