(** Proofs about inner extents in rounded arithmetic. *)
From Coq Require Import ZArith Reals Lra Lia Floats.SpecFloat.
From Flocq Require Import Core.
From Verif Require Import Vec BoxFacts RangeModel BoundaryModel FieldModel NetModel MpiModel MpiSpec MpiProofs MpiExamples MpiFloatModel MpiFloat
  FieldFloatModel FieldFloat ExtFloatModel.
Local Open Scope R_scope.

(** Neighbours compute the same number. *)
Lemma meet_any T (a : pos_arith T) cut dims high delta : length high = length dims ->
  forall elo ehi i c, (i < length dims)%nat -> is_process dims c -> is_bound_hi dims c i = false ->
  let bd := mpi_bounds cut dims high delta in
  let next := cart_shift dims c i 1 in
  ext_max a 0 (vget high i) elo ehi (vget (r_hi (inner_domain (bd c))) i) =
  ext_min a 0 (vget high i) elo ehi (vget (r_lo (inner_domain (bd next))) i).
Proof.
  intros Hl elo ehi i c Hi Hc Hb bd next. unfold bd. rewrite inner_hi_eq, inner_lo_eq by exact Hi.
  unfold ext_max, ext_min. do 3 f_equal. destruct Hc as [Hlc Hc]. specialize (Hc i Hi).
  unfold is_bound_hi in Hb. apply Z.eqb_neq in Hb.
  unfold iHi, iLo, next, cart_shift. rewrite vget_vset_same by lia. rewrite Z.mod_small by lia.
  rewrite ilo_eq, ihi_eq. destruct (Z.ltb_spec (vget c i) (vget dims i - 1)); [|lia].
  destruct (Z.ltb_spec 0 (vget c i + 1)); [|lia]. lia.
Qed.

Section Rounded.
  Variables (n : Z) (elo ehi : R).
  Hypothesis Hn : (1 <= n <= 2 ^ 31)%Z.
  Let S := Rabs elo + Rabs ehi.
  Let N := IZR n.

  Lemma N_bound : 1 <= N <= 2147483648.
  Proof. unfold N. split; apply IZR_le; [lia|]. change 2147483648%Z with (2 ^ 31)%Z. lia. Qed.

  Lemma edge k : (0 <= k <= n)%Z ->
    Rabs (ext_min r64_arith 0 (n - 1) elo ehi k - (elo + IZR k * ((ehi - elo) / N))) <= 16 * uu * S + 17179869184 * eta.
  Proof.
    intros Hk. pose proof N_bound as HN. pose proof eta_pos as He.
    unfold ext_min, ext_dx, r64_arith. cbn [pa_add pa_sub pa_mul pa_div pa_of_int].
    assert (P53 : (2 ^ 53 = 9007199254740992)%Z) by reflexivity. assert (P31 : (2 ^ 31 = 2147483648)%Z) by reflexivity.
    replace (n - 1 - 0 + 1)%Z with n by lia. rewrite (rnd_int n) by lia. rewrite (rnd_int k) by lia. fold N.
    set (K := IZR k). assert (HK : 0 <= K <= N) by (unfold K, N; split; apply IZR_le; lia).
    assert (HS : Rabs (ehi - elo) <= S /\ Rabs elo <= S /\ 0 <= S).
    { unfold S. pose proof (Rabs_pos elo). pose proof (Rabs_pos ehi). split; [|split; lra].
      unfold Rminus. eapply Rle_trans; [apply Rabs_triang|]. rewrite Rabs_Ropp. lra. }
    destruct HS as (HD & HE & HS).
    set (D := ehi - elo) in *. set (u := uu) in *. assert (Hu : 0 < u <= / 16) by (unfold u, uu; lra).
    set (t := 2147483648 * eta).
    assert (uS : 0 <= u * S) by (apply Rmult_le_pos; lra).
    assert (ue : 0 <= u * eta <= eta) by (split; [apply Rmult_le_pos; lra|]; rewrite <- (Rmult_1_l eta) at 2; apply Rmult_le_compat_r; lra).
    (* the difference *)
    set (d := rnd64 D). assert (Ed : Rabs (d - D) <= u * S + eta) by (apply errb; exact HD).
    assert (uS2 : u * S <= / 16 * S) by (apply Rmult_le_compat_r; lra).
    assert (Hd : Rabs d <= 2 * S + eta).
    { replace d with (D + (d - D)) by ring. eapply Rle_trans; [apply Rabs_triang|]. lra. }
    (* the width *)
    set (q := d / N). assert (Hq : Rabs q * N = Rabs d).
    { unfold q. rewrite <- (Rabs_pos_eq N) at 2 by lra. rewrite <- Rabs_mult. f_equal. field. lra. }
    assert (Hqd : Rabs q <= Rabs d).
    { rewrite <- Hq. rewrite <- (Rmult_1_r (Rabs q)) at 1. apply Rmult_le_compat_l; [apply Rabs_pos|lra]. }
    set (w := rnd64 q). assert (Ew : Rabs (w - q) <= u * Rabs q + eta) by apply err.
    assert (KQ : K * Rabs q <= Rabs d) by (rewrite <- Hq, Rmult_comm; apply Rmult_le_compat_l; [apply Rabs_pos|lra]).
    assert (Kt : K * eta <= t) by (unfold t; apply Rmult_le_compat_r; lra).
    assert (ud : u * Rabs d <= 2 * (u * S) + u * eta).
    { replace (2 * (u * S) + u * eta) with (u * (2 * S + eta)) by ring. apply Rmult_le_compat_l; lra. }
    assert (EKw : Rabs (K * w - K * q) <= 2 * (u * S) + u * eta + t).
    { replace (K * w - K * q) with (K * (w - q)) by ring. rewrite Rabs_mult, (Rabs_pos_eq K) by lra.
      apply Rle_trans with (K * (u * Rabs q + eta)); [apply Rmult_le_compat_l; lra|].
      assert (u * (K * Rabs q) <= u * Rabs d) by (apply Rmult_le_compat_l; lra). lra. }
    (* the product *)
    assert (HKq : Rabs (K * q) <= 2 * S + eta).
    { rewrite Rabs_mult, (Rabs_pos_eq K) by lra. lra. }
    assert (HKw : Rabs (K * w) <= 3 * S + 3 * eta + t).
    { replace (K * w) with (K * q + (K * w - K * q)) by ring. eapply Rle_trans; [apply Rabs_triang|]. lra. }
    set (p := rnd64 (K * w)). assert (Ep : Rabs (p - K * w) <= u * (3 * S + 3 * eta + t) + eta) by (apply errb; exact HKw).
    assert (Ht : 0 < t) by (unfold t; lra). assert (ut : u * t <= t) by (rewrite <- (Rmult_1_l t) at 2; apply Rmult_le_compat_r; lra).
    assert (EqD : Rabs (K * q - K * (D / N)) <= u * S + eta).
    { replace (K * q - K * (D / N)) with (K / N * (d - D)) by (unfold q; field; lra). rewrite Rabs_mult.
      assert (0 <= K / N <= 1).
      { split; [apply Rmult_le_pos; [lra|left; apply Rinv_0_lt_compat; lra]|]. apply Rmult_le_reg_r with N; [lra|].
        unfold Rdiv. rewrite Rmult_assoc, Rinv_l by lra. lra. }
      rewrite (Rabs_pos_eq (K / N)) by lra. rewrite <- (Rmult_1_l (u * S + eta)). apply Rmult_le_compat; try lra. apply Rabs_pos. }
    assert (EpD : Rabs (p - K * (D / N)) <= 6 * (u * S) + 8 * eta + 2 * t).
    { replace (p - K * (D / N)) with ((p - K * w) + (K * w - K * q) + (K * q - K * (D / N))) by ring.
      eapply Rle_trans; [apply Rabs_triang|]. pose proof (Rabs_triang (p - K * w) (K * w - K * q)).
      assert (u * (3 * S + 3 * eta + t) = 3 * (u * S) + 3 * (u * eta) + u * t) by ring. lra. }
    (* the sum *)
    assert (Hp : Rabs (elo + p) <= 5 * S + 8 * eta + 2 * t).
    { assert (Rabs p <= 4 * S + 8 * eta + 2 * t).
      { replace p with (K * w + (p - K * w)) by ring. eapply Rle_trans; [apply Rabs_triang|].
        assert (u * (3 * S + 3 * eta + t) = 3 * (u * S) + 3 * (u * eta) + u * t) by ring. lra. }
      eapply Rle_trans; [apply Rabs_triang|]. lra. }
    set (r := rnd64 (elo + p)). assert (Er : Rabs (r - (elo + p)) <= u * (5 * S + 8 * eta + 2 * t) + eta) by (apply errb; exact Hp).
    replace (r - (elo + K * (D / N))) with ((r - (elo + p)) + (p - K * (D / N))) by ring.
    eapply Rle_trans; [apply Rabs_triang|].
    assert (u * (5 * S + 8 * eta + 2 * t) = 5 * (u * S) + 8 * (u * eta) + 2 * (u * t)) by ring.
    assert (E1 : 17179869184 * eta = 8 * t) by (unfold t; ring). rewrite E1.
    assert (17 * eta <= t) by (unfold t; lra). lra.
  Qed.

  Lemma first_edge : dbl elo -> ext_min r64_arith 0 (n - 1) elo ehi 0 = elo.
  Proof.
    intros H. unfold ext_min, ext_dx, r64_arith. cbn [pa_add pa_sub pa_mul pa_div pa_of_int].
    assert (R0 : rnd64 0 = 0) by (apply (rnd_int 0); reflexivity).
    rewrite R0, Rmult_0_l, R0, Rplus_0_r. apply rnd_id, H.
  Qed.
End Rounded.
