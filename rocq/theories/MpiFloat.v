(** The cuts computed by the distributed subdivision in binary64 satisfy [cut_ok]. *)
From Coq Require Import Reals Lia Lra.
From Flocq Require Import Core Relative.
From Verif Require Import Vec MpiSpec MpiFloatModel.
Local Open Scope R_scope.

Lemma rnd_le x y : x <= y -> rnd64 x <= rnd64 y.
Proof. apply round_le; [apply FLT_exp_valid; reflexivity|typeclasses eauto]. Qed.

Lemma rnd_int z : (Z.abs z < 2 ^ 53)%Z -> rnd64 (IZR z) = IZR z.
Proof.
  intros H. apply round_generic; [typeclasses eauto|]. apply generic_format_FLT.
  exists (Float radix2 z 0).
  - unfold F2R; cbn. lra.
  - cbn [Fnum]. exact H.
  - cbn. lia.
Qed.

Lemma Ztrunc_mono x y : x <= y -> (Ztrunc x <= Ztrunc y)%Z.
Proof. apply Ztrunc_le. Qed.

Theorem b64_cut_ok high n : (1 <= high <= 2 ^ 31)%Z -> (1 <= n <= 2 ^ 31)%Z -> cut_ok b64_cut high n.
Proof.
  intros Hh Hn. assert (P31 : (2 ^ 31 = 2147483648)%Z) by reflexivity. assert (P53 : (2 ^ 53 = 9007199254740992)%Z) by reflexivity.
  rewrite P31 in *.
  assert (Ea : rnd64 (IZR high - 1) = IZR (high - 1)).
  { replace (IZR high - 1) with (IZR (high - 1)) by (rewrite minus_IZR; reflexivity). apply rnd_int. rewrite P53. lia. }
  set (a := IZR (high - 1)) in *. assert (Ha : 0 <= a <= 2147483648) by (unfold a; split; apply IZR_le; lia).
  assert (Hn' : 1 <= IZR n <= 2147483648) by (split; apply IZR_le; lia).
  set (w := rnd64 (a / IZR n)).
  assert (R0 : rnd64 0 = 0) by (apply (rnd_int 0); reflexivity).
  assert (Hw0 : 0 <= w).
  { rewrite <- R0. apply rnd_le. apply Rmult_le_pos; [lra|]. left. apply Rinv_0_lt_compat. lra. }
  assert (Hw1 : w <= a / IZR n * (1 + / 2 * bpow radix2 (-52))).
  { destruct (Z.eq_dec high 1) as [->|Hne].
    - assert (Ez : a = 0) by (unfold a; reflexivity). unfold w. rewrite Ez. replace (0 / IZR n) with 0 by (field; lra). rewrite R0. lra.
    - assert (1 <= a) by (unfold a; apply IZR_le; lia).
      assert (Hx : 0 < a / IZR n) by (apply Rmult_lt_0_compat; [lra|]; apply Rinv_0_lt_compat; lra).
      assert (Hx' : bpow radix2 (-31) <= a / IZR n).
      { change (bpow radix2 (-31)) with (/ 2147483648). apply Rmult_le_reg_r with (IZR n); [lra|].
        unfold Rdiv. rewrite Rmult_assoc, Rinv_l by lra. rewrite Rmult_1_r.
        apply Rle_trans with 1; [|lra]. apply Rmult_le_reg_l with 2147483648; [lra|]. rewrite <- Rmult_assoc, Rinv_r by lra. lra. }
      assert (E : Rabs (w - a / IZR n) <= / 2 * bpow radix2 (-53 + 1) * Rabs (a / IZR n)).
      { apply (relative_error_N_FLT radix2 (-1074) 53 ltac:(reflexivity) (fun x => negb (Z.even x))).
        rewrite (Rabs_pos_eq (a / IZR n)) by lra. eapply Rle_trans; [|exact Hx']. apply bpow_le. lia. }
      rewrite (Rabs_pos_eq (a / IZR n)) in E by lra. change (-53 + 1)%Z with (-52)%Z in E.
      pose proof (Rle_abs (w - a / IZR n)). lra. }
  assert (Up : forall c, (1 <= c < n)%Z -> w * IZR c <= IZR high).
  { intros c Hc. assert (Hc' : 0 <= IZR c <= IZR n) by (split; apply IZR_le; lia).
    assert (B : a / IZR n * IZR c <= a).
    { unfold Rdiv. rewrite Rmult_assoc. rewrite <- (Rmult_1_r a) at 2. apply Rmult_le_compat_l; [lra|].
      apply Rmult_le_reg_l with (IZR n); [lra|]. rewrite <- Rmult_assoc, Rinv_r by lra. lra. }
    assert (C : w * IZR c <= a / IZR n * IZR c * (1 + / 2 * bpow radix2 (-52))).
    { replace (a / IZR n * IZR c * (1 + / 2 * bpow radix2 (-52))) with (a / IZR n * (1 + / 2 * bpow radix2 (-52)) * IZR c) by ring.
      apply Rmult_le_compat_r; [lra|exact Hw1]. }
    assert (D : bpow radix2 (-52) = / 4503599627370496) by reflexivity. rewrite D in C.
    assert (E : IZR high = a + 1) by (unfold a; rewrite minus_IZR; lra). rewrite E.
    assert (F : a * (1 + / 2 * / 4503599627370496) <= a + 1) by lra.
    assert (G : a / IZR n * IZR c * (1 + / 2 * / 4503599627370496) <= a * (1 + / 2 * / 4503599627370496)).
    { apply Rmult_le_compat_r; [lra|exact B]. }
    lra. }
  split.
  - intros c Hc. unfold b64_cut. rewrite Ea. fold w.
    assert (Hc' : 0 <= IZR c) by (apply IZR_le; lia). split.
    + replace 0%Z with (Ztrunc (IZR 0)) by apply Ztrunc_IZR. apply Ztrunc_le. rewrite <- R0 at 1. apply rnd_le. apply Rmult_le_pos; assumption.
    + apply Z.le_trans with (Ztrunc (IZR high)); [|rewrite Ztrunc_IZR; lia]. apply Ztrunc_le. rewrite <- (rnd_int high) by (rewrite P53; lia). apply rnd_le. apply Up, Hc.
  - intros c c' H1 H2 H3. unfold b64_cut. rewrite Ea. fold w. apply Ztrunc_le, rnd_le, Rmult_le_compat_l; [exact Hw0|]. apply IZR_le, H2.
Qed.
Print Assumptions b64_cut_ok.
