(** Proofs about the random numbers. *)
From Coq Require Import ZArith QArith Qround Reals Lra Lia Bool Psatz.
From Flocq Require Import Core.
From Verif Require Import MpiFloatModel RandModel.
Local Open Scope Z_scope.

(** ** Exactly *)
Lemma exact_value : forall M r1 r2 range, 0 < M -> 0 <= r1 -> 0 <= r2 -> 0 <= range ->
  trunc exact_ops (mul exact_ops (drand exact_ops M r1 r2) (of_int exact_ops range)) = (r1 + M * r2) * range / (M * M).
Proof.
  intros M r1 r2 range HM H1 H2 HR. unfold drand, exact_ops. cbn [num of_int add mul quotient trunc].
  set (x := (_ * inject_Z range)%Q).
  assert (E : (x == inject_Z ((r1 + M * r2) * range) / inject_Z (M * M))%Q).
  { unfold x. rewrite !inject_Z_mult, inject_Z_plus, inject_Z_mult. field. intros Q. unfold Qeq in Q. cbn in Q. lia. }
  assert (F : Qnum x / Zpos (Qden x) = (r1 + M * r2) * range / (M * M)).
  { transitivity (Qfloor x); [destruct x; reflexivity|]. rewrite E. symmetry. apply Zdiv_Qdiv. }
  rewrite <- F. apply Z.quot_div_nonneg; [|lia]. destruct (Z.lt_ge_cases (Qnum x) 0) as [H|H]; [|exact H].
  pose proof (Z.div_lt_upper_bound (Qnum x) (Zpos (Qden x)) 0 ltac:(lia) ltac:(lia)). pose proof (Z.div_pos ((r1 + M * r2) * range) (M * M) ltac:(nia) ltac:(nia)). lia.
Qed.
Lemma exact_below : forall M r1 r2 range, 0 < M -> 0 <= r1 <= M -> 0 <= r2 <= M -> 0 < range < 2 ^ 31 ->
  ((exists v, irand exact_ops M r1 r2 range = Some v /\ 0 <= v < range) <-> r1 + M * r2 < M * M).
Proof.
  intros M r1 r2 range HM H1 H2 HR. unfold irand. rewrite exact_value by lia. set (v := _ / (M * M)).
  assert (V0 : 0 <= v) by (apply Z.div_pos; nia). split.
  - intros [w [E Hw]]. destruct (_ && _); [|discriminate]. injection E as <-. assert (H : v < range) by lia. assert (Q : (r1 + M * r2) * range < M * M * range).
    { pose proof (Z.mul_succ_div_gt ((r1 + M * r2) * range) (M * M) ltac:(nia)). fold v in H0. nia. }
    nia.
  - intros H. assert (V1 : v < range) by (apply Z.div_lt_upper_bound; nia). exists v.
    replace (- (2 ^ 31) <=? v) with true by (symmetry; apply Z.leb_le; lia). replace (v <? 2 ^ 31) with true by (symmetry; apply Z.ltb_lt; lia). split; [reflexivity|lia].
Qed.

(** ** In doubles *)
Local Open Scope R_scope.
Lemma rnd_mono : forall x y, x <= y -> rnd64 x <= rnd64 y.
Proof. intros x y. apply round_le; [apply FLT_exp_valid; reflexivity|typeclasses eauto]. Qed.
Lemma rnd_exact : forall m e, (Z.abs m <= 2 ^ 53)%Z -> (-1074 <= e)%Z -> rnd64 (IZR m * bpow radix2 e) = IZR m * bpow radix2 e.
Proof.
  intros m e Hm He. destruct (Z.eq_dec (Z.abs m) (2 ^ 53)) as [E|E].
  - replace (IZR m * bpow radix2 e) with (IZR (Z.sgn m) * bpow radix2 (e + 53)).
    + apply round_generic; [typeclasses eauto|]. apply generic_format_FLT. exists (Float radix2 (Z.sgn m) (e + 53)); cbn; [reflexivity| |lia].
      apply Z.le_lt_trans with 1%Z; [lia|reflexivity].
    + rewrite bpow_plus. replace m with (Z.sgn m * 2 ^ 53)%Z at 2 by lia. rewrite mult_IZR. cbn [bpow]. change (IZR (Z.pow_pos radix2 53)) with (IZR (2 ^ 53)). ring.
  - apply round_generic; [typeclasses eauto|]. apply generic_format_FLT. exists (Float radix2 m e); cbn; [reflexivity|lia|lia].
Qed.
Lemma rnd_int : forall z, (Z.abs z <= 2 ^ 53)%Z -> rnd64 (IZR z) = IZR z.
Proof. intros z H. pose proof (rnd_exact z 0 H ltac:(lia)) as E. cbn [bpow] in E. rewrite Rmult_1_r in E. exact E. Qed.
Lemma rnd_nonneg : forall x, 0 <= x -> 0 <= rnd64 x.
Proof. intros x H. rewrite <- (rnd_int 0) by (cbn; lia). apply rnd_mono. exact H. Qed.

Definition M := (2 ^ 31 - 1)%Z.
(** A number below the one written with few digits rounds to one below it. *)
Lemma below : forall x m e, x <= IZR m * bpow radix2 e -> (Z.abs m <= 2 ^ 53)%Z -> (-1074 <= e)%Z -> rnd64 x <= IZR m * bpow radix2 e.
Proof. intros x m e H Hm He. rewrite <- (rnd_exact m e Hm He). apply rnd_mono. exact H. Qed.
Lemma above : forall x m e, IZR m * bpow radix2 e <= x -> (Z.abs m <= 2 ^ 53)%Z -> (-1074 <= e)%Z -> IZR m * bpow radix2 e <= rnd64 x.
Proof. intros x m e H Hm He. rewrite <- (rnd_exact m e Hm He). apply rnd_mono. exact H. Qed.

(** The square of the largest number. *)
Lemma square_rounded : rnd64 (IZR M * IZR M) = IZR (2 ^ 30 - 1) * bpow radix2 32.
Proof.
  assert (F : exists lo, lo = IZR (2 ^ 30 - 1) * bpow radix2 32) by eauto.
  rewrite <- mult_IZR. unfold rnd64, round, scaled_mantissa, cexp.
  assert (Hm : mag radix2 (IZR (M * M)) = 62%Z :> Z).
  { apply mag_unique_pos. cbn. rewrite Rabs_pos_eq || idtac. split; [apply IZR_le|apply IZR_lt]; vm_compute; congruence. }
  rewrite Hm. replace (FLT_exp (-1074) 53 62) with 9%Z by reflexivity.
  replace (ZnearestE (IZR (M * M) * bpow radix2 (- (9)))) with (2 ^ 53 - 2 ^ 23)%Z.
  - unfold F2R. cbn [Fnum Fexp]. rewrite <- !(Rmult_comm (bpow radix2 _)). replace 32%Z with (9 + 23)%Z by reflexivity. rewrite bpow_plus. rewrite Rmult_assoc. f_equal. cbn [bpow]. rewrite <- mult_IZR. apply f_equal. reflexivity.
  - symmetry. apply Znearest_imp. cbn [bpow]. change (Z.opp 9) with (-9)%Z. cbn [bpow]. change (IZR (Z.pow_pos radix2 9)) with 512. change (M * M)%Z with (4611686014132420609)%Z. change (2 ^ 53 - 2 ^ 23)%Z with 9007199246352384%Z.
    replace (4611686014132420609 * / 512 - 9007199246352384) with (/ 512) by lra. rewrite Rabs_pos_eq; lra.
Qed.
Lemma drand_low : forall r1 r2, (0 <= r1 <= M)%Z -> (0 <= r2 <= M - 2)%Z ->
  0 <= drand rounded_ops M r1 r2 <= IZR (2 ^ 32 - 1) * bpow radix2 (-32).
Proof.
  intros r1 r2 H1 H2. unfold drand, rounded_ops. cbn [num of_int add mul quotient].
  rewrite !(rnd_int M), (rnd_int r1), (rnd_int r2), square_rounded by (unfold M in *; lia).
  assert (S : 0 < IZR (2 ^ 30 - 1) * bpow radix2 32) by (apply Rmult_lt_0_compat; [apply IZR_lt; reflexivity|apply bpow_gt_0]).
  assert (P0 : 0 <= rnd64 (IZR M * IZR r2)) by (apply rnd_nonneg; rewrite <- mult_IZR; apply IZR_le; unfold M; lia).
  assert (Q0 : 0 <= rnd64 (IZR r1 + rnd64 (IZR M * IZR r2))) by (apply rnd_nonneg; apply Rplus_le_le_0_compat; [apply IZR_le; lia|exact P0]).
  split.
  - apply rnd_nonneg. apply Rmult_le_pos; [exact Q0|]. left. apply Rinv_0_lt_compat. exact S.
  - apply below; [|cbn; lia|lia].
    assert (P1 : rnd64 (IZR M * IZR r2) <= IZR (2 ^ 53 - 2 ^ 24 + 1) * bpow radix2 9).
    { apply below; [|cbn; lia|lia]. cbn [bpow]. rewrite <- !mult_IZR. apply IZR_le. change (Z.pow_pos radix2 9) with 512%Z. unfold M in *. nia. }
    assert (Q1 : rnd64 (IZR r1 + rnd64 (IZR M * IZR r2)) <= IZR (2 ^ 53 - 2 ^ 24 + 2 ^ 22 + 1) * bpow radix2 9).
    { apply below; [|cbn; lia|lia]. assert (R1 : IZR r1 <= IZR M) by (apply IZR_le; lia). cbn [bpow] in *. change (IZR (Z.pow_pos radix2 9)) with 512 in *.
      change (2 ^ 53 - 2 ^ 24 + 1)%Z with 9007199237963777%Z in P1. change (2 ^ 53 - 2 ^ 24 + 2 ^ 22 + 1)%Z with 9007199242158081%Z. change M with 2147483647%Z in *. lra. }
    apply (Rmult_le_reg_r (IZR (2 ^ 30 - 1) * bpow radix2 32)); [exact S|]. unfold Rdiv. rewrite Rmult_assoc, Rinv_l, Rmult_1_r by lra.
    eapply Rle_trans; [exact Q1|]. cbn [bpow]. change (IZR (Z.pow_pos radix2 9)) with 512. change (IZR (Z.pow_pos radix2 32)) with 4294967296. change (2 ^ 53 - 2 ^ 24 + 2 ^ 22 + 1)%Z with 9007199242158081%Z. change (2 ^ 32 - 1)%Z with 4294967295%Z. change (2 ^ 30 - 1)%Z with 1073741823%Z. lra.
Qed.
Lemma irand_low : forall r1 r2 range, (0 <= r1 <= M)%Z -> (0 <= r2 <= M - 2)%Z -> (0 < range < 2 ^ 31)%Z ->
  exists v, irand rounded_ops M r1 r2 range = Some v /\ (0 <= v < range)%Z.
Proof.
  intros r1 r2 range H1 H2 HR. destruct (drand_low r1 r2 H1 H2) as [D0 D1]. unfold irand. set (d := drand rounded_ops M r1 r2) in *. clearbody d. cbn [mul of_int trunc rounded_ops].
  rewrite (rnd_int range) by lia. assert (R0 : 0 < IZR range) by (apply IZR_lt; lia).
  set (k := Z.log2 range). assert (K : (2 ^ k <= range < 2 ^ (k + 1))%Z) by (apply Z.log2_spec; lia). assert (K0 : (0 <= k)%Z) by apply Z.log2_nonneg.
  assert (K1 : (k < 31)%Z) by (apply Z.log2_lt_pow2; lia).
  assert (X0 : 0 <= rnd64 (d * IZR range)) by (apply rnd_nonneg; apply Rmult_le_pos; lra).
  assert (B : IZR (2 ^ (32 - k)) * bpow radix2 (k - 32) = 1).
  { change 2%Z with (radix_val radix2) at 1. rewrite IZR_Zpower by lia. rewrite <- bpow_plus. replace (32 - k + (k - 32))%Z with 0%Z by lia. reflexivity. }
  assert (B' : bpow radix2 (k - 32) = IZR (2 ^ k) * bpow radix2 (-32)).
  { change 2%Z with (radix_val radix2) at 1. rewrite IZR_Zpower by lia. rewrite <- bpow_plus. f_equal. }
  assert (X1 : rnd64 (d * IZR range) <= IZR (range * 2 ^ (32 - k) - 1) * bpow radix2 (k - 32)).
  { assert (N : (1 <= 2 ^ (32 - k))%Z) by (change 1%Z with (2 ^ 0)%Z; apply Z.pow_le_mono_r; lia).
    apply below; [| |lia].
    - rewrite minus_IZR, mult_IZR. replace ((IZR range * IZR (2 ^ (32 - k)) - 1) * bpow radix2 (k - 32)) with (IZR range * (IZR (2 ^ (32 - k)) * bpow radix2 (k - 32)) - bpow radix2 (k - 32)) by ring. rewrite B, B', Rmult_1_r.
      apply Rle_trans with (IZR (2 ^ 32 - 1) * bpow radix2 (-32) * IZR range); [apply Rmult_le_compat_r; lra|].
      assert (K2 : IZR (2 ^ k) <= IZR range) by (apply IZR_le; lia). change (bpow radix2 (-32)) with (/ 4294967296). change (2 ^ 32 - 1)%Z with 4294967295%Z. lra.
    - assert (range * 2 ^ (32 - k) < 2 ^ (k + 1) * 2 ^ (32 - k))%Z by (apply Z.mul_lt_mono_pos_r; lia). rewrite <- Z.pow_add_r in H by lia. replace (k + 1 + (32 - k))%Z with 33%Z in H by lia.
      rewrite Z.abs_eq by nia. assert (2 ^ 33 < 2 ^ 53)%Z by reflexivity. lia. }
  assert (X2 : rnd64 (d * IZR range) < IZR range).
  { eapply Rle_lt_trans; [exact X1|]. rewrite minus_IZR, mult_IZR. replace ((IZR range * IZR (2 ^ (32 - k)) - 1) * bpow radix2 (k - 32)) with (IZR range * (IZR (2 ^ (32 - k)) * bpow radix2 (k - 32)) - bpow radix2 (k - 32)) by ring. rewrite B, Rmult_1_r.
    pose proof (bpow_gt_0 radix2 (k - 32)). lra. }
  exists (Ztrunc (rnd64 (d * IZR range))). rewrite Ztrunc_floor by exact X0.
  assert (V0 : (0 <= Zfloor (rnd64 (d * IZR range)))%Z) by (apply Zfloor_lub; exact X0).
  assert (V1 : (Zfloor (rnd64 (d * IZR range)) < range)%Z). { apply lt_IZR. eapply Rle_lt_trans; [apply Zfloor_lb|exact X2]. }
  replace (- (2 ^ 31) <=? Zfloor (rnd64 (d * IZR range)))%Z with true by (symmetry; apply Z.leb_le; lia).
  replace (Zfloor (rnd64 (d * IZR range)) <? 2 ^ 31)%Z with true by (symmetry; apply Z.ltb_lt; lia). split; [reflexivity|lia].
Qed.
(** A second draw of [RAND_MAX] gives the range itself, or more. *)
Lemma irand_last : forall r1 range, (0 <= r1 <= M)%Z -> (0 < range < 2 ^ 31)%Z ->
  forall v, irand rounded_ops M r1 M range = Some v -> (range <= v)%Z.
Proof.
  intros r1 range H1 HR v. assert (D : 1 <= drand rounded_ops M r1 M).
  { unfold drand, rounded_ops. cbn [num of_int add mul quotient]. rewrite !(rnd_int M), (rnd_int r1), square_rounded by (unfold M in *; lia).
    assert (S : 0 < IZR (2 ^ 30 - 1) * bpow radix2 32) by (apply Rmult_lt_0_compat; [apply IZR_lt; reflexivity|apply bpow_gt_0]).
    rewrite <- (rnd_int 1) at 1 by lia. apply rnd_mono. apply (Rmult_le_reg_r (IZR (2 ^ 30 - 1) * bpow radix2 32)); [exact S|]. unfold Rdiv. rewrite Rmult_assoc, Rinv_l, Rmult_1_r, Rmult_1_l by lra.
    apply above; [|cbn; lia|lia]. assert (0 <= IZR r1) by (apply IZR_le; lia). lra. }
  unfold irand. set (d := drand rounded_ops M r1 M) in *. clearbody d. cbn [mul of_int trunc rounded_ops]. rewrite (rnd_int range) by lia.
  assert (R0 : 0 < IZR range) by (apply IZR_lt; lia).
  assert (X : IZR range <= rnd64 (d * IZR range)) by (rewrite <- (rnd_int range) at 1 by lia; apply rnd_mono; rewrite <- (Rmult_1_l (IZR range)) at 1; apply Rmult_le_compat_r; lra).
  destruct (_ && _); [|discriminate]. intros E. injection E as <-. rewrite Ztrunc_floor by lra. apply Zfloor_lub. exact X.
Qed.
