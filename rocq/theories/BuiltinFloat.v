(** The functions of BuiltinModel.v in IEEE binary64 (Flocq) and in exact arithmetic. *)
From Coq Require Import ZArith Reals Lia Lra String.
From Flocq Require Import Core IEEE754.BinarySingleNaN.
From Verif Require Import ExprModel BuiltinModel MpiFloatModel MpiFloat.
Local Open Scope R_scope.

Local Instance prec53 : Prec_gt_0 53 := eq_refl.
Local Instance emax1024 : Prec_lt_emax 53 1024 := eq_refl.
Definition double := binary_float 53 1024.

(** Conversions between [int] and [double]. *)
Definition double_of_int (z : Z) : double := binary_normalize 53 1024 _ _ mode_NE z 0 false.
Definition int_of_double (x : double) : Z := Btrunc x.

Lemma min_real (x y : double) : is_finite x = true -> is_finite y = true ->
  B2R (c_min Bltb x y) = Rmin (B2R x) (B2R y) /\ B2R (c_max Bltb x y) = Rmax (B2R x) (B2R y).
Proof.
  intros Fx Fy. unfold c_min, c_max. rewrite !Bltb_correct by assumption. split.
  - destruct (Rlt_bool_spec (B2R y) (B2R x)) as [H|H]; [rewrite Rmin_right|rewrite Rmin_left]; lra.
  - destruct (Rlt_bool_spec (B2R x) (B2R y)) as [H|H]; [rewrite Rmax_right|rewrite Rmax_left]; lra.
Qed.

Lemma double_of_int_exact z : (- 2 ^ 53 < z < 2 ^ 53)%Z -> B2R (double_of_int z) = IZR z /\ is_finite (double_of_int z) = true.
Proof.
  intros Hz. pose proof (binary_normalize_correct 53 1024 _ _ mode_NE z 0 false) as C. cbv zeta in C.
  replace (F2R (Float radix2 z 0)) with (IZR z) in C by (unfold F2R; cbn; ring).
  change (round radix2 (SpecFloat.fexp 53 1024) (round_mode mode_NE) (IZR z)) with (rnd64 (IZR z)) in C.
  rewrite (rnd_int z) in C by lia. rewrite Rlt_bool_true in C.
  - destruct C as (E & F & _). split; assumption.
  - rewrite <- abs_IZR. apply Rle_lt_trans with (IZR (2 ^ 53)); [apply IZR_le; lia|].
    change (IZR (2 ^ 53)) with (bpow radix2 53). apply bpow_lt. reflexivity.
Qed.

Lemma int_round_trip z : (- 2 ^ 31 <= z < 2 ^ 31)%Z -> int_of_double (double_of_int z) = z.
Proof.
  intros Hz. apply eq_IZR. unfold int_of_double. rewrite Btrunc_correct by reflexivity.
  rewrite (proj1 (double_of_int_exact z ltac:(lia))). apply round_generic; [typeclasses eauto|].
  apply generic_format_FIX. exists (Float radix2 z 0); [unfold F2R; cbn; ring|reflexivity].
Qed.

(** Exact arithmetic. *)
Definition exact : arith :=
  mkArith R Rplus Rminus Rmult Rdiv Rpower Ropp IZR (fun _ => None) (fun _ => EmptyString) (fun _ => EmptyString)
    (fun _ => None) (fun _ => None).

Lemma normal_exact (M : mathlib exact) (x sigma m : R) :
  (forall y, m_one M Fexp y = exp y) -> sigma <> 0 ->
  let n := c_normal exact M in
  n x sigma m = exp (- ((x - m) / sigma) ^ 2 / 2) /\
  0 < n x sigma m <= 1 /\ (n x sigma m = 1 <-> x = m) /\
  (forall d, n (m + d) sigma m = n (m - d) sigma m) /\
  (forall d e, Rabs d <= Rabs e -> n (m + e) sigma m <= n (m + d) sigma m).
Proof.
  intros HE Hs n.
  assert (Q : forall x, n x sigma m = exp (- ((x - m) / sigma) ^ 2 / 2)).
  { intros z. unfold n, c_normal. rewrite HE. f_equal. cbn. field. exact Hs. }
  assert (SQ : forall u v : R, Rabs u <= Rabs v -> u * u <= v * v).
  { intros u v H. pose proof (Rsqr_le_abs_1 u v H) as K. exact K. }
  split; [apply Q|]. split; [|split; [|split]].
  - rewrite Q. split; [apply exp_pos|]. rewrite <- exp_0.
    destruct (Rle_lt_or_eq_dec 0 (((x - m) / sigma) ^ 2)) as [H|H].
    + rewrite <- Rsqr_pow2. apply Rle_0_sqr.
    + left. apply exp_increasing. lra.
    + right. f_equal. rewrite <- H. lra.
  - rewrite Q. split; intros H.
    + rewrite <- exp_0 in H. apply exp_inv in H. assert (E : ((x - m) / sigma) ^ 2 = 0) by lra.
      rewrite <- Rsqr_pow2 in E. apply Rsqr_0_uniq in E. apply Rmult_eq_compat_r with (r := sigma) in E.
      unfold Rdiv in E. rewrite Rmult_assoc, Rinv_l, Rmult_1_r, Rmult_0_l in E by exact Hs. lra.
    + subst x. rewrite <- exp_0. f_equal. unfold Rminus. rewrite Rplus_opp_r. unfold Rdiv. rewrite Rmult_0_l. ring.
  - intros d. rewrite !Q. f_equal. field. exact Hs.
  - intros d e H. rewrite !Q. 
    assert (K : ((m + d - m) / sigma) ^ 2 <= ((m + e - m) / sigma) ^ 2).
    { replace (m + d - m) with d by ring. replace (m + e - m) with e by ring. rewrite <- !Rsqr_pow2. apply Rsqr_le_abs_1.
      unfold Rdiv. rewrite !Rabs_mult. apply Rmult_le_compat_r; [apply Rabs_pos|exact H]. }
    destruct K as [K|K]; [left; apply exp_increasing; lra|right; f_equal; lra].
Qed.
Lemma ints_small z : (- 2 ^ 31 <= z < 2 ^ 31)%Z -> (- 2 ^ 53 < z < 2 ^ 53)%Z.
Proof. lia. Qed.
Lemma exact_library : exists M : mathlib exact, forall y, m_one M Fexp y = exp y.
Proof. exists (mkMath exact (fun _ _ => false) (fun _ => exp) Rplus Rplus (fun x _ => x) (fun _ _ x => x)). reflexivity. Qed.
