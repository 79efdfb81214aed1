(** The two clocks of [DiagFloatModel] agree: bit patterns and the real numbers they stand for. *)
From Coq Require Import ZArith Reals Lra Lia Floats.SpecFloat.
From Flocq Require Import Core IEEE754.BinarySingleNaN.
From Flocq Require IEEE754.PrimFloat.
From Verif Require Import MpiFloatModel MpiFloat DiagModel DiagFloatModel.
Local Instance prec53 : Prec_gt_0 53 := PrimFloat.Hprec.
Local Instance emax1024 : Prec_lt_emax 53 1024 := PrimFloat.Hmax.

Lemma double_clock_compare : forall x y : binary_float 53 1024, is_finite x = true -> is_finite y = true ->
  teqb double64 (B2SF x) (B2SF y) = teqb clock64 (B2R x) (B2R y) /\
  tleb double64 (B2SF x) (B2SF y) = tleb clock64 (B2R x) (B2R y) /\
  tltb double64 (B2SF x) (B2SF y) = tltb clock64 (B2R x) (B2R y).
Proof.
  intros x y Fx Fy. split; [exact (Beqb_correct 53 1024 x y Fx Fy)|].
  split; [exact (Bleb_correct 53 1024 x y Fx Fy)|exact (Bltb_correct 53 1024 x y Fx Fy)].
Qed.

Lemma add_bits (x y : binary_float 53 1024) : B2SF (Bplus mode_NE x y) = SFadd 53 1024 (B2SF x) (B2SF y).
Proof.
  destruct x as [[]|[]| |s m e H], y as [[]|[]| |s' m' e' H']; try reflexivity.
  all: unfold Bplus, B2SF at 2 3, SFadd; symmetry; apply PrimFloat.binary_normalize_equiv.
Qed.
Lemma sub_bits (x y : binary_float 53 1024) : B2SF (Bminus mode_NE x y) = SFsub 53 1024 (B2SF x) (B2SF y).
Proof.
  destruct x as [[]|[]| |s m e H], y as [[]|[]| |s' m' e' H']; try reflexivity.
  all: unfold Bminus, B2SF at 2 3, SFsub; cbv zeta; rewrite <- PrimFloat.binary_normalize_equiv.
  all: f_equal; unfold Fplus_naive; destruct s'; cbn [negb cond_Zopp]; ring.
Qed.

Lemma double_clock : forall x y : binary_float 53 1024, is_finite x = true -> is_finite y = true ->
  (teqb double64 (B2SF x) (B2SF y) = teqb clock64 (B2R x) (B2R y) /\
   tleb double64 (B2SF x) (B2SF y) = tleb clock64 (B2R x) (B2R y) /\
   tltb double64 (B2SF x) (B2SF y) = tltb clock64 (B2R x) (B2R y)) /\
  ((Rabs (tadd clock64 (B2R x) (B2R y)) < bpow radix2 1024)%R ->
   exists z : binary_float 53 1024, is_finite z = true /\
     tadd double64 (B2SF x) (B2SF y) = B2SF z /\ tadd clock64 (B2R x) (B2R y) = B2R z) /\
  ((Rabs (tsub clock64 (B2R x) (B2R y)) < bpow radix2 1024)%R ->
   exists z : binary_float 53 1024, is_finite z = true /\
     tsub double64 (B2SF x) (B2SF y) = B2SF z /\ tsub clock64 (B2R x) (B2R y) = B2R z).
Proof.
  intros x y Fx Fy. split; [apply double_clock_compare; assumption|]. split; intros Hb.
  - exists (Bplus mode_NE x y). pose proof (Bplus_correct 53 1024 _ _ mode_NE x y Fx Fy) as C.
    rewrite Rlt_bool_true in C by exact Hb. destruct C as (E & F & _).
    split; [exact F|]. split; [symmetry; apply add_bits|]. symmetry. exact E.
  - exists (Bminus mode_NE x y). pose proof (Bminus_correct 53 1024 _ _ mode_NE x y Fx Fy) as C.
    rewrite Rlt_bool_true in C by exact Hb. destruct C as (E & F & _).
    split; [exact F|]. split; [symmetry; apply sub_bits|]. symmetry. exact E.
Qed.

Definition one64 : binary_float 53 1024 := Bone.
Definition zero64 : binary_float 53 1024 := B754_zero false.
Lemma ex_double_clock : is_finite one64 = true /\
  (Rabs (tadd clock64 (B2R one64) (B2R zero64)) < bpow radix2 1024)%R.
Proof.
  split; [reflexivity|]. unfold one64, zero64. rewrite Bone_correct. cbn [B2R tadd clock64]. rewrite Rplus_0_r.
  change (rnd64 1) with (rnd64 (IZR 1)). rewrite (rnd_int 1) by lia. rewrite Rabs_R1.
  change 1%R with (bpow radix2 0). apply bpow_lt. reflexivity.
Qed.
