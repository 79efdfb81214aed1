(** The square root of the number of processes in doubles. *)
From Coq Require Import Reals Lia Lra.
From Flocq Require Import Core.
From Verif Require Import Vec MpiFloatModel MpiFloat.
Local Open Scope R_scope.

(** [int(floor(sqrt(number)))] — factor.cpp:57. *)
Definition b64_isqrt (number : Z) : Z := Zfloor (rnd64 (sqrt (IZR number))).

Lemma b64_isqrt_exact n : (0 <= n < 2 ^ 31)%Z -> b64_isqrt n = Z.sqrt n.
Proof.
  intros Hn. change (2 ^ 31)%Z with 2147483648%Z in Hn. pose proof (Z.sqrt_spec n ltac:(lia)) as Sq. pose proof (Z.sqrt_nonneg n) as K0. set (k := Z.sqrt n) in *. unfold Z.succ in Sq.
  assert (Hk : (0 <= k < 65536)%Z) by nia. unfold b64_isqrt. apply Zfloor_imp. split.
  - rewrite <- (rnd_int k) by lia. apply rnd_le. rewrite <- (sqrt_square (IZR k)) by (apply IZR_le; lia). apply sqrt_le_1_alt. rewrite <- mult_IZR. apply IZR_le. lia.
  - set (y := IZR ((k + 1) * 262144 - 1) * / 262144).
    assert (Ey : y = IZR (k + 1) - / 262144) by (unfold y; rewrite minus_IZR, mult_IZR; field).
    assert (Ry : rnd64 y = y).
    { apply round_generic; [typeclasses eauto|]. apply generic_format_FLT. exists (Float radix2 ((k + 1) * 262144 - 1) (-18)).
      - unfold F2R, y. cbn [Fnum Fexp]. change (bpow radix2 (-18)) with (/ 262144). reflexivity.
      - cbn [Fnum]. change (radix2 ^ 53)%Z with 9007199254740992%Z. lia.
      - cbn. lia. }
    apply Rle_lt_trans with y; [|rewrite Ey; lra]. rewrite <- Ry. apply rnd_le.
    assert (H1 : 1 <= IZR (k + 1) <= 65536) by (split; apply IZR_le; lia).
    assert (Hy : 0 <= y) by (rewrite Ey; lra). rewrite <- (sqrt_square y Hy). apply sqrt_le_1_alt.
    apply Rle_trans with (IZR (k + 1) * IZR (k + 1) - 1); [rewrite <- mult_IZR; change 1 with (IZR 1); rewrite <- minus_IZR; apply IZR_le; lia|].
    rewrite Ey. nra.
Qed.
