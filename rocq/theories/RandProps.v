(** C65: random integers.  [RandModel] holds the program and the kinds of arithmetic. *)
From Coq Require Import ZArith.
From Verif Require Import RandModel RandProofs RandExamples.
Local Open Scope Z_scope.

(** In exact arithmetic, for any [RAND_MAX]: the result lies in [0..range-1] exactly if the second draw
    is below [RAND_MAX - 1], or equals it and the first is below [RAND_MAX].  Missing: the other draws,
    for which the claim is false. *)
Theorem C65_exact_partial : forall M r1 r2 range, 0 < M -> 0 <= r1 <= M -> 0 <= r2 <= M -> 0 < range < 2 ^ 31 ->
  ((exists v, irand exact_ops M r1 r2 range = Some v /\ 0 <= v < range) <-> r1 + M * r2 < M * M).
Proof. exact exact_below. Qed.
Print Assumptions C65_exact_partial.

(** In doubles, with 31-bit draws: the result lies there if the second draw is at most
    [RAND_MAX - 2]. *)
Theorem C65_doubles_partial : forall r1 r2 range,
  0 <= r1 <= 2 ^ 31 - 1 -> 0 <= r2 <= 2 ^ 31 - 1 - 2 -> 0 < range < 2 ^ 31 ->
  exists v, irand rounded_ops (2 ^ 31 - 1) r1 r2 range = Some v /\ 0 <= v < range.
Proof. exact irand_low. Qed.
Print Assumptions C65_doubles_partial.

(** If the second draw is [RAND_MAX], the result is not below the range, whatever the range. *)
Theorem C65_last_draw_refuted : forall r1 range, 0 <= r1 <= 2 ^ 31 - 1 -> 0 < range < 2 ^ 31 ->
  forall v, irand rounded_ops (2 ^ 31 - 1) r1 (2 ^ 31 - 1) range = Some v -> range <= v.
Proof. exact irand_last. Qed.
Print Assumptions C65_last_draw_refuted.
(** In the bits: a die showing one too many; for the largest range the conversion can overflow. *)
Theorem C65_bits_refuted : exists r1 r2, 0 <= r1 <= 2 ^ 31 - 1 /\ 0 <= r2 <= 2 ^ 31 - 1 /\
  irand bits_ops (2 ^ 31 - 1) r1 r2 6 = Some 6 /\ irand bits_ops (2 ^ 31 - 1) r2 r2 (2 ^ 31 - 1) = None.
Proof. exact range_returned. Qed.
Print Assumptions C65_bits_refuted.
