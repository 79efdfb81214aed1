(** Random numbers for particular draws. *)
From Coq Require Import ZArith Floats.SpecFloat.
From Verif Require Import RandModel RandProofs.
Local Open Scope Z_scope.

Example dice : irand bits_ops (2 ^ 31 - 1) 1804289383 846930886 6 = Some 2.
Proof. vm_compute. reflexivity. Qed.
Example dice_exact : irand exact_ops (2 ^ 31 - 1) 1804289383 846930886 6 = Some 2.
Proof. vm_compute. reflexivity. Qed.
Example draws : 0 <= 1804289383 <= 2 ^ 31 - 1 /\ 0 <= 846930886 <= 2 ^ 31 - 1 - 2 /\ 0 < 6 < 2 ^ 31.
Proof. vm_compute. intuition congruence. Qed.
(** The range itself, and more. *)
Lemma range_returned : exists r1 r2, 0 <= r1 <= 2 ^ 31 - 1 /\ 0 <= r2 <= 2 ^ 31 - 1 /\
  irand bits_ops (2 ^ 31 - 1) r1 r2 6 = Some 6 /\ irand bits_ops (2 ^ 31 - 1) r2 r2 (2 ^ 31 - 1) = None.
Proof. exists 0, (2 ^ 31 - 1). vm_compute. intuition congruence. Qed.
