(** Proofs about the numbers of cells of the processes. *)
From Coq Require Import Reals Lra.
From Flocq Require Import Core.
From Verif Require Import Vec BoundaryModel MpiModel MpiSpec MpiProofs MpiResults MpiFloatModel MpiFloat FieldFloat EvenSpec.
Local Open Scope Z_scope.

(** Number of cells in one dimension. *)
Definition wid (cut : Z -> Z -> Z -> Z) (high n c : Z) : Z :=
  (if c <? n - 1 then cut high n (c + 1) else high) - (if 0 <? c then cut high n c + 1 else 0) + 1.

Lemma wid_is cut dims high delta c i : (i < length dims)%nat ->
  inner_width (mpi_bounds cut dims high delta c) i = wid cut (vget high i) (vget dims i) (vget c i).
Proof. intros H. rewrite inner_width_eq by exact H. unfold iHi, iLo. rewrite ilo_eq, ihi_eq. reflexivity. Qed.

(** ** Exact arithmetic *)

Lemma exact_near high n c : 1 <= high -> 1 <= c < n ->
  n * exact_cut high n c <= (high - 1) * c < n * exact_cut high n c + n.
Proof.
  intros Hh Hc. unfold exact_cut. rewrite Z.quot_div_nonneg by nia.
  pose proof (Z.div_mod ((high - 1) * c) n ltac:(lia)). pose proof (Z.mod_pos_bound ((high - 1) * c) n ltac:(lia)). lia.
Qed.

Section Exact.
  Variables high n : Z.
  Hypothesis Hh : 1 <= high.
  Hypothesis Hn : 1 <= n.
  Notation w := (wid exact_cut high n).

  Lemma exact_only : n = 1 -> w 0 = high + 1.
  Proof. intros ->. unfold wid. cbn. lia. Qed.
  Lemma exact_first : 2 <= n -> high - 1 < n * w 0 <= high - 1 + n.
  Proof.
    intros H. unfold wid. destruct (Z.ltb_spec 0 (n - 1)); [|lia]. cbn [Z.ltb Z.compare].
    pose proof (exact_near high n 1 Hh ltac:(lia)). change (0 + 1) with 1. lia.
  Qed.
  Lemma exact_last : 2 <= n -> high - 1 + n <= n * w (n - 1) < high - 1 + 2 * n.
  Proof.
    intros H. unfold wid. destruct (Z.ltb_spec (n - 1) (n - 1)); [lia|]. destruct (Z.ltb_spec 0 (n - 1)); [|lia].
    pose proof (exact_near high n (n - 1) Hh ltac:(lia)). lia.
  Qed.
  Lemma exact_middle c : 1 <= c -> c < n - 1 -> high - 1 - n < n * w c < high - 1 + n.
  Proof.
    intros H1 H2. unfold wid. destruct (Z.ltb_spec c (n - 1)); [|lia]. destruct (Z.ltb_spec 0 c); [|lia].
    pose proof (exact_near high n c Hh ltac:(lia)). pose proof (exact_near high n (c + 1) Hh ltac:(lia)). lia.
  Qed.

  Lemma exact_all c : 2 <= n -> 0 <= c < n -> high - 1 - n < n * w c < high - 1 + 2 * n.
  Proof.
    intros H2 Hc. destruct (Z.eq_dec c 0) as [->|]; [pose proof (exact_first H2); lia|].
    destruct (Z.eq_dec c (n - 1)) as [->|]; [pose proof (exact_last H2); lia|].
    pose proof (exact_middle c ltac:(lia) ltac:(lia)). lia.
  Qed.

  Lemma exact_differ c c' : 0 <= c < n -> 0 <= c' < n -> Z.abs (w c - w c') <= 2.
  Proof.
    intros Hc Hc'. destruct (Z.eq_dec n 1) as [E|].
    - replace c' with c by lia. lia.
    - pose proof (exact_all c ltac:(lia) Hc). pose proof (exact_all c' ltac:(lia) Hc'). nia.
  Qed.

  Lemma exact_idle : (forall c, 0 <= c < n -> 1 <= w c) <-> n <= 2 \/ n <= high.
  Proof.
    split.
    - intros H. destruct (Z_le_gt_dec n 2); [auto|]. destruct (Z_le_gt_dec n high); [auto|]. exfalso.
      assert (G : forall k : nat, Z.of_nat k <= n - 2 -> Z.of_nat k <= exact_cut high n (Z.of_nat k + 1)).
      { induction k as [|k IH]; intros Hk.
        - change (Z.of_nat 0 + 1) with 1. pose proof (exact_near high n 1 Hh ltac:(lia)). nia.
        - specialize (IH ltac:(lia)). specialize (H (Z.of_nat k + 1) ltac:(lia)). unfold wid in H.
          destruct (Z.ltb_spec (Z.of_nat k + 1) (n - 1)); [|lia]. destruct (Z.ltb_spec 0 (Z.of_nat k + 1)); [|lia].
          replace (Z.of_nat (S k) + 1) with (Z.of_nat k + 1 + 1) by lia. lia. }
      specialize (G (Z.to_nat (n - 2)) ltac:(lia)). rewrite Z2Nat.id in G by lia. replace (n - 2 + 1) with (n - 1) in G by lia.
      pose proof (exact_near high n (n - 1) Hh ltac:(lia)). nia.
    - intros H c Hc. destruct (Z.eq_dec n 1) as [E|]; [replace c with 0 by lia; rewrite exact_only by exact E; lia|].
      destruct (Z.eq_dec c 0) as [->|]; [pose proof (exact_first ltac:(lia)); nia|].
      destruct (Z.eq_dec c (n - 1)) as [->|]; [pose proof (exact_last ltac:(lia)); nia|].
      destruct H as [H|H]; [lia|]. destruct (Z.eq_dec n high) as [E|].
      + unfold wid. destruct (Z.ltb_spec c (n - 1)); [|lia]. destruct (Z.ltb_spec 0 c); [|lia].
        pose proof (exact_near high n c Hh ltac:(lia)) as N1. pose proof (exact_near high n (c + 1) Hh ltac:(lia)) as N2.
        assert (exact_cut high n c <= c - 1) by nia. assert (c <= exact_cut high n (c + 1)) by nia. lia.
      + pose proof (exact_middle c ltac:(lia) ltac:(lia)). nia.
  Qed.
End Exact.

(** ** Binary64 *)
Lemma b64_near high n c : 1 <= high <= 2 ^ 31 -> n <= 2 ^ 31 -> 1 <= c < n ->
  4 * (high - 1) * c - 5 * n < 4 * n * b64_cut high n c <= 4 * (high - 1) * c + n.
Proof.
  intros Hh Hn Hc. assert (P31 : 2 ^ 31 = 2147483648) by reflexivity. rewrite P31 in *.
  assert (P53 : 2 ^ 53 = 9007199254740992) by reflexivity.
  unfold b64_cut.
  replace (IZR high - 1)%R with (IZR (high - 1)) by (rewrite minus_IZR; reflexivity).
  rewrite (rnd_int (high - 1)) by (rewrite P53; lia).
  assert (Hc' : (1 <= IZR c <= IZR n - 1)%R).
  { split; [apply IZR_le; lia|]. replace (IZR n - 1)%R with (IZR (n - 1)) by (rewrite minus_IZR; reflexivity). apply IZR_le; lia. }
  assert (Hn' : (2 <= IZR n <= 2147483648)%R) by (split; apply IZR_le; lia).
  assert (Ha : (0 <= IZR (high - 1) <= 2147483648)%R) by (split; apply IZR_le; lia).
  set (a := IZR (high - 1)) in *. set (x := (a / IZR n)%R).
  assert (Hx : (0 <= x /\ x * IZR n = a)%R).
  { unfold x. split; [apply Rmult_le_pos; [lra|left; apply Rinv_0_lt_compat; lra]|field; lra]. }
  destruct Hx as [Hx0 Hxn].
  assert (Hxc : (0 <= x * IZR c <= 2147483648)%R).
  { split; [apply Rmult_le_pos; lra|]. apply Rle_trans with (x * IZR n)%R; [apply Rmult_le_compat_l; lra|lra]. }
  assert (Eta : (0 < eta <= / 9007199254740992 * / 9007199254740992)%R).
  { split; [apply eta_pos|]. unfold eta. replace (/ 9007199254740992 * / 9007199254740992)%R with (bpow radix2 (-106)).
    - apply bpow_le. lia.
    - change (/ 9007199254740992)%R with (bpow radix2 (-53)). rewrite <- bpow_plus. reflexivity. }
  set (e := (/ 9007199254740992)%R) in *. assert (He : (e = / 9007199254740992)%R) by reflexivity.
  set (v := rnd64 x).
  assert (Hv : (x - (e * x + e * e) <= v <= x + (e * x + e * e))%R).
  { pose proof (err x) as E. rewrite (Rabs_pos_eq x) in E by exact Hx0. apply abs_bound in E. fold v in E. change uu with e in E. lra. }
  assert (Hvc : (x * IZR c - 1 / 16 <= v * IZR c <= x * IZR c + 1 / 16)%R).
  { assert (K : ((e * x + e * e) * IZR c <= 1 / 16)%R).
    { replace ((e * x + e * e) * IZR c)%R with (e * (x * IZR c) + e * (e * IZR c))%R by ring.
      assert (e * (x * IZR c) <= e * 2147483648)%R by (apply Rmult_le_compat_l; lra).
      assert (e * IZR c <= e * 2147483648)%R by (apply Rmult_le_compat_l; lra).
      assert (e * (e * IZR c) <= 1 * (e * 2147483648))%R by (apply Rmult_le_compat; [lra|apply Rmult_le_pos; lra|lra|lra]).
      rewrite He in *. lra. }
    assert (L : ((x - (e * x + e * e)) * IZR c <= v * IZR c <= (x + (e * x + e * e)) * IZR c)%R).
    { split; apply Rmult_le_compat_r; lra. }
    rewrite Rmult_minus_distr_r, Rmult_plus_distr_r in L. lra. }
  assert (Hv0 : (0 <= v)%R).
  { unfold v. replace 0%R with (rnd64 0) by (apply (rnd_int 0); reflexivity). apply rnd_le. exact Hx0. }
  assert (Hp0 : (0 <= v * IZR c)%R) by (apply Rmult_le_pos; lra).
  set (r := rnd64 (v * IZR c)).
  assert (Hr : (x * IZR c - 1 / 8 <= r <= x * IZR c + 1 / 8)%R).
  { pose proof (errb (v * IZR c) 2147483649%R) as E. rewrite Rabs_pos_eq in E by exact Hp0. specialize (E ltac:(lra)).
    apply abs_bound in E. fold r in E. change uu with e in E. assert (e * e <= 1 * e)%R by (apply Rmult_le_compat_r; lra). lra. }
  assert (Hr0 : (0 <= r)%R).
  { unfold r. replace 0%R with (rnd64 0) by (apply (rnd_int 0); reflexivity). apply rnd_le. exact Hp0. }
  rewrite Ztrunc_floor by exact Hr0.
  pose proof (Zfloor_lb r) as F1. pose proof (Zfloor_ub r) as F2. set (k := Zfloor r) in *.
  assert (Hxc' : (x * IZR c * IZR n = a * IZR c)%R) by (rewrite <- Hxn; ring).
  assert (U : (IZR k * IZR n <= a * IZR c + 1 / 8 * IZR n)%R).
  { rewrite <- Hxc', <- Rmult_plus_distr_r. apply Rmult_le_compat_r; lra. }
  assert (L : (a * IZR c - 9 / 8 * IZR n < IZR k * IZR n)%R).
  { rewrite <- Hxc', <- Rmult_minus_distr_r. apply Rmult_lt_compat_r; lra. }
  unfold a in U, L. rewrite <- !mult_IZR in U, L. split.
  - apply lt_IZR. rewrite minus_IZR. replace (4 * (high - 1) * c) with (4 * ((high - 1) * c)) by ring.
    replace (4 * n * k) with (4 * (k * n)) by ring. rewrite !(mult_IZR 4), (mult_IZR 5). lra.
  - apply le_IZR. rewrite plus_IZR. replace (4 * (high - 1) * c) with (4 * ((high - 1) * c)) by ring.
    replace (4 * n * k) with (4 * (k * n)) by ring. rewrite !(mult_IZR 4). lra.
Qed.

Section B64.
  Variables high n : Z.
  Hypothesis Hh : 1 <= high <= 2 ^ 31.
  Hypothesis Hn : 1 <= n <= 2 ^ 31.
  Notation w := (wid b64_cut high n).

  Lemma b64_all c : 2 <= n -> 0 <= c < n -> 4 * (high - 1) - 6 * n < 4 * n * w c < 4 * (high - 1) + 9 * n.
  Proof.
    intros H2 Hc. unfold wid. destruct (Z.eq_dec c 0) as [->|].
    - destruct (Z.ltb_spec 0 (n - 1)); [|lia]. cbn [Z.ltb Z.compare]. change (0 + 1) with 1.
      pose proof (b64_near high n 1 Hh ltac:(lia) ltac:(lia)). lia.
    - destruct (Z.ltb_spec 0 c); [|lia]. pose proof (b64_near high n c Hh ltac:(lia) ltac:(lia)).
      destruct (Z.ltb_spec c (n - 1)).
      + pose proof (b64_near high n (c + 1) Hh ltac:(lia) ltac:(lia)). lia.
      + replace c with (n - 1) in * by lia. lia.
  Qed.

  Lemma b64_differ c c' : 0 <= c < n -> 0 <= c' < n -> Z.abs (w c - w c') <= 3.
  Proof.
    intros Hc Hc'. destruct (Z.eq_dec n 1) as [E|].
    - replace c' with c by lia. lia.
    - pose proof (b64_all c ltac:(lia) Hc). pose proof (b64_all c' ltac:(lia) Hc'). nia.
  Qed.
  Lemma b64_idle c : 2 * n < high -> 0 <= c < n -> 1 <= w c.
  Proof.
    intros H Hc. destruct (Z.eq_dec n 1) as [E|].
    - unfold wid. destruct (Z.ltb_spec c (n - 1)); [lia|]. destruct (Z.ltb_spec 0 c); lia.
    - pose proof (b64_all c ltac:(lia) Hc). nia.
  Qed.
End B64.

(** Binary64 again, for domains that are not too large: the cuts are exact, or one too small where the exact one would be an
    integer, and exact if the processes divide [high - 1]. *)
Lemma b64_close high n c : 1 <= high -> high * n <= 2 ^ 48 -> 1 <= c < n ->
  (high - 1) * c - n <= n * b64_cut high n c <= (high - 1) * c.
Proof.
  intros Hh Hm Hc. assert (P48 : 2 ^ 48 = 281474976710656) by reflexivity. rewrite P48 in *.
  assert (P53 : 2 ^ 53 = 9007199254740992) by reflexivity.
  assert (Hn : n <= 281474976710656) by nia. assert (Hh2 : high <= 281474976710656) by nia.
  unfold b64_cut.
  replace (IZR high - 1)%R with (IZR (high - 1)) by (rewrite minus_IZR; reflexivity).
  rewrite (rnd_int (high - 1)) by (rewrite P53; lia).
  assert (Hc' : (1 <= IZR c <= IZR n - 1)%R).
  { split; [apply IZR_le; lia|]. replace (IZR n - 1)%R with (IZR (n - 1)) by (rewrite minus_IZR; reflexivity). apply IZR_le; lia. }
  assert (Hn' : (2 <= IZR n <= 281474976710656)%R) by (split; apply IZR_le; lia).
  assert (Ha : (0 <= IZR (high - 1) <= 281474976710656)%R) by (split; apply IZR_le; lia).
  assert (Han : (IZR (high - 1) * IZR n <= 281474976710656)%R) by (rewrite <- mult_IZR; apply IZR_le; nia).
  set (a := IZR (high - 1)) in *. set (x := (a / IZR n)%R).
  assert (Hx : (0 <= x /\ x * IZR n = a)%R).
  { unfold x. split; [apply Rmult_le_pos; [lra|left; apply Rinv_0_lt_compat; lra]|field; lra]. }
  destruct Hx as [Hx0 Hxn].
  assert (Hxc : (0 <= x * IZR c <= a)%R).
  { split; [apply Rmult_le_pos; lra|]. apply Rle_trans with (x * IZR n)%R; [apply Rmult_le_compat_l; lra|lra]. }
  set (e := (/ 9007199254740992)%R). assert (He : (e = / 9007199254740992)%R) by reflexivity.
  assert (Eta : (0 < eta <= e * e)%R).
  { split; [apply eta_pos|]. unfold eta. replace (e * e)%R with (bpow radix2 (-106)).
    - apply bpow_le. lia.
    - unfold e. change (/ 9007199254740992)%R with (bpow radix2 (-53)). rewrite <- bpow_plus. reflexivity. }
  assert (Hc2 : (IZR c <= 281474976710656)%R) by lra.
  assert (Een : (e * e * IZR c * IZR n <= 1 / 1024)%R).
  { assert (e * IZR c <= 1 / 32)%R by (apply Rle_trans with (e * 281474976710656)%R; [apply Rmult_le_compat_l; lra|lra]).
    assert (e * IZR n <= 1 / 32)%R by (apply Rle_trans with (e * 281474976710656)%R; [apply Rmult_le_compat_l; lra|lra]).
    replace (e * e * IZR c * IZR n)%R with ((e * IZR c) * (e * IZR n))%R by ring.
    replace (1 / 1024)%R with ((1 / 32) * (1 / 32))%R by lra.
    apply Rmult_le_compat; try assumption; apply Rmult_le_pos; lra. }
  assert (Ecn : (e * e * IZR n <= 1 / 1024)%R).
  { apply Rle_trans with (e * e * IZR c * IZR n)%R; [|exact Een]. apply Rmult_le_compat_r; [lra|].
    rewrite <- (Rmult_1_r (e * e)) at 1. apply Rmult_le_compat_l; [apply Rmult_le_pos; lra|lra]. }
  assert (Ean : (e * a * IZR n <= 1 / 32)%R).
  { replace (e * a * IZR n)%R with (e * (a * IZR n))%R by ring.
    apply Rle_trans with (e * 281474976710656)%R; [apply Rmult_le_compat_l; lra|lra]. }
  set (v := rnd64 x).
  assert (Hv : (x - (e * x + e * e) <= v <= x + (e * x + e * e))%R).
  { pose proof (err x) as E. rewrite (Rabs_pos_eq x) in E by exact Hx0. apply abs_bound in E. fold v in E. change uu with e in E. lra. }
  assert (Hvc : (x * IZR c - (e * a + e * e * IZR c) <= v * IZR c <= x * IZR c + (e * a + e * e * IZR c))%R).
  { assert (K : ((e * x + e * e) * IZR c <= e * a + e * e * IZR c)%R).
    { rewrite Rmult_plus_distr_r. apply Rplus_le_compat_r. rewrite Rmult_assoc. apply Rmult_le_compat_l; lra. }
    assert (L : ((x - (e * x + e * e)) * IZR c <= v * IZR c <= (x + (e * x + e * e)) * IZR c)%R).
    { split; apply Rmult_le_compat_r; lra. }
    rewrite Rmult_minus_distr_r, Rmult_plus_distr_r in L. lra. }
  assert (Hv0 : (0 <= v)%R).
  { unfold v. replace 0%R with (rnd64 0) by (apply (rnd_int 0); reflexivity). apply rnd_le. exact Hx0. }
  assert (Hp0 : (0 <= v * IZR c)%R) by (apply Rmult_le_pos; lra).
  set (r := rnd64 (v * IZR c)).
  assert (Small : (e * a + e * e * IZR c <= 1)%R).
  { assert (e * a <= 1 / 32)%R by (apply Rle_trans with (e * 281474976710656)%R; [apply Rmult_le_compat_l; lra|lra]).
    assert (e * e * IZR c <= e * e * IZR c * IZR n)%R.
    { rewrite <- (Rmult_1_r (e * e * IZR c)) at 1. apply Rmult_le_compat_l; [apply Rmult_le_pos; [apply Rmult_le_pos; lra|lra]|lra]. }
    lra. }
  assert (Hr : (v * IZR c - (e * (a + 1) + e * e) <= r <= v * IZR c + (e * (a + 1) + e * e))%R).
  { pose proof (errb (v * IZR c) (a + 1)%R) as E. rewrite Rabs_pos_eq in E by exact Hp0. specialize (E ltac:(lra)).
    apply abs_bound in E. fold r in E. change uu with e in E. lra. }
  assert (Hr0 : (0 <= r)%R).
  { unfold r. replace 0%R with (rnd64 0) by (apply (rnd_int 0); reflexivity). apply rnd_le. exact Hp0. }
  assert (En : (e * IZR n <= 1 / 32)%R) by (apply Rle_trans with (e * 281474976710656)%R; [apply Rmult_le_compat_l; lra|lra]).
  assert (Hxc' : (x * IZR c * IZR n = a * IZR c)%R) by (rewrite <- Hxn; ring).
  assert (Hrn : (a * IZR c - 1 / 8 <= r * IZR n <= a * IZR c + 1 / 8)%R).
  { assert (D : ((e * a + e * e * IZR c + (e * (a + 1) + e * e)) * IZR n <= 1 / 8)%R).
    { replace ((e * a + e * e * IZR c + (e * (a + 1) + e * e)) * IZR n)%R
        with (e * a * IZR n + e * e * IZR c * IZR n + (e * a * IZR n + e * IZR n) + e * e * IZR n)%R by ring. lra. }
    assert (L : ((x * IZR c - (e * a + e * e * IZR c + (e * (a + 1) + e * e))) * IZR n <= r * IZR n <=
                 (x * IZR c + (e * a + e * e * IZR c + (e * (a + 1) + e * e))) * IZR n)%R) by (split; apply Rmult_le_compat_r; lra).
    rewrite Rmult_minus_distr_r, Rmult_plus_distr_r, Hxc' in L. lra. }
  rewrite Ztrunc_floor by exact Hr0.
  pose proof (Zfloor_lb r) as F1. pose proof (Zfloor_ub r) as F2. set (k := Zfloor r) in *.
  assert (U : (IZR k * IZR n <= a * IZR c + 1 / 8)%R).
  { apply Rle_trans with (r * IZR n)%R; [apply Rmult_le_compat_r; lra|lra]. }
  assert (L : (a * IZR c - IZR n - 1 / 8 < IZR k * IZR n)%R).
  { assert ((r - 1) * IZR n < IZR k * IZR n)%R by (apply Rmult_lt_compat_r; lra). lra. }
  unfold a in U, L. rewrite <- !mult_IZR in U, L. replace (n * k) with (k * n) by ring. split.
  - assert (G : (IZR ((high - 1) * c - n - 1) < IZR (k * n))%R) by (rewrite !minus_IZR; lra). apply lt_IZR in G. lia.
  - assert (G : (IZR (k * n) < IZR ((high - 1) * c + 1))%R) by (rewrite plus_IZR; lra). apply lt_IZR in G. lia.
Qed.

Lemma b64_divides high n c q : 1 <= high -> high * n <= 2 ^ 48 -> 1 <= c < n -> high - 1 = n * q -> b64_cut high n c = q * c.
Proof.
  intros Hh Hm Hc E. assert (P48 : 2 ^ 48 = 281474976710656) by reflexivity. rewrite P48 in *.
  assert (P53 : 2 ^ 53 = 9007199254740992) by reflexivity.
  assert (Hh2 : high <= 281474976710656) by nia. assert (Hq : 0 <= q) by nia. assert (Hqc : 0 <= q * c <= high - 1) by nia.
  assert (Hq2 : q <= q * c) by nia.
  unfold b64_cut.
  replace (IZR high - 1)%R with (IZR (high - 1)) by (rewrite minus_IZR; reflexivity).
  rewrite (rnd_int (high - 1)) by (rewrite P53; lia). rewrite E, mult_IZR.
  assert (Hn' : (2 <= IZR n)%R) by (apply IZR_le; lia).
  replace (IZR n * IZR q / IZR n)%R with (IZR q) by (field; lra).
  rewrite (rnd_int q) by (rewrite P53; lia). rewrite <- mult_IZR. rewrite (rnd_int (q * c)) by (rewrite P53; lia). apply Ztrunc_IZR.
Qed.

Lemma b64_low high n c : 1 <= high <= 2 ^ 48 -> 1 <= c < n -> 0 <= b64_cut high n c.
Proof.
  intros Hh Hc. assert (P48 : 2 ^ 48 = 281474976710656) by reflexivity. assert (P53 : 2 ^ 53 = 9007199254740992) by reflexivity.
  unfold b64_cut. replace (IZR high - 1)%R with (IZR (high - 1)) by (rewrite minus_IZR; reflexivity).
  rewrite (rnd_int (high - 1)) by (rewrite P53; lia).
  assert (R0 : (rnd64 0 = 0)%R) by (apply (rnd_int 0); reflexivity).
  assert (Hn' : (0 < IZR n)%R) by (apply IZR_lt; lia). assert (Hc' : (0 <= IZR c)%R) by (apply IZR_le; lia).
  assert (Ha : (0 <= IZR (high - 1))%R) by (apply IZR_le; lia).
  assert (Hx : (0 <= rnd64 (IZR (high - 1) / IZR n))%R).
  { rewrite <- R0. apply rnd_le. apply Rmult_le_pos; [exact Ha|]. left. apply Rinv_0_lt_compat, Hn'. }
  replace 0 with (Ztrunc (IZR 0)) by apply Ztrunc_IZR. apply Ztrunc_le. rewrite <- R0 at 1. apply rnd_le. apply Rmult_le_pos; assumption.
Qed.

(** What follows for any such cuts. *)
Section Close.
  Variable cut : Z -> Z -> Z -> Z.
  Variables high n : Z.
  Hypothesis Hh : 1 <= high.
  Hypothesis Hn : 1 <= n.
  Hypothesis close : forall c, 1 <= c < n -> (high - 1) * c - n <= n * cut high n c <= (high - 1) * c.
  Hypothesis low : forall c, 1 <= c < n -> 0 <= cut high n c.
  Hypothesis divides : forall c q, 1 <= c < n -> high - 1 = n * q -> cut high n c = q * c.
  Notation w := (wid cut high n).

  Lemma close_divides c q : 2 <= n -> 0 <= c < n -> high - 1 = n * q -> q <= w c <= q + 1.
  Proof.
    intros H2 Hc E. unfold wid. destruct (Z.ltb_spec c (n - 1)), (Z.ltb_spec 0 c).
    - rewrite (divides c q), (divides (c + 1) q) by (exact E || lia). lia.
    - rewrite (divides (c + 1) q) by (exact E || lia). replace c with 0 by lia. lia.
    - rewrite (divides c q) by (exact E || lia). replace c with (n - 1) by lia. nia.
    - lia.
  Qed.

  Lemma close_all c : 2 <= n -> 0 <= c < n -> high - 1 - n <= n * w c <= high - 1 + 2 * n.
  Proof.
    intros H2 Hc. unfold wid. destruct (Z.eq_dec c 0) as [->|].
    - destruct (Z.ltb_spec 0 (n - 1)); [|lia]. cbn [Z.ltb Z.compare]. change (0 + 1) with 1.
      pose proof (close 1 ltac:(lia)). lia.
    - destruct (Z.ltb_spec 0 c); [|lia]. pose proof (close c ltac:(lia)). destruct (Z.ltb_spec c (n - 1)).
      + pose proof (close (c + 1) ltac:(lia)). lia.
      + replace c with (n - 1) in * by lia. lia.
  Qed.

  Lemma close_differ c c' : 0 <= c < n -> 0 <= c' < n -> Z.abs (w c - w c') <= 2.
  Proof.
    intros Hc Hc'. destruct (Z.eq_dec n 1) as [E|].
    { replace c' with c by lia. lia. }
    pose proof (close_all c ltac:(lia) Hc) as B. pose proof (close_all c' ltac:(lia) Hc') as B'.
    destruct (Z.eq_dec ((high - 1) mod n) 0) as [D|D].
    - apply Z.div_exact in D; [|lia].
      pose proof (close_divides c _ ltac:(lia) Hc D). pose proof (close_divides c' _ ltac:(lia) Hc' D). lia.
    - assert (N : forall z, n * z <> high - 1 - n).
      { intros z Hz. apply D. replace (high - 1) with ((z + 1) * n) by lia. apply Z_mod_mult. }
      pose proof (N (w c)). pose proof (N (w c')). nia.
  Qed.

  Lemma close_idle : (forall c, 0 <= c < n -> 1 <= w c) <-> n <= 2 \/ n <= high.
  Proof.
    split.
    - intros H. destruct (Z_le_gt_dec n 2); [auto|]. destruct (Z_le_gt_dec n high); [auto|]. exfalso.
      assert (G : forall k : nat, Z.of_nat k <= n - 2 -> Z.of_nat k <= cut high n (Z.of_nat k + 1)).
      { induction k as [|k IH]; intros Hk.
        - change (Z.of_nat 0 + 1) with 1. pose proof (low 1 ltac:(lia)). lia.
        - specialize (IH ltac:(lia)). specialize (H (Z.of_nat k + 1) ltac:(lia)). unfold wid in H.
          destruct (Z.ltb_spec (Z.of_nat k + 1) (n - 1)); [|lia]. destruct (Z.ltb_spec 0 (Z.of_nat k + 1)); [|lia].
          replace (Z.of_nat (S k) + 1) with (Z.of_nat k + 1 + 1) by lia. lia. }
      specialize (G (Z.to_nat (n - 2)) ltac:(lia)). rewrite Z2Nat.id in G by lia. replace (n - 2 + 1) with (n - 1) in G by lia.
      pose proof (close (n - 1) ltac:(lia)). nia.
    - intros H c Hc. destruct (Z.eq_dec n 1) as [E|].
      { unfold wid. destruct (Z.ltb_spec c (n - 1)); [lia|]. destruct (Z.ltb_spec 0 c); lia. }
      unfold wid. destruct (Z.ltb_spec c (n - 1)), (Z.ltb_spec 0 c).
      + destruct H as [H|H]; [lia|]. pose proof (close c ltac:(lia)) as N1. pose proof (close (c + 1) ltac:(lia)) as N2.
        destruct (Z.eq_dec n high) as [E|].
        * assert (cut high n c <= c - 1) by nia. assert (c <= cut high n (c + 1)) by nia. lia.
        * destruct (Z.eq_dec ((high - 1) mod n) 0) as [D|D].
          { apply Z.div_exact in D; [|lia]. pose proof (divides c _ ltac:(lia) D) as D1. pose proof (divides (c + 1) _ ltac:(lia) D) as D2.
            assert (1 <= (high - 1) / n) by (apply Z.div_le_lower_bound; lia). rewrite D1, D2. nia. }
          assert (N : n * (cut high n (c + 1) - cut high n c) <> high - 1 - n).
          { intros Hz. apply D. replace (high - 1) with ((cut high n (c + 1) - cut high n c + 1) * n) by lia. apply Z_mod_mult. }
          nia.
      + pose proof (low (c + 1) ltac:(lia)). lia.
      + pose proof (close c ltac:(lia)). nia.
      + lia.
  Qed.
End Close.

Lemma exact_at_least high n m c : 1 <= high -> 1 <= n -> 1 <= m -> m * n < high -> 0 <= c < n -> m <= wid exact_cut high n c.
Proof.
  intros Hh Hn Hm H Hc. destruct (Z.eq_dec n 1) as [E|].
  - replace c with 0 by lia. rewrite exact_only by lia. nia.
  - pose proof (exact_all high n Hh Hn c ltac:(lia) Hc). nia.
Qed.

Lemma b64_at_least high n m c : 1 <= high -> 1 <= n -> high * n <= 2 ^ 48 -> 1 <= m -> m * n < high -> 0 <= c < n ->
  m <= wid b64_cut high n c.
Proof.
  intros Hh Hn H48 Hm H Hc. destruct (Z.eq_dec n 1) as [E|].
  - unfold wid. destruct (Z.ltb_spec c (n - 1)); [lia|]. destruct (Z.ltb_spec 0 c); nia.
  - assert (A : high - 1 - n <= n * wid b64_cut high n c <= high - 1 + 2 * n).
    { apply close_all; auto; [intros k Hk; apply b64_close; auto|lia]. }
    destruct (Z.eq_dec ((high - 1) mod n) 0) as [D|D].
    + apply Z.div_exact in D; [|lia].
      assert (B : (high - 1) / n <= wid b64_cut high n c <= (high - 1) / n + 1).
      { apply close_divides; auto; [intros k q Hk; apply b64_divides; auto|lia]. }
      nia.
    + assert (N : n * wid b64_cut high n c <> high - 1 - n).
      { intros Hz. apply D. replace (high - 1) with ((wid b64_cut high n c + 1) * n) by lia. apply Z_mod_mult. }
      nia.
Qed.
