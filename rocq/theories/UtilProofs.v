(** Proofs about the utilities. *)
From Coq Require Import ZArith QArith Reals List Bool Lia Lra Permutation Psatz Lqa.
From Flocq Require Import Core Relative.
From Verif Require Import Vec GridSpec BoxFacts RangeModel RangeProofs MpiFloatModel RandProofs UtilModel UtilSpec.
Import ListNotations.
Local Open Scope Z_scope.

(** ** Means *)
Lemma q_loop : forall xs m cnt, 0 <= cnt -> cnt + Z.of_nat (length xs) < 2 ^ 31 ->
  exists m', mean_loop (fun a b => Some (a + b)%Q) xs m cnt = Some (m', cnt + Z.of_nat (length xs)) /\ (m' == m + qsum xs)%Q.
Proof.
  induction xs as [|x xs IH]; intros m cnt H0 H; cbn [mean_loop length qsum fold_right] in *.
  - exists m. split; [f_equal; f_equal; lia|ring].
  - replace (cnt + 1 <? 2 ^ 31) with true by (symmetry; apply Z.ltb_lt; lia).
    destruct (IH (m + x)%Q (cnt + 1) ltac:(lia) ltac:(lia)) as (m' & E & Q). exists m'. rewrite E. split; [f_equal; f_equal; lia|].
    rewrite Q. unfold qsum. ring.
Qed.
Lemma qsum_ge : forall lo xs, Forall (fun x => lo <= x)%Q xs -> (inject_Z (Z.of_nat (length xs)) * lo <= qsum xs)%Q.
Proof.
  induction 1 as [|x xs H F IH]; cbn [length qsum fold_right]; [change (inject_Z (Z.of_nat 0)) with 0%Q; lra|]. rewrite Nat2Z.inj_succ. unfold Z.succ. rewrite inject_Z_plus.
  change (inject_Z 1) with 1%Q. unfold qsum in IH. lra.
Qed.
Lemma qsum_le : forall hi xs, Forall (fun x => x <= hi)%Q xs -> (qsum xs <= inject_Z (Z.of_nat (length xs)) * hi)%Q.
Proof.
  induction 1 as [|x xs H F IH]; cbn [length qsum fold_right]; [change (inject_Z (Z.of_nat 0)) with 0%Q; lra|]. rewrite Nat2Z.inj_succ. unfold Z.succ. rewrite inject_Z_plus.
  change (inject_Z 1) with 1%Q. unfold qsum in IH. lra.
Qed.
Lemma mean_exact : forall xs, xs <> [] -> Z.of_nat (length xs) < 2 ^ 31 ->
  exists m, q_mean xs = Some m /\ (m == qsum xs / inject_Z (Z.of_nat (length xs)))%Q /\
    (forall lo, Forall (fun x => lo <= x)%Q xs -> (lo <= m)%Q) /\ (forall hi, Forall (fun x => x <= hi)%Q xs -> (m <= hi)%Q).
Proof.
  intros xs Hn Hl. assert (L : 0 < Z.of_nat (length xs)) by (destruct xs; [congruence|cbn [length]; lia]).
  unfold q_mean, mean. destruct (q_loop xs 0%Q 0 ltac:(lia) ltac:(lia)) as (m & E & Q). rewrite E. cbn [Z.add].
  destruct (Z.eqb_spec (Z.of_nat (length xs)) 0) as [F|_]; [lia|].
  set (n := inject_Z (Z.of_nat (length xs))). assert (N : (0 < n)%Q) by (unfold n, Qlt, inject_Z; cbn; lia).
  assert (Em : (m / n == qsum xs / n)%Q) by (rewrite Q; field; lra).
  exists (m / n)%Q. split; [reflexivity|]. split; [exact Em|]. split.
  - intros lo F. rewrite Em. apply Qle_shift_div_l; [exact N|]. rewrite Qmult_comm. apply qsum_ge, F.
  - intros hi F. rewrite Em. apply Qle_shift_div_r; [exact N|]. rewrite Qmult_comm. apply qsum_le, F.
Qed.

From Coq Require Import Lra.
Lemma ztrunc_div : forall a n, 0 <= a < 2 ^ 53 -> 0 < n < 2 ^ 31 -> Ztrunc (rnd64 (IZR a / IZR n)) = a / n.
Proof.
  intros a n Ha Hn. assert (N : (0 < IZR n)%R) by (apply IZR_lt; lia).
  pose proof (Z.div_mod a n ltac:(lia)) as D. pose proof (Z.mod_pos_bound a n ltac:(lia)) as B.
  assert (Q0 : 0 <= a / n) by (apply Z.div_pos; lia).
  assert (Qa : a / n <= a) by (apply Z.div_le_upper_bound; nia).
  assert (X0 : (0 <= IZR a / IZR n)%R) by (apply Rmult_le_pos; [apply IZR_le; lia|apply Rlt_le, Rinv_0_lt_compat, N]).
  assert (Xl : (IZR (a / n) <= IZR a / IZR n)%R).
  { apply (Rmult_le_reg_r (IZR n)); [exact N|]. unfold Rdiv. rewrite Rmult_assoc, Rinv_l, Rmult_1_r by lra. rewrite <- mult_IZR. apply IZR_le. nia. }
  assert (Rl : (IZR (a / n) <= rnd64 (IZR a / IZR n))%R).
  { rewrite <- (rnd_int (a / n)) at 1 by lia. apply rnd_mono, Xl. }
  assert (Ru : (rnd64 (IZR a / IZR n) < IZR (a / n) + 1)%R).
  { destruct (Z.eq_dec a 0) as [->|Hz].
    - rewrite Z.div_0_l by lia. unfold Rdiv. rewrite Rmult_0_l, (rnd_int 0) by (cbn; lia). lra.
    - assert (Xg : (bpow radix2 (-1022) <= Rabs (IZR a / IZR n))%R).
      { rewrite Rabs_pos_eq by exact X0. apply Rle_trans with (bpow radix2 (-31)); [apply bpow_le; lia|].
        apply (Rmult_le_reg_r (IZR n)); [exact N|]. unfold Rdiv. rewrite Rmult_assoc, Rinv_l, Rmult_1_r by lra.
        apply Rle_trans with 1%R; [|apply (IZR_le 1); lia]. apply Rle_trans with (bpow radix2 (-31) * IZR (2 ^ 31))%R.
        - apply Rmult_le_compat_l; [apply bpow_ge_0|apply IZR_le; lia].
        - change (IZR (2 ^ 31)) with (bpow radix2 31). rewrite <- bpow_plus. apply Rle_refl. }
      pose proof (relative_error_N_FLT radix2 (-1074) 53 ltac:(reflexivity) (fun x => negb (Z.even x)) _ Xg) as E.
      fold (rnd64 (IZR a / IZR n)) in E. rewrite (Rabs_pos_eq (IZR a / IZR n)) in E by exact X0.
      change (- (53) + 1) with (-53 + 1) in E.
      change (Generic_fmt.round radix2 (FLT_exp (-1074) 53) ZnearestE (IZR a / IZR n))%R with (rnd64 (IZR a / IZR n)) in E.
      assert (E' : (rnd64 (IZR a / IZR n) <= IZR a / IZR n + / 2 * bpow radix2 (-53 + 1) * (IZR a / IZR n))%R).
      { pose proof (Rle_abs (rnd64 (IZR a / IZR n) - IZR a / IZR n)). lra. }
      apply Rle_lt_trans with (1 := E').
      apply (Rmult_lt_reg_r (IZR n)); [exact N|].
      replace ((IZR a / IZR n + / 2 * bpow radix2 (-53 + 1) * (IZR a / IZR n)) * IZR n)%R with (IZR a + / 2 * bpow radix2 (-53 + 1) * IZR a)%R by (field; lra).
      apply Rlt_le_trans with (IZR a + 1)%R.
      + apply Rplus_lt_compat_l. assert (P : (bpow radix2 (-53 + 1) = 2 * bpow radix2 (-53))%R) by (rewrite bpow_plus; cbn [bpow]; change (IZR (Z.pow_pos radix2 1)) with 2%R; ring).
        rewrite P. apply Rlt_le_trans with (bpow radix2 (-53) * IZR (2 ^ 53))%R.
        * replace (/ 2 * (2 * bpow radix2 (-53)) * IZR a)%R with (bpow radix2 (-53) * IZR a)%R by field. apply Rmult_lt_compat_l; [apply bpow_gt_0|apply IZR_lt; lia].
        * change (IZR (2 ^ 53)) with (bpow radix2 53). rewrite <- bpow_plus. apply Rle_refl.
      + rewrite <- (plus_IZR a 1), <- (plus_IZR (a / n) 1), <- mult_IZR. apply IZR_le. nia. }
  assert (T : Zfloor (rnd64 (IZR a / IZR n)) = a / n) by (apply Zfloor_imp; rewrite plus_IZR; split; assumption).
  rewrite Ztrunc_floor; [exact T|]. apply Rle_trans with (2 := Rl). apply (IZR_le 0), Q0.
Qed.
Lemma ztrunc_quot : forall a n, Z.abs a < 2 ^ 53 -> 0 < n < 2 ^ 31 -> Ztrunc (rnd64 (IZR a / IZR n)) = Z.quot a n.
Proof.
  intros a n Ha Hn. destruct (Z_le_gt_dec 0 a) as [H|H].
  - rewrite ztrunc_div by lia. symmetry. apply Z.quot_div_nonneg; lia.
  - replace a with (- (- a)) by lia. rewrite opp_IZR. unfold Rdiv. rewrite Ropp_mult_distr_l_reverse.
    assert (O : forall x, rnd64 (- x) = (- rnd64 x)%R) by (intros x; unfold rnd64; apply round_NE_opp).
    rewrite O, Ztrunc_opp. change (IZR (- a) * / IZR n)%R with (IZR (- a) / IZR n)%R. rewrite ztrunc_div by lia.
    rewrite Z.quot_opp_l by lia. f_equal. symmetry. apply Z.quot_div_nonneg; lia.
Qed.

Lemma int_ok_true : forall z, - 2 ^ 31 <= z < 2 ^ 31 -> int_ok z = true.
Proof. intros z H. unfold int_ok. apply andb_true_intro. split; [apply Z.leb_le|apply Z.ltb_lt]; lia. Qed.
Lemma int_loop : forall xs m cnt, 0 <= cnt -> cnt + Z.of_nat (length xs) < 2 ^ 31 ->
  (forall n, - 2 ^ 31 <= m + zsum (firstn n xs) < 2 ^ 31) ->
  mean_loop int_add xs m cnt = Some (m + zsum xs, cnt + Z.of_nat (length xs)).
Proof.
  induction xs as [|x xs IH]; intros m cnt H0 H F; cbn [mean_loop length zsum fold_right] in *.
  - f_equal. f_equal; lia.
  - pose proof (F 1%nat) as F1. cbn in F1. unfold int_add. rewrite int_ok_true by lia.
    replace (cnt + 1 <? 2 ^ 31) with true by (symmetry; apply Z.ltb_lt; lia).
    rewrite IH; [unfold zsum; f_equal; f_equal; lia|lia|lia|]. intros n. specialize (F (S n)). cbn [firstn zsum fold_right] in F. unfold zsum. lia.
Qed.
Lemma quot_bound : forall a n, 0 < n -> Z.min 0 a <= Z.quot a n <= Z.max 0 a.
Proof.
  assert (P : forall a n, 0 <= a -> 0 < n -> 0 <= Z.quot a n <= a).
  { intros a n Ha Hn. rewrite Z.quot_div_nonneg by lia. split; [apply Z.div_pos; lia|apply Z.div_le_upper_bound; nia]. }
  intros a n Hn. destruct (Z_le_gt_dec 0 a) as [H|H]; [specialize (P a n H Hn); lia|].
  specialize (P (- a) n ltac:(lia) Hn). rewrite Z.quot_opp_l in P by lia. lia.
Qed.
Lemma mean_int_ok : forall xs, xs <> [] -> Z.of_nat (length xs) < 2 ^ 31 -> sums_fit xs ->
  int_mean xs = Some (Z.quot (zsum xs) (Z.of_nat (length xs))).
Proof.
  intros xs Hn Hl F. assert (L : 0 < Z.of_nat (length xs)) by (destruct xs; [congruence|cbn [length]; lia]).
  unfold int_mean, mean. rewrite int_loop; [|lia|lia|intros n; apply F]. cbn [Z.add].
  assert (B : - 2 ^ 31 <= zsum xs < 2 ^ 31) by (specialize (F (length xs)); rewrite firstn_all in F; exact F).
  unfold int_divide. destruct (Z.eqb_spec (Z.of_nat (length xs)) 0) as [E|_]; [lia|].
  rewrite (rnd_int (zsum xs)) by lia. rewrite (rnd_int (Z.of_nat (length xs))) by lia.
  rewrite ztrunc_quot by lia. rewrite int_ok_true; [reflexivity|].
  pose proof (quot_bound (zsum xs) (Z.of_nat (length xs)) L). lia.
Qed.
Lemma int_sum_ok : forall xs s, (forall n, - 2 ^ 31 <= s + zsum (firstn n xs) < 2 ^ 31) -> calcsum int_add xs s = Some (s + zsum xs).
Proof.
  induction xs as [|x xs IH]; intros s F; cbn [calcsum zsum fold_right]; [f_equal; lia|].
  pose proof (F 1%nat) as F1. cbn in F1. unfold int_add. rewrite int_ok_true by lia. rewrite IH; [f_equal; unfold zsum; lia|].
  intros n. specialize (F (S n)). cbn [firstn zsum fold_right] in F. unfold zsum. lia.
Qed.
Lemma calcsum_int : forall xs, sums_fit xs -> calcsum int_add xs 0 = Some (zsum xs).
Proof. intros xs F. apply int_sum_ok. intros n. apply F. Qed.

(** ** Unique numbers *)
Lemma ubuild_inv : forall l s0,
  (forall c, 0 <= running s0 c) -> (forall c o i, In (c, o, i) (ids s0) -> 0 <= i < running s0 c) ->
  (forall c o1 o2 i, In (c, o1, i) (ids s0) -> In (c, o2, i) (ids s0) -> o1 = o2) ->
  let s := fold_left (fun s x => unew (fst x) (snd x) s) l s0 in
  (forall c, 0 <= running s c) /\ (forall c o i, In (c, o, i) (ids s) -> 0 <= i < running s c) /\
  (forall c o1 o2 i, In (c, o1, i) (ids s) -> In (c, o2, i) (ids s) -> o1 = o2).
Proof.
  induction l as [|[c0 o0] l IH]; intros s0 H0 H1 H2; cbn zeta; cbn [fold_left]; [auto|].
  apply IH; cbn [unew running ids fst snd].
  - intros c. destruct (Nat.eqb_spec c c0); [subst; specialize (H0 c0); lia|apply H0].
  - intros c o i [E|Hin].
    + injection E as <- <- <-. rewrite Nat.eqb_refl. specialize (H0 c0). lia.
    + specialize (H1 _ _ _ Hin). destruct (Nat.eqb_spec c c0); [subst|]; lia.
  - intros c o1 o2 i [E1|E1] [E2|E2].
    + congruence.
    + injection E1 as <- <- <-. specialize (H1 _ _ _ E2). lia.
    + injection E2 as <- <- <-. specialize (H1 _ _ _ E1). lia.
    + eauto.
Qed.
Lemma uid_in : forall s c o i, uid s c o = Some i -> In (c, o, i) (ids s).
Proof.
  intros s c o i E. unfold uid in E. destruct (find _ (ids s)) as [[[c' o'] i']|] eqn:F; [|discriminate].
  apply find_some in F. destruct F as [F1 F2]. cbn in F2, E. injection E as <-. apply andb_true_iff in F2. destruct F2 as [A B].
  apply Nat.eqb_eq in A, B. subst. exact F1.
Qed.
Lemma unique_ids : forall l c o1 o2 i, uid (ubuild l) c o1 = Some i -> uid (ubuild l) c o2 = Some i -> o1 = o2.
Proof.
  intros l c o1 o2 i E1 E2. destruct (ubuild_inv l uinit) as (_ & _ & H); cbn; try tauto; [lia|]. apply (H c o1 o2 i); apply uid_in; assumption.
Qed.
Lemma ids_kept : forall l s x, In x (ids s) -> In x (ids (fold_left (fun s x => unew (fst x) (snd x) s) l s)).
Proof. induction l as [|y l IH]; intros s x H; cbn [fold_left]; [exact H|]. apply IH. right. exact H. Qed.
Lemma unique_has : forall l c o, In (c, o) l -> exists i, uid (ubuild l) c o = Some i.
Proof.
  intros l c o H. assert (E : exists i, In (c, o, i) (ids (ubuild l))).
  { unfold ubuild. generalize uinit. induction l as [|y l IH]; intros s; [destruct H|]. cbn [fold_left]. destruct H as [->|H].
    - exists (running s c). apply ids_kept. left. reflexivity.
    - apply IH, H. }
  destruct E as [i E]. unfold uid. destruct (find _ (ids (ubuild l))) as [x|] eqn:F; [eexists; reflexivity|].
  apply (find_none _ _ F) in E. cbn in E. rewrite !Nat.eqb_refl in E. discriminate.
Qed.

(** ** Singletons *)
Lemma existsb_seen : forall c seen, existsb (Nat.eqb c) seen = true <-> In c seen.
Proof.
  intros c seen. rewrite existsb_exists. split.
  - intros [x [H E]]. apply Nat.eqb_eq in E. subst. exact H.
  - intros H. exists c. split; [exact H|apply Nat.eqb_refl].
Qed.
Section Single.
  Context {W : Type}.
  Variable create : nat -> W -> nat * W.
  Lemma instances_gen : forall cs p seen w, (forall c, In c seen <-> p c <> None) ->
    let (xs, w') := instances create cs p w in
    length xs = length cs /\ w' = fold_left (fun w c => snd (create c w)) (firsts seen cs) w /\
    exists q, (forall c x, p c = Some x -> q c = Some x) /\ (forall i c, nth_error cs i = Some c -> nth_error xs i = q c).
  Proof.
    induction cs as [|c cs IH]; intros p seen w Hp; cbn [instances firsts].
    - split; [reflexivity|]. split; [reflexivity|]. exists p. split; [auto|]. intros [|i] c; discriminate.
    - unfold instance. destruct (p c) as [x|] eqn:E.
      + destruct (existsb (Nat.eqb c) seen) eqn:S; [|exfalso; assert (In c seen) by (apply Hp; congruence); apply existsb_seen in H; congruence].
        specialize (IH p seen w Hp). destruct (instances create cs p w) as [xs w']. destruct IH as (L & F & q & Q1 & Q2).
        split; [cbn; congruence|]. split; [exact F|]. exists q. split; [exact Q1|]. intros [|i] d Hd; cbn in Hd |- *; [injection Hd as <-; symmetry; apply Q1, E|apply Q2, Hd].
      + destruct (existsb (Nat.eqb c) seen) eqn:S; [exfalso; apply existsb_seen, Hp in S; congruence|].
        destruct (create c w) as [x w1] eqn:C.
        set (p' := fun c' => if Nat.eqb c' c then Some x else p c').
        specialize (IH p' (c :: seen) w1). destruct (instances create cs p' w1) as [xs w']. destruct IH as (L & F & q & Q1 & Q2).
        { intros d. unfold p'. cbn [In]. destruct (Nat.eqb_spec d c) as [->|N]; [split; [congruence|auto]|]. rewrite <- Hp. split; [intros [H|H]; [congruence|exact H]|auto]. }
        split; [cbn; congruence|]. split; [cbn [fold_left]; rewrite C; exact F|]. exists q. split.
        * intros d y Hd. apply Q1. unfold p'. destruct (Nat.eqb_spec d c) as [->|N]; [congruence|exact Hd].
        * intros [|i] d Hd; cbn in Hd |- *; [injection Hd as <-; symmetry; apply Q1; unfold p'; rewrite Nat.eqb_refl; reflexivity|apply Q2, Hd].
  Qed.
  Lemma singleton : forall cs w, let (xs, w') := instances create cs (fun _ => None) w in
    length xs = length cs /\ w' = fold_left (fun w c => snd (create c w)) (firsts [] cs) w /\
    (forall i j c, nth_error cs i = Some c -> nth_error cs j = Some c -> nth_error xs i = nth_error xs j).
  Proof.
    intros cs w. pose proof (instances_gen cs (fun _ => None) [] w) as H. destruct (instances create cs (fun _ => None) w) as [xs w'].
    destruct H as (L & F & q & _ & Q); [intros c; cbn; split; [tauto|congruence]|]. split; [exact L|]. split; [exact F|].
    intros i j c Hi Hj. rewrite (Q i c Hi), (Q j c Hj). reflexivity.
  Qed.
End Single.
Lemma firsts_spec : forall cs seen, NoDup (firsts seen cs) /\ forall c, In c (firsts seen cs) <-> In c cs /\ ~ In c seen.
Proof.
  induction cs as [|c cs IH]; intros seen; cbn [firsts]; [split; [constructor|cbn; tauto]|].
  destruct (existsb (Nat.eqb c) seen) eqn:E.
  - apply existsb_seen in E. destruct (IH seen) as [N I]. split; [exact N|]. intros d. rewrite I. cbn [In]. split; [tauto|]. intros [[->|H] M]; tauto.
  - assert (E' : ~ In c seen) by (intros H; apply existsb_seen in H; congruence). destruct (IH (c :: seen)) as [N I]. split.
    + constructor; [|exact N]. rewrite I. cbn [In]. tauto.
    + intros d. cbn [In]. rewrite I. cbn [In]. destruct (Nat.eq_dec c d) as [->|M]; tauto.
Qed.

(** ** Kokkos *)
Lemma in_box_half_open : forall lo hi p, length hi = length lo ->
  ((length p = length lo /\ forall d, (d < length lo)%nat -> vget lo d <= vget p d < vget (map (fun h => h + 1) hi) d) <-> in_box lo hi p).
Proof.
  induction lo as [|l lo IH]; intros [|h hi] [|x p] L; cbn [in_box length map] in *; try discriminate; try (split; [intros [H _]; discriminate|tauto]).
  - split; [tauto|]. intros _. split; [reflexivity|]. intros d Hd. lia.
  - rewrite <- (IH hi p) by lia. split.
    + intros [H1 H2]. split; [specialize (H2 0%nat ltac:(lia)); cbn in H2; lia|]. split; [lia|]. intros d Hd. specialize (H2 (S d) ltac:(lia)). exact H2.
    + intros [H1 [H2 H3]]. split; [lia|]. intros [|d] Hd; [cbn; lia|]. apply H3. lia.
Qed.
Lemma fold_permute : forall {S P : Type} (f : S -> P -> S) l l', Permutation l l' ->
  (forall p q s, In p l -> In q l -> f (f s p) q = f (f s q) p) -> forall s, fold_left f l s = fold_left f l' s.
Proof.
  intros S P f l l' H. induction H as [|x l l' H IH|x y l|l l1 l2 H1 IH1 H2 IH2]; intros C s; cbn [fold_left].
  - reflexivity.
  - apply IH. intros p q t Hp Hq. apply C; right; assumption.
  - f_equal. apply C; cbn; auto.
  - rewrite IH1 by exact C. apply IH2. intros p q t Hp Hq. apply C; eapply Permutation_in; try apply Permutation_sym; eauto.
Qed.
Lemma kokkos_each : forall lo hi blo bhi calls, length hi = length lo -> kokkos_bounds (mkRange lo hi) = Some (blo, bhi) ->
  kokkos_calls blo bhi calls -> NoDup calls /\ (forall p, In p calls <-> in_box lo hi p).
Proof.
  intros lo hi blo bhi calls L B [N I]. unfold kokkos_bounds in B. cbn [r_lo r_hi] in B. destruct (forallb _ hi); [|discriminate]. injection B as <- <-.
  split; [exact N|]. intros p. rewrite I. apply in_box_half_open, L.
Qed.
Lemma kokkos_order : forall (S : Type) (func : vec -> S -> S) lo hi blo bhi calls s, length hi = length lo ->
  kokkos_bounds (mkRange lo hi) = Some (blo, bhi) -> kokkos_calls blo bhi calls ->
  (forall p q s, in_box lo hi p -> in_box lo hi q -> func p (func q s) = func q (func p s)) ->
  kokkos_forEach func calls s = c_forEach func (mkRange lo hi) s.
Proof.
  intros S func lo hi blo bhi calls s L B K C. destruct (kokkos_each _ _ _ _ _ L B K) as [N I].
  destruct (@c_forEach_exact S func lo hi s L) as (l & (E1 & _ & E3) & ->). unfold kokkos_forEach.
  apply fold_permute; [apply NoDup_Permutation; [exact N|exact E3|]|].
  - intros p. rewrite I, E1. reflexivity.
  - intros p q t Hp Hq. apply C; apply I; assumption.
Qed.
