(** Proofs about reductions. *)
From Coq Require Import ZArith Reals List Bool Permutation Lia Lra Psatz.
From Coq Require Import SpecFloat.
From Flocq Require Import Core Relative Plus_error.
From Verif Require Import MpiFloatModel MpiFloat FieldModel UtilModel UtilSpec UtilProofs ReduceModel ReduceSpec.
Import ListNotations.

(** ** Integers *)
Lemma zabs_app a b : zabs_total (a ++ b) = (zabs_total a + zabs_total b)%Z.
Proof. induction a as [|x a IH]; simpl; lia. Qed.
Lemma zabs_perm a b : Permutation a b -> zabs_total a = zabs_total b.
Proof. induction 1; simpl; lia. Qed.
Lemma zsum_app a b : zsum (a ++ b) = (zsum a + zsum b)%Z.
Proof. unfold zsum. induction a as [|x a IH]; simpl; lia. Qed.
Lemma zsum_perm a b : Permutation a b -> zsum a = zsum b.
Proof. unfold zsum. induction 1; simpl; lia. Qed.
Lemma zsum_abs a : (Z.abs (zsum a) <= zabs_total a)%Z.
Proof. unfold zsum. induction a as [|x a IH]; simpl; lia. Qed.
Lemma zabs_nonneg a : (0 <= zabs_total a)%Z.
Proof. induction a; simpl; lia. Qed.

Lemma tree_int t : (zabs_total (leaves t) < 2 ^ 31)%Z -> tree_value int_add t = Some (zsum (leaves t)).
Proof.
  induction t as [x|a IHa b IHb]; intros H; simpl; [f_equal; unfold zsum; simpl; lia|].
  cbn [leaves] in H. rewrite zabs_app in H. pose proof (zabs_nonneg (leaves a)). pose proof (zabs_nonneg (leaves b)).
  rewrite IHa, IHb by lia. unfold int_add. pose proof (zsum_abs (leaves a)). pose proof (zsum_abs (leaves b)).
  rewrite zsum_app. rewrite int_ok_true; [reflexivity|]. lia.
Qed.

Lemma reduce_int_sum vals res : (zabs_total vals < 2 ^ 31)%Z -> sumReduce int_add vals res -> res = Some (zsum vals).
Proof.
  intros H (t & P & <-). rewrite tree_int by (rewrite (zabs_perm _ _ P); exact H). f_equal. apply zsum_perm, P.
Qed.
Lemma reduce_int_avg vals res : vals <> [] -> (Z.of_nat (length vals) < 2 ^ 31)%Z -> (zabs_total vals < 2 ^ 31)%Z ->
  avgReduce int_add int_divide vals res -> res = Some (Z.quot (zsum vals) (Z.of_nat (length vals))).
Proof.
  intros Hn Hl H (s & Hs & ->). rewrite (reduce_int_sum _ _ H Hs).
  assert (L : (0 < Z.of_nat (length vals))%Z) by (destruct vals; [congruence|cbn [length]; lia]).
  pose proof (zsum_abs vals).
  unfold int_divide. destruct (Z.eqb_spec (Z.of_nat (length vals)) 0) as [E|_]; [lia|].
  rewrite (rnd_int (zsum vals)) by lia. rewrite (rnd_int (Z.of_nat (length vals))) by lia.
  rewrite ztrunc_quot by lia. rewrite int_ok_true; [reflexivity|].
  pose proof (quot_bound (zsum vals) (Z.of_nat (length vals)) L). lia.
Qed.

(** ** Largest and smallest *)
Section Order.
  Context {T : Type} (le : T -> T -> Prop) (smaller : T -> T -> bool).
  Hypothesis refl : forall x, le x x.
  Hypothesis trans : forall x y z, le x y -> le y z -> le x z.
  Hypothesis yes : forall x y, smaller x y = true -> le x y.
  Hypothesis no : forall x y, smaller x y = false -> le y x.
  Lemma tree_max t : exists m, tree_value (op_max smaller) t = Some m /\ In m (leaves t) /\ forall x, In x (leaves t) -> le x m.
  Proof.
    induction t as [x|a (m & Em & Im & Hm) b (n & En & In_ & Hn)].
    - exists x. simpl. split; [reflexivity|]. split; [auto|]. intros y [<-|[]]. apply refl.
    - simpl. rewrite Em, En. unfold op_max. destruct (smaller m n) eqn:C.
      + exists n. split; [reflexivity|]. split; [apply in_or_app; auto|]. intros x Hx. apply in_app_or in Hx. destruct Hx as [Hx|Hx]; [|apply Hn, Hx].
        eapply trans; [apply Hm, Hx|apply yes, C].
      + exists m. split; [reflexivity|]. split; [apply in_or_app; auto|]. intros x Hx. apply in_app_or in Hx. destruct Hx as [Hx|Hx]; [apply Hm, Hx|].
        eapply trans; [apply Hn, Hx|apply no, C].
  Qed.
  Lemma tree_min t : exists m, tree_value (op_min smaller) t = Some m /\ In m (leaves t) /\ forall x, In x (leaves t) -> le m x.
  Proof.
    induction t as [x|a (m & Em & Im & Hm) b (n & En & In_ & Hn)].
    - exists x. simpl. split; [reflexivity|]. split; [auto|]. intros y [<-|[]]. apply refl.
    - simpl. rewrite Em, En. unfold op_min. destruct (smaller n m) eqn:C.
      + exists n. split; [reflexivity|]. split; [apply in_or_app; auto|]. intros x Hx. apply in_app_or in Hx. destruct Hx as [Hx|Hx]; [|apply Hn, Hx].
        eapply trans; [apply yes, C|apply Hm, Hx].
      + exists m. split; [reflexivity|]. split; [apply in_or_app; auto|]. intros x Hx. apply in_app_or in Hx. destruct Hx as [Hx|Hx]; [apply Hm, Hx|].
        eapply trans; [apply no, C|apply Hn, Hx].
  Qed.
  Lemma reduce_max vals res : maxReduce smaller vals res -> exists m, res = Some m /\ In m vals /\ forall x, In x vals -> le x m.
  Proof.
    intros (t & P & <-). destruct (tree_max t) as (m & E & I & H). exists m. split; [exact E|]. split; [apply (Permutation_in _ P), I|].
    intros x Hx. apply H. apply (Permutation_in _ (Permutation_sym P)), Hx.
  Qed.
  Lemma reduce_min vals res : minReduce smaller vals res -> exists m, res = Some m /\ In m vals /\ forall x, In x vals -> le m x.
  Proof.
    intros (t & P & <-). destruct (tree_min t) as (m & E & I & H). exists m. split; [exact E|]. split; [apply (Permutation_in _ P), I|].
    intros x Hx. apply H. apply (Permutation_in _ (Permutation_sym P)), Hx.
  Qed.
End Order.

(** ** Doubles *)
Local Open Scope R_scope.
Definition u : R := / 2 ^ 53.
Lemma u_pos : 0 <= u.
Proof. unfold u. apply Rlt_le, Rinv_0_lt_compat. apply pow_lt. lra. Qed.
Lemma u_ro_eq : u_ro radix2 53 = u.
Proof.
  unfold u_ro, u. change (bpow radix2 (-53 + 1)) with (/ IZR (Z.pow_pos 2 52)).
  replace (2 ^ 53) with (2 * IZR (Z.pow_pos 2 52)).
  - change (IZR (Z.pow_pos 2 52)) with 4503599627370496. rewrite Rinv_mult. reflexivity.
  - change (IZR (Z.pow_pos 2 52)) with (IZR (2 ^ Z.of_nat 52)). rewrite <- (pow_IZR 2 52). cbn [pow]. ring.
Qed.

Local Instance prec53 : Prec_gt_0 53 := eq_refl.
Lemma add_error x y : is_double x -> is_double y -> is_double (rnd64 (x + y)) /\ Rabs (rnd64 (x + y) - (x + y)) <= u * Rabs (x + y).
Proof.
  intros Hx Hy. split; [apply generic_format_round; [apply FLT_exp_valid; reflexivity|apply valid_rnd_N]|].
  destruct (FLT_plus_error_N_ex radix2 (-1074) 53 (fun x => negb (Z.even x)) x y Hx Hy) as (e & He & E).
  unfold rnd64. unfold ZnearestE in *. rewrite E. replace ((x + y) * (1 + e) - (x + y)) with (e * (x + y)) by ring.
  rewrite Rabs_mult. apply Rmult_le_compat_r; [apply Rabs_pos|]. eapply Rle_trans; [exact He|]. rewrite u_ro_eq.
  pose proof u_pos. apply Rle_trans with (u / 1); [|lra]. unfold Rdiv. apply Rmult_le_compat_l; [exact H|].
  apply Rinv_le_contravar; lra.
Qed.

Lemma total_app a b : total (a ++ b) = total a + total b.
Proof. unfold total. induction a as [|x a IH]; simpl; lra. Qed.
Lemma total_abs_app a b : total_abs (a ++ b) = total_abs a + total_abs b.
Proof. unfold total_abs. induction a as [|x a IH]; simpl; lra. Qed.
Lemma total_perm a b : Permutation a b -> total a = total b.
Proof. unfold total. induction 1; simpl; lra. Qed.
Lemma total_abs_perm a b : Permutation a b -> total_abs a = total_abs b.
Proof. unfold total_abs. induction 1; simpl; lra. Qed.
Lemma total_abs_nonneg a : 0 <= total_abs a.
Proof. unfold total_abs. induction a as [|x a IH]; simpl; [lra|]. pose proof (Rabs_pos x). lra. Qed.
Lemma total_le_abs a : Rabs (total a) <= total_abs a.
Proof.
  unfold total, total_abs. induction a as [|x a IH]; simpl; [rewrite Rabs_R0; lra|].
  eapply Rle_trans; [apply Rabs_triang|]. lra.
Qed.

Lemma pow_ge1 k : 1 <= (1 + u) ^ k.
Proof. apply pow_R1_Rle. pose proof u_pos. lra. Qed.
Lemma pow_mono i j : (i <= j)%nat -> (1 + u) ^ i <= (1 + u) ^ j.
Proof. intros H. apply Rle_pow; [pose proof u_pos; lra|exact H]. Qed.

Lemma leaves_nonempty {T} (t : tree T) : (1 <= length (leaves t))%nat.
Proof. induction t; simpl; [lia|]. rewrite app_length. lia. Qed.

(** Adding two sums. *)
Lemma add_sums la lb ra rb : (1 <= length la)%nat -> (1 <= length lb)%nat -> is_double ra -> is_double rb ->
  nearly_total la ra -> nearly_total lb rb -> is_double (rnd64 (ra + rb)) /\ nearly_total (la ++ lb) (rnd64 (ra + rb)).
Proof.
  unfold nearly_total. fold u. intros La Lb Fa Fb Ha Hb. destruct (add_error ra rb Fa Fb) as [F E]. split; [exact F|].
  rewrite app_length, total_app, total_abs_app.
  set (p := (1 + u) ^ (length la + length lb - 2)).
  replace (length la + length lb - 1)%nat with (S (length la + length lb - 2)) by lia. cbn [pow]. fold p.
  pose proof (total_abs_nonneg la) as Na. pose proof (total_abs_nonneg lb) as Nb.
  pose proof (pow_mono (length la - 1) (length la + length lb - 2) ltac:(lia)) as Pa. fold p in Pa.
  pose proof (pow_mono (length lb - 1) (length la + length lb - 2) ltac:(lia)) as Pb. fold p in Pb.
  pose proof (pow_ge1 (length la + length lb - 2)) as P1. fold p in P1.
  assert (Ha' : Rabs (ra - total la) <= (p - 1) * total_abs la).
  { eapply Rle_trans; [exact Ha|]. apply Rmult_le_compat_r; lra. }
  assert (Hb' : Rabs (rb - total lb) <= (p - 1) * total_abs lb).
  { eapply Rle_trans; [exact Hb|]. apply Rmult_le_compat_r; lra. }
  assert (Hs : Rabs (ra + rb) <= p * (total_abs la + total_abs lb)).
  { replace (ra + rb) with ((ra - total la) + (rb - total lb) + (total la + total lb)) by ring.
    eapply Rle_trans; [apply Rabs_triang|]. eapply Rle_trans; [apply Rplus_le_compat_r, Rabs_triang|].
    pose proof (Rabs_triang (total la) (total lb)). pose proof (total_le_abs la). pose proof (total_le_abs lb). lra. }
  replace (rnd64 (ra + rb) - (total la + total lb)) with
    ((rnd64 (ra + rb) - (ra + rb)) + ((ra - total la) + (rb - total lb))) by ring.
  eapply Rle_trans; [apply Rabs_triang|]. eapply Rle_trans; [apply Rplus_le_compat_l, Rabs_triang|].
  pose proof u_pos as Hu. pose proof (Rmult_le_compat_l u _ _ Hu Hs). lra.
Qed.

Lemma single_total x : nearly_total [x] x.
Proof.
  unfold nearly_total, total, total_abs. simpl. replace (x - (x + 0)) with 0 by ring. rewrite Rabs_R0. lra.
Qed.

Lemma tree_double t : Forall is_double (leaves t) -> exists s, tree_value r_add t = Some s /\ is_double s /\ nearly_total (leaves t) s.
Proof.
  induction t as [x|a IHa b IHb]; intros H; simpl in *.
  - exists x. split; [reflexivity|]. split; [inversion H; assumption|apply single_total].
  - apply Forall_app in H. destruct H as [Ha Hb]. destruct (IHa Ha) as (ra & Ea & Fa & Na). destruct (IHb Hb) as (rb & Eb & Fb & Nb).
    rewrite Ea, Eb. exists (rnd64 (ra + rb)). split; [reflexivity|]. apply add_sums; auto using leaves_nonempty.
Qed.

Lemma nearly_perm a b s : Permutation a b -> nearly_total a s -> nearly_total b s.
Proof. intros P. unfold nearly_total. rewrite (Permutation_length P), (total_perm _ _ P), (total_abs_perm _ _ P). auto. Qed.

Lemma reduce_double_sum vals res : Forall is_double vals -> sumReduce r_add vals res ->
  exists s, res = Some s /\ nearly_total vals s.
Proof.
  intros H (t & P & <-). destruct (tree_double t) as (s & E & _ & N).
  - apply (Permutation_Forall (Permutation_sym P)), H.
  - exists s. split; [exact E|]. apply (nearly_perm _ _ _ P), N.
Qed.
Lemma reduce_double_avg vals res : vals <> [] -> (Z.of_nat (length vals) < 2 ^ 31)%Z -> Forall is_double vals ->
  avgReduce r_add r_divide vals res -> exists s, nearly_total vals s /\ res = Some (rnd64 (s / INR (length vals))).
Proof.
  intros Hn Hl H (s & Hs & ->). destruct (reduce_double_sum _ _ H Hs) as (s' & -> & N). exists s'. split; [exact N|].
  unfold r_divide. destruct (Z.eqb_spec (Z.of_nat (length vals)) 0) as [E|_]; [destruct vals; [congruence|cbn [length] in E; lia]|].
  rewrite rnd_int by lia. rewrite <- INR_IZR_INZ. reflexivity.
Qed.

(** ** Means of doubles *)
Lemma mean_loop_double xs : Forall is_double xs -> forall done m cnt, (1 <= length done)%nat -> is_double m -> nearly_total done m ->
  (0 <= cnt)%Z -> (cnt + Z.of_nat (length xs) < 2 ^ 31)%Z ->
  exists s, mean_loop r_add xs m cnt = Some (s, (cnt + Z.of_nat (length xs))%Z) /\ nearly_total (done ++ xs) s.
Proof.
  induction 1 as [|x xs Hx _ IH]; intros done m cnt Ld Fm Nm Hc Hl; cbn [mean_loop length].
  - exists m. rewrite app_nil_r. split; [do 2 f_equal; lia|exact Nm].
  - unfold r_add at 1. cbn [length] in Hl. replace (cnt + 1 <? 2 ^ 31)%Z with true by (symmetry; apply Z.ltb_lt; lia).
    destruct (add_sums done [x] m x Ld (le_n _) Fm Hx Nm (single_total x)) as [F N].
    destruct (IH (done ++ [x]) (rnd64 (m + x)) (cnt + 1)%Z) as (s & E & Ns); auto.
    { rewrite app_length. lia. } { lia. } { lia. }
    exists s. split; [rewrite E; do 2 f_equal; lia|]. rewrite <- app_assoc in Ns. exact Ns.
Qed.
Lemma mean_double xs : xs <> [] -> (Z.of_nat (length xs) < 2 ^ 31)%Z -> Forall is_double xs ->
  exists s, nearly_total xs s /\ r_mean xs = Some (rnd64 (s / INR (length xs))).
Proof.
  intros Hn Hl HF. destruct xs as [|x xs]; [congruence|]. inversion HF; subst.
  unfold r_mean, mean. cbn [mean_loop]. unfold r_add at 1. cbn [length] in Hl.
  replace (0 + 1 <? 2 ^ 31)%Z with true by (symmetry; apply Z.ltb_lt; lia).
  assert (E0 : rnd64 (0 + x) = x). { rewrite Rplus_0_l. apply round_generic; [apply valid_rnd_N|assumption]. }
  rewrite E0. destruct (mean_loop_double xs H2 [x] x (0 + 1)%Z) as (s & E & N); auto using single_total; [lia|lia|].
  exists s. split; [exact N|]. rewrite E. unfold r_divide.
  destruct (Z.eqb_spec (0 + 1 + Z.of_nat (length xs)) 0); [lia|]. rewrite rnd_int by lia. rewrite INR_IZR_INZ.
  do 4 f_equal. cbn [length]. lia.
Qed.

(** ** Witnesses *)
Definition tenth : spec_float := S754_finite false 7205759403792794 (-56).
Lemma mean_of_tenths : exists m, b64_mean (repeat tenth 10) = Some m /\ SFltb m tenth = true /\
  m = S754_finite false 7205759403792793 (-56).
Proof. exists (S754_finite false 7205759403792793 (-56)). split; [vm_compute; reflexivity|]. split; reflexivity. Qed.

Lemma sum_order : sumReduce int_add [2 ^ 31 - 1; 1; -5]%Z None /\ sumReduce int_add [2 ^ 31 - 1; 1; -5]%Z (Some (2 ^ 31 - 5)%Z).
Proof.
  split.
  - exists (Node (Node (Leaf (2 ^ 31 - 1)) (Leaf 1)) (Leaf (-5)))%Z. split; [apply Permutation_refl|vm_compute; reflexivity].
  - exists (Node (Leaf (2 ^ 31 - 1)) (Node (Leaf 1) (Leaf (-5))))%Z. split; [apply Permutation_refl|vm_compute; reflexivity].
Qed.
Lemma serial_is_one {T} (op : T -> T -> option T) v res : allreduce op [v] res -> res = Some (serial_reduce v).
Proof.
  intros (t & P & <-). destruct t as [x|a b].
  - apply Permutation_length_1 in P. simpl. rewrite P. reflexivity.
  - apply Permutation_length in P. simpl in P. rewrite app_length in P. pose proof (leaves_nonempty a). pose proof (leaves_nonempty b). lia.
Qed.
