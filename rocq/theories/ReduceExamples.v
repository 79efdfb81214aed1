(** Cases for the theorems about reductions. *)
From Coq Require Import ZArith Reals List Permutation Lia Lra.
From Flocq Require Import Core.
From Verif Require Import MpiFloatModel MpiFloat UtilModel ReduceModel ReduceSpec Reduce.
Import ListNotations.

Lemma reduce_exists {T} (op : T -> T -> option T) vals : vals <> [] -> exists res, allreduce op vals res.
Proof.
  intros H. assert (E : exists t, leaves t = vals).
  { induction vals as [|x vals IH]; [congruence|]. destruct vals as [|y vals]; [exists (Leaf x); reflexivity|].
    destruct IH as (t & E); [discriminate|]. exists (Node (Leaf x) t). simpl. rewrite E. reflexivity. }
  destruct E as (t & <-). exists (tree_value op t). exists t. split; [apply Permutation_refl|reflexivity].
Qed.
Lemma int_double z : (Z.abs z < 2 ^ 53)%Z -> is_double (IZR z).
Proof.
  intros H. apply generic_format_FLT. exists (Float radix2 z 0); [unfold F2R; simpl; lra|exact H|simpl; lia].
Qed.
Lemma ints_max vals res : maxReduce Z.ltb vals res -> exists m, res = Some m /\ In m vals /\ forall x, In x vals -> (x <= m)%Z.
Proof. apply (reduce_max Z.le Z.ltb); intros; try (apply Z.ltb_lt in H); try (apply Z.ltb_ge in H); lia. Qed.
Lemma ints_min vals res : minReduce Z.ltb vals res -> exists m, res = Some m /\ In m vals /\ forall x, In x vals -> (m <= x)%Z.
Proof. apply (reduce_min Z.le Z.ltb); intros; try (apply Z.ltb_lt in H); try (apply Z.ltb_ge in H); lia. Qed.
Lemma dbl_yes x y : r_smaller x y = true -> (x <= y)%R.
Proof. unfold r_smaller. destruct (Rlt_bool_spec x y); [lra|discriminate]. Qed.
Lemma dbl_no x y : r_smaller x y = false -> (y <= x)%R.
Proof. unfold r_smaller. destruct (Rlt_bool_spec x y); [discriminate|lra]. Qed.
Lemma doubles_max vals res : maxReduce r_smaller vals res -> exists m, res = Some m /\ In m vals /\ forall x, In x vals -> (x <= m)%R.
Proof. apply (reduce_max Rle r_smaller); [apply Rle_refl|intros; lra|apply dbl_yes|apply dbl_no]. Qed.
Lemma doubles_min vals res : minReduce r_smaller vals res -> exists m, res = Some m /\ In m vals /\ forall x, In x vals -> (m <= x)%R.
Proof. apply (reduce_min Rle r_smaller); [apply Rle_refl|intros; lra|apply dbl_yes|apply dbl_no]. Qed.

Lemma ex_ints : (zabs_total [5; -7; -9] < 2 ^ 31)%Z /\ sumReduce int_add [5; -7; -9]%Z (Some (-11)%Z) /\
  maxReduce Z.ltb [5; -7; -9]%Z (Some 5%Z) /\ minReduce Z.ltb [5; -7; -9]%Z (Some (-9)%Z).
Proof.
  split; [reflexivity|]. repeat split; (exists (Node (Leaf 5) (Node (Leaf (-7)) (Leaf (-9))))%Z; split; [apply Permutation_refl|reflexivity]).
Qed.
Lemma ex_doubles : Forall is_double [1; 3; -4]%R /\ [1; 3; -4]%R <> [].
Proof. split; [|discriminate]. repeat constructor; apply int_double; reflexivity. Qed.

(** The order matters for doubles: 2^53 + 1 + 1. *)
Lemma rnd_big : rnd64 (IZR (2 ^ 53) + 1) = IZR (2 ^ 53).
Proof.
  unfold rnd64. rewrite <- plus_IZR. change (2 ^ 53 + 1)%Z with 9007199254740993%Z.
  unfold round, scaled_mantissa. rewrite (cexp_fexp _ _ _ 54).
  2:{ rewrite Rabs_pos_eq by (apply IZR_le; lia). change (54 - 1)%Z with 53%Z. rewrite <- !IZR_Zpower by lia. simpl. split; [apply IZR_le; lia|apply IZR_lt; lia]. }
  change (FLT_exp (-1074) 53 54) with 1%Z. change (bpow radix2 (-(1))) with (/ 2)%R.
  replace (ZnearestE (9007199254740993 * / 2)) with 4503599627370496%Z.
  - change (2 ^ 53)%Z with 9007199254740992%Z. unfold F2R. cbn [Fnum Fexp]. change (bpow radix2 1) with 2%R. lra.
  - unfold Znearest.
    assert (F : Zfloor (9007199254740993 * / 2) = 4503599627370496%Z) by (apply Zfloor_imp; simpl; lra).
    rewrite F. rewrite Rcompare_Eq by lra. reflexivity.
Qed.
Lemma sum_differs : exists a b, sumReduce r_add [IZR (2 ^ 53); 1; 1]%R (Some a) /\ sumReduce r_add [IZR (2 ^ 53); 1; 1]%R (Some b) /\ (a < b)%R.
Proof.
  exists (IZR (2 ^ 53)), (IZR (2 ^ 53 + 2)). split; [|split].
  - exists (Node (Node (Leaf (IZR (2 ^ 53))) (Leaf 1%R)) (Leaf 1%R)). split; [apply Permutation_refl|].
    cbn [tree_value]. unfold r_add. rewrite rnd_big, rnd_big. reflexivity.
  - exists (Node (Leaf (IZR (2 ^ 53))) (Node (Leaf 1%R) (Leaf 1%R))). split; [apply Permutation_refl|].
    cbn [tree_value]. unfold r_add. rewrite <- (plus_IZR 1 1), (rnd_int (1 + 1)) by reflexivity.
    rewrite <- plus_IZR. f_equal. apply round_generic; [apply valid_rnd_N|]. apply generic_format_FLT.
    exists (Float radix2 4503599627370497 1); [unfold F2R; simpl; lra|reflexivity|simpl; lia].
  - apply IZR_lt. lia.
Qed.
