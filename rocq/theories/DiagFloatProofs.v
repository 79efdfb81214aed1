From Coq Require Import ZArith Reals Lra List Bool.
From Flocq Require Import Core Sterbenz.
From Verif Require Import MpiFloatModel MpiFloat DiagModel DiagSpec DiagProofs DiagFloatModel.
Import ListNotations.
Local Open Scope R_scope.

Lemma rnd_le : forall x y, x <= y -> rnd64 x <= rnd64 y.
Proof. intros x y. apply round_le; [apply FLT_exp_valid; reflexivity|typeclasses eauto]. Qed.
Lemma leb64 : forall a b, tleb clock64 a b = true <-> a <= b.
Proof. intros a b. cbn. split; intros H; [|apply Rle_bool_true; exact H]. destruct (Rle_bool_spec a b); [assumption|discriminate]. Qed.
Lemma ltb64 : forall a b, tltb clock64 a b = true <-> a < b.
Proof. intros a b. cbn. split; intros H; [|apply Rlt_bool_true; exact H]. destruct (Rlt_bool_spec a b); [assumption|discriminate]. Qed.
Lemma rounded64 : rounded clock64.
Proof.
  split.
  - intros a. apply leb64. apply Rle_refl.
  - intros a b c. rewrite !leb64. apply Rle_trans.
  - intros a b. rewrite !leb64. destruct (Rle_or_lt a b); [left|right]; lra.
  - intros a b c. rewrite !leb64. intros H. apply rnd_le. lra.
Qed.
Lemma adjust64 : forall (m : manager clock64) t l dt, physical m = Some t -> exists d, adjust m l dt = inr d /\ d <= dt /\
  forall c s, In (c, s) l -> is_double t -> is_double (next s) -> t < next s -> next s <= 2 * t -> rnd64 (t + d) <= next s.
Proof.
  intros m t l. induction l as [|[c s] l IH]; intros dt Hp; cbn [adjust].
  - exists dt. split; [reflexivity|]. split; [apply Rle_refl|]. intros c s [].
  - rewrite Hp. set (d0 := tsub clock64 (next s) t). set (dt1 := if tltb clock64 (tzero clock64) d0 then _ else dt).
    destruct (IH dt1 Hp) as [d [E [L A]]]. exists d. split; [exact E|].
    assert (L1 : dt1 <= dt). { unfold dt1. destruct (tltb clock64 (tzero clock64) d0); [|apply Rle_refl]. destruct (tltb clock64 d0 dt) eqn:Q; [apply ltb64 in Q; lra|apply Rle_refl]. }
    split; [lra|]. intros c' s' [H|H] Ft Fn Hn H2; [|apply (A c' s'); assumption]. inversion H; subst c' s'.
    assert (X : d0 = next s - t).
    { unfold d0. cbn. unfold rnd64. apply round_generic; [typeclasses eauto|]. apply sterbenz; auto. - apply FLT_exp_valid. reflexivity. - apply FLT_exp_monotone. - lra. }
    assert (P : tltb clock64 (tzero clock64) d0 = true) by (apply ltb64; rewrite X; cbn; lra).
    assert (L2 : dt1 <= d0). { unfold dt1. rewrite P. destruct (tltb clock64 d0 dt) eqn:Q; [apply Rle_refl|]. destruct (Rle_or_lt dt d0); [assumption|]. apply ltb64 in H0. congruence. }
    apply Rle_trans with (rnd64 (next s)); [apply rnd_le; cbn in *; lra|]. apply Req_le. unfold rnd64. apply round_generic; [typeclasses eauto|exact Fn].
Qed.
