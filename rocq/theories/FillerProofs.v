From Coq Require Import List Bool Arith Lia.
From Verif Require Import FillerModel FillerSpec.
Import ListNotations.

Record agree (past : list fop) (s : fstate) : Prop := mkAgree {
  ag_impls : forall f, impls s f = if exists_now past f then Some (registered past f) else None;
  ag_adders : forall k c u f, adders s k = Some (c, u, f) -> exists l, In (FSet f k c u l) past
}.
Lemma never_new : forall past f, ~ In (FNew f) past -> exists_now past f = false.
Proof.
  induction past as [|o past IH]; intros f H; [reflexivity|]. assert (E : exists_now past f = false) by (apply IH; intros Q; apply H; right; exact Q).
  destruct o; cbn [exists_now]; rewrite ?E; auto.
  - destruct (Nat.eqb_spec f0 f); [subst; exfalso; apply H; left; reflexivity|reflexivity].
  - apply andb_false_r.
Qed.
Definition past_proper (past : list fop) : Prop := forall f k c u l, In (FSet f k c u l) past -> In (FNew f) past.
Lemma exists_new : forall past f, exists_now past f = true -> In (FNew f) past.
Proof.
  induction past as [|o past IH]; intros f H; [discriminate|]. destruct o; cbn [exists_now] in H; try (right; apply IH; exact H).
  - destruct (Nat.eqb_spec f0 f); [subst; left; reflexivity|right; apply IH; exact H].
  - apply andb_true_iff in H. right. apply IH, H.
Qed.
Lemma never_registered : forall past f, past_proper past -> ~ In (FNew f) past -> registered past f = [].
Proof.
  induction past as [|o past IH]; intros f Hp H; [reflexivity|].
  assert (G : forall past', incl past' past -> ~ In (FNew f) past' /\ (forall g k c u l, In (FSet g k c u l) past' -> g <> f)).
  { intros past' Hi. split; [intros Q; apply H; right; apply Hi; exact Q|]. intros g k c u l Q ->. apply H. apply (Hp f k c u l). right. apply Hi. exact Q. }
  assert (R : forall past', incl past' past -> registered past' f = []).
  { clear - G. induction past' as [|o past' IH]; intros Hi; [reflexivity|]. assert (Hi' : incl past' past) by (intros x Hx; apply Hi; right; exact Hx).
    destruct (G (o :: past') Hi) as [_ G2]. destruct o; cbn [registered]; rewrite ?(IH Hi'); auto.
    - destruct (Nat.eqb_spec f0 f) as [->|_]; [|reflexivity]. exfalso. apply (G2 f k coords updater fields); [left; reflexivity|reflexivity].
    - destruct (Nat.eqb f0 f); reflexivity. }
  destruct o; cbn [registered]; rewrite ?(R past (incl_refl _)); auto.
  - destruct (Nat.eqb_spec f0 f) as [->|_]; [|reflexivity]. exfalso. apply H. apply (Hp f k coords updater fields). left. reflexivity.
  - destruct (Nat.eqb f0 f); reflexivity.
Qed.
Lemma put_same : forall X (g : nat -> X) k x, put g k x k = x.
Proof. intros. unfold put. rewrite Nat.eqb_refl. reflexivity. Qed.

Lemma run_filled : forall os past s, agree past s -> past_proper past -> proper past os ->
  one_set (past ++ os) -> frun s os = Some (filled past os).
Proof.
  induction os as [|o os IH]; intros past s [A1 A2] Hpp Hp Ho; [reflexivity|]. destruct Hp as [Hp1 Hp2].
  assert (Ho' : one_set ((o :: past) ++ os)).
  { intros f k c u l f' c' u' l' H1 H2. apply (Ho f k c u l f' c' u' l').
    - cbn in H1. destruct H1 as [H1|H1]; [apply in_or_app; right; left; exact H1|]. apply in_app_or in H1. apply in_or_app. destruct H1; [left|right; right]; assumption.
    - cbn in H2. destruct H2 as [H2|H2]; [apply in_or_app; right; left; exact H2|]. apply in_app_or in H2. apply in_or_app. destruct H2; [left|right; right]; assumption. }
  assert (Step : exists s' out, fstep s o = Some (s', out) /\ agree (o :: past) s' /\ past_proper (o :: past) /\ out = match o with FFill f => [registered past f] | _ => [] end).
  { assert (Add : forall o' s', adders s' = adders s -> (forall k c u f, adders s' k = Some (c, u, f) -> exists l, In (FSet f k c u l) (o' :: past))).
    { intros o' s' E k c u f H. rewrite E in H. destruct (A2 k c u f H) as [l Hl]. exists l. right. exact Hl. }
    destruct o as [f|f|f k c u l|f|f]; cbn [fstep]; cbv beta iota in Hp1.
    - rewrite A1, (never_new past f Hp1). eexists _, _. split; [reflexivity|]. split; [|split; [|reflexivity]].
      + constructor; [|apply Add; reflexivity]. intros g. cbn [impls exists_now registered]. unfold put. rewrite (Nat.eqb_sym f g). destruct (Nat.eqb_spec g f) as [->|_]; [|apply A1]. cbn [orb].
        rewrite (never_registered past f Hpp Hp1). reflexivity.
      + intros g k c u l [H|H]; [discriminate|]. right. apply (Hpp g k c u l H).
    - rewrite A1, Hp1. eexists _, _. split; [reflexivity|]. split; [|split; [|reflexivity]].
      + constructor; [|apply Add; reflexivity]. intros g. cbn [impls exists_now registered]. unfold put. rewrite (Nat.eqb_sym f g). destruct (Nat.eqb g f); [reflexivity|apply A1].
      + intros g k c u l [H|H]; [discriminate|]. right. apply (Hpp g k c u l H).
    - rewrite A1, Hp1.
      assert (Ea : match adders s k with Some a => a | None => (c, u, f) end = (c, u, f)).
      { destruct (adders s k) as [[[c' u'] f']|] eqn:E; [|reflexivity]. destruct (A2 k c' u' f' E) as [l' Hl'].
        destruct (Ho f k c u l f' c' u' l') as (-> & -> & ->); [apply in_or_app; right; left; reflexivity|apply in_or_app; left; exact Hl'|reflexivity]. }
      rewrite Ea. assert (P : past_proper (FSet f k c u l :: past)).
      { intros g k' c' u' l' [H|H]; [injection H as <- <- <- <- <-|]; right; [apply exists_new; exact Hp1|apply (Hpp g k' c' u' l' H)]. }
      assert (D : forall k' c' u' f', put (adders s) k (Some (c, u, f)) k' = Some (c', u', f') -> exists l', In (FSet f' k' c' u' l') (FSet f k c u l :: past)).
      { intros k' c' u' f' H. unfold put in H. destruct (Nat.eqb_spec k' k) as [->|_]; [injection H as <- <- <-; exists l; left; reflexivity|]. destruct (A2 k' c' u' f' H) as [l' Hl']. exists l'. right. exact Hl'. }
      destruct l as [|x l].
      + eexists _, _. split; [reflexivity|]. split; [|split; [exact P|reflexivity]]. constructor; [|exact D]. intros g. cbn [impls exists_now registered map]. rewrite A1. destruct (Nat.eqb f g); rewrite app_nil_r; reflexivity.
      + rewrite A1, Hp1. eexists _, _. split; [reflexivity|]. split; [|split; [exact P|reflexivity]]. constructor; [|exact D]. intros g. cbn [impls exists_now registered]. unfold put. rewrite (Nat.eqb_sym f g). destruct (Nat.eqb_spec g f) as [->|_].
        * rewrite Hp1. reflexivity.
        * rewrite app_nil_r. apply A1.
    - rewrite A1, Hp1. eexists _, _. split; [reflexivity|]. split; [|split; [|reflexivity]].
      + constructor; [|apply Add; reflexivity]. intros g. cbn [impls exists_now registered]. unfold put. rewrite (Nat.eqb_sym f g). destruct (Nat.eqb_spec g f) as [->|_]; [rewrite Hp1; reflexivity|apply A1].
      + intros g k c u l [H|H]; [discriminate|]. right. apply (Hpp g k c u l H).
    - rewrite A1, Hp1. eexists _, _. split; [reflexivity|]. split; [|split; [|reflexivity]].
      + constructor; [|apply Add; reflexivity]. intros g. cbn [impls exists_now registered]. apply A1.
      + intros g k c u l [H|H]; [discriminate|]. right. apply (Hpp g k c u l H). }
  destruct Step as (s' & out & E & Ag & Pp & ->). cbn [frun filled]. rewrite E, (IH (o :: past) s' Ag Pp Hp2 Ho'). reflexivity.
Qed.
Lemma fillers : forall os, proper [] os -> one_set os -> frun fstart os = Some (filled [] os).
Proof.
  intros os Hp Ho. apply run_filled; auto.
  - constructor; [reflexivity|]. intros k c u f H. discriminate.
  - intros f k c u l [].
Qed.

(** ** Examples *)
Definition one_filler : list fop := [FNew 1; FSet 1 0 5 6 [(10, 11); (12, 13)]; FFill 1; FSet 1 0 5 6 [(14, 15)]; FFill 1; FClear 1; FFill 1].
Example one_filler_ok : proper [] one_filler /\ one_set one_filler.
Proof. split; [cbn; intuition discriminate|]. intros f k c u l f' c' u' l' H1 H2. cbn in H1, H2. intuition congruence. Qed.
Example one_filler_calls : frun fstart one_filler = Some [[mkImpl 10 11 5 6; mkImpl 12 13 5 6]; [mkImpl 10 11 5 6; mkImpl 12 13 5 6; mkImpl 14 15 5 6]; []].
Proof. vm_compute. reflexivity. Qed.
(** Two fillers, each with its field. *)
Definition two_fillers : list fop := [FNew 1; FNew 2; FSet 1 0 5 6 [(10, 11)]; FSet 2 0 7 8 [(12, 13)]; FFill 1; FFill 2].
(** One filler for the fields of two sets of coordinates. *)
Definition two_coords : list fop := [FNew 1; FSet 1 0 5 6 [(10, 11)]; FSet 1 0 7 8 [(12, 13)]; FFill 1].
(** A second filler after the first is gone. *)
Definition one_after_another : list fop := [FNew 1; FSet 1 0 5 6 [(10, 11)]; FFill 1; FDestroy 1; FNew 2; FSet 2 0 5 6 [(12, 13)]; FFill 2].
Lemma two_fillers_fail :
  (proper [] two_fillers /\ filled [] two_fillers = [[mkImpl 10 11 5 6]; [mkImpl 12 13 7 8]] /\
   frun fstart two_fillers = Some [[mkImpl 10 11 5 6; mkImpl 12 13 5 6]; []]) /\
  (proper [] two_coords /\ filled [] two_coords = [[mkImpl 10 11 5 6; mkImpl 12 13 7 8]] /\
   frun fstart two_coords = Some [[mkImpl 10 11 5 6; mkImpl 12 13 5 6]]) /\
  (proper [] one_after_another /\ frun fstart one_after_another = None).
Proof. cbn. intuition discriminate. Qed.
