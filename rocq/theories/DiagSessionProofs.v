(** Proofs about whole runs with the manager of diagnostics. *)
From Coq Require Import ZArith List Bool Lia.
From Verif Require Import DiagModel DiagSpec DiagProofs DiagSessionSpec.
Import ListNotations.
Local Open Scope Z_scope.

Section Proofs.
  Variable parallel : bool.
  Variable T : clock.

  Definition sight_of (m : manager T) : sight T := mkSight (timecounter m) (physical m) (is_master m) (my_rank m).
  Definition first {X : Type} (x : X) : nat * X := (0%nat, x).
  Definition iroster (m : manager T) (l : list (moment T)) := map first (intervals m) ++ added_intervals l.
  Definition droster (m : manager T) (l : list (moment T)) := map first (deltas m) ++ added_deltas l.

  Lemma sight_act m a : sight_of (act m a) = told a (sight_of m).
  Proof. destruct a; reflexivity. Qed.
  Lemma iroster_act m a l : iroster (act m a) l = iroster m (Do a :: l).
  Proof. destruct a; try reflexivity. unfold iroster. simpl. now rewrite map_app, <- app_assoc. Qed.
  Lemma droster_act m a l : droster (act m a) l = droster m (Do a :: l).
  Proof. destruct a; try reflexivity. unfold droster. simpl. now rewrite map_app, <- app_assoc. Qed.

  Lemma intervals_each (m : manager T) l : forall ei, run_intervals parallel m l = (ei, None) ->
    List.length ei = List.length l /\
    forall j c i, nth_error l j = Some (c, i) ->
      exists n es, timecounter m = Some n /\ nth_error ei j = Some es /\ execute_interval parallel (is_master m) (my_rank m) c i n = Some es.
  Proof.
    induction l as [|[c i] l IH]; intros ei; cbn [run_intervals].
    - intros [= <-]. split; [reflexivity|]. intros [|j]; discriminate.
    - destruct (timecounter m) as [n|] eqn:En; [|discriminate].
      destruct (execute_interval parallel (is_master m) (my_rank m) c i n) as [es|] eqn:Ee; [|discriminate].
      destruct (run_intervals parallel m l) as [r f] eqn:Er. intros [= <- ->]. destruct (IH r eq_refl) as [L H].
      split; [simpl; congruence|]. intros [|j] c' i'; simpl.
      + intros [= <- <-]. exists n, es. auto.
      + intros Hj. apply H in Hj. exact Hj.
  Qed.
  Lemma deltas_each (m : manager T) l : forall ed l', run_deltas parallel m l = (ed, l', None) ->
    List.length ed = List.length l /\ List.length l' = List.length l /\
    forall j c s, nth_error l j = Some (c, s) ->
      exists t, physical m = Some t /\ nth_error ed j = Some (fst (execute_delta parallel (is_master m) (my_rank m) c s t)) /\
                nth_error l' j = Some (c, snd (execute_delta parallel (is_master m) (my_rank m) c s t)).
  Proof.
    induction l as [|[c s] l IH]; intros ed l'; cbn [run_deltas].
    - intros [= <- <-]. repeat split; auto. intros [|j]; discriminate.
    - destruct (physical m) as [t|] eqn:Et; [|discriminate].
      destruct (execute_delta parallel (is_master m) (my_rank m) c s t) as [es s'] eqn:Ee.
      destruct (run_deltas parallel m l) as [[r l1] f] eqn:Er. intros [= <- <- ->]. destruct (IH r l1 eq_refl) as (L1 & L2 & H).
      split; [simpl; congruence|]. split; [simpl; congruence|]. intros [|j] c' s0; simpl.
      + intros [= <- <-]. exists t. rewrite Ee. auto.
      + intros Hj. apply H in Hj. exact Hj.
  Qed.

  Lemma execute_each m ei ed m' : execute parallel m = (ei, ed, m', None) ->
    run_intervals parallel m (intervals m) = (ei, None) /\ run_deltas parallel m (deltas m) = (ed, deltas m', None) /\
    intervals m' = intervals m /\ sight_of m' = sight_of m.
  Proof.
    unfold execute. destruct (if use_physical m then _ else _); [discriminate|].
    destruct (run_intervals parallel m (intervals m)) as [e [f|]]; [discriminate|].
    destruct (run_deltas parallel m (deltas m)) as [[e2 l2] f]. intros [= <- <- <- ->]. auto.
  Qed.

  Lemma nth_roster {X} (l : list X) (r : list (nat * X)) j k x : nth_error (map first l ++ map later r) j = Some (k, x) ->
    (k = 0%nat /\ nth_error l j = Some x /\ forall r', nth_error (map first l ++ r') j = Some (0%nat, x)) \/
    (exists k', k = S k' /\ (List.length l <= j)%nat /\ forall l', List.length l' = List.length l -> nth_error (map first l' ++ r) j = Some (k', x)).
  Proof.
    destruct (Nat.lt_ge_cases j (List.length l)) as [H|H].
    - rewrite nth_error_app1 by now rewrite map_length. rewrite nth_error_map. destruct (nth_error l j) as [y|] eqn:E; [|discriminate].
      intros [= <- <-]. left. split; auto. split; auto. intros r'. rewrite nth_error_app1 by now rewrite map_length. now rewrite nth_error_map, E.
    - rewrite nth_error_app2 by now rewrite map_length. rewrite nth_error_map, map_length.
      destruct (nth_error r (j - List.length l)) as [[k' y]|] eqn:E; [|discriminate]. intros [= <- <-]. right. exists k'. split; auto. split; auto.
      intros l' L. rewrite nth_error_app2 by (rewrite map_length; lia). rewrite map_length, L. exact E.
  Qed.

  Lemma session_length l : forall m res m', session parallel l m = Some (res, m') -> List.length res = List.length (seen l (sight_of m)).
  Proof.
    induction l as [|[a|] l IH]; intros m res m'; cbn [session seen].
    - intros [= <- <-]. reflexivity.
    - intros H. rewrite <- sight_act. eapply IH. exact H.
    - destruct (execute parallel m) as [[[ei ed] m1] [f|]] eqn:E; [discriminate|].
      destruct (session parallel l m1) as [[r m2]|] eqn:S1; [|discriminate]. intros [= <- <-]. simpl. f_equal.
      apply execute_each in E. destruct E as (_ & _ & _ & <-). eapply IH. exact S1.
  Qed.

  Lemma session_intervals l : forall m res m', session parallel l m = Some (res, m') ->
    forall j k c i, nth_error (iroster m l) j = Some (k, (c, i)) -> forall e g ei ed, nth_error (seen l (sight_of m)) e = Some g -> nth_error res e = Some (ei, ed) ->
    ((e < k)%nat -> nth_error ei j = None) /\
    ((k <= e)%nat -> exists n es, s_counter g = Some n /\ nth_error ei j = Some es /\ execute_interval parallel (s_master g) (s_rank g) c i n = Some es).
  Proof.
    induction l as [|[a|] l IH]; intros m res m'; cbn [session seen].
    - intros [= <- <-] j k c i _ [|e]; discriminate.
    - intros H j k c i Hj. rewrite <- iroster_act in Hj. rewrite <- sight_act. eapply IH; eauto.
    - destruct (execute parallel m) as [[[ei0 ed0] m1] [f|]] eqn:E; [discriminate|].
      destruct (session parallel l m1) as [[r m2]|] eqn:S1; [|discriminate]. intros [= <- <-] j k c i Hj e g ei ed.
      apply execute_each in E. destruct E as (Ri & Rd & Ei & Eg). apply intervals_each in Ri. destruct Ri as [L Ri].
      unfold iroster in Hj. cbn [added_intervals] in Hj. apply nth_roster in Hj. destruct Hj as [(-> & Hj & Hr)|(k' & -> & Hj & Hr)].
      + destruct e as [|e]; cbn [nth_error].
        * intros [= <-] [= <- <-]. split; [lia|]. intros _. apply Ri in Hj. exact Hj.
        * rewrite <- Eg. intros Hg He. split; [lia|]. intros _.
          eapply (IH m1 r m2 S1 j 0%nat c i); eauto; [|lia]. unfold iroster. rewrite Ei. apply Hr.
      + destruct e as [|e]; cbn [nth_error].
        * intros [= <-] [= <- <-]. split; [|lia]. intros _. apply nth_error_None. lia.
        * rewrite <- Eg. intros Hg He. destruct (IH m1 r m2 S1 j k' c i) with (e := e) (g := g) (ei := ei) (ed := ed) as [I1 I2]; auto.
          { unfold iroster. rewrite Ei. now apply Hr. }
          split; intros; [apply I1|apply I2]; lia.
  Qed.

  Lemma session_deltas l : forall m res m', session parallel l m = Some (res, m') ->
    forall j k c s, nth_error (droster m l) j = Some (k, (c, s)) -> forall master rank,
    Forall (fun g => s_master g = master /\ s_rank g = rank) (skipn k (seen l (sight_of m))) ->
    exists times, map s_time (skipn k (seen l (sight_of m))) = map Some times /\
      map (fun o => nth_error (snd o) j) (firstn k res) = repeat None (List.length (firstn k res)) /\
      map (fun o => nth_error (snd o) j) (skipn k res) = map Some (executed parallel master rank c s times).
  Proof.
    induction l as [|[a|] l IH]; intros m res m'; cbn [session seen].
    - intros [= <- <-] j k c s _ master rank _. exists []. now rewrite skipn_nil, skipn_nil, firstn_nil.
    - intros H j k c s Hj. rewrite <- droster_act in Hj. rewrite <- sight_act. eapply IH; eauto.
    - destruct (execute parallel m) as [[[ei0 ed0] m1] [f|]] eqn:E; [discriminate|].
      destruct (session parallel l m1) as [[r m2]|] eqn:S1; [|discriminate]. intros [= <- <-] j k c s Hj master rank.
      apply execute_each in E. destruct E as (Ri & Rd & Ei & Eg). apply deltas_each in Rd. destruct Rd as (L & L' & Rd).
      unfold droster in Hj. cbn [added_deltas] in Hj. apply nth_roster in Hj. destruct Hj as [(-> & Hj & Hr)|(k' & -> & Hj & Hr)].
      + cbn [skipn firstn]. intros HF. inversion HF as [|? ? [Hm1 Hr1] HF']; subst. apply Rd in Hj. destruct Hj as (t & Et & E1 & E2).
        destruct (IH m1 r m2 S1 j 0%nat c (snd (execute_delta parallel (is_master m) (my_rank m) c s t))) with (master := s_master (sight_of m)) (rank := s_rank (sight_of m)) as (ts & Q1 & _ & Q2); auto.
        { unfold droster. rewrite nth_error_app1 by (rewrite map_length; apply nth_error_Some; congruence). now rewrite nth_error_map, E2. }
        { rewrite Eg. exact HF'. }
        exists (t :: ts). cbn [skipn] in Q1, Q2. split; [cbn [map]; rewrite <- Eg, Q1; rewrite Eg; simpl; now rewrite Et|].
        split; [reflexivity|]. cbn [map snd executed]. rewrite E1, Q2. cbn [sight_of s_master s_rank].
        destruct (execute_delta parallel (is_master m) (my_rank m) c s t); reflexivity.
      + cbn [skipn firstn]. rewrite <- Eg. intros HF.
        destruct (IH m1 r m2 S1 j k' c s) with (master := master) (rank := rank) as (ts & Q1 & Q2 & Q3); auto.
        { unfold droster. now apply Hr. }
        exists ts. split; auto. split; auto. cbn [map List.length repeat snd]. f_equal; [|exact Q2].
        apply nth_error_None. lia.
  Qed.

  Lemma whole_intervals l res m' : session parallel l (new_manager T) = Some (res, m') ->
    List.length res = List.length (seen l (at_start T)) /\
    forall j k c i, nth_error (added_intervals l) j = Some (k, (c, i)) ->
    forall e g ei ed, nth_error (seen l (at_start T)) e = Some g -> nth_error res e = Some (ei, ed) ->
    ((e < k)%nat -> nth_error ei j = None) /\
    ((k <= e)%nat -> exists n es, s_counter g = Some n /\ nth_error ei j = Some es /\
       (wrote es = true <-> active (s_master g) c /\ (n < 0 \/ (i | n)))).
  Proof.
    intros H. split; [exact (session_length _ _ _ _ H)|]. intros j k c i Hj e g ei ed Hg He.
    destruct (session_intervals _ _ _ _ H j k c i Hj e g ei ed Hg He) as [I1 I2]. split; [exact I1|].
    intros Hk. destruct (I2 Hk) as (n & es & E1 & E2 & E3). exists n, es. split; auto. split; auto.
    destruct (Z.eq_dec i 0) as [->|Hi].
    - unfold execute_interval in E3. destruct (single c && negb (s_master g)) eqn:Eb.
      + injection E3 as <-. apply andb_true_iff in Eb. destruct Eb as [B1 B2]. apply negb_true_iff in B2.
        split; [discriminate|]. intros [A _]. specialize (A B1). congruence.
      + destruct (n <? 0) eqn:En; [|discriminate]. apply Z.ltb_lt in En.
        assert (A : active (s_master g) c).
        { intros B. rewrite B in Eb. simpl in Eb. now apply negb_false_iff in Eb. }
        split; [auto|]. intros _. injection E3 as <-. unfold wrote, output. rewrite existsb_app. apply orb_true_iff. right.
        destruct (append c); reflexivity.
    - destruct (interval_step parallel (s_master g) (s_rank g) c i n Hi) as (es' & E & W). congruence.
  Qed.
  Lemma whole_deltas l res m' : session parallel l (new_manager T) = Some (res, m') ->
    forall j k c s, nth_error (added_deltas l) j = Some (k, (c, s)) -> forall master rank,
    Forall (fun g => s_master g = master /\ s_rank g = rank) (skipn k (seen l (at_start T))) ->
    exists times, map s_time (skipn k (seen l (at_start T))) = map Some times /\
      map (fun o => nth_error (snd o) j) (firstn k res) = repeat None (List.length (firstn k res)) /\
      map (fun o => nth_error (snd o) j) (skipn k res) = map Some (executed parallel master rank c s times).
  Proof. intros H. exact (session_deltas _ _ _ _ H). Qed.
End Proofs.
