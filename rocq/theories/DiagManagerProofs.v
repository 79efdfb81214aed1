(** The manager of the diagnostics: time steps, missing times, processes. *)
From Coq Require Import ZArith List Bool String Ascii Lia Arith.
From Verif Require Import DiagModel DiagSpec DiagProofs.
Import ListNotations.
Local Open Scope Z_scope.

Lemma run_deltas_some : forall parallel T (m : manager T) now l, physical m = Some now ->
  exists ed l', run_deltas parallel m l = (ed, l', None) /\
    l' = map (fun cs => (fst cs, snd (execute_delta parallel (is_master m) (my_rank m) (fst cs) (snd cs) now))) l /\
    ed = map (fun cs => fst (execute_delta parallel (is_master m) (my_rank m) (fst cs) (snd cs) now)) l.
Proof.
  intros parallel T m now l Hp. induction l as [|[c s] l IH]; cbn [run_deltas map fst snd]; [eexists; eexists; repeat split; reflexivity|].
  rewrite Hp. destruct (execute_delta parallel (is_master m) (my_rank m) c s now) as [es s']. destruct IH as [ed [l' [E [E1 E2]]]]. rewrite E. eexists. eexists. split; [reflexivity|]. cbn [fst snd]. split; congruence.
Qed.
Lemma execute_some : forall parallel T (m : manager T) ei ed m' now, physical m = Some now -> execute parallel m = (ei, ed, m', None) ->
  physical m' = Some now /\ is_master m' = is_master m /\ my_rank m' = my_rank m /\ timecounter m' = timecounter m /\ use_physical m' = use_physical m /\ intervals m' = intervals m /\
  deltas m' = map (fun cs => (fst cs, snd (execute_delta parallel (is_master m) (my_rank m) (fst cs) (snd cs) now))) (deltas m) /\
  ed = map (fun cs => fst (execute_delta parallel (is_master m) (my_rank m) (fst cs) (snd cs) now)) (deltas m).
Proof.
  intros parallel T m ei ed m' now Hp H. unfold execute in H.
  destruct (if use_physical m then _ else _); [discriminate|]. destruct (run_intervals parallel m (intervals m)) as [e f]. destruct f as [f|]; [discriminate|].
  destruct (run_deltas_some parallel T m now (deltas m) Hp) as [ed' [l' [E [E1 E2]]]]. rewrite E in H. inversion H; subst ei ed m'. cbn. auto 10.
Qed.

(** ** Time steps, exact arithmetic *)
Section Exact.
  Variables (T : clock) (X : exact T).
  Lemma add_zero_le : forall a d, tleb T (tzero T) d = true -> tleb T a (tadd T a d) = true.
  Proof. intros a d H. apply (x_mono T X) with (c := a) in H. rewrite (x_zero T X), (x_comm T X d) in H. exact H. Qed.
  Lemma adjust_spec : forall m t l dt, physical m = Some t -> exists d, adjust (T := T) m l dt = inr d /\
    tleb T d dt = true /\ (tltb T (tzero T) dt = true -> tltb T (tzero T) d = true) /\
    (forall c s, In (c, s) l -> tltb T t (next s) = true -> tleb T (tadd T t d) (next s) = true) /\
    (d = dt \/ exists c s, In (c, s) l /\ tltb T t (next s) = true /\ tadd T t d = next s).
  Proof.
    intros m t l. induction l as [|[c s] l IH]; intros dt Hp; cbn [adjust].
    - exists dt. split; [reflexivity|]. split; [apply X|]. split; [auto|]. split; [intros c s []|left; reflexivity].
    - rewrite Hp. set (d0 := tsub T (next s) t). set (dt1 := if tltb T (tzero T) d0 then (if tltb T d0 dt then d0 else dt) else dt).
      destruct (IH dt1 Hp) as [d [E [L [P [A B]]]]]. exists d. split; [exact E|].
      assert (L1 : tleb T dt1 dt = true). { unfold dt1. destruct (tltb T (tzero T) d0); [|apply X]. destruct (tltb T d0 dt) eqn:Q; [apply (lt_le T X); exact Q|apply X]. }
      assert (L2 : tltb T t (next s) = true -> tleb T dt1 d0 = true).
      { intros H. apply (sub_pos T X) in H. fold d0 in H. unfold dt1. rewrite H. destruct (tltb T d0 dt) eqn:Q; [apply X|]. rewrite (x_lt T X) in Q. apply negb_false_iff in Q. exact Q. }
      split; [apply (x_trans T X) with dt1; assumption|]. split; [|split].
      + intros H. apply P. unfold dt1. destruct (tltb T (tzero T) d0) eqn:Q; [|exact H]. destruct (tltb T d0 dt); assumption.
      + intros c' s' [H|H] Hn; [|apply (A c' s'); assumption]. inversion H; subst c' s'. specialize (L2 Hn).
        pose proof (x_trans T X _ _ _ L L2) as Q. apply (x_mono T X) with (c := t) in Q. unfold d0 in Q. rewrite (x_sub T X), (x_comm T X) in Q. exact Q.
      + destruct B as [B|[c' [s' [H1 [H2 H3]]]]].
        * unfold dt1 in B. destruct (tltb T (tzero T) d0) eqn:Q; [|left; exact B]. destruct (tltb T d0 dt); [|left; exact B]. right. exists c, s. split; [left; reflexivity|]. split; [apply (sub_pos T X); exact Q|]. rewrite B. unfold d0. rewrite (x_comm T X). apply (x_sub T X).
        * right. exists c', s'. split; [right; exact H1|]. auto.
  Qed.
  Lemma due_shift : forall (delay delta : time T) k, due (tadd T delay delta) delta k = due delay delta (S k).
  Proof. intros delay delta k. induction k as [|k IH]; [reflexivity|]. cbn [due] in *. rewrite IH. reflexivity. Qed.
  Lemma simulate_due : forall parallel dts m r m' t, physical m = Some t ->
    (forall c s, In (c, s) (deltas m) -> tltb T t (next s) = true /\ tltb T (tzero T) (period s) = true /\ active (is_master m) c) ->
    simulate parallel m dts = Some (r, m') ->
    exists t', physical m' = Some t' /\
    forall j c s, nth_error (deltas m) j = Some (c, s) -> exists n, written_at j r = map (due (next s) (period s)) (seq 0 n) /\ tltb T t' (due (next s) (period s) n) = true.
  Proof.
    intros parallel. induction dts as [|dt dts IH]; intros m r m' t Hp Hd H; cbn [simulate] in H.
    - inversion H; subst r m'. exists t. split; [exact Hp|]. intros j c s Hj. exists 0%nat. split; [reflexivity|]. apply nth_error_In in Hj. destruct (Hd c s Hj) as [Q _]. exact Q.
    - rewrite Hp in H. destruct (adjust_spec m t (deltas m) dt Hp) as [d [E [_ [_ [A _]]]]]. unfold adjust_delta_t in H. rewrite E in H. set (now := tadd T t d) in *.
      destruct (execute parallel (act m (Time T now))) as [[[ei ed] m1] f] eqn:Ex. destruct f as [f|]; [discriminate|].
      destruct (simulate parallel m1 dts) as [[r1 m2]|] eqn:Si; [|discriminate]. inversion H; subst r m'. clear H.
      assert (Hp1 : physical (act m (Time T now)) = Some now) by (cbn; rewrite Hp; reflexivity).
      destruct (execute_some _ _ _ _ _ _ _ Hp1 Ex) as [P1 [M1 [R1 [_ [_ [_ [D1 D2]]]]]]]. cbn [act deltas is_master my_rank] in *.
      assert (St : forall c s, In (c, s) (deltas m) -> execute_delta parallel (is_master m) (my_rank m) c s now =
                (if tleb T (next s) now then (opening T c now ++ output parallel (my_rank m) c (count s), mkSchedule (period s) (tadd T (next s) (period s)) (count s + 1)) else (opening T c now, s)) /\ (tleb T (next s) now = true -> next s = now)).
      { intros c s Hi. destruct (Hd c s Hi) as [Q1 [_ Q3]]. apply skipped_not in Q3. split; [unfold execute_delta; rewrite Q3; reflexivity|]. intros L. apply (x_antisym T X); [exact L|]. apply (A c s); assumption. }
      destruct (IH m1 r1 m2 now P1) as [t' [P2 W]]; [|exact Si|].
      { intros c s Hi. rewrite D1 in Hi. apply in_map_iff in Hi. destruct Hi as [[c0 s0] [Q Hi]]. cbn [fst snd] in Q. inversion Q; subst c. destruct (St c0 s0 Hi) as [S1 S2]. destruct (Hd c0 s0 Hi) as [Q1 [Q2 Q3]]. rewrite M1. rewrite S1 in *. split; [|split; [|exact Q3]].
        - destruct (tleb T (next s0) now) eqn:L; cbn [snd next]; [|apply (lt_not_le T X); exact L]. rewrite (S2 eq_refl). apply (add_pos T X). exact Q2.
        - destruct (tleb T (next s0) now); cbn [snd period]; exact Q2. }
      exists t'. split; [exact P2|]. intros j c s Hj. pose proof (nth_error_In _ _ Hj) as Hi. destruct (St c s Hi) as [S1 S2].
      assert (N1 : nth_error (deltas m1) j = Some (c, snd (execute_delta parallel (is_master m) (my_rank m) c s now))) by (rewrite D1, nth_error_map, Hj; reflexivity).
      assert (N2 : nth_error ed j = Some (fst (execute_delta parallel (is_master m) (my_rank m) c s now))) by (rewrite D2, nth_error_map, Hj; reflexivity).
      destruct (W j c _ N1) as [n [W1 W2]]. unfold written_at. cbn [filter snd]. rewrite N2, S1. rewrite S1 in W1, W2. destruct (tleb T (next s) now) eqn:L; cbn [fst snd next period] in *.
      + rewrite wrote_app, wrote_output, orb_true_r. cbn [map fst]. exists (S n). split; [|rewrite <- due_shift; exact W2]. cbn [seq map due]. f_equal; [symmetry; apply S2; reflexivity|].
        etransitivity; [exact W1|]. rewrite <- seq_shift, map_map. apply map_ext. intros a. apply due_shift.
      + unfold opening. rewrite wrote_opening. exists n. split; [exact W1|exact W2].
  Qed.
End Exact.

(** ** Missing times *)
Section Missing.
  Variables (parallel : bool) (T : clock).
  Definition run_state (acts : list (action T)) (m : manager T) : Prop :=
    (timecounter m <> None <-> sets_counter acts) /\ (physical m <> None <-> sets_time acts) /\
    (use_physical m = true -> physical m <> None) /\ (use_physical m = false -> physical m <> None -> timecounter m <> None) /\
    (intervals m <> [] <-> adds_interval acts) /\ (deltas m <> [] <-> adds_delta acts) /\
    ((exists c, In (c, 0) (intervals m)) -> zero_interval acts).
  Lemma in_snoc : forall A (x y : A) l, In x (l ++ [y]) <-> In x l \/ y = x.
  Proof. intros A x y l. rewrite in_app_iff. cbn. tauto. Qed.
  Lemma snoc_not_nil : forall A (l : list A) x, l ++ [x] <> [].
  Proof. intros A [|? l] x; discriminate. Qed.
  Lemma run_deltas_nil : forall (m : manager T) l ed l' f, run_deltas parallel m l = (ed, l', f) -> (l' = [] <-> l = []).
  Proof.
    intros m [|[c s] l] ed l' f H; cbn in H; [inversion H; tauto|]. destruct (physical m); [|inversion H; split; discriminate].
    destruct (execute_delta parallel (is_master m) (my_rank m) c s t). destruct (run_deltas parallel m l) as [[a b] g]. inversion H; split; discriminate.
  Qed.
  Lemma execute_keeps : forall (m : manager T) ei ed m' f, execute parallel m = (ei, ed, m', f) ->
    timecounter m' = timecounter m /\ physical m' = physical m /\ use_physical m' = use_physical m /\ intervals m' = intervals m /\ (deltas m' = [] <-> deltas m = []).
  Proof.
    intros m ei ed m' f H. unfold execute in H. destruct (if use_physical m then _ else _); [inversion H; subst; tauto|].
    destruct (run_intervals parallel m (intervals m)) as [e [g|]]; [inversion H; subst; tauto|].
    destruct (run_deltas parallel m (deltas m)) as [[a b] g] eqn:R. inversion H; subst. cbn. apply run_deltas_nil in R. tauto.
  Qed.
  Lemma reached_state : forall acts m, reached parallel acts m -> run_state acts m.
  Proof.
    intros acts m H. induction H as [|l m a H IH|l m ei ed m' f H IH E].
    - unfold run_state, sets_counter, sets_time, adds_interval, adds_delta, zero_interval. cbn. do 6 (split; [first [split|idtac]; try congruence; repeat match goal with H : exists _, _ |- _ => destruct H | |- _ -> _ => intro end; tauto|]); tauto.
    - destruct IH as [I1 [I2 [I3 [I4 [I5 [I6 I7]]]]]]. unfold run_state, sets_counter, sets_time, adds_interval, adds_delta, zero_interval in *.
      assert (Neu : forall (P : action T -> Prop) , ~ P a -> ((exists x, In x (l ++ [a]) /\ P x) <-> (exists x, In x l /\ P x))).
      { intros P N. split; intros [x [Hx Px]]; exists x; (split; [|exact Px]). - apply in_snoc in Hx. destruct Hx as [Hx|<-]; [exact Hx|contradiction]. - apply in_snoc. left. exact Hx. }
      assert (Q1 : (exists n, In (SetTimeCounter T n) (l ++ [a])) <-> (exists n, In (SetTimeCounter T n) l) \/ exists n, a = SetTimeCounter T n).
      { split; [intros [n Hn]; apply in_snoc in Hn; destruct Hn; [left; eauto|right; eauto]|intros [[n Hn]|[n ->]]; exists n; apply in_snoc; auto]. }
      assert (Q2 : (exists n, In (SetPhysicalTime T n) (l ++ [a])) <-> (exists n, In (SetPhysicalTime T n) l) \/ exists n, a = SetPhysicalTime T n).
      { split; [intros [n Hn]; apply in_snoc in Hn; destruct Hn; [left; eauto|right; eauto]|intros [[n Hn]|[n ->]]; exists n; apply in_snoc; auto]. }
      assert (Q3 : (exists c i, In (AddInterval T c i) (l ++ [a])) <-> (exists c i, In (AddInterval T c i) l) \/ exists c i, a = AddInterval T c i).
      { split; [intros [c [n Hn]]; apply in_snoc in Hn; destruct Hn; [left; eauto|right; eauto]|intros [[c [n Hn]]|[c [n ->]]]; exists c, n; apply in_snoc; auto]. }
      assert (Q4 : (exists c x y, In (AddDelta T c x y) (l ++ [a])) <-> (exists c x y, In (AddDelta T c x y) l) \/ exists c x y, a = AddDelta T c x y).
      { split; [intros [c [n [y Hn]]]; apply in_snoc in Hn; destruct Hn; [left; eauto|right; eauto]|intros [[c [n [y Hn]]]|[c [n [y ->]]]]; exists c, n, y; apply in_snoc; auto]. }
      assert (Q5 : forall c, In (AddInterval T c 0) l -> exists c, In (AddInterval T c 0) (l ++ [a])) by (intros c Hc; exists c; apply in_snoc; auto).
      rewrite Q1, Q2, Q3, Q4. clear Neu.
      assert (F : forall c, In (c, 0) (intervals (act m a)) -> In (c, 0) (intervals m) \/ a = AddInterval T c 0).
      { intros c Hc. destruct a; cbn in Hc; auto. apply in_snoc in Hc. destruct Hc as [Hc|Hc]; [auto|]. inversion Hc; subst. auto. }
      assert (I7' : (exists c, In (c, 0) (intervals (act m a))) -> exists c, In (AddInterval T c 0) (l ++ [a])).
      { intros [c Hc]. destruct (F c Hc) as [Hc'|Ha]; [destruct (I7 (ex_intro _ c Hc')) as [c' Hc'']; eauto|]. exists c. apply in_snoc. auto. }
      assert (N1 : forall x y, SetTimeCounter T x <> SetPhysicalTime T y) by discriminate.
      split; [|split; [|split; [|split; [|split; [|split; [|exact I7']]]]]]; clear Q1 Q2 Q3 Q4 Q5 I7 I7' F;
      destruct a; cbn [act timecounter physical use_physical intervals deltas] in *;
      repeat match goal with |- context [match ?x with Some _ => _ | None => _ end] => destruct x eqn:? end;
      try (split; intros; [right; solve [repeat eexists]|discriminate || apply snoc_not_nil]);
      try discriminate; try (intros; discriminate); try assumption; try (intros; congruence);
      try (split; intros Z0; [left; apply I1; (exact Z0 || congruence)|destruct Z0 as [Z0|[? Z0]]; [apply I1 in Z0; (exact Z0 || congruence)|discriminate]]);
      try (split; intros Z0; [left; apply I2; (exact Z0 || congruence)|destruct Z0 as [Z0|[? Z0]]; [apply I2 in Z0; (exact Z0 || congruence)|discriminate]]);
      try (split; intros Z0; [left; apply I5; (exact Z0 || congruence)|destruct Z0 as [Z0|[? [? Z0]]]; [apply I5 in Z0; (exact Z0 || congruence)|discriminate]]);
      try (split; intros Z0; [left; apply I6; (exact Z0 || congruence)|destruct Z0 as [Z0|[? [? [? Z0]]]]; [apply I6 in Z0; (exact Z0 || congruence)|discriminate]]);
      try (intros Z0 Z1; apply I4; congruence); try (intros Z0; apply I3 in Z0; congruence).
    - destruct (execute_keeps m ei ed m' f E) as [E1 [E2 [E3 [E4 E5]]]]. unfold run_state in *. rewrite E1, E2, E3, E4. destruct IH as [I1 [I2 [I3 [I4 [I5 [I6 I7]]]]]]. split; [exact I1|]. split; [exact I2|]. split; [exact I3|]. split; [exact I4|]. split; [exact I5|]. split; [|exact I7]. rewrite <- I6. tauto.
  Qed.
  Lemma run_intervals_fails : forall (m : manager T) l,
    (l = [] -> snd (run_intervals parallel m l) = None) /\
    (timecounter m = None -> l <> [] -> snd (run_intervals parallel m l) = Some NullPointer) /\
    (timecounter m <> None -> snd (run_intervals parallel m l) <> Some NullPointer) /\
    (timecounter m <> None -> (forall c, ~ In (c, 0) l) -> snd (run_intervals parallel m l) = None) /\
    snd (run_intervals parallel m l) <> Some NoTime.
  Proof.
    intros m l. split; [intros ->; reflexivity|]. induction l as [|[c i] l IH]; cbn [run_intervals].
    - cbn. repeat split; congruence.
    - destruct (timecounter m) as [n|] eqn:Tc.
      + destruct (execute_interval parallel (is_master m) (my_rank m) c i n) as [es|] eqn:Ex.
        * destruct IH as [_ [I2 [I3 I4]]]. destruct (run_intervals parallel m l) as [r f]. cbn [snd] in *. split; [congruence|]. split; [exact I2|]. split; [|exact I4]. intros H1 H2. apply I3; [exact H1|]. intros c' Hc. apply (H2 c'). right. exact Hc.
        * cbn. split; [congruence|]. split; [congruence|]. split; [|congruence]. intros _ H2. exfalso. destruct (Z.eq_dec i 0) as [->|Ni]; [apply (H2 c); left; reflexivity|].
          destruct (interval_step parallel (is_master m) (my_rank m) c i n Ni) as [es [E _]]. congruence.
      + cbn. repeat split; congruence.
  Qed.
  Lemma run_deltas_fails : forall (m : manager T) l,
    (l = [] \/ physical m <> None -> snd (run_deltas parallel m l) = None) /\
    (l <> [] -> physical m = None -> snd (run_deltas parallel m l) = Some NullPointer).
  Proof.
    intros m l. split.
    - intros [->|H]; [reflexivity|]. destruct (physical m) as [t|] eqn:Hp; [|contradiction]. destruct (run_deltas_some parallel T m t l Hp) as [ed [l' [-> _]]]. reflexivity.
    - intros H Hp. destruct l as [|[c s] l]; [contradiction|]. cbn. rewrite Hp. reflexivity.
  Qed.
  Lemma execute_fails : forall acts (m : manager T) ei ed m' f, reached parallel acts m -> execute parallel m = (ei, ed, m', f) ->
    (f = Some NoTime <-> ~ sets_counter acts /\ ~ sets_time acts) /\
    (f = Some NullPointer -> (adds_interval acts /\ ~ sets_counter acts /\ sets_time acts) \/ (adds_delta acts /\ ~ sets_time acts /\ sets_counter acts)) /\
    (adds_interval acts -> ~ sets_counter acts -> sets_time acts -> f = Some NullPointer) /\
    (adds_delta acts -> ~ sets_time acts -> sets_counter acts -> ~ zero_interval acts -> f = Some NullPointer) /\
    (sets_counter acts \/ (sets_time acts /\ ~ adds_interval acts) -> sets_time acts \/ (sets_counter acts /\ ~ adds_delta acts) -> ~ zero_interval acts -> f = None).
  Proof.
    intros acts m ei ed m' f Hr Ex. destruct (reached_state acts m Hr) as [I1 [I2 [I3 [I4 [I5 [I6 I7]]]]]]. unfold execute in Ex.
    assert (Dc : (sets_counter acts /\ timecounter m <> None) \/ (~ sets_counter acts /\ timecounter m = None)).
    { destruct (timecounter m) eqn:Tc; [left|right]; (split; [|congruence]); rewrite <- I1; congruence. }
    assert (Dt : (sets_time acts /\ physical m <> None) \/ (~ sets_time acts /\ physical m = None)).
    { destruct (physical m) eqn:Tc; [left|right]; (split; [|congruence]); rewrite <- I2; congruence. }
    assert (Di : (adds_interval acts /\ intervals m <> []) \/ (~ adds_interval acts /\ intervals m = [])).
    { destruct (intervals m) eqn:Tc; [right|left]; (split; [|congruence]); rewrite <- I5; congruence. }
    assert (Dd : (adds_delta acts /\ deltas m <> []) \/ (~ adds_delta acts /\ deltas m = [])).
    { destruct (deltas m) eqn:Tc; [right|left]; (split; [|congruence]); rewrite <- I6; congruence. }
    set (q := if use_physical m then match physical m with None => true | Some _ => false end else match timecounter m with None => true | Some _ => false end) in *.
    assert (Mi : q = true <-> timecounter m = None /\ physical m = None).
    { unfold q. destruct (use_physical m), (physical m), (timecounter m); split; intros Z0; try discriminate; try (destruct Z0; discriminate); auto;
      try (exfalso; apply (I3 eq_refl); reflexivity); try (exfalso; apply I4; congruence). }
    destruct (run_intervals_fails m (intervals m)) as [R0 [R1 [R2 [R3 R4]]]]. destruct (run_deltas_fails m (deltas m)) as [S1 S2].
    assert (Z0 : ~ zero_interval acts -> forall c, ~ In (c, 0) (intervals m)) by (intros N c Hc; apply N, I7; eauto). clear I1 I2 I3 I4 I5 I6 I7 Hr.
    destruct q.
    - inversion Ex; subst. destruct Mi as [Mi _]. destruct (Mi eq_refl) as [M1 M2]. destruct Dc as [[_ Dc]|[Dc _]]; [contradiction|]. destruct Dt as [[_ Dt]|[Dt _]]; [contradiction|]. split; [tauto|]. split; [discriminate|]. tauto.
    - assert (Mi' : ~ (timecounter m = None /\ physical m = None)) by (intros Z1; apply Mi in Z1; discriminate). clear Mi.
      destruct (run_intervals parallel m (intervals m)) as [r g]. cbn [snd] in *. destruct g as [g|].
      + inversion Ex; subst. destruct Di as [[D1 D2]|[_ D2]]; [|specialize (R0 D2); discriminate]. split; [|split; [|split; [|split]]].
        * split; [congruence|tauto].
        * intros Z1. left. tauto.
        * intros; apply R1; tauto.
        * intros. exfalso. assert (Some g = None) by (apply R3; tauto). discriminate.
        * intros. exfalso. assert (Some g = None) by (apply R3; tauto). discriminate.
      + destruct (run_deltas parallel m (deltas m)) as [[a b] g]. inversion Ex; subst. cbn [snd] in *. clear R0 R2 R3 R4.
        assert (Ni : timecounter m = None -> intervals m = []) by (intros Z1; destruct (intervals m); [reflexivity|]; specialize (R1 Z1 ltac:(discriminate)); discriminate).
        split; [|split; [|split; [|split]]].
        * split; [|tauto]. intros ->. exfalso. destruct Dd as [[_ Dd]|[_ Dd]]; [|specialize (S1 (or_introl Dd)); discriminate]. destruct Dt as [[_ Dt]|[_ Dt]]; [specialize (S1 (or_intror Dt)); discriminate|specialize (S2 Dd Dt); discriminate].
        * intros ->. right. destruct Dd as [[D1 Dd]|[_ Dd]]; [|specialize (S1 (or_introl Dd)); discriminate]. destruct Dt as [[_ Dt]|[Dt' Dt]]; [specialize (S1 (or_intror Dt)); discriminate|]. tauto.
        * intros. exfalso. tauto.
        * intros. apply S2; tauto.
        * intros. apply S1. tauto.
  Qed.
  Lemma adjust_fails : forall acts (m : manager T) dt, reached parallel acts m -> (adjust_delta_t m dt = inl NullPointer <-> adds_delta acts /\ ~ sets_time acts) /\ (forall f, adjust_delta_t m dt = inl f -> f = NullPointer).
  Proof.
    intros acts m dt Hr. destruct (reached_state acts m Hr) as [_ [I2 [_ [_ [_ [I6 _]]]]]]. rewrite <- I2, <- I6. unfold adjust_delta_t.
    destruct (physical m) as [t|] eqn:Hp.
    - assert (E : forall l dt, exists d, adjust m l dt = inr d). { induction l as [|[c s] l IH]; intros d; cbn; [eauto|]. rewrite Hp. apply IH. }
      destruct (E (deltas m) dt) as [d ->]. split; [|intros f; discriminate]. split; [discriminate|]. intros [_ N]. exfalso. apply N. discriminate.
    - destruct (deltas m) as [|[c s] l]; cbn; [|rewrite Hp]; (split; [|intros f; congruence]); split; intros; try discriminate; try tauto. split; [discriminate|congruence].
  Qed.
End Missing.

(** ** Several processes *)
Lemma run_deltas_configs : forall parallel T (m : manager T) l a b g, run_deltas parallel m l = (a, b, g) -> map fst b = map fst l.
Proof.
  intros parallel T m l. induction l as [|[c s] l IH]; intros a b f R; cbn in R; [inversion R; reflexivity|].
  destruct (physical m); [|inversion R; reflexivity]. destruct (execute_delta parallel (is_master m) (my_rank m) c s t). destruct (run_deltas parallel m l) as [[a' b'] g'] eqn:R'. inversion R; subst. cbn. f_equal. eapply IH; reflexivity.
Qed.
Lemma execute_configs : forall parallel T (m : manager T) ei ed m' f, execute parallel m = (ei, ed, m', f) -> map fst (deltas m') = map fst (deltas m).
Proof.
  intros parallel T m ei ed m' f H. unfold execute in H. destruct (if use_physical m then _ else _); [inversion H; reflexivity|]. destruct (run_intervals parallel m (intervals m)) as [e [g|]]; [inversion H; reflexivity|].
  destruct (run_deltas parallel m (deltas m)) as [[a b] g] eqn:R. inversion H; subst. cbn. eapply run_deltas_configs. exact R.
Qed.
Lemma together_same : forall parallel T (m1 m2 : manager T), together parallel m1 m2 -> (forall c s, In (c, s) (deltas m1) -> single c = false) ->
  deltas m1 = deltas m2 /\ physical m1 = physical m2.
Proof.
  intros parallel T m1 m2 H. induction H as [|m1 m2 a H IH|m1 m2 r1 r2 H IH|m1 m2 b1 b2 H IH|m1 m2 ei1 ei2 ed1 ed2 m1' m2' H IH E1 E2]; intros Hs.
  - auto.
  - destruct IH as [I1 I2]. { intros c s Hc. apply (Hs c s). destruct a; cbn; auto. apply in_or_app. auto. }
    destruct a; cbn; rewrite ?I1, ?I2; auto.
  - apply IH. exact Hs.
  - apply IH. exact Hs.
  - assert (Hs' : forall c s, In (c, s) (deltas m1) -> single c = false).
    { intros c s Hc. apply execute_configs in E1. assert (In c (map fst (deltas m1'))) as I by (rewrite E1; apply in_map_iff; exists (c, s); auto). apply in_map_iff in I. destruct I as [[c' s'] [Q I]]. cbn in Q. subst c'. apply (Hs c s' I). }
    destruct (IH Hs') as [I1 I2]. destruct (physical m1) as [t|] eqn:P1.
    + symmetry in I2. destruct (execute_some _ _ _ _ _ _ _ P1 E1) as [A1 [_ [_ [_ [_ [_ [D1 _]]]]]]]. destruct (execute_some _ _ _ _ _ _ _ I2 E2) as [A2 [_ [_ [_ [_ [_ [D2 _]]]]]]]. split; [|congruence].
      rewrite D1, D2, <- I1. apply map_ext_in. intros [c s] Hc. cbn [fst snd]. f_equal. unfold execute_delta. rewrite (Hs' c s Hc). cbn [andb]. destruct (tleb T (next s) t); reflexivity.
    + destruct (execute_keeps parallel T m1 _ _ _ _ E1) as [_ [P1' [_ [_ _]]]]. destruct (execute_keeps parallel T m2 _ _ _ _ E2) as [_ [P2' [_ [_ _]]]]. split; [|congruence].
      assert (N : forall (m : manager T) ei ed m', physical m = None -> execute parallel m = (ei, ed, m', None) -> deltas m' = deltas m).
      { clear. intros m ei ed m' Hp H. unfold execute in H. destruct (if use_physical m then _ else _); [discriminate|]. destruct (run_intervals parallel m (intervals m)) as [e [g|]]; [discriminate|]. destruct (deltas m) as [|[c s] l] eqn:D; cbn in H; [inversion H; reflexivity|]. rewrite Hp in H. discriminate. }
      rewrite (N _ _ _ _ P1 E1), (N _ _ _ _ (eq_sym I2) E2). exact I1.
Qed.
Lemma together_adjust : forall parallel T (m1 m2 : manager T) dt, together parallel m1 m2 -> (forall c s, In (c, s) (deltas m1) -> single c = false) -> adjust_delta_t m1 dt = adjust_delta_t m2 dt.
Proof.
  intros parallel T m1 m2 dt H Hs. destruct (together_same parallel T m1 m2 H Hs) as [E1 E2]. unfold adjust_delta_t. rewrite <- E1. revert dt. generalize (deltas m1). induction l as [|[c s] l IH]; intros dt; cbn; [reflexivity|]. rewrite <- E2. destruct (physical m1); [apply IH|reflexivity].
Qed.
