(** Concrete diagnostics, and the theorems of [DiagProps] in the form stated there. *)
From Coq Require Import ZArith List Bool String Ascii Lia Arith Floats.SpecFloat.
From Verif Require Import DiagModel DiagSpec DiagNameProofs DiagProofs DiagManagerProofs DiagFloatModel.
Import ListNotations.
Local Open Scope Z_scope.

(** Times as integers. *)
Definition ticks : clock := mkClock Z 0 Z.add Z.sub Z.eqb Z.leb Z.ltb.
Lemma ticks_exact : exact ticks.
Proof.
  split; cbn; intros; rewrite ?Z.leb_le in *; try lia.
Qed.
Definition each : config := mkConfig "out_#p_#t.h5" false false.
Definition log : config := mkConfig "energy_#p.dat" true false.
Definition one : config := mkConfig "sum_#t.dat" false true.

(** ** Schedules *)
Lemma delta_exact : forall T, exact T -> forall parallel master rank c (delta delay : time T) times, active master c -> tltb T (tzero T) delta = true ->
  (forall t, nth_error times 0 = Some t -> tltb T t (tadd T delay delta) = true) -> steps_within delta times ->
  forall i t, nth_error times i = Some t -> exists es, nth_error (executed parallel master rank c (scheduled delta delay) times) i = Some es /\
    (wrote es = true <-> exists k, at_first delay delta times i k) /\
    (forall k, at_first delay delta times i k -> tltb T t (due delay delta (S k)) = true /\
       (append c = false -> es = [Open (parsed_file_name parallel (fname c) rank (Z.of_nat k)); Write; Close])).
Proof.
  intros T X parallel master rank c delta delay times Ha Hd H0 Hs i t Ht.
  destruct (plan_exact T X delta delay Hd times 0 H0 Hs) as [P1 P2]. destruct (plan_events parallel master rank T c delta delay Ha times 0 i t Ht) as [o [O1 [O2 O3]]].
  exists (opening T c t ++ match o with Some j => output parallel rank c (Z.of_nat j) | None => [] end). split; [exact O3|].
  assert (Q : forall k, at_first delay delta times i k <-> o = Some k).
  { intros k. unfold at_first. split.
    - intros [[t' [E1 E2]] E3]. rewrite Ht in E1. inversion E1; subst t'. assert (E : nth_error (plan delta delay 0 times) i = Some (Some k)) by (apply (P2 i t k Ht); [lia|auto]). congruence.
    - intros ->. apply (P2 i t k Ht) in O1; [|lia]. destruct O1 as [E1 E2]. split; [exists t; auto|exact E2]. }
  split.
  - destruct o as [k|].
    + rewrite wrote_app, wrote_output, orb_true_r. split; [|reflexivity]. intros _. exists k. apply Q. reflexivity.
    + rewrite app_nil_r. unfold opening. rewrite wrote_opening. split; [discriminate|]. intros [k Hk]. apply Q in Hk. discriminate.
  - intros k Hk. apply Q in Hk. subst o. split; [apply (P1 i t k Ht O1)|]. intros Hn. unfold opening, output. rewrite Hn, andb_false_r. reflexivity.
Qed.
Lemma delta_rounded : forall T, rounded T -> forall parallel master rank c (delta delay : time T) times, active master c ->
  (forall t, nth_error times 0 = Some t -> tleb T t (tadd T delay delta) = true) -> steps_within delta times ->
  exists ns, List.length ns = List.length times /\ numbers ns = seq 0 (List.length (numbers ns)) /\
    forall i t, nth_error times i = Some t -> exists o es, nth_error ns i = Some o /\ nth_error (executed parallel master rank c (scheduled delta delay) times) i = Some es /\
      match o with
      | Some k => wrote es = true /\ tleb T (due delay delta k) t = true /\ tleb T t (due delay delta (S k)) = true
      | None => wrote es = false
      end.
Proof.
  intros T W parallel master rank c delta delay times Ha H0 Hs. exists (plan delta delay 0 times). split; [apply plan_length|]. split; [apply plan_numbers|].
  intros i t Ht. destruct (plan_events parallel master rank T c delta delay Ha times 0 i t Ht) as [o [O1 [O2 O3]]]. exists o. eexists. split; [exact O1|]. split; [exact O3|].
  destruct o as [k|].
  - destruct O2 as [_ O2]. split; [rewrite wrote_app, wrote_output; apply orb_true_r|]. split; [exact O2|]. apply (plan_rounded T delta delay W times 0 H0 Hs i t k Ht O1).
  - rewrite app_nil_r. unfold opening. apply wrote_opening.
Qed.
(** A simulation with steps of one or two, an output every three. *)
Definition some_times : list (time ticks) := [0; 1; 3; 4; 6; 8; 9; 11].
Example some_times_within : (forall t, nth_error some_times 0 = Some t -> tltb ticks t (tadd ticks 0 3) = true) /\ steps_within (T := ticks) 3 some_times /\
  map wrote (executed false true 2 each (scheduled (T := ticks) 3 0) some_times) = [true; false; true; false; true; false; true; false] /\
  nth_error (executed false true 2 each (scheduled (T := ticks) 3 0) some_times) 4 = Some [Open "out_2_2.h5"; Write; Close].
Proof.
  split; [intros t E; inversion E; reflexivity|]. split; [|split; vm_compute; reflexivity].
  intros i t t' E1 E2. do 8 (destruct i as [|i]; [cbn in E1, E2; inversion E1; inversion E2; reflexivity|]). destruct i; discriminate.
Qed.
(** A run continued at time 10: two outputs in one period. *)
Lemma late_start : let times := [10; 11; 12; 13] in
  steps_within (T := ticks) 2 times /\ map wrote (executed false true 0 each (scheduled (T := ticks) 2 0) times) = [true; true; true; true] /\
  nth_error (executed false true 0 each (scheduled (T := ticks) 2 0) times) 1 = Some [Open "out_0_1.h5"; Write; Close].
Proof.
  split; [|split; vm_compute; reflexivity].
  intros i t t' E1 E2. do 4 (destruct i as [|i]; [cbn in E1, E2; inversion E1; inversion E2; reflexivity|]). destruct i; discriminate.
Qed.
(** Two diagnostics, periods three and five, time steps of two. *)
Definition two_diags : manager ticks := fold_left act [SetTimeCounter ticks 0; SetPhysicalTime ticks 0; AddDelta ticks each 3 1; AddDelta ticks log 5 4; AddInterval ticks each 10] (new_manager ticks).
Example two_diags_pending : physical two_diags = Some 0 /\ deltas two_diags <> [] /\
  forall c s, In (c, s) (deltas two_diags) -> tltb ticks 0 (next s) = true /\ tltb ticks (tzero ticks) (period s) = true /\ active (is_master two_diags) c.
Proof.
  split; [reflexivity|]. split; [discriminate|]. intros c s [H|[H|[]]]; inversion H; subst; (split; [reflexivity|]); (split; [reflexivity|]); intros X; discriminate.
Qed.
Example two_diags_run : match simulate false two_diags [2; 2; 2; 2; 2; 2] with Some (r, m) => (map fst r, written_at 0 r, written_at 1 r, physical m) | None => ([], [], [], None) end
  = ([1; 3; 4; 6; 7; 9], [1; 4; 7], [4; 9], Some 9).
Proof. vm_compute. reflexivity. Qed.
(** Doubles: the time step to the next output leads beyond it. *)
Definition milli : spec_float := S754_finite false 4611686018427388 (-62).   (* 0.001 *)
Definition centi : spec_float := S754_finite false 5764607523034235 (-59).   (* 0.01 *)
Definition big_step : spec_float := S754_finite false 4503599627370496 (-52).   (* 1.0 *)
Definition doubles : manager double64 := fold_left act [SetPhysicalTime double64 milli; AddDelta double64 each centi centi] (new_manager double64).
Lemma beyond : match adjust_delta_t doubles big_step with inr d => tltb double64 centi (tadd double64 milli d) | inl _ => false end = true.
Proof. vm_compute. reflexivity. Qed.

(** ** Intervals *)
Example interval_times : filter (fun t => match execute_interval false true 0 each 4 t with Some es => wrote es | None => false end) (map Z.of_nat (seq 0 11)) = [0; 4; 8].
Proof. vm_compute. reflexivity. Qed.
Lemma interval_zero : forall parallel master rank c n, active master c -> 0 <= n -> execute_interval parallel master rank c 0 n = None.
Proof. intros parallel master rank c n Ha Hn. unfold execute_interval. apply skipped_not in Ha. rewrite Ha. destruct (Z.ltb_spec n 0); [lia|reflexivity]. Qed.

(** ** Names *)
Lemma holder_first : forall k s pre post, k <> "#"%char -> s = (pre ++ String "#" (String k post))%string -> free k pre = true -> place_holder k s pre post.
Proof.
  intros k s pre post Hk -> F. split; [reflexivity|]. revert F. induction pre as [|c pre IH]; intros F pre' post' E; [cbn; lia|].
  cbn [free] in F. apply andb_prop in F. destruct F as [F1 F2]. destruct pre' as [|c' pre']; cbn in E.
  - exfalso. inversion E; subst. destruct pre as [|c'' pre]; cbn in *; inversion H1; subst; [congruence|]. rewrite Ascii.eqb_refl in F1. discriminate.
  - inversion E; subst. cbn. specialize (IH F2 pre' post' H1). lia.
Qed.
Example each_between : between "out_#p_#t.h5" "_" /\ Exists (fun c => ~ digit c) (chars "_").
Proof.
  split.
  - exists "p"%char, "t"%char, "out_"%string, ".h5"%string. split; [left; auto|]. split; apply holder_first; (discriminate || reflexivity).
  - constructor. unfold digit. cbn. lia.
Qed.
Example adjacent_between : between "out#p#t.h5" "" /\ Forall digit (chars "").
Proof.
  split; [|constructor]. exists "p"%char, "t"%char, "out"%string, ".h5"%string. split; [left; auto|]. split; apply holder_first; (discriminate || reflexivity).
Qed.
Example names_each : parsed_file_name false "out_#p_#t.h5" 3 17 = "out_3_17.h5"%string /\ parsed_file_name false "out#p#t.h5" 1 12 = "out112.h5"%string /\ parsed_file_name false "out#p#t.h5" 11 2 = "out112.h5"%string /\ parsed_file_name false "out_#p_#t.h5" 3 (-1) = "out_3_final.h5"%string.
Proof. vm_compute. auto. Qed.
Lemma append_same_file : forall parallel master rank rank' c i, append c = true -> active master c -> 0 < i ->
  execute_interval parallel master rank c i 0 = Some [Open (fname c); Write] /\ execute_interval parallel master rank' c i 0 = Some [Open (fname c); Write].
Proof.
  intros parallel master rank rank' c i Ha Hact Hi. apply skipped_not in Hact. unfold execute_interval, output. rewrite Ha, Hact. cbn [Z.eqb Z.ltb Z.compare andb]. destruct (Z.eqb_spec i 0); [lia|]. rewrite Z.rem_0_l by assumption. auto.
Qed.
(** A run that continues at step 10. *)
Lemma restart_not_open : execute_interval false true 0 log 5 10 = Some [Write] /\ executed false true 0 log (scheduled (T := ticks) 5 0) [10] = [[Write]].
Proof. vm_compute. auto. Qed.

(** ** Missing times *)
Definition no_counter : list (action ticks) := [SetPhysicalTime ticks 0; AddInterval ticks each 10].
Lemma no_counter_reached : reached false no_counter (fold_left act no_counter (new_manager ticks)).
Proof. apply (r_act false ticks [SetPhysicalTime ticks 0] _ (AddInterval ticks each 10)). apply (r_act false ticks [] _ (SetPhysicalTime ticks 0)). constructor. Qed.
Lemma no_counter_fails : snd (execute false (fold_left act no_counter (new_manager ticks))) = Some NullPointer.
Proof. vm_compute. reflexivity. Qed.
Definition no_time : list (action ticks) := [SetTimeCounter ticks 0; AddDelta ticks each 3 0].
Lemma no_time_reached : reached false no_time (fold_left act no_time (new_manager ticks)).
Proof. apply (r_act false ticks [SetTimeCounter ticks 0] _ (AddDelta ticks each 3 0)). apply (r_act false ticks [] _ (SetTimeCounter ticks 0)). constructor. Qed.
Lemma no_time_fails : snd (execute false (fold_left act no_time (new_manager ticks))) = Some NullPointer.
Proof. vm_compute. reflexivity. Qed.
Lemma null_pointer_reached : (exists acts m, reached (T := ticks) false acts m /\ sets_time acts /\ snd (execute false m) = Some NullPointer) /\
  (exists acts m, reached (T := ticks) false acts m /\ sets_counter acts /\ snd (execute false m) = Some NullPointer).
Proof.
  split.
  - exists no_counter. eexists. split; [apply no_counter_reached|]. split; [exists 0; left; reflexivity|apply no_counter_fails].
  - exists no_time. eexists. split; [apply no_time_reached|]. split; [exists 0; left; reflexivity|apply no_time_fails].
Qed.
Definition both_set : list (action ticks) := [SetTimeCounter ticks 0; SetPhysicalTime ticks 0; AddDelta ticks each 3 0; AddInterval ticks each 10].
Example both_set_runs : snd (execute false (fold_left act both_set (new_manager ticks))) = None.
Proof. vm_compute. reflexivity. Qed.

(** ** Several processes *)
Definition process (b : bool) (r : Z) : manager ticks := fold_left act [SetPhysicalTime ticks 0; AddDelta ticks one 3 1; SetMaster ticks b; SetRank ticks r; Time ticks 2] (new_manager ticks).
Definition executed_once (m : manager ticks) : manager ticks := snd (fst (execute false m)).
Lemma processes_together : together false (executed_once (process true 0)) (executed_once (process false 1)).
Proof.
  eapply (t_execute false ticks (process true 0) (process false 1)); [|vm_compute; reflexivity|vm_compute; reflexivity].
  unfold process. cbn [fold_left]. apply (t_act false ticks _ _ (Time ticks 2)). apply (t_rank false ticks _ _ 0 1). apply (t_master false ticks _ _ true false). apply (t_act false ticks _ _ (AddDelta ticks one 3 1)). apply (t_act false ticks _ _ (SetPhysicalTime ticks 0)). constructor.
Qed.
Lemma steps_differ : exists m1 m2 dt, together (T := ticks) false m1 m2 /\ adjust_delta_t m1 dt = inr 2 /\ adjust_delta_t m2 dt = inr 10.
Proof. eexists. eexists. exists 10. split; [apply processes_together|]. split; vm_compute; reflexivity. Qed.
Definition shared (b : bool) (r : Z) : manager ticks := fold_left act [SetPhysicalTime ticks 0; AddDelta ticks each 3 1; SetMaster ticks b; SetRank ticks r; Time ticks 2] (new_manager ticks).
Example shared_together : together false (executed_once (shared true 0)) (executed_once (shared false 1)) /\ (forall c s, In (c, s) (deltas (executed_once (shared true 0))) -> single c = false) /\ adjust_delta_t (executed_once (shared true 0)) 10 = inr 2.
Proof.
  split; [|split; [|vm_compute; reflexivity]].
  - eapply (t_execute false ticks (shared true 0) (shared false 1)); [|vm_compute; reflexivity|vm_compute; reflexivity].
    unfold shared. cbn [fold_left]. apply (t_act false ticks _ _ (Time ticks 2)). apply (t_rank false ticks _ _ 0 1). apply (t_master false ticks _ _ true false). apply (t_act false ticks _ _ (AddDelta ticks each 3 1)). apply (t_act false ticks _ _ (SetPhysicalTime ticks 0)). constructor.
  - intros c s H. vm_compute in H. destruct H as [H|[]]. inversion H; subst. reflexivity.
Qed.
