(** C58-C61, C77, C78: diagnostics.

    [DiagModel] holds the program, [DiagSpec] the words used here. *)
From Coq Require Import ZArith List Bool String Ascii Reals.
From Verif Require Import MpiFloatModel DiagModel DiagSpec DiagNameProofs DiagProofs DiagManagerProofs DiagFloatModel DiagFloatProofs DiagExamples.
Import ListNotations.
Local Open Scope Z_scope.

(** C58.  At one step: the diagnostic writes exactly if the counter is a multiple of the interval, or
    negative ("final").  Intervals other than zero. *)
Theorem C58_step_partial : forall parallel master rank c interval counter, interval <> 0 ->
  exists es, execute_interval parallel master rank c interval counter = Some es /\
    (wrote es = true <-> active master c /\ (counter < 0 \/ (interval | counter))).
Proof. exact interval_step. Qed.
Print Assumptions C58_step_partial.
(** For the steps 0, 1, ..., n - 1: the multiples of the interval, each once. *)
Theorem C58_run : forall parallel master rank c interval n, 0 < interval -> active master c ->
  filter (fun t => match execute_interval parallel master rank c interval t with Some es => wrote es | None => false end) (map Z.of_nat (seq 0 n)) = multiples_below interval n.
Proof. exact interval_run. Qed.
Print Assumptions C58_run.
(** The interval comes from the input deck unchecked: with interval 0 the behaviour is undefined. *)
Theorem C58_zero_refuted : forall parallel master rank c counter, active master c -> 0 <= counter -> execute_interval parallel master rank c 0 counter = None.
Proof. exact interval_zero. Qed.
Print Assumptions C58_zero_refuted.

(** C59.  Whatever the arithmetic and the times: the outputs are numbered 0, 1, 2, ...; none comes
    before it is due; a step without output comes before the next is due; at most one output per step. *)
Theorem C59_numbered : forall parallel master rank (T : clock) c (delta delay : time T), active master c -> forall times,
  exists ns, List.length ns = List.length times /\ numbers ns = seq 0 (List.length (numbers ns)) /\
    forall i t, nth_error times i = Some t -> exists o es, nth_error ns i = Some o /\ nth_error (executed parallel master rank c (scheduled delta delay) times) i = Some es /\
      match o with
      | Some k => k = outputs_before ns i /\ tleb T (due delay delta k) t = true /\ wrote es = true /\ (append c = false -> es = [Open (parsed_file_name parallel (fname c) rank (Z.of_nat k)); Write; Close])
      | None => tleb T (due delay delta (outputs_before ns i)) t = false /\ wrote es = false
      end.
Proof. exact delta_any. Qed.
Print Assumptions C59_numbered.
(** Exact arithmetic, steps not longer than the period, started before output 1 is due: output [k]
    is made at the first step at which it is due, before output [k + 1] is due.  Missing from the full
    property: rounding, and runs started later. *)
Theorem C59_once_per_period_partial : forall T, exact T -> forall parallel master rank c (delta delay : time T) times, active master c -> tltb T (tzero T) delta = true ->
  (forall t, nth_error times 0 = Some t -> tltb T t (tadd T delay delta) = true) -> steps_within delta times ->
  forall i t, nth_error times i = Some t -> exists es, nth_error (executed parallel master rank c (scheduled delta delay) times) i = Some es /\
    (wrote es = true <-> exists k, at_first delay delta times i k) /\
    (forall k, at_first delay delta times i k -> tltb T t (due delay delta (S k)) = true /\
       (append c = false -> es = [Open (parsed_file_name parallel (fname c) rank (Z.of_nat k)); Write; Close])).
Proof. exact delta_exact. Qed.
Print Assumptions C59_once_per_period_partial.
(** Rounded arithmetic: output [k] is made when it is due, and not after output [k + 1] is due. *)
Theorem C59_rounded_partial : forall T, rounded T -> forall parallel master rank c (delta delay : time T) times, active master c ->
  (forall t, nth_error times 0 = Some t -> tleb T t (tadd T delay delta) = true) -> steps_within delta times ->
  exists ns, List.length ns = List.length times /\ numbers ns = seq 0 (List.length (numbers ns)) /\
    forall i t, nth_error times i = Some t -> exists o es, nth_error ns i = Some o /\ nth_error (executed parallel master rank c (scheduled delta delay) times) i = Some es /\
      match o with
      | Some k => wrote es = true /\ tleb T (due delay delta k) t = true /\ tleb T t (due delay delta (S k)) = true
      | None => wrote es = false
      end.
Proof. exact delta_rounded. Qed.
Print Assumptions C59_rounded_partial.
(** Doubles (without overflow) are such numbers. *)
Theorem C59_doubles_rounded : rounded clock64.
Proof. exact rounded64. Qed.
Print Assumptions C59_doubles_rounded.
(** A run that starts later makes two outputs in one period. *)
Theorem C59_late_start_refuted : let times := [10; 11; 12; 13] in
  steps_within (T := ticks) 2 times /\ map wrote (executed false true 0 each (scheduled (T := ticks) 2 0) times) = [true; true; true; true] /\
  nth_error (executed false true 0 each (scheduled (T := ticks) 2 0) times) 1 = Some [Open "out_0_1.h5"; Write; Close].
Proof. exact late_start. Qed.
Print Assumptions C59_late_start_refuted.
(** Adjusted time steps, exact arithmetic: not longer than asked for, not zero, no further than the
    next output, and shortened only to reach an output. *)
Theorem C59_adjusted_step_partial : forall T, exact T -> forall (m : manager T) t dt, physical m = Some t ->
  exists d, adjust_delta_t m dt = inr d /\ tleb T d dt = true /\ (tltb T (tzero T) dt = true -> tltb T (tzero T) d = true) /\
    (forall c s, In (c, s) (deltas m) -> tltb T t (next s) = true -> tleb T (tadd T t d) (next s) = true) /\
    (d = dt \/ exists c s, In (c, s) (deltas m) /\ tltb T t (next s) = true /\ tadd T t d = next s).
Proof. exact (fun T X m t dt => adjust_spec T X m t (deltas m) dt). Qed.
Print Assumptions C59_adjusted_step_partial.
(** A simulation that uses the adjusted time steps writes every output exactly when it is due. *)
Theorem C59_exact_times_partial : forall T, exact T -> forall parallel dts (m : manager T) r m' t, physical m = Some t ->
  (forall c s, In (c, s) (deltas m) -> tltb T t (next s) = true /\ tltb T (tzero T) (period s) = true /\ active (is_master m) c) ->
  simulate parallel m dts = Some (r, m') ->
  exists t', physical m' = Some t' /\
  forall j c s, nth_error (deltas m) j = Some (c, s) -> exists n, written_at j r = map (due (next s) (period s)) (seq 0 n) /\ tltb T t' (due (next s) (period s) n) = true.
Proof. exact simulate_due. Qed.
Print Assumptions C59_exact_times_partial.
(** Doubles: the same if the next output is not more than as far away again as time zero. *)
Theorem C59_adjusted_double_partial : forall (m : manager clock64) t dt, physical m = Some t ->
  exists d, adjust_delta_t m dt = inr d /\ (d <= dt)%R /\
    forall c s, In (c, s) (deltas m) -> is_double t -> is_double (next s) -> (t < next s)%R -> (next s <= 2 * t)%R -> (rnd64 (t + d) <= next s)%R.
Proof. exact (fun m t dt => adjust64 m t (deltas m) dt). Qed.
Print Assumptions C59_adjusted_double_partial.
(** Otherwise the step may lead beyond it: at time 0.001, next output at 0.01. *)
Theorem C59_adjusted_double_refuted : physical doubles = Some milli /\ map (fun cs => next (snd cs)) (deltas doubles) = [centi] /\
  match adjust_delta_t doubles big_step with inr d => tltb double64 centi (tadd double64 milli d) | inl _ => false end = true.
Proof. exact (conj eq_refl (conj eq_refl beyond)). Qed.
Print Assumptions C59_adjusted_double_refuted.

(** C60.  If the text between the place holders holds anything but digits, equal names come from the
    same process and the same output (negative counters all read "final"). *)
Theorem C60_distinct_partial : forall s mid rank rank' n n', between s mid -> Exists (fun c => ~ digit c) (chars mid) -> 0 <= rank -> 0 <= rank' ->
  parsed_file_name false s rank n = parsed_file_name false s rank' n' -> rank = rank' /\ (n = n' \/ (n < 0 /\ n' < 0)).
Proof. exact names_distinct. Qed.
Print Assumptions C60_distinct_partial.
(** In all other cases two processes use the same name for different outputs. *)
Theorem C60_adjacent_refuted : forall s mid, between s mid -> Forall digit (chars mid) ->
  exists rank n rank' n', 0 <= rank /\ 0 <= n /\ 0 <= rank' /\ 0 <= n' /\ rank <> rank' /\ n <> n' /\ parsed_file_name false s rank n = parsed_file_name false s rank' n'.
Proof. exact names_collide. Qed.
Print Assumptions C60_adjacent_refuted.
(** With parallel output one file is shared by the processes: different outputs, different names. *)
Theorem C60_parallel : forall s pre post rank rank' n n', place_holder "t" s pre post -> parsed_file_name true s rank n = parsed_file_name true s rank' n' -> n = n' \/ (n < 0 /\ n' < 0).
Proof. exact names_parallel. Qed.
Print Assumptions C60_parallel.
(** Appending diagnostics: the place holders are not replaced, all processes open the same file. *)
Theorem C60_append_refuted : forall parallel master rank rank' c i, append c = true -> active master c -> 0 < i ->
  execute_interval parallel master rank c i 0 = Some [Open (fname c); Write] /\ execute_interval parallel master rank' c i 0 = Some [Open (fname c); Write].
Proof. exact append_same_file. Qed.
Print Assumptions C60_append_refuted.

(** C61.  Whatever was done with the manager: an error is reported exactly if no source of time was
    set; a null pointer is used only by diagnostics whose source of time is not the one that was set;
    nothing goes wrong if each kind of diagnostic has its source and no interval is zero. *)
Theorem C61_sources_partial : forall parallel T acts (m : manager T) ei ed m' f, reached parallel acts m -> execute parallel m = (ei, ed, m', f) ->
  (f = Some NoTime <-> ~ sets_counter acts /\ ~ sets_time acts) /\
  (f = Some NullPointer -> (adds_interval acts /\ ~ sets_counter acts /\ sets_time acts) \/ (adds_delta acts /\ ~ sets_time acts /\ sets_counter acts)) /\
  (adds_interval acts -> ~ sets_counter acts -> sets_time acts -> f = Some NullPointer) /\
  (adds_delta acts -> ~ sets_time acts -> sets_counter acts -> ~ zero_interval acts -> f = Some NullPointer) /\
  (sets_counter acts \/ (sets_time acts /\ ~ adds_interval acts) -> sets_time acts \/ (sets_counter acts /\ ~ adds_delta acts) -> ~ zero_interval acts -> f = None).
Proof. exact execute_fails. Qed.
Print Assumptions C61_sources_partial.
Theorem C61_null_pointer_refuted : (exists acts m, reached (T := ticks) false acts m /\ sets_time acts /\ snd (execute false m) = Some NullPointer) /\
  (exists acts m, reached (T := ticks) false acts m /\ sets_counter acts /\ snd (execute false m) = Some NullPointer).
Proof. exact null_pointer_reached. Qed.
Print Assumptions C61_null_pointer_refuted.
(** The adjustment of the time step uses the physical time unchecked. *)
Theorem C61_adjust : forall parallel T acts (m : manager T) dt, reached parallel acts m ->
  (adjust_delta_t m dt = inl NullPointer <-> adds_delta acts /\ ~ sets_time acts) /\ (forall f, adjust_delta_t m dt = inl f -> f = NullPointer).
Proof. exact adjust_fails. Qed.
Print Assumptions C61_adjust.

(** C77.  Files are opened before they are written and closed afterwards: each execution of a
    diagnostic that does not append; *)
Theorem C77_interval : forall parallel master rank c i n es, append c = false -> execute_interval parallel master rank c i n = Some es -> file false es = Some false.
Proof. exact interval_file. Qed.
Print Assumptions C77_interval.
Theorem C77_delta : forall parallel master rank T c (s : schedule T) t, append c = false -> file false (fst (execute_delta parallel master rank c s t)) = Some false.
Proof. exact delta_file. Qed.
Print Assumptions C77_delta.
(** all executions of one that appends, in a run that starts at step or time zero; *)
Theorem C77_append_interval_partial : forall parallel master rank c i n, append c = true -> active master c -> 0 < i ->
  exists es, all_events (map (execute_interval parallel master rank c i) (map Z.of_nat (seq 0 (S n)))) = Some es /\ file false es = Some true.
Proof. exact interval_append_run. Qed.
Print Assumptions C77_append_interval_partial.
Theorem C77_append_delta_partial : forall parallel master rank T c (s : schedule T) times, append c = true -> active master c ->
  teqb T (tzero T) (tzero T) = true -> (forall t, In t times -> teqb T (tzero T) t = false) ->
  file false (List.concat (executed parallel master rank c s (tzero T :: times))) = Some true.
Proof. exact delta_append_run. Qed.
Print Assumptions C77_append_delta_partial.
(** not in a run that starts at another step or time. *)
Theorem C77_restart_refuted : execute_interval false true 0 log 5 10 = Some [Write] /\ executed false true 0 log (scheduled (T := ticks) 5 0) [10] = [[Write]].
Proof. exact restart_not_open. Qed.
Print Assumptions C77_restart_refuted.

(** C78.  Processes that do the same get the same adjusted time step, unless a diagnostic has a single
    output: then they do not. *)
Theorem C78_same_step_partial : forall parallel T (m1 m2 : manager T) dt, together parallel m1 m2 -> (forall c s, In (c, s) (deltas m1) -> single c = false) -> adjust_delta_t m1 dt = adjust_delta_t m2 dt.
Proof. exact together_adjust. Qed.
Print Assumptions C78_same_step_partial.
Theorem C78_single_output_refuted : exists m1 m2 dt, together (T := ticks) false m1 m2 /\ adjust_delta_t m1 dt = inr 2 /\ adjust_delta_t m2 dt = inr 10.
Proof. exact steps_differ. Qed.
Print Assumptions C78_single_output_refuted.
