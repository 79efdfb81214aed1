(** What users expect of diagnostics: when outputs happen, into which files, which time steps.  Of
    [DiagModel] only the events, the numbers for times and the state of the manager are used. *)
From Coq Require Import ZArith List Bool String Ascii.
From Verif Require Import DiagModel.
Import ListNotations.
Local Open Scope Z_scope.

(** ** Writing *)
(** A diagnostic with a single output writes on the master process only. *)
Definition active (master : bool) (c : config) : Prop := single c = true -> master = true.
Definition wrote (es : list event) : bool := existsb (fun e => match e with Write => true | _ => false end) es.
(** Files: opened if closed, written and closed if open.  [None]: the order is wrong. *)
Fixpoint file (is_open : bool) (es : list event) : option bool :=
  match es with
  | [] => Some is_open
  | Open _ :: es' => if is_open then None else file true es'
  | Write :: es' => if is_open then file true es' else None
  | Close :: es' => if is_open then file false es' else None
  end.
(** All events of several executions, if none is undefined. *)
Fixpoint all_events (l : list (option (list event))) : option (list event) :=
  match l with [] => Some [] | None :: _ => None | Some es :: l' => match all_events l' with Some r => Some (es ++ r) | None => None end end.
(** The first multiples of [i]: those below [n]. *)
Definition multiples_below (i : Z) (n : nat) : list Z := map (fun k => i * Z.of_nat k) (seq 0 (Z.to_nat ((Z.of_nat n + i - 1) / i))).

(** ** File names *)
(** The first place holder #[k] of the pattern comes after [pre] and before [post]. *)
Definition place_holder (k : ascii) (s pre post : string) : Prop :=
  s = (pre ++ String "#" (String k post))%string /\
  forall pre' post', s = (pre' ++ String "#" (String k post'))%string -> (String.length pre <= String.length pre')%nat.
Definition digit (c : ascii) : Prop := (48 <= nat_of_ascii c <= 57)%nat.
(** The text between the first #p and the first #t, in either order. *)
Definition between (s mid : string) : Prop :=
  exists k1 k2 pre post, (k1 = "p"%char /\ k2 = "t"%char \/ k1 = "t"%char /\ k2 = "p"%char) /\
    place_holder k1 s pre (mid ++ String "#" (String k2 post)) /\
    place_holder k2 s (pre ++ String "#" (String k1 mid)) post.
Definition chars (s : string) : list ascii := list_ascii_of_string s.

(** ** Exact arithmetic *)
(** The laws of a totally ordered group. *)
Record exact (T : clock) : Prop := {
  x_refl : forall a, tleb T a a = true;
  x_trans : forall a b c, tleb T a b = true -> tleb T b c = true -> tleb T a c = true;
  x_antisym : forall a b, tleb T a b = true -> tleb T b a = true -> a = b;
  x_total : forall a b, tleb T a b = true \/ tleb T b a = true;
  x_lt : forall a b, tltb T a b = negb (tleb T b a);
  x_eq : forall a b, teqb T a b = true <-> a = b;
  x_zero : forall a, tadd T (tzero T) a = a;
  x_comm : forall a b, tadd T a b = tadd T b a;
  x_assoc : forall a b c, tadd T a (tadd T b c) = tadd T (tadd T a b) c;
  x_sub : forall a b, tadd T (tsub T a b) b = a;
  x_mono : forall a b c, tleb T a b = true -> tleb T (tadd T a c) (tadd T b c) = true
}.

(** The laws that rounded addition and comparison of numbers (not infinite, not NaN) obey. *)
Record rounded (T : clock) : Prop := {
  w_refl : forall a, tleb T a a = true;
  w_trans : forall a b c, tleb T a b = true -> tleb T b c = true -> tleb T a c = true;
  w_total : forall a b, tleb T a b = true \/ tleb T b a = true;
  w_mono : forall a b c, tleb T a b = true -> tleb T (tadd T a c) (tadd T b c) = true
}.

(** ** Schedules *)
Section Times.
  Variable T : clock.
  Notation "a <= b" := (tleb T a b = true).
  Notation "a < b" := (tltb T a b = true).
  (** When output number [k] is due. *)
  Fixpoint due (delay delta : time T) (k : nat) : time T :=
    match k with O => delay | S k' => tadd T (due delay delta k') delta end.
  (** The outputs of a run, step by step: [Some k] for output number [k]. *)
  Definition numbers (l : list (option nat)) : list nat := flat_map (fun o => match o with Some k => [k] | None => [] end) l.
  Definition outputs_before (l : list (option nat)) (i : nat) : nat := List.length (numbers (firstn i l)).
  (** The diagnostic executed at each of the times: the events. *)
  Fixpoint executed (parallel master : bool) (rank : Z) (c : config) (s : schedule T) (times : list (time T)) : list (list event) :=
    match times with
    | [] => []
    | t :: times' => let (es, s') := execute_delta parallel master rank c s t in es :: executed parallel master rank c s' times'
    end.
  (** Each step is not longer than [delta]. *)
  Definition steps_within (delta : time T) (times : list (time T)) : Prop :=
    forall i t t', nth_error times i = Some t -> nth_error times (S i) = Some t' -> t' <= tadd T t delta.
  (** Output [k] is made at the first step at which it is due. *)
  Definition at_first (delay delta : time T) (times : list (time T)) (i k : nat) : Prop :=
    (exists t, nth_error times i = Some t /\ due delay delta k <= t) /\
    forall j t, (j < i)%nat -> nth_error times j = Some t -> t < due delay delta k.
End Times.
Arguments due {T}. Arguments executed {T}. Arguments steps_within {T}. Arguments at_first {T}.

(** ** Histories of the manager *)
Section History.
  Variable parallel : bool.
  Variable T : clock.
  Inductive reached : list (action T) -> manager T -> Prop :=
  | r_new : reached [] (new_manager T)
  | r_act l m a : reached l m -> reached (l ++ [a]) (act m a)
  | r_execute l m ei ed m' f : reached l m -> execute parallel m = (ei, ed, m', f) -> reached l m'.
  Definition sets_counter (l : list (action T)) : Prop := exists n, In (SetTimeCounter T n) l.
  Definition sets_time (l : list (action T)) : Prop := exists t, In (SetPhysicalTime T t) l.
  Definition adds_interval (l : list (action T)) : Prop := exists c i, In (AddInterval T c i) l.
  Definition adds_delta (l : list (action T)) : Prop := exists c a b, In (AddDelta T c a b) l.
  Definition zero_interval (l : list (action T)) : Prop := exists c, In (AddInterval T c 0) l.

  (** Two processes of one program: they do the same, but for their rank and being the master. *)
  Inductive together : manager T -> manager T -> Prop :=
  | t_new : together (new_manager T) (new_manager T)
  | t_act m1 m2 a : together m1 m2 -> together (act m1 a) (act m2 a)
  | t_rank m1 m2 r1 r2 : together m1 m2 -> together (act m1 (SetRank T r1)) (act m2 (SetRank T r2))
  | t_master m1 m2 b1 b2 : together m1 m2 -> together (act m1 (SetMaster T b1)) (act m2 (SetMaster T b2))
  | t_execute m1 m2 ei1 ei2 ed1 ed2 m1' m2' : together m1 m2 ->
      execute parallel m1 = (ei1, ed1, m1', None) -> execute parallel m2 = (ei2, ed2, m2', None) -> together m1' m2'.

  (** The loop of a simulation: adjust the time step, advance the time, execute the diagnostics.
      [dts] are the time steps wanted, each longer than zero.  The result holds the new time and the
      events of the other diagnostics for each step. *)
  Fixpoint simulate (m : manager T) (dts : list (time T)) : option (list (time T * list (list event)) * manager T) :=
    match dts with
    | [] => Some ([], m)
    | dt :: dts' =>
        match physical m, adjust_delta_t m dt with
        | Some t, inr dt' =>
            let now := tadd T t dt' in
            match execute parallel (act m (Time T now)) with
            | (_, ed, m', None) => match simulate m' dts' with Some (r, m'') => Some ((now, ed) :: r, m'') | None => None end
            | _ => None
            end
        | _, _ => None
        end
    end.
  (** The times at which diagnostic [j] writes, for the steps of [simulate]. *)
  Definition written_at (j : nat) (r : list (time T * list (list event))) : list (time T) :=
    map fst (filter (fun x => match nth_error (snd x) j with Some es => wrote es | None => false end) r).
End History.
Arguments written_at {T}.
Arguments reached parallel {T}. Arguments simulate parallel {T}. Arguments together parallel {T}.
Arguments sets_counter {T}. Arguments sets_time {T}. Arguments adds_interval {T}. Arguments adds_delta {T}. Arguments zero_interval {T}.
