(** Model of the diagnostics (src/diagnostic/diagnostic.cpp, diagnostic.hpp, diagnostic.t): when they
    write, into which files, and how the manager drives them. *)
From Coq Require Import ZArith List Bool String Ascii Decimal DecimalString.
Import ListNotations.
Local Open Scope Z_scope.

(** ** File names *)

(** [boost::lexical_cast<std::string>(int)] — diagnostic.cpp:57-58. *)
Definition decimal (z : Z) : string := NilZero.string_of_int (Z.to_int z).

(** [pos = parsed.find("ab"); if (pos != npos) parsed.replace(pos, 2, by);] — diagnostic.cpp:65-70. *)
Fixpoint replace (a b : ascii) (by_ : string) (s : string) : string :=
  match s with
  | EmptyString => EmptyString
  | String c s' =>
      match s' with
      | String c' rest => if Ascii.eqb c a && Ascii.eqb c' b then (by_ ++ rest)%string else String c (replace a b by_ s')
      | EmptyString => s
      end
  end.

(** [parsedFileName(int rank, int timeCounter)] — diagnostic.cpp:54-74.  [parallel]: parallel HDF5
    output is compiled in, then "#p" is left alone.  (The overload for a physical time, 76-95, is
    never called.) *)
Definition parsed_file_name (parallel : bool) (fname : string) (rank counter : Z) : string :=
  let tstep := if counter <? 0 then "final"%string else decimal counter in
  let parsed := if parallel then fname else replace "#" "p" (decimal rank) fname in
  replace "#" "t" tstep parsed.

(** ** Diagnostics *)

(** The calls of the virtual functions [open], [write], [close] — diagnostic.hpp:60-65. *)
Inductive event := Open (name : string) | Write | Close.

(** The parameters common to all diagnostics — diagnostic.hpp:49-52, diagnostic.cpp:40-46: "file" and
    "append", and what [singleOut()] returns. *)
Record config := mkConfig { fname : string; append : bool; single : bool }.

Section Execute.
  Variable parallel : bool.
  Variable master : bool.
  Variable rank : Z.

  (** [if (!appending()) open(parsedFileName(rank, n)); write(); if (!appending()) close();] —
      diagnostic.cpp:110-112, 140-142. *)
  Definition output (c : config) (n : Z) : list event :=
    (if append c then [] else [Open (parsed_file_name parallel (fname c) rank n)]) ++ [Write] ++ (if append c then [] else [Close]).

  (** [IntervalDiagnostic::execute] — diagnostic.cpp:102-114.  [None]: the remainder by zero is
      undefined. *)
  Definition execute_interval (c : config) (interval counter : Z) : option (list event) :=
    if single c && negb master then Some []
    else
      let opening := if (0 =? counter) && append c then [Open (fname c)] else [] in
      if counter <? 0 then Some (opening ++ output c counter)
      else if interval =? 0 then None
      else if Z.rem counter interval =? 0 then Some (opening ++ output c counter)
      else Some opening.

  (** Numbers for the physical time: the operations used on [double]. *)
  Record clock := mkClock { time : Type; tzero : time; tadd : time -> time -> time; tsub : time -> time -> time;
                            teqb : time -> time -> bool; tleb : time -> time -> bool; tltb : time -> time -> bool }.
  Variable T : clock.

  (** [deltaTime], [nextOutput], [count] — diagnostic.hpp:91-93; [nextOutput] starts as the parameter
      "delay", [count] as 0 — diagnostic.cpp:126-129, 158-163. *)
  Record schedule := mkSchedule { period : time T; next : time T; count : Z }.
  Definition scheduled (delta delay : time T) : schedule := mkSchedule delta delay 0.

  (** [DeltaTimeDiagnostic::execute] — diagnostic.cpp:131-146. *)
  Definition execute_delta (c : config) (s : schedule) (now : time T) : list event * schedule :=
    if single c && negb master then ([], s)
    else
      let opening := if teqb T (tzero T) now && append c then [Open (fname c)] else [] in
      if tleb T (next s) now then (opening ++ output c (count s), mkSchedule (period s) (tadd T (next s) (period s)) (count s + 1))
      else (opening, s).
End Execute.
Arguments mkSchedule {T}. Arguments period {T}. Arguments next {T}. Arguments count {T}.
Arguments scheduled {T}. Arguments execute_delta parallel master rank {T}.

(** ** The manager *)

Section Manager.
  Variable parallel : bool.
  Variable T : clock.

  (** [DiagnosticManager] — diagnostic.hpp:104-120.  [timecounter] and [physicalTime] point to
      variables of the program, [None] being the null pointer; here they hold what is found there. *)
  Record manager := mkManager {
    intervals : list (config * Z);
    deltas : list (config * schedule T);
    timecounter : option Z;
    physical : option (time T);
    use_physical : bool;
    is_master : bool;
    my_rank : Z
  }.
  (** diagnostic.cpp:164-167. *)
  Definition new_manager : manager := mkManager [] [] None None false true 0.

  (** Exceptions, null pointers, the undefined remainder. *)
  Inductive failure := NoTime | NullPointer | DividedByZero.

  (** The loop over the interval diagnostics — diagnostic.cpp:211-214: the events of each. *)
  Fixpoint run_intervals (m : manager) (l : list (config * Z)) : list (list event) * option failure :=
    match l with
    | [] => ([], None)
    | (c, i) :: l' =>
        match timecounter m with
        | None => ([], Some NullPointer)
        | Some n =>
            match execute_interval parallel (is_master m) (my_rank m) c i n with
            | None => ([], Some DividedByZero)
            | Some es => let (r, f) := run_intervals m l' in (es :: r, f)
            end
        end
    end.
  (** The loop over the other diagnostics — diagnostic.cpp:216-219. *)
  Fixpoint run_deltas (m : manager) (l : list (config * schedule T)) : list (list event) * list (config * schedule T) * option failure :=
    match l with
    | [] => ([], [], None)
    | (c, s) :: l' =>
        match physical m with
        | None => ([], l, Some NullPointer)
        | Some t =>
            let (es, s') := execute_delta parallel (is_master m) (my_rank m) c s t in
            let '(r, l'', f) := run_deltas m l' in (es :: r, (c, s') :: l'', f)
        end
    end.
  (** [execute] — diagnostic.cpp:202-220 (the log message is compiled out): the events of the interval
      diagnostics and of the others. *)
  Definition execute (m : manager) : list (list event) * list (list event) * manager * option failure :=
    let missing := if use_physical m then match physical m with None => true | Some _ => false end
                   else match timecounter m with None => true | Some _ => false end in
    if missing then ([], [], m, Some NoTime)
    else
      let (ei, f) := run_intervals m (intervals m) in
      match f with
      | Some f => (ei, [], m, Some f)
      | None =>
          let '(ed, l, f) := run_deltas m (deltas m) in
          (ei, ed, mkManager (intervals m) l (timecounter m) (physical m) (use_physical m) (is_master m) (my_rank m), f)
      end.

  (** [adjustDeltaT] — diagnostic.cpp:223-235, with [std::min]. *)
  Fixpoint adjust (m : manager) (l : list (config * schedule T)) (dt : time T) : failure + time T :=
    match l with
    | [] => inr dt
    | (_, s) :: l' =>
        match physical m with
        | None => inl NullPointer
        | Some t =>
            let d := tsub T (next s) t in
            adjust m l' (if tltb T (tzero T) d then (if tltb T d dt then d else dt) else dt)
        end
    end.
  Definition adjust_delta_t (m : manager) (dt : time T) : failure + time T := adjust m (deltas m) dt.

  (** What the program does with the manager — diagnostic.cpp:169-200. *)
  Inductive action :=
  | SetTimeCounter (n : Z)          (* setTimeCounter(&n) *)
  | SetPhysicalTime (t : time T)    (* setPhysicalTime(&t) *)
  | Counter (n : Z)                 (* the variable of the program changes *)
  | Time (t : time T)
  | SetMaster (b : bool)
  | SetRank (r : Z)
  | AddInterval (c : config) (i : Z)
  | AddDelta (c : config) (delta delay : time T).
  Definition act (m : manager) (a : action) : manager :=
    match a with
    | SetTimeCounter n => mkManager (intervals m) (deltas m) (Some n) (physical m) false (is_master m) (my_rank m)
    | SetPhysicalTime t => mkManager (intervals m) (deltas m) (timecounter m) (Some t) true (is_master m) (my_rank m)
    | Counter n => mkManager (intervals m) (deltas m) (match timecounter m with None => None | Some _ => Some n end) (physical m) (use_physical m) (is_master m) (my_rank m)
    | Time t => mkManager (intervals m) (deltas m) (timecounter m) (match physical m with None => None | Some _ => Some t end) (use_physical m) (is_master m) (my_rank m)
    | SetMaster b => mkManager (intervals m) (deltas m) (timecounter m) (physical m) (use_physical m) b (my_rank m)
    | SetRank r => mkManager (intervals m) (deltas m) (timecounter m) (physical m) (use_physical m) (is_master m) r
    | AddInterval c i => mkManager (intervals m ++ [(c, i)]) (deltas m) (timecounter m) (physical m) (use_physical m) (is_master m) (my_rank m)
    | AddDelta c delta delay => mkManager (intervals m) (deltas m ++ [(c, scheduled delta delay)]) (timecounter m) (physical m) (use_physical m) (is_master m) (my_rank m)
    end.
End Manager.
Arguments intervals {T}. Arguments deltas {T}. Arguments timecounter {T}. Arguments physical {T}. Arguments use_physical {T}. Arguments is_master {T}. Arguments my_rank {T}.
Arguments mkManager {T}. Arguments run_intervals parallel {T}. Arguments run_deltas parallel {T}. Arguments execute parallel {T}. Arguments adjust {T}. Arguments adjust_delta_t {T}. Arguments act {T}.
