(** What a program does with the manager of diagnostics, step by step, and what each call of
    [execute] finds: used to say what every single diagnostic does in a whole run. *)
From Coq Require Import ZArith List Bool.
From Verif Require Import DiagModel DiagSpec.
Import ListNotations.
Local Open Scope Z_scope.

Section Session.
  Variable parallel : bool.
  Variable T : clock.

  Inductive moment := Do (a : action T) | Run.

  (** The events of the interval diagnostics and of the others for each [Run]; [None]: one of them failed. *)
  Fixpoint session (l : list moment) (m : manager T) : option (list (list (list event) * list (list event)) * manager T) :=
    match l with
    | [] => Some ([], m)
    | Do a :: l' => session l' (act m a)
    | Run :: l' =>
        match execute parallel m with
        | (ei, ed, m', None) => match session l' m' with Some (r, m'') => Some ((ei, ed) :: r, m'') | None => None end
        | _ => None
        end
    end.

  (** What the program has told the manager. *)
  Record sight := mkSight { s_counter : option Z; s_time : option (time T); s_master : bool; s_rank : Z }.
  Definition told (a : action T) (g : sight) : sight :=
    match a with
    | SetTimeCounter _ n => mkSight (Some n) (s_time g) (s_master g) (s_rank g)
    | Counter _ n => mkSight (match s_counter g with None => None | Some _ => Some n end) (s_time g) (s_master g) (s_rank g)
    | SetPhysicalTime _ t => mkSight (s_counter g) (Some t) (s_master g) (s_rank g)
    | Time _ t => mkSight (s_counter g) (match s_time g with None => None | Some _ => Some t end) (s_master g) (s_rank g)
    | SetMaster _ b => mkSight (s_counter g) (s_time g) b (s_rank g)
    | SetRank _ r => mkSight (s_counter g) (s_time g) (s_master g) r
    | _ => g
    end.
  Fixpoint seen (l : list moment) (g : sight) : list sight :=
    match l with [] => [] | Do a :: l' => seen l' (told a g) | Run :: l' => g :: seen l' g end.
  Definition at_start : sight := mkSight None None true 0.

  (** The diagnostics that are added, each with the number of [Run]s before. *)
  Definition later {X : Type} (p : nat * X) : nat * X := (S (fst p), snd p).
  Fixpoint added_intervals (l : list moment) : list (nat * (config * Z)) :=
    match l with
    | [] => []
    | Do (AddInterval _ c i) :: l' => (0%nat, (c, i)) :: added_intervals l'
    | Do _ :: l' => added_intervals l'
    | Run :: l' => map later (added_intervals l')
    end.
  Fixpoint added_deltas (l : list moment) : list (nat * (config * schedule T)) :=
    match l with
    | [] => []
    | Do (AddDelta _ c delta delay) :: l' => (0%nat, (c, scheduled delta delay)) :: added_deltas l'
    | Do _ :: l' => added_deltas l'
    | Run :: l' => map later (added_deltas l')
    end.
End Session.
Arguments session parallel {T}. Arguments seen {T}. Arguments told {T}. Arguments added_intervals {T}. Arguments added_deltas {T}.
Arguments s_counter {T}. Arguments s_time {T}. Arguments s_master {T}. Arguments s_rank {T}. Arguments mkSight {T}.
Arguments Do {T}. Arguments Run {T}.
