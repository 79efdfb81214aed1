(** What is expected of [setActive] and [open]: every open takes place on exactly the processes that are
    active at this time. *)
From Coq Require Import List Bool Arith.
From Verif Require Import GroupModel.
Import ListNotations.

Section Spec.
  Variables n rounds : nat.
  Variable calls : nat -> nat -> option bool.

  (** Process [p] is active at its open number [r]: the last call of [setActive] before said so; without a
      call processes are active. *)
  Fixpoint is_active (p r : nat) : bool :=
    match calls p r with
    | Some b => b
    | None => match r with O => true | S r' => is_active p r' end
    end.
  Definition participants (r : nat) : list nat := filter (fun p => is_active p r) (seq 0 n).

  (** The participants of the files, in the order of the opens; an open without any is none. *)
  Definition expected : list (list nat) :=
    filter (fun l => match l with [] => false | _ => true end) (map participants (seq 0 rounds)).

  (** Before each open either all processes call [setActive] or none does. *)
  Definition all_or_none : Prop :=
    forall r p q, r < rounds -> p < n -> q < n -> calls p r = None -> calls q r = None.
  Definition no_call (r : nat) : Prop := forall p, p < n -> calls p r = None.

  Definition finished (s : state) : Prop := forall p, p < n -> round (procs s p) = rounds.
End Spec.

(** Under every schedule the processes get to the end of their programs, in a number of events that is
    bounded, and the files are opened by exactly the processes that are active. *)
Definition opens_work (kd : kind) (n rounds : nat) (calls : nat -> nat -> option bool) : Prop :=
  forall es s, run kd n rounds calls start es = Some s ->
    length es <= 3 * n * rounds /\
    (finished n rounds s -> map (ranks_of n) (opened s) = expected n rounds calls) /\
    (~ finished n rounds s -> exists e s', step kd n rounds calls s e = Some s').

(** There is a schedule after which no process is able to go on although not all have got to the end. *)
Definition deadlock (kd : kind) (n rounds : nat) (calls : nat -> nat -> option bool) : Prop :=
  exists es s, run kd n rounds calls start es = Some s /\ ~ finished n rounds s /\
    forall e, step kd n rounds calls s e = None.
