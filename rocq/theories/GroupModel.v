(** Model of the opening of HDF files by a part of the processes in the build with parallel HDF5:
    [setActive] (src/diagnostic/hdfdiagnostic.hpp:166), [HdfStream::makeMPIGroup] and the two functions
    [open] (src/diagnostic/hdfdiagnostic.cpp). *)
From Coq Require Import List Bool Arith.
Import ListNotations.

Inductive kind := Input | Output.

(** [MPI_COMM_WORLD], or the communicator made by the [k]-th call of [MPI_Comm_create], with the ranks
    of its members in [MPI_COMM_WORLD]. *)
Inductive comm := World | Sub (k : nat) (ranks : list nat).

(** The members of a stream object that matter here — hdfdiagnostic.hpp:136-138, 174-175, 205-212:
    [active], [activeModified], [commSet], [mpiComm] ([None]: not yet assigned), and the communicator in
    the property list [plist_id] of an output stream ([None]: not [initialised]). *)
Record stream := mkStream { active : bool; modified : bool; com_set : bool; com : option comm; plist : option comm }.
(** The default constructors — hdfdiagnostic.cpp:42-54, 256-258. *)
Definition new_stream : stream := mkStream true false false None None.

(** [setActive(b)], if it is called — hdfdiagnostic.hpp:166. *)
Definition set_active (call : option bool) (s : stream) : stream :=
  match call with
  | None => s
  | Some b => mkStream b true (com_set s) (com s) (plist s)
  end.

(** [makeMPIGroup] if [activeModified] is false — hdfdiagnostic.cpp:134-141. *)
Definition no_group (s : stream) : stream :=
  if com_set s then s else mkStream (active s) (modified s) true (Some World) (plist s).
(** The end of [makeMPIGroup], with the communicator made — hdfdiagnostic.cpp:168-173. *)
Definition with_group (c : comm) (s : stream) : stream :=
  mkStream (active s) false (com_set s) (Some c) (plist s).

(** The communicator in the property list with which [open] calls [H5Fopen] — hdfdiagnostic.cpp:230-233 —
    or [H5Fcreate] — hdfdiagnostic.cpp:286-316. *)
Definition file_comm (k : kind) (s : stream) : option comm :=
  match k with
  | Input => com s
  | Output => match plist s with Some c => Some c | None => com s end
  end.
(** [open] after [makeMPIGroup] if the process is active, up to the call of [H5Fopen] or [H5Fcreate]. *)
Definition prepare (k : kind) (s : stream) : stream :=
  match k with
  | Input => s
  | Output => mkStream (active s) (modified s) (com_set s) (com s) (file_comm k s)
  end.

(** Where a process is: at the beginning of a round, in the collective operations of [makeMPIGroup]
    ([MPI_Allreduce] and [MPI_Comm_create] on [MPI_COMM_WORLD], taken as one), or in [H5Fopen] or
    [H5Fcreate], collective on the communicator of the property list.  All later operations on the file
    are collective on the same communicator and not modelled. *)
Inductive phase := Start | AtGroup | AtFile (c : option comm).
Record proc := mkProc { round : nat; ph : phase; str : stream }.

Definition comm_eqb (a b : comm) : bool :=
  match a, b with
  | World, World => true
  | Sub k l, Sub k' l' => Nat.eqb k k' && if list_eq_dec Nat.eq_dec l l' then true else false
  | _, _ => false
  end.

Section Run.
  Variable kd : kind.
  (** The number of processes, and the number of times each of them opens the file. *)
  Variables n rounds : nat.
  (** What process [p] does before its open number [r]: call [setActive], or nothing. *)
  Variable calls : nat -> nat -> option bool.

  Definition ranks_of (c : comm) : list nat := match c with World => seq 0 n | Sub _ l => l end.

  (** The processes, the number of communicators made, the communicators on which files were opened. *)
  Record state := mkState { procs : nat -> proc; created : nat; opened : list comm }.
  Definition start : state := mkState (fun _ => mkProc 0 Start new_stream) 0 [].

  (** [open] after [makeMPIGroup]: wait for the others, or return if not active — hdfdiagnostic.cpp:204,
      280. *)
  Definition go_file (r : nat) (s : stream) : proc :=
    if active s then mkProc r (AtFile (file_comm kd s)) (prepare kd s) else mkProc (S r) Start s.

  Inductive event := Step (p : nat) | Group | File (c : comm).

  Definition at_group (x : proc) : bool := match ph x with AtGroup => true | _ => false end.
  Definition at_file (c : comm) (x : proc) : bool := match ph x with AtFile (Some d) => comm_eqb c d | _ => false end.
  (** The ranks that [makeMPIGroup] collects — hdfdiagnostic.cpp:153-165. *)
  Definition active_ranks (s : state) : list nat := filter (fun p => active (str (procs s p))) (seq 0 n).

  (** One event; [None]: it is not possible. *)
  Definition step (s : state) (e : event) : option state :=
    match e with
    | Step p =>
        let x := procs s p in
        match ph x with
        | Start =>
            if (p <? n)%nat && (round x <? rounds)%nat then
              let s1 := set_active (calls p (round x)) (str x) in
              let x' := if modified s1 then mkProc (round x) AtGroup s1 else go_file (round x) (no_group s1) in
              Some (mkState (fun q => if Nat.eqb q p then x' else procs s q) (created s) (opened s))
            else None
        | _ => None
        end
    | Group =>
        if forallb (fun p => at_group (procs s p)) (seq 0 n) then
          let c := Sub (created s) (active_ranks s) in
          Some (mkState (fun p => if (p <? n)%nat then go_file (round (procs s p)) (with_group c (str (procs s p))) else procs s p)
                        (S (created s)) (opened s))
        else None
    | File c =>
        match ranks_of c with
        | [] => None
        | l => if forallb (fun p => at_file c (procs s p)) l then
                 Some (mkState (fun p => if existsb (Nat.eqb p) l then mkProc (S (round (procs s p))) Start (str (procs s p)) else procs s p)
                               (created s) (opened s ++ [c]))
               else None
        end
    end.
  Fixpoint run (s : state) (es : list event) : option state :=
    match es with
    | [] => Some s
    | e :: es' => match step s e with None => None | Some s' => run s' es' end
    end.
End Run.
