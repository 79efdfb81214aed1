(** Message passing between the processes of a Cartesian grid, all of which run the same sequence of
    [MPI_Sendrecv] calls (src/grid/mpisubdivision.t:152-383).

    MPI is modelled by one first-in-first-out channel per ordered pair of processes (the
    non-overtaking rule for messages with one tag and one communicator).  In call number [k] a process
    fills its send buffer, then sends it to [dst k] and receives from [src k], in either order and at
    any later time; when both are done it stores the received buffer and goes on.  Processes are
    named by their coordinates. *)
From Verif Require Import Vec.

(** Equality of process coordinates. *)
Fixpoint pid_eqb (a b : vec) : bool :=
  match a, b with
  | [], [] => true
  | x :: a', y :: b' => (x =? y) && pid_eqb a' b'
  | _, _ => false
  end.

Section Net.
  (** [M]: memory of a process, [B]: message. *)
  Context {M B : Type}.
  Variable ncalls : nat.
  Variables dst src : nat -> vec -> vec.
  (** The loop that fills the send buffer and the loop that stores the received buffer;
      [None]: undefined behaviour or an error raised by MPI. *)
  Variable fill : nat -> vec -> M -> option B.
  Variable store : nat -> vec -> M -> B -> option M.

  (** A process: number of completed calls, whether the message of the current call has been sent,
      the message received in the current call, the memory. *)
  Record proc := mkProc { pr_calls : nat; pr_sent : bool; pr_got : option B; pr_mem : M }.
  Record net := mkNet { n_proc : vec -> proc; n_chan : vec -> vec -> list B }.

  Inductive event := Send (p : vec) | Recv (p : vec) | Finish (p : vec).
  Inductive outcome := Blocked | Bad | Next (s : net).

  Definition set_proc (f : vec -> proc) (p : vec) (x : proc) : vec -> proc :=
    fun q => if pid_eqb q p then x else f q.
  Definition set_chan (f : vec -> vec -> list B) (p q : vec) (l : list B) : vec -> vec -> list B :=
    fun a b => if pid_eqb a p && pid_eqb b q then l else f a b.

  Definition net_step (e : event) (s : net) : outcome :=
    match e with
    | Send p =>
        let x := n_proc s p in
        if (pr_calls x <? ncalls)%nat && negb (pr_sent x) then
          match fill (pr_calls x) p (pr_mem x) with
          | None => Bad
          | Some b =>
              let q := dst (pr_calls x) p in
              Next (mkNet (set_proc (n_proc s) p (mkProc (pr_calls x) true (pr_got x) (pr_mem x)))
                          (set_chan (n_chan s) p q (n_chan s p q ++ [b])))
          end
        else Blocked
    | Recv p =>
        let x := n_proc s p in
        if (pr_calls x <? ncalls)%nat then
          match pr_got x, n_chan s (src (pr_calls x) p) p with
          | None, b :: l =>
              Next (mkNet (set_proc (n_proc s) p (mkProc (pr_calls x) (pr_sent x) (Some b) (pr_mem x)))
                          (set_chan (n_chan s) (src (pr_calls x) p) p l))
          | _, _ => Blocked
          end
        else Blocked
    | Finish p =>
        let x := n_proc s p in
        match pr_sent x, pr_got x with
        | true, Some b =>
            match store (pr_calls x) p (pr_mem x) b with
            | None => Bad
            | Some m => Next (mkNet (set_proc (n_proc s) p (mkProc (S (pr_calls x)) false None m)) (n_chan s))
            end
        | _, _ => Blocked
        end
    end.

  (** Running a schedule; it may only contain events of the given processes that are possible. *)
  Fixpoint net_run (es : list event) (s : net) : outcome :=
    match es with
    | [] => Next s
    | e :: es' => match net_step e s with
                  | Next s' => net_run es' s'
                  | r => r
                  end
    end.

  Definition net_init (m : vec -> M) : net := mkNet (fun p => mkProc 0 false None (m p)) (fun _ _ => []).

  Definition event_proc (e : event) : vec := match e with Send p | Recv p | Finish p => p end.
End Net.
Arguments event : clear implicits.
