(** Model of a simulation on the grids of a domain subdivision: the loops a program such as
    examples/example_mpisub.cpp:44-56 runs on every process,

      subdivision.exchange(field);
      for (t = 0; t < n; ++t) {
        <update of the inner cells>
        subdivision.exchange(field);
      }

    with [exchange] of mpisubdivision.t:152-237 (modelled in MpiModel) and of domainsubdivision.t:45-76
    (modelled in BoundaryModel).  Nothing but the exchanges synchronises the processes. *)
From Verif Require Import Vec RangeModel GridModel BoundaryModel NetModel MpiModel.
Local Open Scope Z_scope.

Section Sim.
  Context {V : Type}.
  (** The new value of the cell at [p] is [f p] of the old values of the cells [p + o] for the offsets
      [o] of the list. *)
  Variable offs : list vec.
  Variable f : vec -> list V -> V.

  (** [dst[p] = f(p, src[p + o1], src[p + o2], ...)] for the cells of the list in order; the loop body
      at example_mpisub.cpp:50-52 has [src] and [dst] the same grid.  [None]: undefined behaviour. *)
  Fixpoint apply_rule (src dst : grid) (l : list vec) (h : heap V) : option (heap V) :=
    match l with
    | [] => Some h
    | p :: l' =>
        match read_cells src (map (vmap2 Z.add p) offs) h with
        | None => None
        | Some vs => match grid_write dst h p (f p vs) with
                     | None => None
                     | Some h' => apply_rule src dst l' h'
                     end
        end
    end.

  (** [dst[p] = src[p]] for the cells of the list in order. *)
  Fixpoint copy_between (src dst : grid) (l : list vec) (h : heap V) : option (heap V) :=
    match l with
    | [] => Some h
    | p :: l' =>
        match grid_read src h p with
        | None => None
        | Some v => match grid_write dst h p v with
                    | None => None
                    | Some h' => copy_between src dst l' h'
                    end
        end
    end.

  (** Update of the inner cells through a second grid: the new values are computed into [tmp] and
      copied back, both loops running over [getInnerDomain()] — boundary.t:122-137, range.hpp:279-291. *)
  Definition update_two_grids (fuel : nat) (b : boundary) (field tmp : grid) (h : heap V) : option (heap V) :=
    match range_visits fuel (inner_domain b) with
    | None => None
    | Some l => match apply_rule field tmp l h with
                | None => None
                | Some h' => copy_between tmp field l h'
                end
    end.

  (** Update in place, over a list of cells computed from the bounds of the inner domain —
      example_mpisub.cpp:48-53. *)
  Definition update_in_place (cells : range -> list vec) (b : boundary) (field : grid) (h : heap V) : option (heap V) :=
    apply_rule field field (cells (inner_domain b)) h.
End Sim.

(** The cells of the loops of example_mpisub.cpp:48-49 and example_diagnostic_hdf5.cpp:93-94: [i] runs
    over all inner coordinates, [j] over every second one, beginning with the lowest of the process. *)
Fixpoint every_second (n : nat) (j hi : Z) : list Z :=
  match n with
  | O => []
  | S n' => if j <=? hi then j :: every_second n' (j + 2) hi else []
  end.
Definition example_cells (r : range) : list vec :=
  flat_map (fun i => map (fun j => [i; j]) (every_second (Z.to_nat (vget (r_hi r) 1 - vget (r_lo r) 1 + 1)) (vget (r_lo r) 1) (vget (r_hi r) 1)))
           (map (fun k => vget (r_lo r) 0 + Z.of_nat k) (seq 0 (Z.to_nat (vget (r_hi r) 0 - vget (r_lo r) 0 + 1)))).

(** The rule of example_mpisub.cpp:50-52, in integers. *)
Definition example_offsets : list vec := [[0; 0]; [-1; 0]; [1; 0]; [0; -1]; [0; 1]].
Definition example_rule (dt : Z) (_ : vec) (l : list Z) : Z :=
  match l with
  | [a; w; e; s; n] => a + dt * (w + e + s + n - 4 * a)
  | _ => 0
  end.

(** ** Processes *)
Section Processes.
  Context {V : Type}.
  Variable plus : V -> V -> V.
  Variable fuel : nat.
  Variable dims : vec.
  Variable bd : vec -> boundary.
  Variable gr : vec -> grid.
  (** The update of the inner cells on a process. *)
  Variable update : vec -> heap V -> option (heap V).
  Variable n : nat.

  (** The calls of all exchanges in order. *)
  Definition sim_prog : list call := concat (repeat (all_dims exchange_calls (length dims)) (S n)).
  (** After call [k] the process goes on with an update: the call ends an exchange, but not the last one. *)
  Definition ends_exchange (k : nat) : bool :=
    (S k <? length sim_prog)%nat && (S k mod (length dims * 2) =? 0)%nat.

  Definition sim_store (k : nat) (c : vec) (h : heap V) (vs : list V) : option (heap V) :=
    match call_store plus fuel bd gr sim_prog k c h vs with
    | None => None
    | Some h' => if ends_exchange k then update c h' else Some h'
    end.

  Definition sim_step : event -> @net (heap V) (list V) -> outcome :=
    net_step (length sim_prog) (call_dst dims sim_prog) (call_src dims sim_prog) (call_fill fuel bd gr sim_prog) sim_store.
  Definition sim_run : list event -> @net (heap V) (list V) -> outcome :=
    net_run (length sim_prog) (call_dst dims sim_prog) (call_src dims sim_prog) (call_fill fuel bd gr sim_prog) sim_store.
End Processes.

(** ** The same program with [SerialSubdivision] *)
Section SerialSim.
  Context {V : Type}.
  Variable fuel : nat.
  Variable b : boundary.
  Variable g : grid.
  Variable update : heap V -> option (heap V).
  (** Outer [None]: a loop needs more fuel; inner [None]: undefined behaviour. *)
  Fixpoint serial_steps (n : nat) (h : heap V) : option (option (heap V)) :=
    match n with
    | O => Some (Some h)
    | S n' => match update h with
              | None => Some None
              | Some h1 => match serial_exchange fuel b g h1 with
                           | Some (Some h2) => serial_steps n' h2
                           | r => r
                           end
              end
    end.
  Definition serial_sim (n : nat) (h : heap V) : option (option (heap V)) :=
    match serial_exchange fuel b g h with
    | Some (Some h1) => serial_steps n h1
    | r => r
    end.
End SerialSim.
