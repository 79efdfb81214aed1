(** Specifications for the distributed subdivision. *)
From Coq Require Import QArith.
From Verif Require Import Vec GridSpec RangeModel GridModel BoundaryModel NetModel MpiModel.
Local Open Scope Z_scope.

(** [c] are the coordinates of a process of the process grid [dims]. *)
Definition is_process (dims c : vec) : Prop :=
  length c = length dims /\ forall i, (i < length dims)%nat -> 0 <= vget c i < vget dims i.

(** A process grid: positive extents. *)
Definition process_grid (dims : vec) : Prop := forall i, (i < length dims)%nat -> 1 <= vget dims i.

Definition number_of_processes (dims : vec) : Z := fold_right Z.mul 1 dims.

(** The global domain is [0..high]. *)
Definition in_global (high p : vec) : Prop :=
  length p = length high /\ forall i, (i < length high)%nat -> 0 <= vget p i <= vget high i.

(** What is required of the computed cuts: they lie in the domain and do not decrease. *)
Definition cut_ok (cut : Z -> Z -> Z -> Z) (high n : Z) : Prop :=
  (forall c, 1 <= c < n -> 0 <= cut high n c <= high) /\
  (forall c c', 1 <= c -> c <= c' -> c' < n -> cut high n c <= cut high n c').

(** [p] is a cell of the inner domain of the local domain [b]. *)
Definition in_inner (b : boundary) (p : vec) : Prop :=
  in_box (r_lo (inner_domain b)) (r_hi (inner_domain b)) p.
Definition in_local (b : boundary) (p : vec) : Prop := in_box (bd_lo b) (bd_hi b) p.

(** The cell of the global domain whose periodic image is [p]. *)
Definition wrap (high p : vec) : vec :=
  map (fun i => vget p i mod (vget high i + 1)) (seq 0 (length high)).

(** Number of inner cells in dimension [i]. *)
Definition inner_width (b : boundary) (i : nat) : Z :=
  vget (r_hi (inner_domain b)) i - vget (r_lo (inner_domain b)) i + 1.

(** A domain [0..high] subdivided over the process grid [dims], [delta >= 1] ghost cells, at least
    [k * delta] inner cells in every dimension on every process, and on every process a grid that
    contains its local domain. *)
Definition subdivided (cut : Z -> Z -> Z -> Z) (dims high : vec) (delta k : Z) (gr : vec -> grid) : Prop :=
  process_grid dims /\ length high = length dims /\ 1 <= delta /\
  (forall i, (i < length dims)%nat -> cut_ok cut (vget high i) (vget dims i)) /\
  (forall c i, is_process dims c -> (i < length dims)%nat -> k * delta <= inner_width (mpi_bounds cut dims high delta c) i) /\
  (forall c p, is_process dims c -> in_local (mpi_bounds cut dims high delta c) p -> in_box (g_lo (gr c)) (g_hi (gr c)) p).

(** [l] lists, once each, all cells on all processes that are copies of the same global cell as [p]. *)
Definition copies_of (dims high : vec) (bd : vec -> boundary) (p : vec) (l : list (vec * vec)) : Prop :=
  NoDup l /\ forall c' q, In (c', q) l <-> is_process dims c' /\ in_local (bd c') q /\ wrap high q = wrap high p.
Definition sum_over {V} (plus : V -> V -> V) (zero : V) (m : vec -> vec -> V) (l : list (vec * vec)) : V :=
  fold_right (fun cp s => plus (m (fst cp) (snd cp)) s) zero l.

(** ** Schedules *)
Section Schedules.
  Context {M B : Type}.
  Variable dims : vec.
  Variable ncalls : nat.
  Variable dst : nat -> vec -> vec.
  Variable step : event -> @net M B -> @outcome M B.
  Variable run : list event -> @net M B -> @outcome M B.

  Definition finished (st : @net M B) : Prop := forall c, is_process dims c -> pr_calls (n_proc st c) = ncalls.
  Definition no_messages (st : @net M B) : Prop :=
    forall s d, is_process dims s -> is_process dims d -> n_chan st s d = [].

  (** Whatever the order of events on the processes: nothing goes wrong, the number of events is
      bounded, there is no deadlock — neither with buffered messages nor if a message can only be
      handed over to a process waiting for it — and when all processes have finished, their memories
      satisfy [post]. *)
  Definition under_every_schedule (m0 : vec -> M) (post : (vec -> M) -> Prop) : Prop :=
    forall es, Forall (fun e => is_process dims (event_proc e)) es ->
    match run es (net_init m0) with
    | Bad => False
    | Blocked => True
    | Next st =>
        Z.of_nat (length es) <= 3 * Z.of_nat ncalls * number_of_processes dims /\
        (finished st -> post (fun c => pr_mem (n_proc st c))) /\
        (~ finished st ->
           (exists e st', is_process dims (event_proc e) /\ step e st = Next st') /\
           (no_messages st ->
            exists p st1, is_process dims p /\
              (step (Finish p) st = Next st1 \/
               exists st2, step (Send p) st = Next st1 /\ is_process dims (dst (pr_calls (n_proc st p)) p) /\
                           step (Recv (dst (pr_calls (n_proc st p)) p)) st1 = Next st2 /\ no_messages st2)))
    end.
End Schedules.
