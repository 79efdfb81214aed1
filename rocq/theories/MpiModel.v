(** Model of src/grid/mpisubdivision.{hpp,t} and of [DomainSubdivision::getInnerExtent].

    Processes are named by their Cartesian coordinates; MPI is modelled in NetModel.  [int] and
    [size_t] arithmetic is exact. *)
From Coq Require Import QArith Qround.
From Verif Require Import Vec RangeModel GridModel BoundaryModel NetModel.
Local Open Scope Z_scope.

(** ** Subdivision of the domain *)

Section Subdivision.
  (** [cut high n c] is [int(width*c)] with [width = (high-1.)/double(n)] — mpisubdivision.t:107, 110, 115;
      the rounding of the floating point operations is left open. *)
  Variable cut : Z -> Z -> Z -> Z.

  (** Bounds of the local domain in one dimension, ghost cells included — mpisubdivision.t:107-117. *)
  Definition mpi_low (delta high n c : Z) : Z := if 0 <? c then cut high n c - delta + 1 else - delta.
  Definition mpi_high (delta high n c : Z) : Z := if c <? n - 1 then cut high n (c + 1) + delta else high + delta.

  (** [init] for the process with coordinates [c] in a process grid of extent [dims] —
      mpisubdivision.t:64-139.  The lower bound of the global domain is not used. *)
  Definition mpi_bounds (dims high : vec) (delta : Z) (c : vec) : boundary :=
    mkBd (map (fun i => mpi_low delta (vget high i) (vget dims i) (vget c i)) (seq 0 (length dims)))
         (map (fun i => mpi_high delta (vget high i) (vget dims i) (vget c i)) (seq 0 (length dims)))
         delta.
End Subdivision.

(** [exchSize[d]] — mpisubdivision.t:98,119,124. *)
Definition size_product (b : boundary) : Z :=
  fold_left (fun acc i => acc * (vget (bd_hi b) i - vget (bd_lo b) i + 1)) (seq 0 (length (bd_lo b))) (bd_delta b).
Definition exch_size (b : boundary) (d : nat) : Z :=
  Z.quot (size_product b) (vget (bd_hi b) d - vget (bd_lo b) d + 1).

(** [int(width*c)] in exact arithmetic. *)
Definition exact_cut (high n c : Z) : Z := Z.quot ((high - 1) * c) n.

(** ** Communication *)

(** [MPI_Cart_shift] with periodic boundaries: the neighbour in direction [k] (+1 or -1). *)
Definition cart_shift (dims c : vec) (d : nat) (k : Z) : vec := vset c d ((vget c d + k) mod vget dims d).

Inductive region := Ghost (s : side) | Source (s : side).
Definition region_of (b : boundary) (d : nat) (r : region) : range :=
  match r with
  | Ghost s => ghost_domain b d s
  | Source s => source_domain b d s
  end.

(** One [MPI_Sendrecv] with the loop before it that fills the send buffer from a region and the loop
    after it that stores to, or adds to, a region.  [cl_up]: sends to [nextcoord], receives from
    [prevcoord]. *)
Record call := mkCall { cl_dim : nat; cl_up : bool; cl_from : region; cl_to : region; cl_add : bool }.

(** [exchange(grid, dim)] — mpisubdivision.t:152-237. *)
Definition exchange_calls (d : nat) : list call :=
  [ mkCall d true (Source Max) (Ghost Min) false;
    mkCall d false (Source Min) (Ghost Max) false ].

(** [accumulate(grid, dim)] — mpisubdivision.t:240-383.  The loops at 287-301 and 348-362 add to the
    ghost cells and fill the send buffer with the sums; here the send buffer of the next call is read
    from the same cells after the loop. *)
Definition accumulate_calls (d : nat) : list call :=
  [ mkCall d true (Source Max) (Ghost Min) true;
    mkCall d false (Ghost Min) (Source Max) false;
    mkCall d false (Source Min) (Ghost Max) true;
    mkCall d true (Ghost Max) (Source Min) false ].

(** [exchange(grid)], [accumulate(grid)] — domainsubdivision.hpp:228-234. *)
Definition all_dims (f : nat -> list call) (rank : nat) : list call := flat_map f (seq 0 rank).

Section Communication.
  Context {V : Type}.
  Variable plus : V -> V -> V.

  Fixpoint read_cells (g : grid) (l : list vec) (h : heap V) : option (list V) :=
    match l with
    | [] => Some []
    | p :: l' => match grid_read g h p, read_cells g l' h with
                 | Some v, Some vs => Some (v :: vs)
                 | _, _ => None
                 end
    end.

  (** [grid[p] = recv[k]] or [grid[p] = grid[p] + recv[k]] for the cells of the list in order. *)
  Fixpoint store_cells (add : bool) (g : grid) (l : list vec) (vs : list V) (h : heap V) : option (heap V) :=
    match l, vs with
    | [], [] => Some h
    | p :: l', v :: vs' =>
        match grid_read g h p with
        | None => None
        | Some x => match grid_write g h p (if add then plus x v else v) with
                    | None => None
                    | Some h' => store_cells add g l' vs' h'
                    end
        end
    | _, _ => None
    end.

  Variable fuel : nat.
  Variable dims : vec.
  (** Bounds and grid of each process. *)
  Variable bd : vec -> boundary.
  Variable gr : vec -> grid.
  Variable prog : list call.

  Definition the_call (k : nat) : call := nth k prog (mkCall 0 true (Ghost Min) (Ghost Min) false).
  Definition call_dst (k : nat) (c : vec) : vec := cart_shift dims c (cl_dim (the_call k)) (if cl_up (the_call k) then 1 else -1).
  Definition call_src (k : nat) (c : vec) : vec := cart_shift dims c (cl_dim (the_call k)) (if cl_up (the_call k) then -1 else 1).

  (** The buffers have [exch_size] entries and whole buffers are transferred: it is an error if a
      region has another number of cells, or if a message of another length arrives. *)
  Definition call_fill (k : nat) (c : vec) (h : heap V) : option (list V) :=
    match range_visits fuel (region_of (bd c) (cl_dim (the_call k)) (cl_from (the_call k))) with
    | None => None
    | Some l => if Z.of_nat (length l) =? exch_size (bd c) (cl_dim (the_call k)) then read_cells (gr c) l h else None
    end.
  Definition call_store (k : nat) (c : vec) (h : heap V) (vs : list V) : option (heap V) :=
    match range_visits fuel (region_of (bd c) (cl_dim (the_call k)) (cl_to (the_call k))) with
    | None => None
    | Some l => if Z.of_nat (length vs) =? exch_size (bd c) (cl_dim (the_call k))
                then store_cells (cl_add (the_call k)) (gr c) l vs h else None
    end.

  Definition mpi_step : event -> @net (heap V) (list V) -> outcome :=
    net_step (length prog) call_dst call_src call_fill call_store.
  Definition mpi_run : list event -> @net (heap V) (list V) -> outcome :=
    net_run (length prog) call_dst call_src call_fill call_store.
End Communication.

(** ** Other functions *)

(** [getUniqueId] — mpisubdivision.t:475-484. *)
Fixpoint id_loop (dims coord : vec) (id : Z) : Z :=
  match dims, coord with
  | d :: dims', c :: coord' => id_loop dims' coord' (d * id + c)
  | _, _ => id
  end.
Definition unique_id (dims coord : vec) : Z :=
  match dims, coord with
  | _ :: dims', c :: coord' => id_loop dims' coord' c
  | _, _ => 0
  end.

(** [isBoundLo], [isBoundHi] — mpisubdivision.hpp:166,178. *)
Definition is_bound_lo (dims coord : vec) (d : nat) : bool := vget coord d =? 0.
Definition is_bound_hi (dims coord : vec) (d : nat) : bool := vget coord d =? vget dims d - 1.

(** [getInnerExtent] in one dimension, in exact arithmetic — domainsubdivision.hpp:134-148.
    [glo], [ghi]: global domain as returned by [getGlobalDomain], [elo], [ehi]: global extent. *)
Definition cell_width (glo ghi : Z) (elo ehi : Q) : Q := ((ehi - elo) / inject_Z (ghi - glo + 1))%Q.
Definition inner_extent_min (glo ghi : Z) (elo ehi : Q) (inner_lo : Z) : Q :=
  (elo + inject_Z inner_lo * cell_width glo ghi elo ehi)%Q.
Definition inner_extent_max (glo ghi : Z) (elo ehi : Q) (inner_hi : Z) : Q :=
  (elo + inject_Z (inner_hi + 1) * cell_width glo ghi elo ehi)%Q.

(** The global domain reported by the serial subdivision is the local domain with its ghost cells —
    domainsubdivision.hpp:270. *)
Definition serial_global (b : boundary) : range := mkRange (bd_lo b) (bd_hi b).

(** ** exchangeData *)

(** Contents of the two buffers of a process, and the size received so far. *)
Record xmem := mkX { x_in : list Z; x_out : list Z; x_size : Z }.

Section ExchangeData.
  Variables (dims : vec) (d : nat) (up : bool).
  (** [exchangeData] — mpisubdivision.t:385-415: a message with the size (call 0), then a message with
      the bytes (call 1).  [out] is resized between the calls, its contents are then unspecified (here 0).
      Receiving more bytes than announced is an error; fewer leave the rest of [out] unspecified. *)
  Definition xd_dst (k : nat) (c : vec) : vec := cart_shift dims c d (if up then 1 else -1).
  Definition xd_src (k : nat) (c : vec) : vec := cart_shift dims c d (if up then -1 else 1).
  Definition xd_fill (k : nat) (c : vec) (m : xmem) : option (list Z) :=
    match k with
    | O => Some [Z.of_nat (length (x_in m))]
    | _ => Some (x_in m)
    end.
  Definition xd_store (k : nat) (c : vec) (m : xmem) (b : list Z) : option xmem :=
    match k with
    | O => match b with
           | [n] => Some (mkX (x_in m) (repeat 0 (Z.to_nat n)) n)
           | _ => None
           end
    | _ => if Z.of_nat (length b) <=? x_size m
           then Some (mkX (x_in m) (b ++ repeat 0 (Z.to_nat (x_size m - Z.of_nat (length b)))) (x_size m))
           else None
    end.
End ExchangeData.
