(** Model of src/grid/boundary.{hpp,t}, of the serial domain subdivision
    (src/grid/domainsubdivision.{hpp,t}) and of sub-grid views (src/grid/subgrid.{hpp,t}). *)
From Verif Require Import Vec RangeModel StorageModel GridModel.

(** ** Boundary *)

(** [Boundary]: the whole local domain, ghost cells included, and the number of ghost cells —
    boundary.hpp:52-60.  [delta] is a [size_t] that is only added to and subtracted from [int]
    coordinates and converted back; modelled by exact arithmetic. *)
Record boundary := mkBd { bd_lo : vec; bd_hi : vec; bd_delta : Z }.

Inductive side := Min | Max.

(** [getGhostDomain] — boundary.t:52-73. *)
Definition ghost_domain (b : boundary) (dim : nat) (s : side) : range :=
  match s with
  | Min => mkRange (bd_lo b) (vset (bd_hi b) dim (vget (bd_lo b) dim + bd_delta b - 1))
  | Max => mkRange (vset (bd_lo b) dim (vget (bd_hi b) dim - bd_delta b + 1)) (bd_hi b)
  end.

(** [getGhostSourceDomain] — boundary.t:75-98: the bounds are changed one after the other, the
    second assignment uses the bound changed by the first. *)
Definition source_domain (b : boundary) (dim : nat) (s : side) : range :=
  match s with
  | Min => let lo := vset (bd_lo b) dim (vget (bd_lo b) dim + bd_delta b) in
           mkRange lo (vset (bd_hi b) dim (vget lo dim + bd_delta b - 1))
  | Max => let hi := vset (bd_hi b) dim (vget (bd_hi b) dim - bd_delta b) in
           mkRange (vset (bd_lo b) dim (vget hi dim - bd_delta b + 1)) hi
  end.

(** [getBoundaryDomain] — boundary.t:101-120. *)
Definition boundary_domain (b : boundary) (dim : nat) (s : side) (stagger : bool) : range :=
  match s with
  | Min => mkRange (bd_lo b) (vset (bd_hi b) dim (vget (bd_lo b) dim + bd_delta b - 1 - (if stagger then 1 else 0)))
  | Max => mkRange (vset (bd_lo b) dim (vget (bd_hi b) dim - bd_delta b + 1)) (bd_hi b)
  end.

(** [getInnerDomain] — boundary.t:122-137. *)
Definition inner_domain (b : boundary) : range :=
  mkRange (map (fun l => l + bd_delta b) (bd_lo b)) (map (fun h => h - bd_delta b) (bd_hi b)).

(** ** Two iterators running in step

    [while (it1 != end1) { body( *it1, *it2); ++it1; ++it2; }]: the pairs of positions passed to the
    body; [None]: not finished within [fuel] iterations. *)
Fixpoint pair_loop (fuel : nat) (r1 r2 : range) (i1 i2 : iter) : option (list (vec * vec)) :=
  if iter_eqb i1 (range_end r1) then Some []
  else match fuel with
       | O => None
       | S f => match pair_loop f r1 r2 (iter_incr r1 i1) (iter_incr r2 i2) with
                | Some l => Some ((it_pos i1, it_pos i2) :: l)
                | None => None
                end
       end.
Definition pair_visits (fuel : nat) (r1 r2 : range) : option (list (vec * vec)) :=
  pair_loop fuel r1 r2 (range_begin r1) (range_begin r2).

Definition swap {A B} (p : A * B) : B * A := (snd p, fst p).

Section Serial.
  Context {V : Type}.

  (** [grid[d] = grid[s]] for each pair (d, s); [None]: undefined behaviour. *)
  Fixpoint copy_cells (g : grid) (l : list (vec * vec)) (h : heap V) : option (heap V) :=
    match l with
    | [] => Some h
    | (d, s) :: l' =>
        match grid_read g h s with
        | None => None
        | Some v => match grid_write g h d v with
                    | None => None
                    | Some h' => copy_cells g l' h'
                    end
        end
    end.

  (** [SerialSubdivision::exchange(grid, dim)] — domainsubdivision.t:45-76.
      Outer [None]: a loop needs more fuel; inner [None]: undefined behaviour. *)
  Definition serial_exchange_dim (fuel : nat) (b : boundary) (g : grid) (dim : nat) (h : heap V)
    : option (option (heap V)) :=
    let loGhost := ghost_domain b dim Min in
    let hiGhost := ghost_domain b dim Max in
    let loSource := source_domain b dim Min in
    let hiSource := source_domain b dim Max in
    match pair_visits fuel loGhost hiSource with
    | None => None
    | Some l1 =>
        match copy_cells g l1 h with
        | None => Some None
        | Some h1 =>
            match pair_visits fuel loSource hiGhost with
            | None => None
            | Some l2 => Some (copy_cells g (map swap l2) h1)
            end
        end
    end.

  (** [exchange(grid)]: all dimensions in order — domainsubdivision.hpp:228-230. *)
  Fixpoint over_dims (f : nat -> heap V -> option (option (heap V))) (ds : list nat) (h : heap V)
    : option (option (heap V)) :=
    match ds with
    | [] => Some (Some h)
    | d :: ds' => match f d h with
                  | Some (Some h') => over_dims f ds' h'
                  | r => r
                  end
    end.
  Definition serial_exchange (fuel : nat) (b : boundary) (g : grid) (h : heap V) : option (option (heap V)) :=
    over_dims (serial_exchange_dim fuel b g) (seq 0 (length (bd_lo b))) h.

  (** The loop bodies of [accumulate]: [grid[a] += grid[c]; grid[c] = grid[a];]. *)
  Variable plus : V -> V -> V.
  Fixpoint acc_cells (g : grid) (l : list (vec * vec)) (h : heap V) : option (heap V) :=
    match l with
    | [] => Some h
    | (a, c) :: l' =>
        match grid_read g h c, grid_read g h a with
        | Some y, Some x =>
            match grid_write g h a (plus x y) with
            | None => None
            | Some h1 =>
                match grid_read g h1 a with
                | None => None
                | Some z => match grid_write g h1 c z with
                            | None => None
                            | Some h2 => acc_cells g l' h2
                            end
                end
            end
        | _, _ => None
        end
    end.

  (** [SerialSubdivision::accumulate(grid, dim)] — domainsubdivision.t:78-111. *)
  Definition serial_accumulate_dim (fuel : nat) (b : boundary) (g : grid) (dim : nat) (h : heap V)
    : option (option (heap V)) :=
    let loGhost := ghost_domain b dim Min in
    let hiGhost := ghost_domain b dim Max in
    let loSource := source_domain b dim Min in
    let hiSource := source_domain b dim Max in
    match pair_visits fuel loGhost hiSource with
    | None => None
    | Some l1 =>
        match acc_cells g l1 h with
        | None => Some None
        | Some h1 =>
            match pair_visits fuel loSource hiGhost with
            | None => None
            | Some l2 => Some (acc_cells g (map swap l2) h1)
            end
        end
    end.

  (** [accumulate(grid)] — domainsubdivision.hpp:232-234. *)
  Definition serial_accumulate (fuel : nat) (b : boundary) (g : grid) (h : heap V) : option (option (heap V)) :=
    over_dims (serial_accumulate_dim fuel b g) (seq 0 (length (bd_lo b))) h.
End Serial.

(** ** Sub-grid views *)

(** [SubGridStorage]: base grid, range and dims — subgrid.hpp:45-49. *)
Record subgrid := mkSub { sg_base : grid; sg_lo : vec; sg_hi : vec; sg_dims : vec }.

(** Constructor from bounds and base — subgrid.t:39-49, 79-103.  (The constructors also pass the
    corners to the checking policy and ignore the result.) *)
Definition sub_new (g : grid) (lo hi : vec) : subgrid := mkSub g lo hi (dims_of lo hi).

(** Constructor from a size: the range is [0..size-1] — grid.t:57-59, subgrid.t:69-77. *)
Definition sub_new_size (g : grid) (size : vec) : subgrid :=
  sub_new g (map (fun _ => 0) size) (map (fun s => s - 1) size).

(** [Boundary::getGhostBoundary(dim, b, field)] — boundary.t:150-164: the view of the boundary
    domain of a field with staggering [stagger] in direction [dim]; for a grid
    (boundary.t:139-148) the view of the ghost domain. *)
Definition field_ghost_boundary (b : boundary) (dim : nat) (s : side) (stagger : bool) (g : grid) : subgrid :=
  sub_new g (r_lo (boundary_domain b dim s stagger)) (r_hi (boundary_domain b dim s stagger)).
Definition grid_ghost_boundary (b : boundary) (dim : nat) (s : side) (g : grid) : subgrid :=
  sub_new g (r_lo (ghost_domain b dim s)) (r_hi (ghost_domain b dim s)).

(** [resize] — subgrid.t:51-59: [dims] is not changed. *)
Definition sub_resize (s : subgrid) (lo hi : vec) : subgrid := mkSub (sg_base s) lo hi (sg_dims s).

(** Operations on a view: [view[p]] read and written, [view = v], [view.resize(lo, hi)]. *)
Inductive vop (V : Type) := VRead (p : vec) | VWrite (p : vec) (v : V) | VFill (v : V) | VResize (lo hi : vec).
Arguments VRead {V}. Arguments VWrite {V}. Arguments VFill {V}. Arguments VResize {V}.

Section SubGrid.
  Context {V : Type}.

  (** The checking policies of src/grid/gridcheck.hpp as a function of index and bounds; [None]: an
      assertion fails.  The bookkeeping of the debug policy is modelled in GridModel. *)
  Inductive vcheck := CkNone | CkAssert | CkDebug.
  Definition run_check (c : vcheck) (p lo hi : vec) : option vec :=
    match c with
    | CkNone => Some (noarg_check p lo hi)
    | CkAssert => assert_check p lo hi
    | CkDebug => Some (fst (debug_check (mkDbg false 0 []) p lo hi))
    end.

  (** The index is checked by the policy of the view (grid.t:89-382) and by the policy of the base
      grid with the bounds of the view (subgrid.hpp:96-106). *)
  Variables chk_view chk_base : vcheck.

  Definition sub_index (s : subgrid) (p : vec) : option vec :=
    match run_check chk_view p (sg_lo s) (sg_hi s) with
    | None => None
    | Some q => run_check chk_base q (sg_lo s) (sg_hi s)
    end.

  Definition sub_read (s : subgrid) (h : heap V) (p : vec) : option V :=
    match sub_index s p with None => None | Some q => grid_read (sg_base s) h q end.
  Definition sub_write (s : subgrid) (h : heap V) (p : vec) (v : V) : option (heap V) :=
    match sub_index s p with None => None | Some q => grid_write (sg_base s) h q v end.

  (** [view = v] — grid.t:385-406 with the iterator of subgrid.hpp:53-75: the base element at every
      position of the range iterator. *)
  Fixpoint write_cells (g : grid) (l : list vec) (v : V) (h : heap V) : option (heap V) :=
    match l with
    | [] => Some h
    | p :: l' => match grid_write g h p v with None => None | Some h' => write_cells g l' v h' end
    end.
  Definition sub_fill (fuel : nat) (s : subgrid) (v : V) (h : heap V) : option (option (heap V)) :=
    match range_visits fuel (mkRange (sg_lo s) (sg_hi s)) with
    | None => None
    | Some l => Some (write_cells (sg_base s) l v h)
    end.

  (** A history of operations; the fuel is for the fill loops. *)
  Fixpoint sub_run (fuel : nat) (os : list (vop V)) (s : subgrid) (h : heap V)
    : option (option (subgrid * heap V * list V)) :=
    match os with
    | [] => Some (Some (s, h, []))
    | VRead p :: os' =>
        match sub_read s h p with
        | None => Some None
        | Some v => match sub_run fuel os' s h with
                    | Some (Some (s', h', out)) => Some (Some (s', h', v :: out))
                    | r => r
                    end
        end
    | VWrite p v :: os' =>
        match sub_write s h p v with
        | None => Some None
        | Some h' => sub_run fuel os' s h'
        end
    | VFill v :: os' =>
        match sub_fill fuel s v h with
        | None => None
        | Some None => Some None
        | Some (Some h') => sub_run fuel os' s h'
        end
    | VResize lo hi :: os' => sub_run fuel os' (sub_resize s lo hi) h
    end.

  (** [view op= view2] — grid.t:409-436, 468-495: the iterator of the source ends the loop. *)
  Variable op : V -> V -> V.
  Fixpoint iop_cells (gd gs : grid) (l : list (vec * vec)) (h : heap V) : option (heap V) :=
    match l with
    | [] => Some h
    | (s, d) :: l' =>
        match grid_read gs h s, grid_read gd h d with
        | Some y, Some x => match grid_write gd h d (op x y) with
                            | None => None
                            | Some h' => iop_cells gd gs l' h'
                            end
        | _, _ => None
        end
    end.
  Definition sub_iop (fuel : nat) (d s : subgrid) (h : heap V) : option (option (heap V)) :=
    match pair_visits fuel (mkRange (sg_lo s) (sg_hi s)) (mkRange (sg_lo d) (sg_hi d)) with
    | None => None
    | Some l => Some (iop_cells (sg_base d) (sg_base s) l h)
    end.
End SubGrid.
