(** C81, C82: HDF files.  [HdfModel] holds the program, [HdfSpec] the words used here. *)
From Coq Require Import String.
From Verif Require Import Vec GridSpec GridModel GridProofs HdfModel HdfSpec HdfProofs HdfSerialProofs HdfExamples.

(** C81.  With parallel HDF5 and grids in C order: the data set covers the global domain; each local cell of each
    process is stored at its place in the global domain, whatever the order in which the processes write
    and however many ghost cells they have; the other cells have the fill value. *)
Theorem C81_write_partial : forall {V} (zero : V) gmin gmax procs,
  procs <> [] -> Forall (fun x => fits gmin gmax (fst x) (snd x)) procs -> disjoint (map fst procs) ->
  exists ds, parallel_write zero procs = Done ds /\ d_dims ds = sizes gmin gmax /\ complete ds /\
    (forall c h p, In (c, h) procs -> local_to c p -> exists v, grid_read (c_grid c) h p = Some v /\ stored ds (relative gmin p) v) /\
    (forall p, in_box gmin gmax p -> (forall c h, In (c, h) procs -> ~ local_to c p) -> stored ds (relative gmin p) zero).
Proof. exact @parallel_written. Qed.
Print Assumptions C81_write_partial.

(** The local cells are the inner cells of a field, all cells of any other grid. *)
Theorem C81_local_cells : forall g gmin gmax ilo ihi n p,
  g_lo g = map (fun l => l - n) ilo -> g_hi g = map (fun x => x + n) ihi ->
  (local_to (copy_to_container g (Some n) gmin gmax) p <-> in_box ilo ihi p) /\
  (local_to (copy_to_container g None gmin gmax) p <-> in_box (g_lo g) (g_hi g) p).
Proof. exact local_cells. Qed.
Print Assumptions C81_local_cells.

(** Reading puts the stored values into the local cells and changes nothing else. *)
Theorem C81_read_partial : forall {V} gmin gmax c (h : heap V) ds,
  fits gmin gmax c h -> d_dims ds = sizes gmin gmax -> complete ds ->
  exists h', parallel_read c h ds = Done h' /\ grid_wf (c_grid c) h' /\
    (forall p, local_to c p -> exists v, stored ds (relative gmin p) v /\ grid_read (c_grid c) h' p = Some v) /\
    (forall p, in_box (g_lo (c_grid c)) (g_hi (c_grid c)) p -> ~ local_to c p -> grid_read (c_grid c) h' p = grid_read (c_grid c) h p) /\
    (forall b, b <> g_block (c_grid c) -> h' b = h b).
Proof. exact @parallel_reads. Qed.
Print Assumptions C81_read_partial.

(** What is written by some processes is read back by any others. *)
Theorem C81_round_trip_partial : forall {V} (zero : V) (val : vec -> V) gmin gmax procs procs',
  procs <> [] -> Forall (fun x => fits gmin gmax (fst x) (snd x)) procs -> disjoint (map fst procs) ->
  Forall (fun x => fits gmin gmax (fst x) (snd x)) procs' ->
  (forall p, in_box gmin gmax p -> exists c h, In (c, h) procs /\ local_to c p) ->
  (forall c h p, In (c, h) procs -> local_to c p -> grid_read (c_grid c) h p = Some (val p)) ->
  exists ds, parallel_write zero procs = Done ds /\
  forall c h, In (c, h) procs' -> exists h', parallel_read c h ds = Done h' /\
    (forall p, local_to c p -> grid_read (c_grid c) h' p = Some (val p)) /\
    (forall p, in_box (g_lo (c_grid c)) (g_hi (c_grid c)) p -> ~ local_to c p -> grid_read (c_grid c) h' p = grid_read (c_grid c) h p) /\
    (forall b, b <> g_block (c_grid c) -> h' b = h b).
Proof. exact @parallel_round_trip. Qed.
Print Assumptions C81_round_trip_partial.

(** Local cells outside the global domain are refused, in both directions. *)
Theorem C81_outside : forall {V} c (h : heap V) ds,
  length (c_gmax c) = length (c_gmin c) -> length (c_lmin c) = length (c_gmin c) ->
  length (g_lo (c_grid c)) = length (c_gmin c) -> length (g_hi (c_grid c)) = length (c_gmin c) ->
  box_ok (c_lmin c) (c_lmax c) -> small (c_gmin c) (c_gmax c) -> small (g_lo (c_grid c)) (g_hi (c_grid c)) -> small (c_lmin c) (c_lmax c) ->
  ~ part_of (c_lmin c) (c_lmax c) (c_gmin c) (c_gmax c) -> d_dims ds = sizes (c_gmin c) (c_gmax c) ->
  write_part c h ds = Abort /\ parallel_read c h ds = Abort.
Proof. exact @outside_refused. Qed.
Print Assumptions C81_outside.

(** Not so for grids in Fortran order: cell (0,1), which holds 1, is found as 10 in the file and, by a
    process that reads another part, in memory. *)
Theorem C81_fortran_refuted :
  fits_any fo_gmin fo_gmax fo_c fo_h /\ fits_any fo_gmin fo_gmax fo_row fo_row_h /\
  exists ds, parallel_write 0 [(fo_c, fo_h)] = Done ds /\ d_dims ds = sizes fo_gmin fo_gmax /\
    grid_read (c_grid fo_c) fo_h [0; 1] = Some 1 /\ stored ds (relative fo_gmin [0; 1]) 10 /\
    exists h', parallel_read fo_row fo_row_h ds = Done h' /\ grid_read (c_grid fo_row) h' [0; 1] = Some 10.
Proof. exact fortran_scrambled. Qed.
Print Assumptions C81_fortran_refuted.

(** Without parallel HDF5 the whole grid is stored, at places relative to its own lower corner (in C
    order), and is read back by a grid of the same shape and order, ghost cells included. *)
Theorem C81_serial_partial : forall {V} (zero : V) gmin gmax gmin' gmax' c (h : heap V) c' h',
  fits_any gmin gmax c h -> fits_any gmin' gmax' c' h' ->
  g_lo (c_grid c') = g_lo (c_grid c) -> g_hi (c_grid c') = g_hi (c_grid c) -> g_order (c_grid c') = g_order (c_grid c) ->
  exists ds h'', serial_write zero c h = Done ds /\ serial_read c' h' ds = Done h'' /\
    (forall p, in_box (g_lo (c_grid c)) (g_hi (c_grid c)) p -> grid_read (c_grid c') h'' p = grid_read (c_grid c) h p) /\
    (forall b, b <> g_block (c_grid c') -> h'' b = h' b).
Proof. exact @serial_round_trip. Qed.
Print Assumptions C81_serial_partial.
Theorem C81_serial_position_partial : forall {V} (zero : V) gmin gmax c (h : heap V),
  fits_any gmin gmax c h -> g_order (c_grid c) = COrder ->
  exists ds, serial_write zero c h = Done ds /\ d_dims ds = sizes (g_lo (c_grid c)) (g_hi (c_grid c)) /\
    forall p, in_box (g_lo (c_grid c)) (g_hi (c_grid c)) p ->
      exists v, grid_read (c_grid c) h p = Some v /\ stored ds (relative (g_lo (c_grid c)) p) v.
Proof. exact @serial_position. Qed.
Print Assumptions C81_serial_position_partial.

(** Hence the file of a field with ghost cells does not have the size of the domain, its cells are found at
    other places, and reading it into a grid without ghost cells overruns the memory. *)
Theorem C81_serial_refuted :
  fits se_gmin se_gmax se_c se_h /\ fits se_gmin se_gmax se_c0 se_h0 /\
  exists ds, serial_write 0 se_c se_h = Done ds /\
    d_dims ds <> sizes se_gmin se_gmax /\
    grid_read (c_grid se_c) se_h [0] = Some 20 /\ stored ds (relative se_gmin [0]) 7 /\
    serial_read se_c0 se_h0 ds = Undef.
Proof. exact serial_ghosts. Qed.
Print Assumptions C81_serial_refuted.

(** C82.  All data sets written to a file get names of their own, in their order, and a program that
    makes the same calls on an input stream reads them all back.  Missing: programs that write under the same block name
    after setting it again, or under two block names of which one is the other followed by digits. *)
Theorem C82_sets_partial : forall {D} s os (ds : list D), length ds = transfers os -> unrelated (used (blockname s) true os) ->
  exists f, written s os ds = Done f /\ NoDup (map fst f) /\ map snd f = ds /\ reread s os f = Done ds.
Proof. exact @sets_round_trip. Qed.
Print Assumptions C82_sets_partial.

(** Those fail.  The first is what an [HDFGridDiagnostic] does that appends to its file. *)
Theorem C82_names_refuted :
  written new_stream [SetName "data"; Transfer; SetName "data"; Transfer] [1; 2] = Abort /\
  written new_stream [SetName "rho"; Transfer; Transfer; SetName "rho1"; Transfer] [1; 2; 3] = Abort.
Proof. exact names_clash. Qed.
Print Assumptions C82_names_refuted.
