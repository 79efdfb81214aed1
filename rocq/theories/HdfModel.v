(** Model of src/diagnostic/hdfdiagnostic.hpp, hdfdiagnostic.t and hdfdiagnostic.cpp. *)
From Coq Require Import String Ascii.
From Verif Require Import Vec StorageModel GridModel DiagModel.

(** ** The HDF5 library

    What the program relies on (HDF5 reference manual: [H5Screate_simple], [H5Sselect_hyperslab],
    [H5Dwrite], [H5Dread]): a data set is an array in C order; a hyperslab selection is the box
    of [count] elements from [start], enumerated in C order; the elements of the two selections are
    paired in this order; a selection outside the extent is an error.  Not modelled: the layout of
    the file, conversion of types, communicators; attributes are in [FileModel]. *)

Record dataset (V : Type) := mkDs { d_dims : list Z; d_data : list V }.
Arguments mkDs {V}.
Arguments d_dims {V}.
Arguments d_data {V}.

(** Positions of the selected elements. *)
Definition upto (n : Z) : list Z := map Z.of_nat (seq 0 (Z.to_nat n)).
Fixpoint slab (dims start count : list Z) (pos : Z) : list Z :=
  match dims, start, count with
  | d :: dims', s :: start', c :: count' => flat_map (fun i => slab dims' start' count' (pos * d + (s + i))) (upto c)
  | _, _, _ => [pos]
  end.
Fixpoint inside_extent (dims start count : list Z) : bool :=
  match dims, start, count with
  | [], [], [] => true
  | d :: dims', s :: start', c :: count' => (s + c <=? d) && inside_extent dims' start' count'
  | _, _, _ => false
  end.

(** How a call ends: normally; with [exit(-1)] or a failed [assert]; undefined behaviour. *)
Inductive io (X : Type) := Done (x : X) | Abort | Undef.
Arguments Done {X}.
Arguments Abort {X}.
Arguments Undef {X}.
Definition io_bind {X Y} (a : io X) (f : X -> io Y) : io Y :=
  match a with Done x => f x | Abort => Abort | Undef => Undef end.

Section Hdf.
  Context {V : Type}.

  (** Copy element [f] of the data to/from element [m] of the block, for all pairs. *)
  Fixpoint copy_out (pairs : list (Z * Z)) (b : nat) (h : heap V) (data : list V) : io (list V) :=
    match pairs with
    | [] => Done data
    | (m, f) :: pairs' =>
        match read_elem h b m with
        | None => Undef
        | Some v => copy_out pairs' b h (list_set data (Z.to_nat f) v)
        end
    end.
  Fixpoint copy_in (pairs : list (Z * Z)) (b : nat) (data : list V) (h : heap V) : io (heap V) :=
    match pairs with
    | [] => Done h
    | (m, f) :: pairs' =>
        match nth_error data (Z.to_nat f) with
        | None => Undef
        | Some v => match write_elem h b m v with None => Undef | Some h' => copy_in pairs' b data h' end
        end
    end.

  (** ** The program *)

  (** [GridContainer] — hdfdiagnostic.hpp:53-73. *)
  Record container := mkContainer { c_grid : grid; c_gmin : vec; c_gmax : vec; c_lmin : vec; c_lmax : vec }.

  (** [CopyToContainer] — hdfdiagnostic.t:354-376: for a field the inner cells, for other grids all;
      [ghost] is the number of ghost cells, [None] for a grid that is not a field. *)
  Definition copy_to_container (g : grid) (ghost : option Z) (gmin gmax : vec) : container :=
    match ghost with
    | Some n => mkContainer g gmin gmax (map (fun l => l + n) (g_lo g)) (map (fun x => x - n) (g_hi g))
    | None => mkContainer g gmin gmax (g_lo g) (g_hi g)
    end.

  (** An [int] expression assigned to a [hsize_t] (64 bit, unsigned); overflow of [int] is undefined. *)
  Definition hsize (z : Z) : io Z := if (-(2 ^ 31) <=? z) && (z <? 2 ^ 31) then Done (w64 z) else Undef.

  Record slabs := mkSlabs { dims : list Z; locdims : list Z; locstart : list Z; memdims : list Z; memstart : list Z }.
  (** The loop over the dimensions in [readGrid] and [writeGrid] — hdfdiagnostic.t:76-102, 190-220. *)
  Fixpoint slab_loop (gmin gmax llo lhi mlo mhi : vec) : io slabs :=
    match gmin, gmax, llo, lhi, mlo, mhi with
    | gmin_i :: gmin', gmax_i :: gmax', llo_i :: llo', lhi_i :: lhi', mlo_i :: mlo', mhi_i :: mhi' =>
        io_bind (hsize (1 + gmax_i)) (fun _ =>
        io_bind (hsize (1 + gmax_i - gmin_i)) (fun dims_i =>
        io_bind (hsize (lhi_i - llo_i)) (fun _ =>
        io_bind (hsize (lhi_i - llo_i + 1)) (fun locdims_i =>
        io_bind (hsize (llo_i - gmin_i)) (fun locstart_i =>
        io_bind (hsize (mhi_i - mlo_i)) (fun _ =>
        io_bind (hsize (mhi_i - mlo_i + 1)) (fun memdims_i =>
        io_bind (hsize (llo_i - mlo_i)) (fun memstart_i =>
        if dims_i <? w64 (locstart_i + locdims_i) then Abort
        else io_bind (slab_loop gmin' gmax' llo' lhi' mlo' mhi') (fun s =>
          Done (mkSlabs (dims_i :: dims s) (locdims_i :: locdims s) (locstart_i :: locstart s)
                        (memdims_i :: memdims s) (memstart_i :: memstart s)))))))))))
    | _, _, _, _, _, _ => Done (mkSlabs [] [] [] [] [])
    end.
  Definition slabs_of (c : container) : io slabs :=
    slab_loop (c_gmin c) (c_gmax c) (c_lmin c) (c_lmax c) (g_lo (c_grid c)) (g_hi (c_grid c)).

  (** The two selections; [assert(ret != -1)] — hdfdiagnostic.t:117-131, 254-268. *)
  Definition pairs (s : slabs) (extent : list Z) : io (list (Z * Z)) :=
    if inside_extent extent (locstart s) (locdims s) && inside_extent (memdims s) (memstart s) (locdims s)
    then Done (combine (slab (memdims s) (memstart s) (locdims s) 0) (slab extent (locstart s) (locdims s) 0))
    else Abort.

  (** *** With parallel HDF5 *)

  (** The part of [writeGrid] of one process, for the data set created by all — hdfdiagnostic.t:253-283. *)
  Definition write_part (c : container) (h : heap V) (ds : dataset V) : io (dataset V) :=
    io_bind (slabs_of c) (fun s =>
    io_bind (pairs s (d_dims ds)) (fun ps =>
    io_bind (copy_out ps (g_block (c_grid c)) h (d_data ds)) (fun l => Done (mkDs (d_dims ds) l)))).
  Fixpoint write_parts (procs : list (container * heap V)) (ds : dataset V) : io (dataset V) :=
    match procs with
    | [] => Done ds
    | (c, h) :: procs' => io_bind (write_part c h ds) (write_parts procs')
    end.
  (** [H5Dcreate] by all processes — hdfdiagnostic.t:225-251: they must give the same dimensions.
      [zero] is the fill value. *)
  Fixpoint create (zero : V) (procs : list (container * heap V)) : io (dataset V) :=
    match procs with
    | [] => Undef
    | [(c, _)] => io_bind (slabs_of c) (fun s => Done (mkDs (dims s) (repeat zero (Z.to_nat (fold_left Z.mul (dims s) 1)))))
    | (c, _) :: procs' =>
        io_bind (slabs_of c) (fun s =>
        io_bind (create zero procs') (fun ds => if list_eq_dec Z.eq_dec (dims s) (d_dims ds) then Done ds else Undef))
    end.
  (** [writeGrid] called by the processes, the parts written in the order of the list. *)
  Definition parallel_write (zero : V) (procs : list (container * heap V)) : io (dataset V) :=
    io_bind (create zero procs) (write_parts procs).

  (** [readGrid] of one process — hdfdiagnostic.t:53-161. *)
  Definition parallel_read (c : container) (h : heap V) (ds : dataset V) : io (heap V) :=
    io_bind (slabs_of c) (fun s =>
    io_bind (pairs s (d_dims ds)) (fun ps =>
    copy_in ps (g_block (c_grid c)) (d_data ds) h)).

  (** *** Without: [H5S_ALL] — hdfdiagnostic.t:146-155, 229, 284-293. *)

  (** All [n] elements of the data set, from the beginning of the block. *)
  Definition everything (n : nat) : list (Z * Z) := map (fun i => (Z.of_nat i, Z.of_nat i)) (seq 0 n).
  Definition serial_write (zero : V) (c : container) (h : heap V) : io (dataset V) :=
    io_bind (slabs_of c) (fun s =>
    let n := Z.to_nat (fold_left Z.mul (memdims s) 1) in
    io_bind (copy_out (everything n) (g_block (c_grid c)) h (repeat zero n)) (fun l => Done (mkDs (memdims s) l))).
  Definition serial_read (c : container) (h : heap V) (ds : dataset V) : io (heap V) :=
    io_bind (slabs_of c) (fun s =>
    copy_in (everything (List.length (d_data ds))) (g_block (c_grid c)) (d_data ds) h).
End Hdf.

(** ** Streams and the names of data sets *)

Section Streams.
  Context {D : Type}.
  (** [HdfStream] — hdfdiagnostic.hpp:119-140: block name and counter. *)
  Record stream := mkStream { blockname : string; sets_count : Z }.
  (** Constructor and [open] — hdfdiagnostic.cpp:43-54, 193-250, 270-337; the block name is kept. *)
  Definition new_stream : stream := mkStream "data" 0.
  Definition opened (s : stream) : stream := mkStream (blockname s) 0.
  (** [setBlockName] — hdfdiagnostic.cpp:103-108. *)
  Definition set_block_name (n : string) (s : stream) : stream := mkStream n (-1).
  (** [getNextBlockName] — hdfdiagnostic.cpp:115-129.  Overflow of the counter is not modelled. *)
  Definition next_block_name (s : stream) : string * stream :=
    if sets_count s <? 0 then (blockname s, mkStream (blockname s) 1)
    else ((blockname s ++ decimal (sets_count s))%string, mkStream (blockname s) (sets_count s + 1)).

  (** What a program does with a stream after opening it. *)
  Inductive sop := SetName (n : string) | Transfer.
  (** The names of the data sets, in order. *)
  Fixpoint names (s : stream) (os : list sop) : list string :=
    match os with
    | [] => []
    | SetName n :: os' => names (set_block_name n s) os'
    | Transfer :: os' => let (n, s') := next_block_name s in n :: names s' os'
    end.

  (** [H5Dcreate] fails if the name exists, [H5Dopen] if it does not; then the assertion fails. *)
  Definition file := list (string * D).
  Definition lookup (n : string) (f : file) : option D :=
    option_map snd (find (fun x => String.eqb (fst x) n) f).
  (** An output stream: the names as above, one data set for each [writeGrid]. *)
  Fixpoint write_sets (ns : list string) (ds : list D) (f : file) : io file :=
    match ns, ds with
    | n :: ns', d :: ds' => match lookup n f with Some _ => Abort | None => write_sets ns' ds' (f ++ [(n, d)]) end
    | _, _ => Done f
    end.
  Fixpoint read_sets (ns : list string) (f : file) : io (list D) :=
    match ns with
    | [] => Done []
    | n :: ns' => match lookup n f with None => Abort | Some d => io_bind (read_sets ns' f) (fun l => Done (d :: l)) end
    end.
  (** [s]: the stream when it is opened. *)
  Definition written (s : stream) (os : list sop) (ds : list D) : io file := write_sets (names (opened s) os) ds [].
  Definition reread (s : stream) (os : list sop) (f : file) : io (list D) := read_sets (names (opened s) os) f.
End Streams.
Arguments container : clear implicits.
