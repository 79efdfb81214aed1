(** Model of HDF streams in a parallel program of which not all processes take part in a file —
    [setActive] and [makeMPIGroup], src/diagnostic/hdfdiagnostic.hpp:120-178 and hdfdiagnostic.cpp:131-175, with
    [HdfIStream::open] (:194-251), [HdfOStream::open] (:270-337) and [HdfOStream::writeGrid]
    (hdfdiagnostic.t:163-332), [HdfIStream::readGrid] (hdfdiagnostic.t:53-160), for builds with parallel HDF5.  Each process has one stream; all processes make the
    same calls in the same order, except that only some may call [setActive].  Not modelled here: contents and names of data
    sets ([HdfModel]), handles ([FileModel]), failure of the libraries. *)
From Coq Require Import List Arith Bool.
Import ListNotations.

(** A communicator: a name, different for each that was created, and its processes. *)
Record comm := mkComm { c_name : nat; c_members : list nat }.

Inductive kind := Reader | Writer.

(** The members [active], [activeModified], [mpiComm], [commSet] (hdfdiagnostic.hpp:137-138,174-175), the
    communicator in the property list [plist_id] of a writer that is [initialised] (hdfdiagnostic.hpp:204-210), the
    communicator with which the file was opened. *)
Record stream := mkStream { a_active : bool; a_modified : bool; a_comm : option comm; a_set : bool; a_list : option comm; a_file : option comm }.

Section Active.
  Variable k : kind.
  (** The number of processes. *)
  Variable n : nat.
  Definition processes : list nat := seq 0 n.

  Record cluster := mkCluster { streams : nat -> stream; next_name : nat }.
  (** Constructors — hdfdiagnostic.cpp:44-54.  Name 0 is [MPI_COMM_WORLD]. *)
  Definition cstart : cluster := mkCluster (fun _ => mkStream true false None false None None) 1.
  Definition world : comm := mkComm 0 processes.

  (** [setActive] — hdfdiagnostic.hpp:166. *)
  Definition set_active (b : bool) (s : stream) : stream := mkStream b true (a_comm s) (a_set s) (a_list s) (a_file s).

  (** What process [p] puts into component [i] of [inputArr] — hdfdiagnostic.cpp:153-154. *)
  Definition contribution (st : nat -> stream) (p i : nat) : nat := if a_active (st p) then (if Nat.eqb i p then 1 else 0) else 0.
  (** [MPI_Allreduce] with [MPI_SUM] — hdfdiagnostic.cpp:156. *)
  Definition reduced (st : nat -> stream) (i : nat) : nat := fold_right plus 0 (map (fun p => contribution st p i) processes).
  (** The processes of the group — hdfdiagnostic.cpp:158-167. *)
  Definition members (st : nat -> stream) : list nat := filter (fun i => 0 <? reduced st i) processes.

  (** [makeMPIGroup] of all processes — hdfdiagnostic.cpp:132-175.  [None]: some processes wait in [MPI_Allreduce] for others that
      do not call it.  A process that is not in the group gets no communicator from [MPI_Comm_create]. *)
  Definition make_group (c : cluster) : option cluster :=
    let st := streams c in
    if forallb (fun p => negb (a_modified (st p))) processes then
      Some (mkCluster (fun p => let s := st p in
                                if a_set s then s else mkStream (a_active s) (a_modified s) (Some world) true (a_list s) (a_file s)) (next_name c))
    else if forallb (fun p => a_modified (st p)) processes then
      let g := mkComm (next_name c) (members st) in
      Some (mkCluster (fun p => let s := st p in
                                mkStream (a_active s) false (if existsb (Nat.eqb p) (c_members g) then Some g else None) (a_set s) (a_list s) (a_file s))
                      (S (next_name c)))
    else None.

  (** A call that all processes of a communicator have to make together: does it come to an end? *)
  Definition same_comm (x : option comm) (c : comm) : bool := match x with Some d => Nat.eqb (c_name d) (c_name c) | None => false end.
  Definition meets (act : nat -> bool) (used : nat -> option comm) : bool :=
    forallb (fun p => if act p then
                        match used p with
                        | None => false
                        | Some c => forallb (fun q => act q && same_comm (used q) c) (c_members c)
                        end
                      else true) processes.

  (** The communicator in the property list with which process [p] opens the file: a reader makes the list at each call
      (hdfdiagnostic.cpp:208-234), a writer at the first (hdfdiagnostic.cpp:285-316). *)
  Definition used (s : stream) : option comm :=
    match k with
    | Reader => a_comm s
    | Writer => match a_list s with Some c => Some c | None => a_comm s end
    end.

  (** What is observed: which processes opened together, for each process that opened; which processes wrote or read, and whether
      attributes were written. *)
  Inductive seen := Opened (l : list (nat * list nat)) | Moved (l : list nat) (attributes : bool).

  Definition active_list (c : cluster) : list nat := filter (fun p => a_active (streams c p)) processes.

  (** [open] of all processes — hdfdiagnostic.cpp:194-251, 270-337. *)
  Definition open_all (c : cluster) : option (cluster * seen) :=
    match make_group c with
    | None => None
    | Some c' =>
        let st := streams c' in
        if meets (fun p => a_active (st p)) (fun p => used (st p)) then
          Some (mkCluster (fun p => let s := st p in
                                    if a_active s then
                                      mkStream true (a_modified s) (a_comm s) (a_set s) (match k with Writer => used s | Reader => None end) (used s)
                                    else match k with
                                         | Reader => mkStream false (a_modified s) (a_comm s) (a_set s) (a_list s) None   (* [close()], :196 *)
                                         | Writer => s
                                         end) (next_name c'),
                Opened (map (fun p => (p, match used (st p) with Some g => c_members g | None => [] end)) (active_list c')))
        else None
    end.

  (** [writeGrid] of all processes — hdfdiagnostic.t:166-168: only the active; the calls on the data set are collective for
      the processes that opened the file (:229-285); the attributes are written by process 0 (:297-323).  [readGrid] of all
      processes — hdfdiagnostic.t:53-160: active or not, each on its own; without a file [H5Dopen] fails and the program is
      aborted (:103-111), [None] here. *)
  Definition transfer_all (c : cluster) : option (cluster * seen) :=
    let st := streams c in
    match k with
    | Writer =>
        if meets (fun p => a_active (st p)) (fun p => a_file (st p)) then
          Some (c, Moved (active_list c) (existsb (Nat.eqb 0) (active_list c)))
        else None
    | Reader =>
        if forallb (fun p => match a_file (st p) with Some _ => true | None => false end) processes then Some (c, Moved processes false) else None
    end.

  (** What the program does: [Choose f]: process [p] calls [setActive(b)] if [f p] is [Some b]. *)
  Inductive call := Choose (f : nat -> option bool) | OpenAll | TransferAll.
  Definition cstep (o : call) (c : cluster) : option (cluster * list seen) :=
    match o with
    | Choose f => Some (mkCluster (fun p => match f p with Some b => set_active b (streams c p) | None => streams c p end) (next_name c), [])
    | OpenAll => match open_all c with Some (c', e) => Some (c', [e]) | None => None end
    | TransferAll => match transfer_all c with Some (c', e) => Some (c', [e]) | None => None end
    end.
  (** [None]: the program hangs or is aborted. *)
  Fixpoint crun (l : list call) (c : cluster) : option (cluster * list seen) :=
    match l with
    | [] => Some (c, [])
    | o :: l' =>
        match cstep o c with
        | None => None
        | Some (c', e) => match crun l' c' with Some (c'', es) => Some (c'', e ++ es) | None => None end
        end
    end.
End Active.
