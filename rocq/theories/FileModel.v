(** Model of what diagnostics leave in files: [SimpleFileDiagnostic] (src/diagnostic/diagnostic.hpp,
    diagnostic.t), [HDFGridDiagnostic] (src/diagnostic/hdfdiagnostic.t), and of the lifetime of HDF files and
    attributes (hdfdiagnostic.cpp, hdfdiagnostic.t). *)
From Coq Require Import ZArith List Bool String.
From Verif Require Import DiagModel.
From Verif Require HdfModel.
Import ListNotations.
Local Open Scope Z_scope.

(** ** Text files *)

(** Contents of the files of a directory; the first entry of a name counts. *)
Definition files (X : Type) := list (string * X).
Definition content {X} (f : string) (fs : files X) : option X :=
  option_map snd (find (fun x => String.eqb (fst x) f) fs).
Definition store {X} (f : string) (x : X) (fs : files X) : files X := (f, x) :: fs.

(** [std::ofstream] as far as it is used here ([ofstream.members]): the file that is open, and whether the
    stream has failed.  Opening an open stream fails; a successful opening clears the failure and empties
    the file; output of a failed stream is lost; closing a closed stream fails.  Buffered text is written at
    the latest by [close] or the destructor: here, immediately. *)
Record ofs := mkOfs { os_file : option string; os_fail : bool }.
Section Text.
  (** Files that can be opened for writing. *)
  Variable openable : string -> bool.
  Definition os_open (f : string) (s : ofs) (fs : files string) : ofs * files string :=
    match os_file s with
    | Some _ => (mkOfs (os_file s) true, fs)
    | None => if openable f then (mkOfs (Some f) false, store f EmptyString fs) else (mkOfs None true, fs)
    end.
  Definition os_write (txt : string) (s : ofs) (fs : files string) : ofs * files string :=
    match os_file s with
    | None => (mkOfs None true, fs)
    | Some f => if os_fail s then (s, fs)
                else (s, store f (match content f fs with Some old => old | None => EmptyString end ++ txt)%string fs)
    end.
  Definition os_close (s : ofs) (fs : files string) : ofs * files string :=
    match os_file s with
    | None => (mkOfs None true, fs)
    | Some _ => (mkOfs None (os_fail s), fs)
    end.

  (** [SimpleFileDiagnostic::open], [write], [close] — diagnostic.t:56-73; [txt] is what
      [output << *field] prints at this time. *)
  Definition text_event (txt : string) (sf : ofs * files string) (e : event) : ofs * files string :=
    let (s, fs) := sf in
    match e with
    | Open f => os_open f s fs
    | Write => os_write txt s fs
    | Close => os_close s fs
    end.

  Variable parallel master : bool.
  Variable rank : Z.
  (** Executing an interval diagnostic at a step, and at all steps of a run; each step with the text the
      field has then.  [None]: undefined behaviour. *)
  Definition text_step (c : config) (interval : Z) (sf : ofs * files string) (step : Z * string) : option (ofs * files string) :=
    match execute_interval parallel master rank c interval (fst step) with
    | None => None
    | Some es => Some (fold_left (text_event (snd step)) es sf)
    end.
  Fixpoint text_steps (c : config) (interval : Z) (sf : ofs * files string) (steps : list (Z * string)) : option (ofs * files string) :=
    match steps with
    | [] => Some sf
    | st :: steps' => match text_step c interval sf st with None => None | Some sf' => text_steps c interval sf' steps' end
    end.
  (** The files at the end of a run, the diagnostic being destroyed. *)
  Definition text_run (c : config) (interval : Z) (fs : files string) (steps : list (Z * string)) : option (files string) :=
    option_map snd (text_steps c interval (mkOfs None false, fs) steps).
End Text.

(** ** HDF files *)

Section HdfFiles.
  Context {D : Type}.
  Variable openable : string -> bool.
  (** The stream of the diagnostic: the open file, block name and counter; the files opened by it and never closed;
      the contents of all files. *)
  Record hdf_state := mkHdf { h_file : option string; h_stream : HdfModel.stream; h_lost : list string; h_files : files (list (string * D)) }.
  Definition hdf_start (fs : files (list (string * D))) : hdf_state := mkHdf None HdfModel.new_stream [] fs.

  (** [HdfOStream::open] — hdfdiagnostic.cpp:270-337: the previous file is not closed; [H5Fcreate] empties the file; it
      fails for a file that is open, and then the assertion fails. *)
  Definition hdf_open (f : string) (h : hdf_state) : HdfModel.io hdf_state :=
    let held := match h_file h with Some g => g :: h_lost h | None => h_lost h end in
    if openable f && negb (existsb (String.eqb f) held)
    then HdfModel.Done (mkHdf (Some f) (HdfModel.opened (h_stream h)) held (store f [] (h_files h)))
    else HdfModel.Abort.
  (** [HDFGridDiagnostic::write] — hdfdiagnostic.t:393-399, [getDatasetName] — 382-385, [writeGrid] as far as names are
      concerned; [d] is the data set it stores. *)
  Definition hdf_write (d : D) (h : hdf_state) : HdfModel.io hdf_state :=
    let (n, s) := HdfModel.next_block_name (HdfModel.set_block_name "data" (h_stream h)) in
    match h_file h with
    | None => HdfModel.Abort
    | Some f =>
        let old := match content f (h_files h) with Some l => l | None => [] end in
        match HdfModel.lookup n old with
        | Some _ => HdfModel.Abort
        | None => HdfModel.Done (mkHdf (Some f) s (h_lost h) (store f (old ++ [(n, d)]) (h_files h)))
        end
    end.
  (** [HdfStream::close] — hdfdiagnostic.cpp:90-96. *)
  Definition hdf_close (h : hdf_state) : hdf_state := mkHdf None (h_stream h) (h_lost h) (h_files h).
  Definition hdf_event (d : D) (h : HdfModel.io hdf_state) (e : event) : HdfModel.io hdf_state :=
    HdfModel.io_bind h (fun h =>
    match e with
    | Open f => hdf_open f h
    | Write => hdf_write d h
    | Close => HdfModel.Done (hdf_close h)
    end).
  Variable parallel master : bool.
  Variable rank : Z.
  Fixpoint hdf_steps (c : config) (interval : Z) (h : hdf_state) (steps : list (Z * D)) : HdfModel.io hdf_state :=
    match steps with
    | [] => HdfModel.Done h
    | (n, d) :: steps' =>
        match execute_interval parallel master rank c interval n with
        | None => HdfModel.Undef
        | Some es => HdfModel.io_bind (fold_left (hdf_event d) es (HdfModel.Done h)) (fun h => hdf_steps c interval h steps')
        end
    end.
End HdfFiles.
Arguments hdf_state : clear implicits.

(** ** Handles of HDF files *)

(** Stream objects — hdfdiagnostic.hpp:119-145: the handle of the file ([None]: -1) and whether the process takes part. *)
Inductive kind := Input | Output.
Record strm := mkStrm { s_kind : kind; s_file : option nat; s_active : bool }.
(** The objects of a program ([None]: destroyed), the handles open in the library, and the number of times a handle was
    closed that was not open. *)
Record hstate := mkState { objects : list (option strm); lib : list nat; bad : nat }.
Definition hstart : hstate := mkState [] [] 0.

Inductive hop :=
| New (k : kind)                       (* default constructor *)
| CopyOf (i : nat)                     (* copy constructor *)
| Assign (i j : nat)                   (* i = j *)
| OpenFile (i : nat) (r : option nat)  (* open(): the library returns handle r, or fails *)
| CloseFile (i : nat)
| SetActive (i : nat) (b : bool)
| Destroy (i : nat).

Fixpoint set_nth {X} (l : list X) (i : nat) (x : X) : list X :=
  match l, i with
  | [], _ => []
  | _ :: l', O => x :: l'
  | y :: l', S i' => y :: set_nth l' i' x
  end.
Definition object (st : hstate) (i : nat) : option strm := match nth_error (objects st) i with Some (Some s) => Some s | _ => None end.
Definition put (st : hstate) (i : nat) (o : option strm) : hstate := mkState (set_nth (objects st) i o) (lib st) (bad st).

(** [H5Fclose], whose result is ignored. *)
Definition h5close (h : nat) (st : hstate) : hstate :=
  if existsb (Nat.eqb h) (lib st) then mkState (objects st) (remove Nat.eq_dec h (lib st)) (bad st)
  else mkState (objects st) (lib st) (S (bad st)).
(** [close] — hdfdiagnostic.cpp:90-96. *)
Definition close_stream (st : hstate) (i : nat) (s : strm) : hstate :=
  put (match s_file s with Some h => h5close h st | None => st end) i (Some (mkStrm (s_kind s) None (s_active s))).

(** One operation.  [Undef]: use of an object that does not exist, or an answer the library cannot give.  [Abort]: the
    assertion at the end of [HdfOStream::open]. *)
Definition hstep (st : hstate) (o : hop) : HdfModel.io hstate :=
  match o with
  | New k => HdfModel.Done (mkState (objects st ++ [Some (mkStrm k None true)]) (lib st) (bad st))
  (* hdfdiagnostic.cpp:56-67 *)
  | CopyOf i =>
      match object st i with
      | None => HdfModel.Undef
      | Some s => HdfModel.Done (mkState (objects st ++ [Some (mkStrm (s_kind s) (s_file s) true)]) (lib st) (bad st))
      end
  (* hdfdiagnostic.cpp:69-83; both of the same kind *)
  | Assign i j =>
      match object st i, object st j with
      | Some s, Some t => HdfModel.Done (put st i (Some (mkStrm (s_kind s) (s_file t) (s_active t))))
      | _, _ => HdfModel.Undef
      end
  (* hdfdiagnostic.cpp:193-250, 270-337 *)
  | OpenFile i r =>
      match object st i with
      | None => HdfModel.Undef
      | Some s =>
          let st := match s_kind s with Input => close_stream st i s | Output => st end in
          let old := match s_kind s with Input => None | Output => s_file s end in
          if s_active s then
            match r with
            | Some h => if existsb (Nat.eqb h) (lib st) then HdfModel.Undef
                        else HdfModel.Done (mkState (set_nth (objects st) i (Some (mkStrm (s_kind s) (Some h) true))) (h :: lib st) (bad st))
            | None => match s_kind s with
                      | Input => HdfModel.Done (put st i (Some (mkStrm Input None true)))
                      | Output => HdfModel.Abort
                      end
            end
          else HdfModel.Done (put st i (Some (mkStrm (s_kind s) old false)))
      end
  | CloseFile i => match object st i with None => HdfModel.Undef | Some s => HdfModel.Done (close_stream st i s) end
  (* hdfdiagnostic.hpp:166 *)
  | SetActive i b => match object st i with None => HdfModel.Undef | Some s => HdfModel.Done (put st i (Some (mkStrm (s_kind s) (s_file s) b))) end
  (* hdfdiagnostic.cpp:85-88 *)
  | Destroy i => match object st i with None => HdfModel.Undef | Some s => HdfModel.Done (put (close_stream st i s) i None) end
  end.
Fixpoint hrun (st : hstate) (os : list hop) : HdfModel.io hstate :=
  match os with
  | [] => HdfModel.Done st
  | o :: os' => HdfModel.io_bind (hstep st o) (fun st' => hrun st' os')
  end.

(** ** Attributes *)

Section Attributes.
  Context {V : Type}.
  (** Variables of the program at addresses; [None]: the variable has ceased to exist. *)
  Definition memory := nat -> option (list V).
  (** [HdfAttributes] — hdfdiagnostic.hpp:75-108: address and number of values, by name in alphabetical order (here: some
      order). *)
  Definition attrs := list (string * (nat * nat)).
  (** [set] — hdfdiagnostic.t:35-51. *)
  Fixpoint attr_set (name : string) (addr dims : nat) (a : attrs) : attrs :=
    match a with
    | [] => [(name, (addr, dims))]
    | (n, x) :: a' => if String.eqb n name then (name, (addr, dims)) :: a' else (n, x) :: attr_set name addr dims a'
    end.
  (** The attributes [writeGrid] stores with a data set — hdfdiagnostic.t:295-323; [None]: reading a variable that does not
      exist, or beyond its end, is undefined. *)
  Fixpoint attr_write (m : memory) (a : attrs) : option (list (string * list V)) :=
    match a with
    | [] => Some []
    | (n, (addr, dims)) :: a' =>
        match m addr with
        | None => None
        | Some l => if Nat.leb dims (List.length l) then option_map (cons (n, firstn dims l)) (attr_write m a') else None
        end
    end.
  (** What a program does: it sets attributes, changes variables, leaves scopes, writes data sets. *)
  Inductive aop := ASet (name : string) (addr dims : nat) | AChange (addr : nat) (v : list V) | AEnd (addr : nat) | AWrite.
  Definition mem_set (m : memory) (addr : nat) (v : option (list V)) : memory := fun a => if Nat.eqb a addr then v else m a.
  (** The attributes of all data sets written. *)
  Fixpoint attr_run (m : memory) (a : attrs) (os : list aop) : option (list (list (string * list V))) :=
    match os with
    | [] => Some []
    | ASet n addr dims :: os' => attr_run m (attr_set n addr dims a) os'
    | AChange addr v :: os' => attr_run (mem_set m addr (Some v)) a os'
    | AEnd addr :: os' => attr_run (mem_set m addr None) a os'
    | AWrite :: os' => match attr_write m a with None => None | Some w => option_map (cons w) (attr_run m a os') end
    end.
End Attributes.
