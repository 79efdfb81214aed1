(** Model of the diagnostics and readers of grids within a program: src/diagnostic/hdfdiagnostic.t:354-467
    on top of the grids that share data ([ShareModel]) and the HDF streams ([HdfModel]). *)
From Verif Require Import Vec StorageModel GridModel ShareModel HdfModel.

Section Live.
  Context {V A : Type}.
  Variable junk : V.
  Variable avg0 : A.
  Variable rank : nat.
  Variable ord : order.
  Variable pol : policy A.
  Notation st := (@st V A).

  (** The members of an [HDFGridDiagnostic] or [HDFGridReader] — hdfdiagnostic.hpp:233-345,
      diagnostic.hpp:155-184: [field], the grid of [container], and the bounds in [container] once [init] has
      been called.  The stream is in [HdfModel] and [FileModel]. *)
  Record held := mkHeld { k_field : nat; k_grid : nat; k_bounds : option (vec * vec * vec * vec) }.

  (** What a program does: anything with grids; the constructor, [init], [write] and [read] of a
      diagnostic.  [src] is the grid registered as data under the name given by the parameter [field], [ghost] its
      number of ghost cells ([None]: it is not a [Field]), [gmin] and [gmax] the results of
      [getGlobalMin()] and [getGlobalMax()]; [t] is the parameter of [CopyToContainer::copy], passed by value. *)
  Inductive lop :=
    | LProg (o : op V)
    | LNew (d hf hc : nat)
    | LInit (d src t : nat) (ghost : option Z) (gmin gmax : vec)
    | LOut (d : nat)
    | LIn (d : nat) (file : dataset V).
  (** What is seen from outside: the results of the grid operations, and the container that is passed to
      [writeGrid] with the memory it refers to. *)
  Inductive lout := LSee (x : out V) | LFile (c : container) (h : heap V).

  Definition lstate := (st * (nat -> option held))%type.

  Definition heap_of (s : st) : heap V := fun b => match s_blk s b with Some l => l | None => [] end.
  (** The grid of the handle as [writeGrid] sees it: [getLo()], [getHi()], [getRawData()] —
      single-array-storage-base.hpp:65-71.  [None]: there is no memory. *)
  Definition grid_at (s : st) (x : nat) : option grid :=
    match d_ptr (s_d s (h_data (s_h s x))) with
    | None => None
    | Some b => Some (mkGrid ord b (h_lo (s_h s x)) (h_hi (s_h s x)))
    end.
  Definition container_at (s : st) (k : held) : option container :=
    match grid_at s (k_grid k), k_bounds k with
    | Some g, Some (gmin, gmax, lmin, lmax) => Some (mkContainer g gmin gmax lmin lmax)
    | _, _ => None
    end.

  Definition see (x : option (st * list (out V))) (f : st -> lstate) : option (lstate * list lout) :=
    option_map (fun r => (f (fst r), map LSee (snd r))) x.
  Notation prog := (run junk avg0 rank ord pol).

  (** [SimpleDiagnostic::init] (diagnostic.t:49-54) retrieves the data, [HDFGridDiagnostic::init] and
      [HDFGridReader::init] (hdfdiagnostic.t:409-436) fill the container ([CopyToContainer], :354-376);
      [write] and [read] (:394-399, 449-454). *)
  Definition lstep (o : lop) (z : lstate) : option (lstate * list lout) :=
    let (s, m) := z in
    match o with
    | LProg o => see (prog [o] s) (fun s' => (s', m))
    | LNew d hf hc => see (prog [New hf; New hc] s) (fun s' => (s', upd m d (Some (mkHeld hf hc None))))
    | LInit d src t ghost gmin gmax =>
        match m d with
        | None => None
        | Some k =>
            match prog [Assign (k_field k) src; Copy t (k_field k); Assign (k_grid k) t] s with
            | None => None
            | Some (s1, _) =>
                let c := copy_to_container (mkGrid ord 0 (h_lo (s_h s1 t)) (h_hi (s_h s1 t))) ghost gmin gmax in
                see (prog [Destroy t] s1)
                    (fun s' => (s', upd m d (Some (mkHeld (k_field k) (k_grid k) (Some (gmin, gmax, c_lmin c, c_lmax c))))))
            end
        end
    | LOut d =>
        match m d with
        | None => None
        | Some k => match container_at s k with
                    | None => None
                    | Some c => Some (z, [LFile c (heap_of s)])
                    end
        end
    | LIn d file =>
        match m d with
        | None => None
        | Some k => match container_at s k with
                    | None => None
                    | Some c =>
                        match parallel_read c (heap_of s) file with
                        | Done h => let b := g_block (c_grid c) in
                                    Some ((mkSt (s_live s) (s_h s) (s_d s) (s_nd s) (upd (s_blk s) b (Some (h b))) (s_nb s), m), [])
                        | _ => None
                        end
                    end
        end
    end.
  Fixpoint lrun (os : list lop) (z : lstate) : option (lstate * list lout) :=
    match os with
    | [] => Some (z, [])
    | o :: os' => match lstep o z with
                  | None => None
                  | Some (z1, l1) => match lrun os' z1 with
                                     | None => None
                                     | Some (z2, l2) => Some (z2, l1 ++ l2)
                                     end
                  end
    end.
  Definition linit : lstate := (init avg0, fun _ => None).
End Live.
Arguments lop : clear implicits.
Arguments lout : clear implicits.
