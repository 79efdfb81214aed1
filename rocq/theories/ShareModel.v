(** Model of grid handles that share an allocation: copy construction, assignment, resizing and
    destruction — src/grid/gridstorage/single-array-allocation.hpp and
    src/grid/gridstorage/single-array-storage-base.hpp.

    A handle is a grid object, named by a number (its address).  [std::shared_ptr] is modelled by
    reachability: a data object is released when no live handle holds it. *)
From Verif Require Import Vec StorageModel GridModel.

Definition upd {A} (f : nat -> A) (k : nat) (v : A) : nat -> A := fun x => if Nat.eqb x k then v else f x.
Definition mem (x : nat) (l : list nat) : bool := existsb (Nat.eqb x) l.
Definition add (x : nat) (l : list nat) : list nat := if mem x l then l else x :: l.
Definition rem (x : nat) (l : list nat) : list nat := filter (fun y => negb (Nat.eqb y x)) l.

(** The allocation policies.  [Instant] is [SingleArrayInstantAllocation].  [Lazy] is
    [SingleArrayLazyAllocation] with its floating point heuristics left abstract: [A] stands for
    the pair (avgSize, avgVar), [next newSize avg] for the running average
    (single-array-allocation.hpp:456-458), [shrink newSize bufSize avg] for the test
    [(newSize + 32*sqrt(avgVar)) < bufSize && bufSize > 100] (:459), [extra avg] for
    [(size_t)(4*sqrt(avgVar))] (:485). *)
Inductive policy (A : Type) :=
  | Instant
  | Lazy (next : Z -> A -> A) (shrink : Z -> Z -> A -> bool) (extra : A -> Z).
Arguments Instant {A}.
Arguments Lazy {A}.

Section Share.
  Context {V A : Type}.
  Variable junk : V.      (* the value of uninitialised memory: arbitrary *)
  Variable avg0 : A.      (* avgSize = avgVar = 0 *)
  Variable rank : nat.
  Variable ord : order.
  Variable pol : policy A.

  (** The members of a grid object: [data], [range], [dims], [size]
      (single-array-allocation.hpp:112-122,204-230), [data_fast] as a pair of the block and the
      bias, and for lazy allocation [bufSize], [avgSize], [avgVar] (:202-213). *)
  Record hdl := mkH { h_data : nat; h_lo : vec; h_hi : vec; h_dims : vec; h_size : Z;
                      h_fast : option nat * Z; h_buf : Z; h_avg : A }.

  (** [SingleArrayAllocationData] — single-array-allocation.hpp:57-84. *)
  Record dat := mkD { d_ptr : option nat; d_upd : list nat }.

  (** Program state: live handles, their members, data objects, allocated blocks. *)
  Record st := mkSt { s_live : list nat; s_h : nat -> hdl; s_d : nat -> dat; s_nd : nat;
                      s_blk : nat -> option (list V); s_nb : nat }.

  Definition init : st :=
    mkSt [] (fun _ => mkH 0 [] [] [] 0 (None, 0) 0 avg0) (fun _ => mkD None []) 0 (fun _ => None) 0.

  Definition set_h (s : st) (x : nat) (hd : hdl) : st :=
    mkSt (s_live s) (upd (s_h s) x hd) (s_d s) (s_nd s) (s_blk s) (s_nb s).

  (** The bias [p] of [updateDataFast] — single-array-storage-base.hpp:387-397,481-491. *)
  Definition bias (lo dims : vec) : option Z :=
    match ord with COrder => c_fast lo dims | FOrder => Some (f_fast lo dims) end.

  (** The [pos] of [get] — single-array-storage-base.hpp:335-355,436-456. *)
  Definition pos_of (dims idx : vec) : Z :=
    match ord with COrder => c_pos dims idx | FOrder => f_pos dims idx end.

  (** [updateSizeInfo] of handle [y], followed by its [updater()], i.e. [updateDataFast] —
      single-array-allocation.hpp:319-333,425-442.  [None]: the handle has been destroyed (write
      through a dangling [this]) or the bias overflows. *)
  Definition update_size_info (lo hi : vec) (buf : Z) (avg : A) (s : st) (y : nat) : option st :=
    if mem y (s_live s) then
      let hd := s_h s y in
      let dims := dims_of lo hi in
      match bias lo dims with
      | None => None
      | Some p => Some (set_h s y (mkH (h_data hd) lo hi dims (alloc_size dims)
                                       (d_ptr (s_d s (h_data hd)), p) buf avg))
      end
    else None.

  (** [SingleArrayAllocationData::update] — single-array-allocation.hpp:79-83. *)
  Fixpoint update_all (lo hi : vec) (buf : Z) (avg : A) (ys : list nat) (s : st) : option st :=
    match ys with
    | [] => Some s
    | y :: ys' => match update_size_info lo hi buf avg s y with
                  | None => None
                  | Some s' => update_all lo hi buf avg ys' s'
                  end
    end.

  Definition free (p : option nat) (blk : nat -> option (list V)) : nat -> option (list V) :=
    match p with None => blk | Some b => upd blk b None end.

  (** Default constructor — single-array-allocation.hpp:282-287,375-385; [Range()] is [0..0]
      (src/grid/range.hpp:52), [dims] is not initialised (here empty), [data_fast] is NULL
      (single-array-storage-base.hpp:303-308). *)
  Definition op_new (h : nat) (s : st) : option st :=
    if mem h (s_live s) then None else
    let d := s_nd s in
    Some (mkSt (h :: s_live s)
               (upd (s_h s) h (mkH d (repeat 0 rank) (repeat 0 rank) [] 0 (None, 0) 0 avg0))
               (upd (s_d s) d (mkD None [h])) (S d) (s_blk s) (s_nb s)).

  (** Copy constructor — single-array-allocation.hpp:289-294,387-399 and
      single-array-storage-base.hpp:310-315. *)
  Definition op_copy (h src : nat) (s : st) : option st :=
    if mem h (s_live s) then None else
    if negb (mem src (s_live s)) then None else
    let o := s_h s src in
    let d := s_d s (h_data o) in
    Some (mkSt (h :: s_live s) (upd (s_h s) h o)
               (upd (s_d s) (h_data o) (mkD (d_ptr d) (add h (d_upd d)))) (s_nd s) (s_blk s) (s_nb s)).

  (** The [shared_ptr] to data [d] has been given up by one handle: release it when it was the
      last one; the destructor frees the array — single-array-allocation.hpp:67-70. *)
  Definition release (d : nat) (s : st) : st :=
    if existsb (fun y => Nat.eqb (h_data (s_h s y)) d) (s_live s) then s
    else mkSt (s_live s) (s_h s) (s_d s) (s_nd s) (free (d_ptr (s_d s d)) (s_blk s)) (s_nb s).

  (** Assignment — single-array-allocation.hpp:296-305,401-410; [data_fast] is copied by the
      defaulted operator of the derived class.  The handle is entered into the updaters of the
      new data but not removed from those of its old data, and [bufSize], [avgSize], [avgVar] are
      not copied. *)
  Definition op_assign (h src : nat) (s : st) : option st :=
    if negb (mem h (s_live s)) || negb (mem src (s_live s)) then None else
    let o := s_h s src in
    let t := s_h s h in
    let d := s_d s (h_data o) in
    Some (release (h_data t)
      (mkSt (s_live s)
            (upd (s_h s) h (mkH (h_data o) (h_lo o) (h_hi o) (h_dims o) (h_size o) (h_fast o)
                                (h_buf t) (h_avg t)))
            (upd (s_d s) (h_data o) (mkD (d_ptr d) (add h (d_upd d)))) (s_nd s) (s_blk s) (s_nb s))).

  (** Destructor — single-array-allocation.hpp:307-311,413-417. *)
  Definition op_destroy (h : nat) (s : st) : option st :=
    if negb (mem h (s_live s)) then None else
    let g := h_data (s_h s h) in
    let d := s_d s g in
    Some (release g
      (mkSt (rem h (s_live s)) (s_h s) (upd (s_d s) g (mkD (d_ptr d) (rem h (d_upd d))))
            (s_nd s) (s_blk s) (s_nb s))).

  (** [resize] — single-array-storage-base.hpp:357-374, single-array-allocation.hpp:335-369 and
      :444-492. *)
  Definition op_resize (h : nat) (lo hi : vec) (s : st) : option st :=
    if negb (mem h (s_live s)) then None else
    let t := s_h s h in
    let g := h_data t in
    let d := s_d s g in
    let newSize := alloc_size (dims_of lo hi) in
    let avg := match pol with Instant => h_avg t | Lazy next _ _ => next newSize (h_avg t) end in
    let realloc := match pol with
                   | Instant => true
                   | Lazy _ shrink _ => (newSize >? h_buf t) || shrink newSize (h_buf t) avg
                   end in
    let cap := match pol with
               | Instant => newSize
               | Lazy _ _ extra => let b := newSize + extra avg in if b <=? 0 then 10 else b
               end in
    let buf := if realloc then cap else h_buf t in
    let s1 := if realloc
              then mkSt (s_live s) (s_h s) (upd (s_d s) g (mkD (Some (s_nb s)) (d_upd d))) (s_nd s)
                        (upd (free (d_ptr d) (s_blk s)) (s_nb s) (Some (repeat junk (Z.to_nat cap))))
                        (S (s_nb s))
              else s in
    let s2 := set_h s1 h (mkH g lo hi (dims_of lo hi) newSize (h_fast t) buf avg) in
    update_all lo hi buf avg (d_upd d) s2.

  (** Element offset [data_fast[pos]] of an index, in elements. *)
  Definition h_offset (hd : hdl) (idx : vec) : Z :=
    w64 (w64 (0 + 1 * snd (h_fast hd)) + 1 * pos_of (h_dims hd) idx).

  Definition op_read (h : nat) (idx : vec) (s : st) : option V :=
    if negb (mem h (s_live s)) then None else
    let hd := s_h s h in
    match fst (h_fast hd) with
    | None => None
    | Some b => match s_blk s b with
                | None => None
                | Some l => nth_error l (Z.to_nat (h_offset hd idx))
                end
    end.

  Definition op_write (h : nat) (idx : vec) (v : V) (s : st) : option st :=
    if negb (mem h (s_live s)) then None else
    let hd := s_h s h in
    match fst (h_fast hd) with
    | None => None
    | Some b => match s_blk s b with
                | None => None
                | Some l =>
                    let k := Z.to_nat (h_offset hd idx) in
                    if Nat.ltb k (length l)
                    then Some (mkSt (s_live s) (s_h s) (s_d s) (s_nd s)
                                    (upd (s_blk s) b (Some (list_set l k v))) (s_nb s))
                    else None
                end
    end.

  (** A client program. *)
  Inductive op :=
    | New (h : nat) | Copy (h src : nat) | Assign (h src : nat) | Destroy (h : nat)
    | Resize (h : nat) (lo hi : vec)
    | Write (h : nat) (idx : vec) (v : V) | Read (h : nat) (idx : vec) | Bounds (h : nat).

  (** What the program sees: the results of [Read] and [Bounds] ([getLo()], [getHi()]). *)
  Inductive out := OVal (v : V) | OBounds (lo hi : vec).

  Definition step (o : op) (s : st) : option (st * list out) :=
    match o with
    | New h => option_map (fun s' => (s', [])) (op_new h s)
    | Copy h src => option_map (fun s' => (s', [])) (op_copy h src s)
    | Assign h src => option_map (fun s' => (s', [])) (op_assign h src s)
    | Destroy h => option_map (fun s' => (s', [])) (op_destroy h s)
    | Resize h lo hi => option_map (fun s' => (s', [])) (op_resize h lo hi s)
    | Write h idx v => option_map (fun s' => (s', [])) (op_write h idx v s)
    | Read h idx => option_map (fun v => (s, [OVal v])) (op_read h idx s)
    | Bounds h => if mem h (s_live s) then Some (s, [OBounds (h_lo (s_h s h)) (h_hi (s_h s h))]) else None
    end.

  (** Run a program; [None] is undefined behaviour. *)
  Fixpoint run (os : list op) (s : st) : option (st * list out) :=
    match os with
    | [] => Some (s, [])
    | o :: os' => match step o s with
                  | None => None
                  | Some (s1, out1) => match run os' s1 with
                                       | None => None
                                       | Some (s2, out2) => Some (s2, out1 ++ out2)
                                       end
                  end
    end.
End Share.

Arguments op : clear implicits.
Arguments out : clear implicits.
