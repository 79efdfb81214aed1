(** The ways to give a grid its extent: the constructors and the [resize] members of [Grid], with
    their arguments taken by reference. *)
From Verif Require Import Vec GridSpec StorageModel GridModel ShareModel.

(** What a [const IndexType &] argument refers to: an array of the caller, or the member of grid
    [y] that [getLo()] and [getHi()] refer to — single-array-storage-base.hpp:65-71. *)
Inductive ref := Given (v : vec) | LoOf (y : nat) | HiOf (y : nat).

(** The arguments: one index (the size), two indices, a [Range] of the caller, [getRange()] of
    grid [y], or grid [y] itself. *)
Inductive extent := Size (d : ref) | Between (lo hi : ref) | OfRange (lo hi : vec) | RangeOf (y : nat) | Like (y : nat).

Section Extent.
  Context {V A : Type}.
  Variable junk : V.
  Variable avg0 : A.
  Variable rank : nat.
  Variable ord : order.
  Variable pol : policy A.
  Notation st := (@st V A).

  (** The value of a reference; [None]: it dangles. *)
  Definition live_ref (s : st) (r : ref) : bool :=
    match r with Given _ => true | LoOf y | HiOf y => mem y (s_live s) end.
  Definition deref (s : st) (r : ref) : vec :=
    match r with Given v => v | LoOf y => h_lo (s_h s y) | HiOf y => h_hi (s_h s y) end.

  (** [resize(lo, hi)] of the storage — single-array-storage-base.hpp:357-374,458-469, with
      [resizeImpl] — single-array-allocation.hpp:335-369,444-492.  As [ShareModel.op_resize], but
      [lo] and [hi] are references: [range = RangeType{lo, hi}] (:361, :448) copies both before it
      assigns, and what follows reads [lo] and [hi] again, in the state [s0]. *)
  Definition op_resize_ref (h : nat) (rlo rhi : ref) (s : st) : option st :=
    if negb (mem h (s_live s)) || negb (live_ref s rlo) || negb (live_ref s rhi) then None else
    let t := s_h s h in
    let g := h_data t in
    let d := s_d s g in
    let s0 := set_h s h (mkH g (deref s rlo) (deref s rhi) (h_dims t) (h_size t) (h_fast t) (h_buf t) (h_avg t)) in
    let lo := deref s0 rlo in
    let hi := deref s0 rhi in
    let newSize := alloc_size (dims_of lo hi) in
    let avg := match pol with Instant => h_avg t | Lazy next _ _ => next newSize (h_avg t) end in
    let realloc := match pol with
                   | Instant => true
                   | Lazy _ shrink _ => (newSize >? h_buf t) || shrink newSize (h_buf t) avg
                   end in
    let cap := match pol with
               | Instant => newSize
               | Lazy _ _ extra => let b := newSize + extra avg in if b <=? 0 then 10 else b
               end in
    let buf := if realloc then cap else h_buf t in
    let s1 := if realloc
              then mkSt (s_live s) (s_h s) (upd (s_d s) g (mkD (Some (s_nb s)) (d_upd d))) (s_nd s)
                        (upd (free (d_ptr d) (s_blk s)) (s_nb s) (Some (repeat junk (Z.to_nat cap))))
                        (S (s_nb s))
              else s in
    let s2 := set_h s1 h (mkH g (deref s rlo) (deref s rhi) (dims_of lo hi) newSize (h_fast t) buf avg) in
    update_all ord lo hi buf avg (d_upd d) s2.

  (** [resize(size)], [resize(low, high)], [resize(range)], [resize(grid)] — grid.t:527-575. *)
  Definition op_resize_by (h : nat) (e : extent) (s : st) : option st :=
    match e with
    | Size d =>
        if live_ref s d
        then op_resize_ref h (Given (repeat 0 rank)) (Given (map (fun n => n - 1) (deref s d))) s
        else None
    | Between lo hi => op_resize_ref h lo hi s
    | OfRange lo hi => op_resize_ref h (Given lo) (Given hi) s
    | RangeOf y | Like y => op_resize_ref h (LoOf y) (HiOf y) s
    end.

  (** [size-IndexType::Ones()] — grid.t:58, array.t:344-354. *)
  Definition minus_ones (v : vec) : vec := map (fun p => fst p - snd p) (combine v (repeat 1 (length v))).

  (** [Grid(size)], [Grid(low, high)], [Grid(range)] — grid.t:54-84,592-625, with the constructors
      of the storage — single-array-storage-base.hpp:317-335,418-436: a new grid is resized.  There
      is no constructor from another kind of grid; [Like] stands for [Grid(grid.getRange())]. *)
  Definition op_make (h : nat) (e : extent) (s : st) : option st :=
    match e with
    | Size d =>
        if live_ref s d
        then match op_new avg0 rank h s with
             | Some s' => op_resize_ref h (Given (repeat 0 rank)) (Given (minus_ones (deref s d))) s'
             | None => None
             end
        else None
    | Between lo hi =>
        if live_ref s lo && live_ref s hi
        then match op_new avg0 rank h s with Some s' => op_resize_ref h lo hi s' | None => None end
        else None
    | OfRange lo hi =>
        match op_new avg0 rank h s with Some s' => op_resize_ref h (Given lo) (Given hi) s' | None => None end
    | RangeOf y | Like y =>
        if mem y (s_live s)
        then match op_new avg0 rank h s with Some s' => op_resize_ref h (LoOf y) (HiOf y) s' | None => None end
        else None
    end.

  (** Programs: the operations of [ShareModel], and these. *)
  Inductive xop := Plain (o : op V) | Make (h : nat) (e : extent) | ResizeBy (h : nat) (e : extent).
  Definition xstep (o : xop) (s : st) : option (st * list (out V)) :=
    match o with
    | Plain o => step junk avg0 rank ord pol o s
    | Make h e => option_map (fun s' => (s', [])) (op_make h e s)
    | ResizeBy h e => option_map (fun s' => (s', [])) (op_resize_by h e s)
    end.
  Fixpoint xrun (os : list xop) (s : st) : option (st * list (out V)) :=
    match os with
    | [] => Some (s, [])
    | o :: os' => match xstep o s with
                  | None => None
                  | Some (s1, out1) => match xrun os' s1 with
                                       | None => None
                                       | Some (s2, out2) => Some (s2, out1 ++ out2)
                                       end
                  end
    end.
End Extent.
Arguments xop : clear implicits.
Arguments Plain {V} o. Arguments Make {V} h e. Arguments ResizeBy {V} h e.
