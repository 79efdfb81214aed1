(** Model of src/grid/gridstorage/kokkos-storage.hpp: handles with their own view and a shared map
    of updaters.  The programs are those of [ShareModel]. *)
From Verif Require Import Vec StorageModel GridModel ShareModel.

Section Kokkos.
  Context {V : Type}.
  Variable zero : V.      (* the value Kokkos gives to the elements of a new view *)
  Variable rank : nat.

  (** Members of [KokkosGridStorage] — kokkos-storage.hpp:81-90.  [k_view] names the array the view
      refers to ([None]: the view of a default constructor); [k_upds] is the shared map of updaters
      the handle refers to. *)
  Record khdl := mkK { k_lo : vec; k_hi : vec; k_dims : vec; k_view : option nat; k_upds : nat }.

  (** Live handles and their members; the maps, as the keys they hold; the arrays of the views with
      extents and elements.  An array lives as long as a view refers to it, so that none is released
      here. *)
  Record kst := mkKst { k_live : list nat; k_h : nat -> khdl; k_maps : nat -> list nat; k_n : nat;
                        k_arr : nat -> vec * (vec -> V); k_na : nat }.

  Definition kinit : kst :=
    mkKst [] (fun _ => mkK [] [] [] None 0) (fun _ => []) 0 (fun _ => ([], fun _ => zero)) 0.

  Definition k_set_h (s : kst) (x : nat) (hd : khdl) : kst :=
    mkKst (k_live s) (upd (k_h s) x hd) (k_maps s) (k_n s) (k_arr s) (k_na s).

  (** [updateSizeInfo] — kokkos-storage.hpp:210-216: range and dims, not the view. *)
  Definition k_update1 (lo hi : vec) (hd : khdl) : khdl :=
    mkK lo hi (dims_of lo hi) (k_view hd) (k_upds hd).

  (** [update] — kokkos-storage.hpp:204-208.  [None]: a call through a dangling pointer. *)
  Fixpoint k_update (lo hi : vec) (ys : list nat) (s : kst) : option kst :=
    match ys with
    | [] => Some s
    | y :: ys' => if mem y (k_live s) then k_update lo hi ys' (k_set_h s y (k_update1 lo hi (k_h s y))) else None
    end.

  (** Default constructor — kokkos-storage.hpp:226-233.  The constructors with bounds (:244-262)
      have the effect of this one and [resize]. *)
  Definition k_new (h : nat) (s : kst) : option kst :=
    if mem h (k_live s) then None else
    Some (mkKst (h :: k_live s)
                (upd (k_h s) h (mkK (repeat 0 rank) (repeat 0 rank) (repeat 0 rank) None (k_n s)))
                (upd (k_maps s) (k_n s) [h]) (S (k_n s)) (k_arr s) (k_na s)).

  (** Copy constructor — kokkos-storage.hpp:235-242. *)
  Definition k_copy (h src : nat) (s : kst) : option kst :=
    if mem h (k_live s) || negb (mem src (k_live s)) then None else
    let o := k_h s src in
    Some (mkKst (h :: k_live s) (upd (k_h s) h o)
                (upd (k_maps s) (k_upds o) (add h (k_maps s (k_upds o)))) (k_n s) (k_arr s) (k_na s)).

  (** Assignment: the class declares none (kokkos-storage.hpp:69-217), so that each member is
      assigned; the maps of updaters stay as they are. *)
  Definition k_assign (h src : nat) (s : kst) : option kst :=
    if negb (mem h (k_live s)) || negb (mem src (k_live s)) then None else
    Some (k_set_h s h (k_h s src)).

  (** Destructor — kokkos-storage.hpp:264-268. *)
  Definition k_destroy (h : nat) (s : kst) : option kst :=
    if negb (mem h (k_live s)) then None else
    let g := k_upds (k_h s h) in
    Some (mkKst (rem h (k_live s)) (k_h s) (upd (k_maps s) g (rem h (k_maps s g))) (k_n s) (k_arr s) (k_na s)).

  (** [resize] — kokkos-storage.hpp:292-298: a new array for this view, then [update]. *)
  Definition k_resize (h : nat) (lo hi : vec) (s : kst) : option kst :=
    if negb (mem h (k_live s)) then None else
    let hd := k_h s h in
    k_update lo hi (k_maps s (k_upds hd))
      (mkKst (k_live s) (upd (k_h s) h (mkK (k_lo hd) (k_hi hd) (k_dims hd) (Some (k_na s)) (k_upds hd)))
             (k_maps s) (k_n s) (upd (k_arr s) (k_na s) (dims_of lo hi, fun _ => zero)) (S (k_na s))).

  (** [get] — kokkos-storage.hpp:270-290: the position handed to the view ... *)
  Definition k_pos (hd : khdl) (idx : vec) : vec := vmap2 Z.sub idx (k_lo hd).
  (** ... and [view(pos[0],...)], defined if every index is below the extent. *)
  Fixpoint k_inside (ext pos : vec) : bool :=
    match ext, pos with
    | [], [] => true
    | e :: ext', x :: pos' => (0 <=? x) && (x <? e) && k_inside ext' pos'
    | _, _ => false
    end.
  Definition k_access (h : nat) (idx : vec) (s : kst) : option (nat * vec) :=
    if negb (mem h (k_live s)) then None else
    match k_view (k_h s h) with
    | None => None
    | Some b => let p := k_pos (k_h s h) idx in if k_inside (fst (k_arr s b)) p then Some (b, p) else None
    end.
  Definition k_put (b : nat) (p : vec) (v : V) (s : kst) : kst :=
    let (ext, f) := k_arr s b in
    mkKst (k_live s) (k_h s) (k_maps s) (k_n s)
          (upd (k_arr s) b (ext, fun q => if list_eq_dec Z.eq_dec q p then v else f q)) (k_na s).

  Definition kstep (o : op V) (s : kst) : option (kst * list (@out V)) :=
    let silent r := option_map (fun s' => (s', [])) r in
    match o with
    | New h => silent (k_new h s)
    | Copy h src => silent (k_copy h src s)
    | Assign h src => silent (k_assign h src s)
    | Destroy h => silent (k_destroy h s)
    | Resize h lo hi => silent (k_resize h lo hi s)
    | Write h idx v => silent (option_map (fun bp => k_put (fst bp) (snd bp) v s) (k_access h idx s))
    | Read h idx => option_map (fun bp => (s, [OVal (snd (k_arr s (fst bp)) (snd bp))])) (k_access h idx s)
    | Bounds h => if mem h (k_live s) then Some (s, [OBounds (k_lo (k_h s h)) (k_hi (k_h s h))]) else None
    end.

  (** Run a program; [None] is undefined behaviour. *)
  Fixpoint krun (os : list (op V)) (s : kst) : option (kst * list (@out V)) :=
    match os with
    | [] => Some (s, [])
    | o :: os' => match kstep o s with
                  | None => None
                  | Some (s1, out1) => match krun os' s1 with
                                       | None => None
                                       | Some (s2, out2) => Some (s2, out1 ++ out2)
                                       end
                  end
    end.
End Kokkos.
Arguments kst : clear implicits.
