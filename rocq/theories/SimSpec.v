(** Specification of simulations on a divided domain. *)
From Verif Require Import Vec GridSpec GridModel GridProofs BoundaryModel MpiModel MpiSpec.
Local Open Scope Z_scope.

(** The computation on the undivided periodic domain [0..high]: in every step each cell gets the value
    of the rule [f] on the values, before the step, of the cells at the given offsets, all at once.
    [image p] is the cell of the domain whose periodic image is [p]. *)
Fixpoint undivided {V} (image : vec -> vec) (offs : list vec) (f : vec -> list V -> V) (G : vec -> V) (n : nat) (p : vec) : V :=
  match n with
  | O => G p
  | S n' => f p (map (fun o => undivided image offs f G n' (image (vmap2 Z.add p o))) offs)
  end.

(** The rule looks at cells at most [delta] away in each of the dimensions. *)
Definition reach_at_most (rank : nat) (delta : Z) (offs : list vec) : Prop :=
  forall o, In o offs -> length o = rank /\ forall i, (i < rank)%nat -> - delta <= vget o i <= delta.

(** The domain is divided over the process grid; the reach of the rule is at most the number of ghost
    cells; every process has a grid [gr c] whose inner cells hold the values [G], and a second grid
    [tmp c] with storage of its own that has room for the inner cells.  What the ghost cells and the
    second grid hold is left open. *)
Definition set_up {V} (cut : Z -> Z -> Z -> Z) (dims high : vec) (delta : Z) (gr tmp : vec -> grid) (offs : list vec)
    (h0 : vec -> heap V) (G : vec -> V) : Prop :=
  subdivided cut dims high delta 1 gr /\ (0 < length dims)%nat /\ reach_at_most (length dims) delta offs /\
  forall c, is_process dims c ->
    grid_wf (gr c) (h0 c) /\
    (forall p, in_inner (mpi_bounds cut dims high delta c) p -> grid_read (gr c) (h0 c) p = Some (G p)) /\
    grid_wf (tmp c) (h0 c) /\ g_block (tmp c) <> g_block (gr c) /\
    (forall p, in_inner (mpi_bounds cut dims high delta c) p -> in_box (g_lo (tmp c)) (g_hi (tmp c)) p).

(** The same on the single process of the serial subdivision of the domain [0..high]. *)
Definition serial_set_up {V} (high : vec) (delta : Z) (g tmp : grid) (offs : list vec) (h0 : heap V) (G : vec -> V) : Prop :=
  1 <= delta /\ (forall i, (i < length high)%nat -> delta <= vget high i + 1) /\
  (forall p, in_box (map (fun _ => - delta) high) (map (fun x => x + delta) high) p -> in_box (g_lo g) (g_hi g) p) /\
  reach_at_most (length high) delta offs /\
  grid_wf g h0 /\ (forall p, in_global high p -> grid_read g h0 p = Some (G p)) /\
  grid_wf tmp h0 /\ g_block tmp <> g_block g /\ (forall p, in_global high p -> in_box (g_lo tmp) (g_hi tmp) p).
