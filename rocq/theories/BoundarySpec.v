(** Specifications for ghost cells, periodic images and views. *)
From Verif Require Import Vec GridSpec GridModel GridOpSpec GridProofs BoundaryModel.

(** The grid [g] in heap [h] holds the values [m]; [grid_wf] is explained in GridProps. *)
Definition represents {V} (g : grid) (h : heap V) (m : vec -> V) : Prop :=
  grid_wf g h /\ forall p, in_box (g_lo g) (g_hi g) p -> grid_read g h p = Some (m p).

(** Component [d] lies in the interval [a..b]. *)
Definition comp_in (d : nat) (a b : Z) (p : vec) : Prop := a <= vget p d <= b.

(** Number of inner cells in dimension [d]. *)
Definition inner_extent (lo hi : vec) (delta : Z) (d : nat) : Z := vget hi d - vget lo d + 1 - 2 * delta.

(** [p], [q] agree except in dimension [d]. *)
Definition agree_except (d : nat) (p q : vec) : Prop :=
  length p = length q /\ forall i, i <> d -> vget p i = vget q i.

(** [q] is the inner cell whose periodic image is [p]: in every dimension [q] is inner and the
    coordinates differ by a multiple of the inner extent. *)
Definition periodic_image (lo hi : vec) (delta : Z) (p q : vec) : Prop :=
  length q = length p /\
  forall d, (d < length p)%nat ->
    vget lo d + delta <= vget q d <= vget hi d - delta /\
    (vget p d - vget q d) mod inner_extent lo hi delta d = 0.

(** Every inner extent is at least [k]. *)
Definition inner_at_least (lo hi : vec) (delta k : Z) : Prop :=
  forall d, (d < length lo)%nat -> k <= inner_extent lo hi delta d.

(** The box [lo..hi] lies in the index range of [g]. *)
Definition inside_grid (g : grid) (lo hi : vec) : Prop :=
  forall p, in_box lo hi p -> in_box (g_lo g) (g_hi g) p.

(** In dimension [d], [s] is the source cell of the ghost cell [p]: the cell one period away that is
    not a ghost cell in dimension [d]. *)
Definition ghost_of (lo hi : vec) (delta : Z) (d : nat) (p s : vec) : Prop :=
  agree_except d p s /\
  ((vget lo d <= vget p d < vget lo d + delta /\ vget s d = vget p d + inner_extent lo hi delta d) \/
   (vget hi d - delta < vget p d <= vget hi d /\ vget s d = vget p d - inner_extent lo hi delta d)).

(** ** Views *)

(** Boolean form of [in_box]. *)
Fixpoint in_boxb (lo hi p : vec) : bool :=
  match lo, hi, p with
  | [], [], [] => true
  | l :: lo', h :: hi', x :: p' => (l <=? x) && (x <=? h) && in_boxb lo' hi' p'
  | _, _, _ => false
  end.

(** The abstract state: the map of the base grid and the range of the view. *)
Definition vabs V : Type := (vec -> V) * (vec * vec).

Definition vspec_step {V} (o : vop V) (s : vabs V) : vabs V * list V :=
  let '(m, (lo, hi)) := s in
  match o with
  | VRead p => (s, [m p])
  | VWrite p v => ((fun q => if veqb q p then v else m q, (lo, hi)), [])
  | VFill v => ((fun q => if in_boxb lo hi q then v else m q, (lo, hi)), [])
  | VResize lo' hi' => ((m, (lo', hi')), [])
  end.

Fixpoint vspec_run {V} (os : list (vop V)) (s : vabs V) : vabs V * list V :=
  match os with
  | [] => (s, [])
  | o :: os' => let '(s1, o1) := vspec_step o s in
                let '(s2, o2) := vspec_run os' s1 in (s2, o1 ++ o2)
  end.

(** A range the view may have: not empty, inside the base grid. *)
Definition view_range (g : grid) (lo hi : vec) : Prop := box_ok lo hi /\ inside_grid g lo hi.

(** Indices passed by the user are inside the view; ranges are acceptable. *)
Fixpoint vlegal {V} (g : grid) (os : list (vop V)) (lo hi : vec) : Prop :=
  match os with
  | [] => True
  | VRead p :: os' => in_box lo hi p /\ vlegal g os' lo hi
  | VWrite p _ :: os' => in_box lo hi p /\ vlegal g os' lo hi
  | VFill _ :: os' => vlegal g os' lo hi
  | VResize lo' hi' :: os' => view_range g lo' hi' /\ vlegal g os' lo' hi'
  end.

(** ** Sums over periodic images *)

(** [p], [q] are the same cell of the periodic domain. *)
Definition same_cell (lo hi : vec) (delta : Z) (p q : vec) : Prop :=
  length q = length p /\ forall d, (d < length p)%nat -> (vget p d - vget q d) mod inner_extent lo hi delta d = 0.

Fixpoint sum_over {V} (plus : V -> V -> V) (zero : V) (m : vec -> V) (l : list vec) : V :=
  match l with
  | [] => zero
  | q :: l' => plus (m q) (sum_over plus zero m l')
  end.
