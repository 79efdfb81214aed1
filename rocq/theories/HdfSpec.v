(** The words used in the theorems on HDF files.  Nothing here refers to the program, apart from the grids
    that are stored and the record types. *)
From Coq Require Import String Ascii.
From Verif Require Import Vec GridSpec GridModel GridProofs HdfModel.

(** Numbers of cells; index relative to a corner. *)
Fixpoint sizes (lo hi : vec) : list Z :=
  match lo, hi with l :: lo', h :: hi' => (h - l + 1) :: sizes lo' hi' | _, _ => [] end.
Fixpoint relative (lo p : vec) : vec :=
  match lo, p with l :: lo', x :: p' => (x - l) :: relative lo' p' | _, _ => [] end.

(** The data set has the value [v] at the index [q] (C order, indices from zero). *)
Fixpoint c_index (dims : list Z) (q : vec) : Z :=
  match dims, q with
  | _ :: dims', i :: q' => i * fold_right Z.mul 1 dims' + c_index dims' q'
  | _, _ => 0
  end.
Definition stored {V} (ds : dataset V) (q : vec) (v : V) : Prop :=
  nth_error (d_data ds) (Z.to_nat (c_index (d_dims ds) q)) = Some v.
Definition complete {V} (ds : dataset V) : Prop :=
  Z.of_nat (List.length (d_data ds)) = fold_right Z.mul 1 (d_dims ds).

Definition part_of (lo hi lo' hi' : vec) : Prop := forall p, in_box lo hi p -> in_box lo' hi' p.
(** All the numbers involved fit into an [int]. *)
Definition small (lo hi : vec) : Prop := Forall (fun x => -(2 ^ 30) < x < 2 ^ 30) lo /\ Forall (fun x => -(2 ^ 30) < x < 2 ^ 30) hi.

(** The container holds an existing grid in C order; the local cells are cells of the grid and of the
    global domain [gmin..gmax]. *)
Definition fits {V} (gmin gmax : vec) (c : container) (h : heap V) : Prop :=
  grid_wf (c_grid c) h /\ g_order (c_grid c) = COrder /\ c_gmin c = gmin /\ c_gmax c = gmax /\
  small gmin gmax /\ small (g_lo (c_grid c)) (g_hi (c_grid c)) /\ box_ok (c_lmin c) (c_lmax c) /\
  part_of (c_lmin c) (c_lmax c) (g_lo (c_grid c)) (g_hi (c_grid c)) /\ part_of (c_lmin c) (c_lmax c) gmin gmax.
(** The same for a grid of any storage order. *)
Definition fits_any {V} (gmin gmax : vec) (c : container) (h : heap V) : Prop :=
  grid_wf (c_grid c) h /\ c_gmin c = gmin /\ c_gmax c = gmax /\
  small gmin gmax /\ small (g_lo (c_grid c)) (g_hi (c_grid c)) /\ box_ok (c_lmin c) (c_lmax c) /\
  part_of (c_lmin c) (c_lmax c) (g_lo (c_grid c)) (g_hi (c_grid c)) /\ part_of (c_lmin c) (c_lmax c) gmin gmax.
(** No cell is local to two of the processes. *)
Fixpoint disjoint (cs : list container) : Prop :=
  match cs with
  | [] => True
  | c :: cs' => (forall c' p, In c' cs' -> in_box (c_lmin c) (c_lmax c) p -> in_box (c_lmin c') (c_lmax c') p -> False) /\ disjoint cs'
  end.
Definition local_to (c : container) (p : vec) : Prop := in_box (c_lmin c) (c_lmax c) p.

(** ** Names *)

Definition is_digit (c : ascii) : Prop := (48 <= nat_of_ascii c <= 57)%nat.
Fixpoint all_digits (s : string) : Prop := match s with EmptyString => True | String c s' => is_digit c /\ all_digits s' end.
(** [a] is [b] followed by digits, or by nothing. *)
Definition extends (a b : string) : Prop := exists t, all_digits t /\ a = (b ++ t)%string.
(** The block names under which data sets are transferred, each once for every time it is set;
    [cur] is the present one, [fresh] tells whether it has not been used since it was set. *)
Fixpoint used (cur : string) (fresh : bool) (os : list sop) : list string :=
  match os with
  | [] => []
  | SetName n :: os' => used n true os'
  | Transfer :: os' => if fresh then cur :: used cur false os' else used cur false os'
  end.
Definition transfers (os : list sop) : nat := List.length (filter (fun o => match o with Transfer => true | _ => false end) os).
(** No two of the names are such that one is the other followed by digits. *)
Fixpoint unrelated (l : list string) : Prop :=
  match l with [] => True | x :: l' => (forall y, In y l' -> ~ extends x y /\ ~ extends y x) /\ unrelated l' end.
