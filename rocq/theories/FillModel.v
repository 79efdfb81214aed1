(** Model of [fill_field] — src/tools/fieldtools.t. *)
From Coq Require Import ZArith List Bool.
From Verif Require Import Vec RangeModel GridModel FieldModel ExprModel DepModel.
Import ListNotations.

Section Fill.
  Variable A : arith.
  (** The arithmetic of positions. *)
  Variable pa : pos_arith (F A).
  (** [Variable::getExpression] of each variable. *)
  Variable exprs : nat -> expr A.

  (** The members of a [Field] — field.hpp:53-55: grid (with ghost cells), number of ghost cells,
      stagger and physical domain. *)
  Record fill_target := mkTarget { t_grid : grid; t_ghost : Z; t_stag : list bool; t_dlo : list (F A); t_dhi : list (F A) }.
  Definition target_dim (t : fill_target) (i : nat) : fdim (F A) :=
    mkFD (F A) (vget (g_lo (t_grid t)) i) (vget (g_hi (t_grid t)) i) (t_ghost t) (nth i (t_stag t) false)
      (nth i (t_dlo t) (pa_of_int pa 0)) (nth i (t_dhi t) (pa_of_int pa 0)).

  (** Assigning to a C++ variable that expressions read. *)
  Definition set_ext (st : store A) (x : nat) (v : value A) : store A :=
    mkStore A (s_val st) (s_fixed st) (s_id st) (fun y => if Nat.eqb y x then v else s_ext st y) (s_fun st).

  (** [for (i=0; i<rank; ++i) coords[i] = field.indexToPosition(i,pos[i])] — fieldtools.t:56-59;
      [coords[i]] is the external variable [at_ i]. *)
  Definition set_coords (t : fill_target) (at_ : nat -> nat) (pos : vec) (st : store A) : store A :=
    fold_left (fun st i => set_ext st (at_ i) (VFloat (index_to_position pa (target_dim t i) (vget pos i))))
      (seq 0 (length (g_lo (t_grid t)))) st.

  (** Functions registered as always changing may behave differently each time: [funs pos] is what
      the functions do while the cell [pos] is filled. *)
  Variable funs : vec -> fsig -> list (value A) -> result (value A).
  Definition set_funs (pos : vec) (st : store A) : store A :=
    mkStore A (s_val st) (s_fixed st) (s_id st) (s_ext st) (funs pos).

  (** The loop over the cells — fieldtools.t:49-64.  [value] is the C++ variable of the parameter [d].
      Outer [None]: out of fuel; inner [None]: a failing assertion in [update()]; an exception or
      undefined behaviour is passed on. *)
  Fixpoint fill_cells (fuel : nat) (ro : nat -> bool) (t : fill_target) (at_ : nat -> nat) (d : nat)
    (l : list vec) (u : updater) (st : store A) (c : cmem A) (h : heap (value A))
    : option (option (result (updater * store A * cmem A * heap (value A)))) :=
    match l with
    | [] => Some (Some (Ok (u, st, c, h)))
    | pos :: l' =>
        match update A exprs fuel ro u (set_funs pos (set_coords t at_ pos st)) c with
        | None => None
        | Some None => Some None
        | Some (Some (u', Ok (st', c'))) =>
            match grid_write (t_grid t) h pos (c' d) with
            | None => Some (Some Undefined)
            | Some h' => fill_cells fuel ro t at_ d l' u' st' c' h'
            end
        | Some (Some (_, BadCast)) => Some (Some BadCast)
        | Some (Some (_, BadGet)) => Some (Some BadGet)
        | Some (Some (_, Undefined)) => Some (Some Undefined)
        end
    end.

  (** [fill_field(field, coords, value, updater)] — fieldtools.t:32-66. *)
  Definition fill_field (fuel : nat) (ro : nat -> bool) (t : fill_target) (at_ : nat -> nat) (d : nat)
    (u : updater) (st : store A) (c : cmem A) (h : heap (value A)) :=
    match range_visits fuel (mkRange (g_lo (t_grid t)) (g_hi (t_grid t))) with
    | None => None
    | Some l => fill_cells fuel ro t at_ d l u st c h
    end.

  (** [addDependent(p)] — dependencies.cpp:322-334: the parameter of a constant is updated at once. *)
  Definition add_dependent_param (ro : nat -> bool) (st : store A) (c : cmem A) (d : nat) : cmem A :=
    if s_fixed st d then param_update ro st c d else c.
  (** [fill_field(field, coords, value, updater, dependent)] — fieldtools.t:68-85. *)
  Definition fill_field_for (fuel : nat) (ro : nat -> bool) (t : fill_target) (at_ : nat -> nat) (d : nat)
    (u : updater) (st : store A) (c : cmem A) (h : heap (value A)) :=
    fill_field fuel ro t at_ d (add_dependent st (clear_dependent u) d) st (add_dependent_param ro st c d) h.
End Fill.
Arguments fill_target : clear implicits.
Arguments t_grid {A}.
Arguments t_ghost {A}.
Arguments t_stag {A}.
Arguments t_dlo {A}.
Arguments t_dhi {A}.
Arguments set_ext {A} st x v.
