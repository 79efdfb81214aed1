(** Model of src/datastream.hpp and src/datastream.t: writing arrays and grids to a stream. *)
From Coq Require Import String Ascii.
From Verif Require Import Vec RangeModel GridModel.
Local Open Scope string_scope.

Section Stream.
  Context {V : Type}.
  (** [out << x] for an element. *)
  Variable show : V -> string.

  (** [std::endl]. *)
  Definition endl : string := String "010" "".

  (** Array — datastream.t:27-38. *)
  Definition print_array (a : list V) : string :=
    match a with
    | [] => ""
    | x :: a' => show x ++ String.concat "" (map (fun y => " " ++ show y) a')
    end.

  (** Output one after the other.  [None]: a read outside the allocation, undefined behaviour. *)
  Definition seq_ (a b : option string) : option string :=
    match a, b with Some x, Some y => Some (x ++ y) | _, _ => None end.
  (** [for (int i=lo; i<=hi; ++i)].  Not modelled: the loop does not end if [hi] is [INT_MAX]. *)
  Definition for_ (lo hi : Z) (body : Z -> option string) : option string :=
    fold_right (fun i r => seq_ (body i) r) (Some "") (zloop lo hi).

  Variable g : grid.
  Variable h : heap V.
  Definition low (d : nat) : Z := vget (g_lo g) d.
  Definition high (d : nat) : Z := vget (g_hi g) d.
  (** [out << M(i,j,...)]. *)
  Definition element (idx : vec) : option string := option_map show (grid_read g h idx).

  (** Rank 1 — datastream.t:40-58, after the test for an empty grid. *)
  Definition print1 : option string :=
    seq_ (element [low 0]) (for_ (low 0 + 1) (high 0) (fun i => seq_ (Some " ") (element [i]))).
  (** Rank 2 — datastream.t:60-84. *)
  Definition print2 : option string :=
    for_ (low 1) (high 1) (fun j =>
      seq_ (element [low 0; j]) (seq_ (for_ (low 0 + 1) (high 0) (fun i => seq_ (Some " ") (element [i; j]))) (Some endl))).
  (** Rank 3 — datastream.t:86-114. *)
  Definition print3 : option string :=
    for_ (low 2) (high 2) (fun k => seq_
      (for_ (low 1) (high 1) (fun j =>
        seq_ (element [low 0; j; k]) (seq_ (for_ (low 0 + 1) (high 0) (fun i => seq_ (Some " ") (element [i; j; k]))) (Some endl))))
      (Some endl)).
  (** Rank 4 — datastream.t:116-147. *)
  Definition print4 : option string :=
    for_ (low 3) (high 3) (fun l =>
    for_ (low 2) (high 2) (fun k => seq_
      (for_ (low 1) (high 1) (fun j =>
        seq_ (element [low 0; j; k; l]) (seq_ (for_ (low 0 + 1) (high 0) (fun i => seq_ (Some " ") (element [i; j; k; l]))) (Some endl))))
      (Some endl))).
  (** Rank 5 — datastream.t:149-184. *)
  Definition print5 : option string :=
    for_ (low 4) (high 4) (fun m =>
    for_ (low 3) (high 3) (fun l =>
    for_ (low 2) (high 2) (fun k => seq_
      (for_ (low 1) (high 1) (fun j =>
        seq_ (element [low 0; j; k; l; m]) (seq_ (for_ (low 0 + 1) (high 0) (fun i => seq_ (Some " ") (element [i; j; k; l; m]))) (Some endl))))
      (Some endl)))).

  (** [operator<=] of [Array<int,N>] — array.t:428-440 (the integer case of [arr_le] of ArrayModel). *)
  Definition low_le_high : bool := forallb (fun d => negb (low d >? high d)) (seq 0 (List.length (g_lo g))).

  (** [out << M]; there are overloads for the ranks 1 to 5 only. *)
  Definition print_grid : option string :=
    if negb low_le_high then Some ""
    else
      match List.length (g_lo g) with
      | 1%nat => print1
      | 2%nat => print2
      | 3%nat => print3
      | 4%nat => print4
      | 5%nat => print5
      | _ => None
      end.
End Stream.
