(** Specification: how evenly the cells of a domain are shared out among the processes. *)
From Verif Require Import Vec MpiSpec.
Local Open Scope Z_scope.

(** In every dimension the numbers of cells of any two processes differ by at most [k]. *)
Definition within (k : Z) (dims : vec) (cells : vec -> nat -> Z) : Prop :=
  forall c c' i, is_process dims c -> is_process dims c' -> (i < length dims)%nat -> Z.abs (cells c i - cells c' i) <= k.

(** Every process has cells in dimension [i]. *)
Definition nobody_idle (dims : vec) (cells : vec -> nat -> Z) (i : nat) : Prop :=
  forall c, is_process dims c -> 1 <= cells c i.
