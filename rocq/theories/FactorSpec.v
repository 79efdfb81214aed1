(** What a balanced division of a domain among processes is. *)
From Coq Require Import QArith Znumtheory.
From Verif Require Import Vec FactorModel.
Local Open Scope Z_scope.

(** [v] divides [number] processes among [k] dimensions. *)
Definition divides_among (k : nat) (number : Z) (v : vec) : Prop :=
  length v = k /\ fold_right Z.mul 1 v = number /\ Forall (fun f => 1 <= f) v.
(** The cells on the faces of the local domain of a process, as a fraction of its cells, up to a
    factor of two: the sum of processes by cells over the dimensions. *)
Fixpoint surface (v w : vec) : Q :=
  match v, w with
  | x :: v', y :: w' => (inject_Z x / inject_Z y + surface v' w')%Q
  | _, _ => 0%Q
  end.
(** The smallest prime number that divides [n]. *)
Definition smallest_prime (n p : Z) : Prop := prime p /\ (p | n) /\ forall q, prime q -> (q | n) -> p <= q.

(** [double] replaced by exact numbers. *)
Definition q_fdiv (a b : Z) : Q := (inject_Z a / inject_Z b)%Q.
Definition q_fmul (x : Q) (a : Z) : Q := (x * inject_Z a)%Q.
Definition q_fsum (l : list Q) : Q := fold_left Qplus l 0%Q.
Definition q_fltb (x y : Q) : bool := negb (Qle_bool y x).
