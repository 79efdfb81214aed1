(** Model of the reductions of the domain subdivisions: src/grid/mpisubdivision.t:417-473 and
    src/grid/domainsubdivision.hpp:286-308; and [mean] (src/algo.t) in doubles. *)
From Coq Require Import ZArith Reals SpecFloat List Bool Permutation.
From Flocq Require Import Core.
From Verif Require Import MpiFloatModel FieldModel UtilModel.
Import ListNotations.
Local Open Scope Z_scope.

(** The order in which an implementation of MPI combines the values of the processes is not specified for
    the predefined operations. *)
Inductive tree (T : Type) := Leaf (x : T) | Node (a b : tree T).
Arguments Leaf {T}. Arguments Node {T}.
Fixpoint leaves {T} (t : tree T) : list T := match t with Leaf x => [x] | Node a b => leaves a ++ leaves b end.

Section Reduce.
  Context {T : Type}.
  (** An operation on two values; [None]: undefined behaviour. *)
  Fixpoint tree_value (op : T -> T -> option T) (t : tree T) : option T :=
    match t with
    | Leaf x => Some x
    | Node a b =>
        match tree_value op a, tree_value op b with
        | Some x, Some y => op x y
        | _, _ => None
        end
    end.
  (** [res] is a possible result of [MPI_Allreduce] with the values [vals] of the processes; all processes
      receive it. *)
  Definition allreduce (op : T -> T -> option T) (vals : list T) (res : option T) : Prop :=
    exists t, Permutation (leaves t) vals /\ tree_value op t = res.

  Variables (plus : T -> T -> option T) (smaller : T -> T -> bool) (divide : T -> Z -> option T).
  (** [MPI_MAX], [MPI_MIN]. *)
  Definition op_max (x y : T) : option T := Some (if smaller x y then y else x).
  Definition op_min (x y : T) : option T := Some (if smaller y x then y else x).

  (** [sumReduce], [maxReduce], [minReduce] — mpisubdivision.t:431-473. *)
  Definition sumReduce := allreduce plus.
  Definition maxReduce := allreduce op_max.
  Definition minReduce := allreduce op_min.
  (** [avgReduce] — mpisubdivision.t:417-429: [result/double(ComSize)]. *)
  Definition avgReduce (vals : list T) (res : option T) : Prop :=
    exists s, sumReduce vals s /\ res = match s with Some s => divide s (Z.of_nat (length vals)) | None => None end.

  (** All reductions of [SerialSubdivision] — domainsubdivision.hpp:286-308. *)
  Definition serial_reduce (val : T) : T := val.
End Reduce.

(** [double] as real numbers with rounding; overflow is not modelled. *)
Definition r_add (a b : R) : option R := Some (rnd64 (a + b)).
Definition r_divide (a : R) (n : Z) : option R := if n =? 0 then None else Some (rnd64 (a / rnd64 (IZR n))).
Definition r_smaller (a b : R) : bool := Rlt_bool a b.
(** [mean] of doubles. *)
Definition r_mean : list R -> option R := mean 0%R r_add r_divide.

(** [mean] of doubles, bit by bit (a division by zero gives NaN). *)
Definition b64_mean : list spec_float -> option spec_float :=
  mean (S754_zero false) (fun a b => Some (SFadd 53 1024 a b)) (fun a n => Some (SFdiv 53 1024 a (sf_of_Z n))).
