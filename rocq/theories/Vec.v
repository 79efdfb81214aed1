(** Rank-N arrays as lists.

    [Array<T,length>] is a fixed-length C array (src/grid/array.hpp:33-36); its length is the
    template parameter.  A rank-N array is modelled by a list of length N; a C++ program is
    instantiated at one rank, a theorem about lists of arbitrary length covers all ranks. *)
From Coq Require Export List ZArith Lia Bool Arith.
Export ListNotations.
Open Scope Z_scope.

(** An index or a coordinate vector. *)
Definition vec := list Z.

(** [a[i]] — src/grid/array.t:190-204 (with [ArrayNoArgCheck], no bounds check).
    The default [0] is returned out of bounds, where the C++ has undefined behaviour; every
    theorem about code using it assumes that all arrays involved have the length [rank] and the
    loops modelled here only use subscripts below [rank]. *)
Definition vget (v : vec) (i : nat) : Z := nth i v 0.

(** [a[i] = x] — src/grid/array.t:190-204. *)
Fixpoint vset (v : vec) (i : nat) (x : Z) : vec :=
  match v, i with
  | [], _ => []
  | _ :: v', O => x :: v'
  | y :: v', S i' => y :: vset v' i' x
  end.

(** Pointwise arithmetic used by several loops over the dimensions. *)
Fixpoint vmap2 (f : Z -> Z -> Z) (a b : vec) : vec :=
  match a, b with
  | x :: a', y :: b' => f x y :: vmap2 f a' b'
  | _, _ => []
  end.
