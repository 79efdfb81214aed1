(** Specifications for means, singletons and unordered iteration. *)
From Coq Require Import ZArith QArith List.
Import ListNotations.

Definition qsum (xs : list Q) : Q := fold_right Qplus 0%Q xs.
Definition zsum (xs : list Z) : Z := fold_right Z.add 0%Z xs.
(** No sum of the first elements leaves the range of [int]. *)
Definition sums_fit (xs : list Z) : Prop :=
  forall n, (- 2 ^ 31 <= zsum (firstn n xs) < 2 ^ 31)%Z.

(** The classes in the order of their first occurrence. *)
Fixpoint firsts (seen cs : list nat) : list nat :=
  match cs with
  | [] => []
  | c :: cs' => if existsb (Nat.eqb c) seen then firsts seen cs' else c :: firsts (c :: seen) cs'
  end.
