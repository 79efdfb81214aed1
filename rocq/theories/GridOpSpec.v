(** Specification of a grid as a map from indices to values. *)
From Verif Require Import Vec GridSpec GridModel.

(** Index equality. *)
Fixpoint veqb (a b : vec) : bool :=
  match a, b with
  | [], [] => true
  | x :: a', y :: b' => (x =? y) && veqb a' b'
  | _, _ => false
  end.

(** The abstract grid: a function from indices to values; a write changes one index. *)
Fixpoint map_run {V} (m : vec -> V) (ops : list (gop V)) : (vec -> V) * list V :=
  match ops with
  | [] => (m, [])
  | GRead p :: ops' => let '(m', out) := map_run m ops' in (m', m p :: out)
  | GWrite p v :: ops' => map_run (fun q => if veqb q p then v else m q) ops'
  end.

Definition op_index {V} (o : gop V) : vec := match o with GRead p | GWrite p _ => p end.
