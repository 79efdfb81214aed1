(** Specifications for index boxes, independent of the model. *)
From Verif Require Import Vec.
From Coq Require Import Sorted.

(** [p] is an index of the box with inclusive corners [lo], [hi]: same rank and
    [lo <= p <= hi] in every dimension. *)
Fixpoint in_box (lo hi p : vec) : Prop :=
  match lo, hi, p with
  | [], [], [] => True
  | l :: lo', h :: hi', x :: p' => l <= x <= h /\ in_box lo' hi' p'
  | _, _, _ => False
  end.

(** The box has at least one cell in every dimension. *)
Fixpoint box_ok (lo hi : vec) : Prop :=
  match lo, hi with
  | [], [] => True
  | l :: lo', h :: hi' => l <= h /\ box_ok lo' hi'
  | _, _ => False
  end.

(** Number of cells. *)
Fixpoint box_size (lo hi : vec) : Z :=
  match lo, hi with
  | l :: lo', h :: hi' => (h - l + 1) * box_size lo' hi'
  | _, _ => 1
  end.

(** Lexicographic order: the first (slowest) dimension decides; row-major order. *)
Inductive lex_lt : vec -> vec -> Prop :=
| lex_here x y p q : x < y -> length p = length q -> lex_lt (x :: p) (y :: q)
| lex_next x p q : lex_lt p q -> lex_lt (x :: p) (x :: q).

(** Column-major order: the last dimension decides first. *)
Definition colex_lt (p q : vec) : Prop := lex_lt (rev p) (rev q).

(** [l] enumerates the box [lo..hi]: exactly its indices, each once, in the strict order [lt].
    (A list sorted by a strict order has no duplicates, and there is only one such list.) *)
Definition enumerates (lt : vec -> vec -> Prop) (lo hi : vec) (l : list vec) : Prop :=
  (forall p, In p l <-> in_box lo hi p) /\ StronglySorted lt l /\ NoDup l.

(** [p] and [q] differ by at most [d_i] in dimension [i]. *)
Fixpoint within (ds p q : vec) : Prop :=
  match ds, p, q with
  | [], [], [] => True
  | d :: ds', x :: p', y :: q' => Z.abs (x - y) <= d /\ within ds' p' q'
  | _, _, _ => False
  end.
