(** Specification of linear storage orders. *)
From Verif Require Import Vec GridSpec.

(** Row-major position: the number of indices of the box that precede [p] when the last
    dimension runs fastest. *)
Fixpoint row_major (lo hi p : vec) : Z :=
  match lo, hi, p with
  | l :: lo', h :: hi', x :: p' => (x - l) * box_size lo' hi' + row_major lo' hi' p'
  | _, _, _ => 0
  end.

(** Column-major position: the first dimension runs fastest. *)
Fixpoint col_major (lo hi p : vec) : Z :=
  match lo, hi, p with
  | l :: lo', h :: hi', x :: p' => (x - l) + (h - l + 1) * col_major lo' hi' p'
  | _, _, _ => 0
  end.

(** [addr] maps the indices of the box one to one onto the elements of a block of [n] elements of
    [sz] bytes starting at byte address [base]. *)
Definition addresses_block (addr : vec -> Z) (base sz n : Z) (lo hi : vec) : Prop :=
  (forall p, in_box lo hi p -> exists k, 0 <= k < n /\ addr p = base + sz * k) /\
  (forall p q, in_box lo hi p -> in_box lo hi q -> addr p = addr q -> p = q) /\
  (forall k, 0 <= k < n -> exists p, in_box lo hi p /\ addr p = base + sz * k).

(** [q] is [p] moved by one in dimension [d]. *)
Definition next_in (d : nat) (p q : vec) : Prop :=
  length q = length p /\ (d < length p)%nat /\
  forall i, vget q i = if Nat.eqb i d then vget p i + 1 else vget p i.
