(** Model of src/util/databuffer.hpp and src/util/databuffer.t. *)
From Coq Require Import ZArith List Bool.
Import ListNotations.
Local Open Scope Z_scope.

Section Buffer.
  Context {T byte : Type}.
  (** [sizeof(T)]; the bytes that make up an object; the object made up of bytes (for the types
      [memcpy] may be used on).  Alignment and the aliasing rules of C++ are not modelled. *)
  Variable dsize : nat.
  Variable bytes_of : T -> list byte.
  Variable object_of : list byte -> T.

  (** The raw data of the grid of characters; [None]: not initialised. *)
  Definition buffer := list (option byte).

  (** [memcpy(data, source, dsize)] at position [pos] of the buffer; [None]: outside the buffer. *)
  Fixpoint store (b : buffer) (pos : nat) (l : list byte) : option buffer :=
    match l with
    | [] => Some b
    | x :: l' =>
        match pos, b with
        | O, _ :: b' => option_map (cons (Some x)) (store b' O l')
        | S pos', y :: b' => option_map (cons y) (store b' pos' l)
        | _, [] => None
        end
    end.

  (** The loop of [makeBuffer] — databuffer.t:42-49: [&buffer(pos)] with [GridAssertCheck] for the
      bounds [0 .. size-1], then [memcpy].  [None]: failed assertion or access outside. *)
  Fixpoint copy_loop (size : Z) (b : buffer) (pos : Z) (xs : list T) : option buffer :=
    match xs with
    | [] => Some b
    | x :: xs' =>
        if (0 <=? pos) && (pos <=? size - 1) then
          match store b (Z.to_nat pos) (bytes_of x) with
          | None => None
          | Some b' => copy_loop size b' (pos + Z.of_nat dsize) xs'
          end
        else None
    end.

  (** [makeBuffer] — databuffer.t:31-50, for a container of pointers (or iterators) to the objects
      [xs].  [resize] allocates new memory, whatever the buffer held before.  [None]: undefined,
      also if the number of objects or of bytes does not fit into an [int]. *)
  Definition make_buffer (old : buffer) (xs : list T) : option buffer :=
    let n := Z.of_nat (length xs) in
    let sz := n * Z.of_nat dsize in
    if (2 ^ 31 <=? n) || (2 ^ 31 <=? sz) then None
    else copy_loop sz (repeat None (Z.to_nat sz)) 0 xs.

  (** [operator*] of the iterator at [pos] — databuffer.hpp:81-84; [None]: the object is outside the
      buffer or not initialised. *)
  Fixpoint all_set (l : buffer) : option (list byte) :=
    match l with
    | [] => Some []
    | Some x :: l' => option_map (cons x) (all_set l')
    | None :: _ => None
    end.
  Definition deref (b : buffer) (pos : nat) : option T :=
    let l := firstn dsize (skipn pos b) in
    if Nat.eqb (length l) dsize then option_map object_of (all_set l) else None.

  (** [for (it = begin(); it != end(); ++it)] — databuffer.hpp:58-79, 106-114: the objects visited.
      Outer [None]: the loop does not end within [fuel] rounds; inner [None]: undefined. *)
  Fixpoint iterate (fuel : nat) (b : buffer) (pos : nat) : option (option (list T)) :=
    if Nat.eqb pos (length b) then Some (Some [])
    else
      match fuel with
      | O => None
      | S fuel' =>
          match deref b pos with
          | None => Some None
          | Some x =>
              match iterate fuel' b (pos + dsize) with
              | Some (Some l) => Some (Some (x :: l))
              | r => r
              end
          end
      end.
End Buffer.
Arguments buffer : clear implicits.
