(** C31: data buffers. *)
From Coq Require Import ZArith List.
From Verif Require Import BufferModel BufferProofs.
Import ListNotations.
Local Open Scope Z_scope.

(** Whatever the buffer held before, [makeBuffer] stores the bytes of the objects one after the
    other, and iterating over the buffer gives the objects back in their order.  Missing: containers
    of 2 GB and more. *)
Theorem C31_round_trip_partial :
  forall (T byte : Type) (dsize : nat) (bytes_of : T -> list byte) (object_of : list byte -> T),
  (0 < dsize)%nat -> (forall x, length (bytes_of x) = dsize) -> (forall x, object_of (bytes_of x) = x) ->
  forall old xs, Z.of_nat (length xs) * Z.of_nat dsize < 2 ^ 31 ->
  exists b, make_buffer dsize bytes_of old xs = Some b /\ b = map Some (flat_map bytes_of xs) /\
    forall fuel, (length xs <= fuel)%nat -> iterate dsize object_of fuel b 0 = Some (Some xs).
Proof. exact @round_trip. Qed.
Print Assumptions C31_round_trip_partial.

(** For those the size in bytes overflows. *)
Theorem C31_large_refuted :
  forall (T byte : Type) (dsize : nat) (bytes_of : T -> list byte) old xs,
  2 ^ 31 <= Z.of_nat (length xs) * Z.of_nat dsize -> make_buffer dsize bytes_of old xs = None.
Proof. exact @too_large. Qed.
Print Assumptions C31_large_refuted.
