(** The classes that a parser works with: those of the registry it was made with, of which it holds a
    copy — src/parser/parser.hpp:44-57. *)
From Coq Require Import List String.
From Verif Require Import ExprModel DeckModel ClassModel.
Import ListNotations.

(** [impl c]: the parameters that the C++ class [c] registers, see [DeckModel.class]. *)
Definition deck_classes (A : arith) (impl : nat -> list (string * pkind A)) (s : ClassModel.state) (b : nat) : list (string * class A) :=
  match object s b with
  | Some (m, _) =>
      map (fun e => (fst e, match nth_error (descs s) (snd e) with
                            | Some x => mkClass A (children x) (option_map impl (factory x))
                            | None => mkClass A [] None
                            end)) (nth m (maps s) [])
  | None => []
  end.
