(** C80: what is written to a stream.  [StreamModel] holds the program, [StreamSpec] the words used here. *)
From Coq Require Import String.
From Verif Require Import Vec GridSpec GridModel StreamModel StreamSpec StreamProofs StreamExamples.
Local Open Scope string_scope.

(** A grid of rank 1 to 5: a line for each row, the rows in the order in which the later dimensions vary
    more slowly, an empty line after each plane. *)
Theorem C80_layout : forall {V} (show : V -> string) (val : vec -> V) g h,
  (1 <= length (g_lo g) <= 5)%nat -> box_ok (g_lo g) (g_hi g) ->
  (forall p, in_box (g_lo g) (g_hi g) p -> grid_read g h p = Some (val p)) ->
  exists qs, enumerates colex_lt (tl (g_lo g)) (tl (g_hi g)) qs /\
    print_grid show g h = Some (layout show val (g_lo g) (g_hi g) qs).
Proof. exact @printed_layout. Qed.
Print Assumptions C80_layout.

(** Reading the text word by word gives every element exactly once, first index fastest, whatever the
    storage order. *)
Theorem C80_words : forall {V} (show : V -> string) (val : vec -> V) g h,
  (forall v, one_word (show v)) -> (1 <= length (g_lo g) <= 5)%nat -> box_ok (g_lo g) (g_hi g) ->
  (forall p, in_box (g_lo g) (g_hi g) p -> grid_read g h p = Some (val p)) ->
  exists text ps, print_grid show g h = Some text /\ enumerates colex_lt (g_lo g) (g_hi g) ps /\
    words text = map (fun p => show (val p)) ps.
Proof. exact @printed_words. Qed.
Print Assumptions C80_words.

(** Nothing is written, and nothing read, for a grid without cells. *)
Theorem C80_empty : forall {V} (show : V -> string) g h, length (g_hi g) = length (g_lo g) ->
  ~ box_ok (g_lo g) (g_hi g) -> print_grid show g h = Some "".
Proof. exact @empty_prints. Qed.
Print Assumptions C80_empty.

(** Arrays: the elements separated by one space. *)
Theorem C80_array : forall {V} (show : V -> string) (a : list V),
  print_array show a = String.concat " " (map show a) /\
  ((forall v, one_word (show v)) -> words (print_array show a) = map show a).
Proof. exact @array_words. Qed.
Print Assumptions C80_array.
