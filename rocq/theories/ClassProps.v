(** C99: a block class allows exactly the classes that were added to it.  What a program has said is
    read off its operations in ClassSpec.v. *)
From Coq Require Import List Bool Arith String.
From Verif Require Import ExprModel DeckModel DeckSpec DeckExamples TextSpec ClassModel ClassSpec ClassProofs ClassDeckModel ClassExamples.
Import ListNotations.
Local Open Scope string_scope.

(** A program is defined iff it uses only objects that exist, and references only as long as their
    class is not registered again and an object of the registry exists. *)
Theorem C99_defined :
  forall program, (exists s, ClassModel.run empty program = Some s) <-> legal (rev program) = true.
Proof. exact defined. Qed.
Print Assumptions C99_defined.

(** For every object that exists: the classes known, their children and their C++ classes are what
    was said, through any object or reference, since the class was last registered. *)
Theorem C99_history :
  forall program s b g r, ClassModel.run empty program = Some s -> member (rev program) b = Some (g, r) ->
  restricts s b = Some r /\
  forall parent,
    (forall child, ClassModel.has_child s b parent child =
       if known (rev program) g parent
       then Some (if in_dec string_dec child (added (rev program) g parent) then true else false) else None) /\
    makes s b parent = set_to (rev program) g parent.
Proof.
  exact (fun program s b g r E M =>
    conj (eq_trans (restricts_of program s b E) (f_equal (option_map snd) M))
      (fun parent => conj (fun child => children_of program s b g r parent child E M) (class_of program s b g r parent E M))).
Qed.
Print Assumptions C99_history.

(** If no class is registered again, a class allows exactly the classes ever added to it. *)
Theorem C99_once_partial :
  forall program s b g r, ClassModel.run empty program = Some s -> registered_once (rev program) = true ->
  member (rev program) b = Some (g, r) -> forall parent child,
  (ClassModel.has_child s b parent child = Some true <-> ever_added program g parent child) /\
  (ClassModel.has_child s b parent child = None <-> known (rev program) g parent = false).
Proof. exact (fun program s b g r E R M parent child => once_children program s b g r parent child E R M). Qed.
Print Assumptions C99_once_partial.

(** Registering a class again makes it forget, and leaves the first reference dangling. *)
Theorem C99_again_refuted :
  exists program s b g parent child,
    ClassModel.run empty program = Some s /\ registry (rev program) b = Some g /\ ever_added program g parent child /\
    ClassModel.has_child s b parent child = Some false /\
    exists k, reference (rev program) k = Some (g, parent) /\ forall c, ClassModel.run empty (program ++ [AddChild k c]) = None.
Proof. exact again_refutes. Qed.
Print Assumptions C99_again_refuted.

(** In a deck accepted by a parser made with a registry that restricts blocks, every block is inside a
    block of a class to which its class was added. *)
Theorem C99_decks :
  forall A reg funs, typed_functions A funs -> forall impl program s b g,
  ClassModel.run empty program = Some s -> member (rev program) b = Some (g, true) ->
  (forall c, typed_classes A [("", mkClass A [] (Some (impl c)))]) ->
  forall root rootclass text d', accepts A reg funs true text (new_deck A root rootclass (deck_classes A impl s b)) d' ->
  forall i blk o outer, nth_error (d_blocks d') i = Some blk -> b_parent blk = Some o -> nth_error (d_blocks d') o = Some outer ->
  In (b_class blk) (added (rev program) g (b_class outer)).
Proof. exact deck_nesting. Qed.
Print Assumptions C99_decks.

(** The hypotheses are met: classes registered through two objects, and a deck with nested blocks. *)
Example C99_case :
  (ClassModel.run empty body_program = Some body_state /\ registered_once (rev body_program) = true /\
   member (rev body_program) 1 = Some (0, true) /\ deck_classes deck_arith body_impl body_state 1 = bodies /\
   added (rev body_program) 0 "main" = ["item"; "group"]) /\
  (forall c, typed_classes deck_arith [("", mkClass deck_arith [] (Some (body_impl c)))]) /\
  accepts deck_arith no_fun no_eval true deck1 (new_deck deck_arith "main" "main" (deck_classes deck_arith body_impl body_state 1)) deck1_end.
Proof. exact (conj body_runs (conj body_typed body_accepted)). Qed.
