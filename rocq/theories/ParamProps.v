(** Property C97: array parameters.  Names of components, kinds and the conditions on names are in
    ParamSpec.v; the parameters in accepted decks are those of C75. *)
From Coq Require Import ZArith List String Ascii.
From Verif Require Import ExprModel DeckModel DeckSpec DeckExamples BlockModel BlockSpec TextSpec ParamModel ParamSpec ParamProofs ParamExamples.
Import ListNotations.
Local Open Scope string_scope.

(** The calls register each scalar under its name and each component of an array under the name of
    the array followed by its letter, and nothing else; they throw iff an array has more components
    than letters. *)
Theorem C97_registered :
  forall (A : arith) (calls : list (setup_call A)),
    (forall l, setup_calls A calls = Some l ->
       forall n k, In (n, k) l <-> exists c, In c calls /\ registers_param A c n k) /\
    (setup_calls A calls = None <-> exists c, In c calls /\ ~ enough_letters A c).
Proof. exact setup_spec. Qed.
Print Assumptions C97_registered.

(** Without an extension component 0 is called x, 1 y, 2 z, 3 u, 4 v and 5 w. *)
Theorem C97_default_letters :
  forall (A : arith) name var ds p l, setup_calls A [AddArrayParameter A name var ds p letters] = Some l ->
    map fst l = map (fun c => name ++ c) (firstn (List.length var) ["x"; "y"; "z"; "u"; "v"; "w"]).
Proof. exact default_letters. Qed.
Print Assumptions C97_default_letters.

(** Names never clash if scalars are different, arrays are different, no letter is used twice, and no
    scalar is called like a component; in particular components of different arrays never do. *)
Theorem C97_names :
  forall (A : arith) (calls : list (setup_call A)) l,
    setup_calls A calls = Some l -> different_names A calls -> NoDup (map fst l).
Proof. exact setup_names. Qed.
Print Assumptions C97_names.

(** In every object of an accepted deck each component is a deck variable of the object's block, and
    evaluating the parameters gives the component the value of that variable (a read-only component
    keeps its content). *)
Theorem C97_components_partial :
  forall A reg funs restricted, typed_functions A funs ->
  forall (cs : class_calls A) classes, classes_of A cs classes -> NoDup (map fst cs) ->
  (forall name allowed calls, In (name, (allowed, Some calls)) cs -> typed_calls A calls /\ different_names A calls) ->
  forall root rootclass text d, accepts A reg funs restricted text (new_deck A root rootclass classes) d ->
  forall i o allowed calls name var ds p ext j m,
    nth_error (d_objs d) i = Some o -> In (o_class o, (allowed, Some calls)) cs ->
    In (AddArrayParameter A name var ds p ext) calls -> nth_error var j = Some m ->
    exists n x c v k, component name ext j n /\ kind_is A p m (default_of A ds j) k /\
      binds A d i n x (Some c) /\ declares (d_blocks d) (o_vars o) n x /\ nth_error (d_vars d) x = Some v /\
      param_state A (d_mem d) k (Some c) v /\
      (p = ReadWrite -> forall d1, evaluate_all A funs i d = inr d1 -> ready A funs d v /\ nth_error (d_mem d1) c = Some (v_val v)) /\
      (p = OnlyRead -> forall d1, evaluate_all A funs i d = inr d1 -> nth_error (d_mem d1) c = nth_error (d_mem d) c).
Proof. exact array_components. Qed.
Print Assumptions C97_components_partial.

(** When a scalar is called like a component nothing is reported, and the value 5 that the deck
    assigns reaches no C++ variable. *)
Theorem C97_clash_refuted :
  exists d d1, setup_calls deck_arith clash_calls = Some clash_params /\
    accepts deck_arith no_fun no_eval false clash_deck (new_deck deck_arith "main" "main" clash_classes) d /\
    value_of d "vx" = Some 5%Z /\ evaluate_all deck_arith no_eval 0 d = inr d1 /\ d_mem d1 = zs [0; 1; 1]%Z.
Proof. exact clash_lost. Qed.
Print Assumptions C97_clash_refuted.
