(** C111: transformed views show the transformed values of their base grid. *)
From Coq Require Import ZArith List.
Import ListNotations.
From Verif Require Import TransModel TransSpec TransProofs TransExamples.

(** After any program: base grids hold what was stored in them directly, whatever was done with views, and a value read from a
    view is the transformed value that its base grid has at the index at this time; outside the grid, or without a base grid, the
    program is undefined. *)
Theorem C111_values : forall B T (bs : nat -> base B) (f0 : B -> T) l zero w es v i,
  run l (start bs f0 zero) = Some (w, es) ->
  (forall b j, b_at (g_bases w b) j = value_of bs (rev l) b j) /\
  run (l ++ [Value v i]) (start bs f0 zero) =
    match shown bs f0 (rev l) v i with Some x => Some (w, es ++ [Saw x]) | None => None end.
Proof. exact (fun B T => @run_values B T). Qed.
Print Assumptions C111_values.

(** Missing from the full statement: references that are used after another reference was obtained. *)
Theorem C111_references_partial : forall B T (bs : nat -> base B) (f0 : B -> T) zero l es,
  prompt l None -> expected bs f0 l [] = Some es -> exists w, run l (start bs f0 zero) = Some (w, es).
Proof. exact (fun B T => @prompt_run B T). Qed.
Print Assumptions C111_references_partial.

(** After any program: of two references obtained one after the other, from whatever views, both show the second value. *)
Theorem C111_two : forall B T (bs : nat -> base B) (f0 : B -> T) l w es zero v i r u j s x y,
  run l (start bs f0 zero) = Some (w, es) ->
  shown bs f0 (rev l) v i = Some x -> shown bs f0 (rev l) u j = Some y ->
  exists w', run (l ++ [Refer v i r; Refer u j s; Follow r; Follow s]) (start bs f0 zero) = Some (w', es ++ [Saw y; Saw y]).
Proof. exact (fun B T => @run_two B T). Qed.
Print Assumptions C111_two.

Theorem C111_references_refuted : ~ forall (bs : nat -> base Z) (f0 : Z -> Z) zero l es,
  expected bs f0 l [] = Some es -> exists w, run l (start bs f0 zero) = Some (w, es).
Proof. exact two_references_refute. Qed.
Print Assumptions C111_references_refuted.

Theorem C111_hypotheses :
  (prompt two_views None /\
   expected grids square two_views [] = Some [Saw 144; Saw (-12); Saw 9; Saw (-3); Saw 100; Saw (-3); SawBounds [0; 0] [9; 9]; Saw 5])%Z /\
  (exists w, run [SetBase 0 5] (start grids square 0%Z) = Some (w, [])) /\
  shown grids square (rev [SetBase 0 5]) 0 [1; 1]%Z = Some 121%Z /\ shown grids square (rev [SetBase 0 5]) 0 [2; 2]%Z = Some 484%Z.
Proof. exact trans_hypotheses. Qed.
Print Assumptions C111_hypotheses.
