(** C109: what an MPI subdivision acquires is released exactly once. *)
From Coq Require Import List Arith Bool.
Import ListNotations.
From Verif Require Import OwnModel OwnSpec OwnProofs OwnExamples.

(** Programs that copy no initialised subdivision run to the end — nothing is used after or released again after it is
    released — and hold one share for every initialised subdivision and one for every initialised one overwritten. *)
Theorem C109_held_partial : forall (rank : nat) (ps : list oop), cautious_run rank ps nobody ->
  exists s, orun rank ps (oinit rank) = Some s /\ o_live s = w_live (end_world ps nobody) /\
            length (o_heap s) = share rank * (length (w_ready (end_world ps nobody)) + losses ps nobody).
Proof. exact held. Qed.
Print Assumptions C109_held_partial.

(** If moreover nothing initialised was overwritten, nothing is held once all subdivisions are destroyed. *)
Theorem C109_released_partial : forall (rank : nat) (ps : list oop), cautious_run rank ps nobody -> losses ps nobody = 0 ->
  w_live (end_world ps nobody) = [] ->
  exists s, orun rank ps (oinit rank) = Some s /\ o_heap s = [].
Proof. exact all_released. Qed.
Print Assumptions C109_released_partial.

(** After any such program a copy of an initialised subdivision cannot be destroyed without damage: the original can
    afterwards neither exchange nor be destroyed. *)
Theorem C109_copied : forall (rank : nat) (ps : list oop) (x y : nat), cautious_run rank ps nobody ->
  In y (w_ready (end_world ps nobody)) -> ~ In x (w_live (end_world ps nobody)) ->
  (forall dim, orun rank (ps ++ [CopyOf x y; Destruct x; Exchange y dim]) (oinit rank) = None) /\
  orun rank (ps ++ [CopyOf x y; Destruct x; Destruct y]) (oinit rank) = None.
Proof. exact copied. Qed.
Print Assumptions C109_copied.

(** Likewise after an assignment. *)
Theorem C109_assigned : forall (rank : nat) (ps : list oop) (x y : nat), cautious_run rank ps nobody ->
  In y (w_ready (end_world ps nobody)) -> In x (w_live (end_world ps nobody)) -> x <> y ->
  (forall dim, orun rank (ps ++ [AssignFrom x y; Destruct x; Exchange y dim]) (oinit rank) = None) /\
  orun rank (ps ++ [AssignFrom x y; Destruct x; Destruct y]) (oinit rank) = None.
Proof. exact assigned. Qed.
Print Assumptions C109_assigned.

(** After any such program every other use is undefined: of objects that do not exist, exchanges of subdivisions that
    are not initialised or in dimensions they do not have. *)
Theorem C109_misuse : forall (rank : nat) (ps : list oop) (p : oop), cautious_run rank ps nobody ->
  ~ permitted rank p (end_world ps nobody) -> orun rank (ps ++ [p]) (oinit rank) = None.
Proof. exact misuse. Qed.
Print Assumptions C109_misuse.

(** So not every use of the interface is safe, and not every safe one releases all. *)
Theorem C109_safe_refuted : ~ (forall ps, permitted_run 2 ps nobody -> exists s, orun 2 ps (oinit 2) = Some s).
Proof. exact not_safe. Qed.
Print Assumptions C109_safe_refuted.
Theorem C109_balanced_refuted : ~ (forall ps s, permitted_run 2 ps nobody -> w_live (end_world ps nobody) = [] ->
  orun 2 ps (oinit 2) = Some s -> o_heap s = []).
Proof. exact not_balanced. Qed.
Print Assumptions C109_balanced_refuted.

Example C109_hypotheses :
  (cautious_run 2 busy nobody /\ losses busy nobody = 1) /\
  (cautious_run 2 tidy nobody /\ losses tidy nobody = 0 /\ w_live (end_world tidy nobody) = []) /\
  (let ps := [Construct 1; Construct 2; Init 1; Init 2] in
   cautious_run 2 ps nobody /\ In 1 (w_ready (end_world ps nobody)) /\ In 2 (w_live (end_world ps nobody)) /\ ~ In 3 (w_live (end_world ps nobody))).
Proof. exact own_hypotheses. Qed.

Example C109_misuse_hypotheses : cautious_run 2 busy nobody /\ ~ permitted 2 (Exchange 1 2) (end_world busy nobody) /\
  ~ permitted 2 (Destruct 9) (end_world busy nobody).
Proof. exact ex_misuse. Qed.
