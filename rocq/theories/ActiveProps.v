(** C110: grids are written by exactly the active processes, and no process waits for one that is not active. *)
From Coq Require Import List Arith Bool.
Import ListNotations.
From Verif Require Import ActiveModel ActiveSpec ActiveProofs ActiveExamples.

(** Missing from the full statement: that the processes that open files may change in the course of the program.  See the two
    theorems that follow. *)
Theorem C110_writer_partial : forall n s l, 0 < n ->
  orderly Writer n l everywhere None -> steady n s l everywhere ->
  exists c, crun Writer n l cstart = Some (c, expected Writer n l everywhere).
Proof. exact writer_runs. Qed.
Print Assumptions C110_writer_partial.

(** Once the processes in [s] have opened a file, no other set of processes that shares a process with [s] can. *)
Theorem C110_writer_change : forall n s l1 l2 a, 0 < n ->
  orderly Writer n (l1 ++ OpenAll :: l2) everywhere None -> steady n s (l1 ++ OpenAll :: l2) everywhere ->
  those n (activity l1 everywhere) = s -> those n a <> s -> (exists p, In p s /\ In p (those n a)) ->
  crun Writer n ((l1 ++ OpenAll :: l2) ++ [Choose (fun p => Some (a p)); OpenAll]) cstart = None.
Proof. exact writer_changes. Qed.
Print Assumptions C110_writer_change.

Theorem C110_writer_refuted : ~ forall n l, 0 < n -> orderly Writer n l everywhere None ->
  exists c, crun Writer n l cstart = Some (c, expected Writer n l everywhere).
Proof. exact writers_refuted. Qed.
Print Assumptions C110_writer_refuted.

(** Missing from the full statement: that the first opening without a new call of [setActive] is one by some, but not all. *)
Theorem C110_reader_partial : forall n l, 0 < n ->
  orderly Reader n l everywhere None -> announced n true l false false everywhere ->
  exists c, crun Reader n l cstart = Some (c, expected Reader n l everywhere).
Proof. exact reader_runs. Qed.
Print Assumptions C110_reader_partial.

(** If [setActive] has been called before each opening, a second opening without it hangs when some, but not all, are active. *)
Theorem C110_reader_again : forall n l a p q,
  orderly Reader n l everywhere None -> announced n false l false false everywhere ->
  p < n -> a p = true -> q < n -> a q = false ->
  crun Reader n (l ++ [Choose (fun p => Some (a p)); OpenAll; OpenAll]) cstart = None.
Proof. exact reader_again. Qed.
Print Assumptions C110_reader_again.

Theorem C110_reader_refuted : ~ forall n l, 0 < n -> orderly Reader n l everywhere None ->
  exists c, crun Reader n l cstart = Some (c, expected Reader n l everywhere).
Proof. exact readers_refuted. Qed.
Print Assumptions C110_reader_refuted.

(** After any program: if some processes call [setActive] and others do not, the next opening hangs. *)
Theorem C110_everyone : forall k n l f p q, p < n -> q < n -> f p <> None -> f q = None ->
  crun k n (l ++ [OpenAll; Choose f; OpenAll]) cstart = None.
Proof. exact (fun k n => not_everyone n k). Qed.
Print Assumptions C110_everyone.

(** After any program: reading a file aborts the processes that are not active. *)
Theorem C110_inactive : forall n l p, p < n -> activity l everywhere p = false ->
  crun Reader n (l ++ [OpenAll; TransferAll]) cstart = None.
Proof. exact inactive_read. Qed.
Print Assumptions C110_inactive.

(** Grids are not always written with their attributes. *)
Theorem C110_attributes_refuted : ~ forall n l c e p ps b, 0 < n -> orderly Writer n l everywhere None ->
  crun Writer n l cstart = Some (c, e) -> In (Moved (p :: ps) b) e -> b = true.
Proof. exact attributes_refuted. Qed.
Print Assumptions C110_attributes_refuted.

Theorem C110_hypotheses :
  (orderly Writer 4 two_writers everywhere None /\ steady 4 [1; 3] two_writers everywhere) /\
  (orderly Reader 4 some_readers everywhere None /\ announced 4 true some_readers false false everywhere) /\
  (orderly Reader 4 [choose [0; 2]; OpenAll] everywhere None /\ announced 4 false [choose [0; 2]; OpenAll] false false everywhere) /\
  (exists c, crun Writer 4 two_writers cstart =
     Some (c, [Opened [(1, [1; 3]); (3, [1; 3])]; Moved [1; 3] false; Opened []; Opened [(1, [1; 3]); (3, [1; 3])]; Moved [1; 3] false])).
Proof. exact active_hypotheses. Qed.
Print Assumptions C110_hypotheses.
