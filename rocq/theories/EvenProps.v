(** Property theorems C112: how evenly a domain is subdivided, and what it means for C27 and C66. *)
From Verif Require Import Vec GridSpec GridModel BoundaryModel MpiModel MpiSpec MpiFloatModel EvenSpec EvenExamples.
Local Open Scope Z_scope.

(** C112, in exact arithmetic: whatever the process grid, the domain [0..high] and the ghost width, the numbers of inner cells
    of any two processes differ by at most two in every dimension.
    Missing from the full property: they may differ by two, not only by one (refuted below). *)
Theorem C112_even_partial : forall dims high delta, process_grid dims -> length high = length dims ->
  (forall i, (i < length dims)%nat -> 1 <= vget high i) ->
  within 2 dims (fun c => inner_width (mpi_bounds exact_cut dims high delta c)).
Proof. exact even_exact. Qed.
Print Assumptions C112_even_partial.

(** How many cells each has: a process in between [(high - 1) / n], rounded up or down; the first one one more than this
    rounded down, the last one more than this rounded up. *)
Theorem C112_extents : forall dims high delta, length high = length dims ->
  forall c i, is_process dims c -> (i < length dims)%nat -> 1 <= vget high i ->
  let n := vget dims i in
  let w := inner_width (mpi_bounds exact_cut dims high delta c) i in
  (n = 1 -> w = vget high i + 1) /\
  (2 <= n -> vget c i = 0 -> vget high i - 1 < n * w <= vget high i - 1 + n) /\
  (2 <= n -> vget c i = n - 1 -> vget high i - 1 + n <= n * w < vget high i - 1 + 2 * n) /\
  (0 < vget c i < n - 1 -> vget high i - 1 - n < n * w < vget high i - 1 + n).
Proof. exact extents_exact. Qed.
Print Assumptions C112_extents.

(** Every process has cells if and only if there are at most two processes, or more cells than processes, in the dimension. *)
Theorem C112_idle_exactly : forall dims high delta, process_grid dims -> length high = length dims ->
  forall i, (i < length dims)%nat -> 1 <= vget high i ->
  (nobody_idle dims (fun c => inner_width (mpi_bounds exact_cut dims high delta c)) i <->
   vget dims i <= 2 \/ vget dims i <= vget high i).
Proof. exact idle_exact. Qed.
Print Assumptions C112_idle_exactly.

(** In binary64, as the code computes the cuts, both hold for domains in which the number of cells times the number of
    processes of a dimension is at most 2^48. *)
Theorem C112_binary64_partial : forall dims high delta, process_grid dims -> length high = length dims ->
  (forall i, (i < length dims)%nat -> 1 <= vget high i /\ vget high i * vget dims i <= 2 ^ 48) ->
  within 2 dims (fun c => inner_width (mpi_bounds b64_cut dims high delta c)) /\
  forall i, (i < length dims)%nat ->
    (nobody_idle dims (fun c => inner_width (mpi_bounds b64_cut dims high delta c)) i <->
     vget dims i <= 2 \/ vget dims i <= vget high i).
Proof. exact close_b64. Qed.
Print Assumptions C112_binary64_partial.

(** For all domains an [int] can describe, rounding adds at most one to the difference, and nobody is idle in a dimension with
    more than twice as many cells as processes. *)
Theorem C112_binary64_any : forall dims high delta, process_grid dims -> length high = length dims ->
  (forall i, (i < length dims)%nat -> 1 <= vget high i <= 2 ^ 31 /\ vget dims i <= 2 ^ 31) ->
  within 3 dims (fun c => inner_width (mpi_bounds b64_cut dims high delta c)) /\
  forall i, (i < length dims)%nat -> 2 * vget dims i < vget high i ->
    nobody_idle dims (fun c => inner_width (mpi_bounds b64_cut dims high delta c)) i.
Proof. exact even_b64. Qed.
Print Assumptions C112_binary64_any.

Example C112_hypotheses :
  process_grid [4; 3] /\
  (forall i, (i < 2)%nat -> 1 <= vget [62; 30] i <= 2 ^ 31 /\ vget [4; 3] i <= 2 ^ 31 /\ 2 * vget [4; 3] i < vget [62; 30] i /\
     vget [62; 30] i * vget [4; 3] i <= 2 ^ 48) /\
  map (fun k => inner_width (mpi_bounds exact_cut [4; 3] [62; 30] 2 [k; 0]) 0) [0; 1; 2; 3] = [16; 15; 15; 17] /\
  map (fun k => inner_width (mpi_bounds exact_cut [4; 3] [62; 30] 2 [0; k]) 1) [0; 1; 2] = [10; 10; 11].
Proof. exact ex_even. Qed.

(** The code violates the full property: also with many cells to each process, one has 15 cells and another 17 ... *)
Theorem C112_uneven_refuted : exists dims high delta c c',
  process_grid dims /\ is_process dims c /\ is_process dims c' /\ 10 * vget dims 0 < vget high 0 /\
  inner_width (mpi_bounds exact_cut dims high delta c) 0 = 15 /\ inner_width (mpi_bounds exact_cut dims high delta c') 0 = 17.
Proof. exact uneven. Qed.
Print Assumptions C112_uneven_refuted.

(** ... and with as many cells as processes, one process has none and another two. *)
Theorem C112_idle_refuted : exists dims high delta c c',
  process_grid dims /\ is_process dims c /\ is_process dims c' /\ vget dims 0 <= vget high 0 + 1 /\
  inner_width (mpi_bounds exact_cut dims high delta c) 0 = 0 /\ inner_width (mpi_bounds exact_cut dims high delta c') 0 = 2.
Proof. exact idle_process. Qed.
Print Assumptions C112_idle_refuted.

(** For C27 ([k = 1]) and C66 ([k = 2]): their conditions on the local domains hold if there are, in each dimension, more than
    [k] times as many cells as ghost cells of all processes together, with exact cuts ... *)
Theorem C27_enough_cells : forall dims high delta k gr, process_grid dims -> length high = length dims -> 1 <= delta -> 1 <= k ->
  (forall i, (i < length dims)%nat -> k * delta * vget dims i < vget high i) ->
  (forall c p, is_process dims c -> in_local (mpi_bounds exact_cut dims high delta c) p -> in_box (g_lo (gr c)) (g_hi (gr c)) p) ->
  subdivided exact_cut dims high delta k gr.
Proof. exact enough_exact. Qed.
Print Assumptions C27_enough_cells.

(** ... and with those computed in binary64. *)
Theorem C27_enough_cells_binary64 : forall dims high delta k gr, process_grid dims -> length high = length dims -> 1 <= delta -> 1 <= k ->
  (forall i, (i < length dims)%nat -> k * delta * vget dims i < vget high i <= 2 ^ 31 /\ vget high i * vget dims i <= 2 ^ 48) ->
  (forall c p, is_process dims c -> in_local (mpi_bounds b64_cut dims high delta c) p -> in_box (g_lo (gr c)) (g_hi (gr c)) p) ->
  subdivided b64_cut dims high delta k gr.
Proof. exact enough_b64. Qed.
Print Assumptions C27_enough_cells_binary64.

Example C27_enough_hypotheses : subdivided exact_cut [4; 3] [62; 30] 2 2 (tight exact_cut [4; 3] [62; 30] 2) /\
  subdivided b64_cut [4; 3] [62; 30] 2 2 (tight b64_cut [4; 3] [62; 30] 2).
Proof. exact ex_enough. Qed.
