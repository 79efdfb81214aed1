(** Property theorem C95: simulations on a divided domain. *)
From Verif Require Import Vec GridSpec RangeModel GridModel GridProofs BoundaryModel NetModel MpiModel MpiSpec MpiExamples
  SimModel SimSpec SimExamples.
Local Open Scope Z_scope.

(** C95.  [n] steps of a simulation — update of the inner cells of every process from the values before
    the step, through a second grid, then [exchange] — leave in every cell of every process, ghost cells
    included, the value that the same [n] steps on the undivided periodic domain give; under every
    schedule, without deadlock. *)
Theorem C95_undivided : forall (V : Type) (plus : V -> V -> V) cut dims high delta gr tmp offs f n (h0 : vec -> heap V) G,
  set_up cut dims high delta gr tmp offs h0 G ->
  let bd := mpi_bounds cut dims high delta in
  exists N, forall fuel, (N <= fuel)%nat ->
  let update c := update_two_grids offs f fuel (bd c) (gr c) (tmp c) in
  let prog := sim_prog dims n in
  under_every_schedule dims (length prog) (call_dst dims prog)
    (sim_step plus fuel dims bd gr update n) (sim_run plus fuel dims bd gr update n) h0
    (fun h => forall c, is_process dims c ->
      (forall p, in_local (bd c) p -> grid_read (gr c) (h c) p = Some (undivided (wrap high) offs f G n (wrap high p))) /\
      (forall b, b <> g_block (gr c) -> b <> g_block (tmp c) -> h c b = h0 c b)).
Proof. exact set_up_undivided. Qed.
Print Assumptions C95_undivided.

(** Two divisions of the same domain — numbers of processes, cuts and ghost widths may differ — that
    start from the same values end, however they are scheduled, with the same value in every cell. *)
Theorem C95_same_result : forall (V : Type) (plus : V -> V -> V) high offs f n G
    cut1 dims1 delta1 gr1 tmp1 (h1 : vec -> heap V) cut2 dims2 delta2 gr2 tmp2 (h2 : vec -> heap V),
  set_up cut1 dims1 high delta1 gr1 tmp1 offs h1 G -> set_up cut2 dims2 high delta2 gr2 tmp2 offs h2 G ->
  let bd1 := mpi_bounds cut1 dims1 high delta1 in
  let bd2 := mpi_bounds cut2 dims2 high delta2 in
  exists N, forall fuel, (N <= fuel)%nat -> forall es1 es2 st1 st2,
  Forall (fun e => is_process dims1 (event_proc e)) es1 -> Forall (fun e => is_process dims2 (event_proc e)) es2 ->
  sim_run plus fuel dims1 bd1 gr1 (fun c => update_two_grids offs f fuel (bd1 c) (gr1 c) (tmp1 c)) n es1 (net_init h1) = Next st1 ->
  sim_run plus fuel dims2 bd2 gr2 (fun c => update_two_grids offs f fuel (bd2 c) (gr2 c) (tmp2 c)) n es2 (net_init h2) = Next st2 ->
  finished dims1 (length (sim_prog dims1 n)) st1 -> finished dims2 (length (sim_prog dims2 n)) st2 ->
  forall p c1 c2, is_process dims1 c1 -> is_process dims2 c2 -> in_inner (bd1 c1) p -> in_inner (bd2 c2) p ->
  exists v, grid_read (gr1 c1) (pr_mem (n_proc st1 c1)) p = Some v /\ grid_read (gr2 c2) (pr_mem (n_proc st2 c2)) p = Some v.
Proof. exact same_result. Qed.
Print Assumptions C95_same_result.

(** The same with [SerialSubdivision] on one process. *)
Theorem C95_serial : forall (V : Type) high delta (g tmp : grid) offs f n (h0 : heap V) G,
  serial_set_up high delta g tmp offs h0 G ->
  let lo := map (fun _ => - delta) high in
  let hi := map (fun x => x + delta) high in
  let b := mkBd lo hi delta in
  exists N, forall fuel, (N <= fuel)%nat ->
  exists h, serial_sim fuel b g (update_two_grids offs f fuel b g tmp) n h0 = Some (Some h) /\
    (forall p, in_box lo hi p -> grid_read g h p = Some (undivided (wrap high) offs f G n (wrap high p))) /\
    (forall c, c <> g_block g -> c <> g_block tmp -> h c = h0 c).
Proof. exact serial_set_up_undivided. Qed.
Print Assumptions C95_serial.

(** A domain of 10 x 6 cells on one process and on two, divided in either dimension. *)
Example C95_hypotheses : forall dims, dims = [1; 1] \/ dims = [2; 1] \/ dims = [1; 2] ->
  set_up exact_cut dims ex_high 1 (s_gr dims) (s_tmp dims) example_offsets (s_h0 dims) s_G.
Proof. exact s_set_up. Qed.
Example C95_serial_hypotheses :
  serial_set_up ex_high 1 (s_gr [1; 1] [0; 0]) (s_tmp [1; 1] [0; 0]) example_offsets (s_h0 [1; 1] [0; 0]) s_G.
Proof. exact serial_s_set_up. Qed.
Example C95_run :
  s_value two_grids [2; 1] [[0; 0]; [1; 0]] 2 [1; 0] [5; 2] = Some (undivided (wrap ex_high) example_offsets (example_rule 1) s_G 2 [5; 2]) /\
  s_value two_grids [1; 2] [[0; 0]; [0; 1]] 2 [0; 0] [5; 2] = Some (undivided (wrap ex_high) example_offsets (example_rule 1) s_G 2 [5; 2]).
Proof. exact s_run. Qed.

(** The update in place of the example programs does not have the property. *)
Theorem C95_in_place_counterexample :
  s_value in_place [1; 1] [[0; 0]] 1 [0; 0] [5; 2] = Some 277 /\
  s_value in_place [2; 1] [[0; 0]; [1; 0]] 1 [1; 0] [5; 2] = Some 87 /\
  s_value in_place [1; 1] [[0; 0]] 1 [0; 0] [5; 3] = Some (s_G [5; 3]) /\
  s_value in_place [1; 2] [[0; 0]; [0; 1]] 1 [0; 1] [5; 3] = Some 327.
Proof. exact in_place_differs. Qed.
Print Assumptions C95_in_place_counterexample.
