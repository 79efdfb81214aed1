(** Property theorems C26 - C28, C30, C66, C67: distributed subdivision. *)
From Coq Require Import QArith.
From Verif Require Import Vec GridSpec RangeModel GridModel GridOpSpec GridProofs BoundaryModel BoundarySpec FactorModel FieldModel NetModel
  MpiModel MpiSpec MpiProofs MpiResults MpiFloatModel MpiFloat MpiExamples MpiRefuted.
Local Open Scope Z_scope.

(** C26.  For every process grid, every domain [0..high] and every ghost width, each cell of the
    domain is an inner cell of exactly one process, and inner cells are cells of the domain; the
    computed cuts only need to lie in the domain and not to decrease.
    Missing from the full property: domains that do not start at zero, see the refutation. *)
Theorem C26_tiling_partial : forall cut dims high delta,
  process_grid dims -> length high = length dims ->
  (forall i, (i < length dims)%nat -> cut_ok cut (vget high i) (vget dims i)) ->
  forall p,
    (in_global high p -> exists c, is_process dims c /\ in_inner (mpi_bounds cut dims high delta c) p /\
       forall c', is_process dims c' -> in_inner (mpi_bounds cut dims high delta c') p -> c' = c) /\
    (forall c, is_process dims c -> in_inner (mpi_bounds cut dims high delta c) p -> in_global high p).
Proof. exact tiling. Qed.
Print Assumptions C26_tiling_partial.

(** The cuts of the code satisfy the condition: computed exactly, and computed in binary64. *)
Theorem C26_exact_cuts : forall high n, 0 <= high -> 1 <= n -> cut_ok exact_cut high n.
Proof. exact exact_cut_ok. Qed.
Print Assumptions C26_exact_cuts.
Theorem C26_binary64_cuts : forall high n, 1 <= high <= 2 ^ 31 -> 1 <= n <= 2 ^ 31 -> cut_ok b64_cut high n.
Proof. exact b64_cut_ok. Qed.
Print Assumptions C26_binary64_cuts.

(** The process grid chosen for [comsize] processes has exactly that many processes. *)
Theorem C26_process_grid : forall (F : Type) (fdiv : Z -> Z -> F) fmul fsum fltb isqrt comsize rank box,
  1 <= comsize -> (1 <= rank)%nat ->
  exists dims, (exists N, forall fuel, (N <= fuel)%nat -> equalFactors fdiv fmul fsum fltb fuel isqrt comsize rank box = Some dims) /\
    length dims = rank /\ process_grid dims /\ number_of_processes dims = comsize.
Proof. exact process_grid_of. Qed.
Print Assumptions C26_process_grid.

(** The lower bound passed to [init] is ignored: a domain [5..9] on one process has inner cell 2. *)
Theorem C26_lower_bound_refuted : exists dims low high delta p c,
  process_grid dims /\ (forall i, (i < length dims)%nat -> vget low i <= vget high i) /\
  is_process dims c /\ in_inner (mpi_bounds exact_cut dims high delta c) p /\ ~ in_box low high p.
Proof. exact lower_bound_ignored. Qed.
Print Assumptions C26_lower_bound_refuted.

(** C27.  After the exchange in all dimensions every cell of every local domain, corners included,
    holds the value of the inner cell of which it is the periodic image, whichever process owns that;
    cells outside the local domain and other memory are unchanged; under every schedule.
    Missing from the full property: ghost width zero, and processes with fewer inner cells than
    ghost cells. *)
Theorem C27_exchange_partial : forall (V : Type) (plus : V -> V -> V) cut dims high delta k gr,
  subdivided cut dims high delta k gr ->
  forall (h0 : vec -> heap V) m0 G, 1 <= k ->
  (forall c, is_process dims c -> represents (gr c) (h0 c) (m0 c)) ->
  (forall c p, is_process dims c -> in_inner (mpi_bounds cut dims high delta c) p -> m0 c p = G p) ->
  let bd := mpi_bounds cut dims high delta in
  let prog := all_dims exchange_calls (length dims) in
  exists N, forall fuel, (N <= fuel)%nat ->
  under_every_schedule dims (length prog) (call_dst dims prog) (mpi_step plus fuel dims bd gr prog) (mpi_run plus fuel dims bd gr prog) h0
    (fun h => forall c, is_process dims c ->
      (forall p, in_local (bd c) p -> grid_read (gr c) (h c) p = Some (G (wrap high p))) /\
      (forall p, in_box (g_lo (gr c)) (g_hi (gr c)) p -> ~ in_local (bd c) p -> grid_read (gr c) (h c) p = Some (m0 c p)) /\
      (forall b, b <> g_block (gr c) -> h c b = h0 c b)).
Proof. exact @mpi_exchange_delivers. Qed.
Print Assumptions C27_exchange_partial.

Example C27_hypotheses : subdivided exact_cut ex_dims ex_high 1 2 ex_gr /\
  (forall c, is_process ex_dims c -> represents (ex_gr c) (ex_h0 c) (ex_start c)) /\
  (forall c p, is_process ex_dims c -> in_inner (ex_bd c) p -> ex_start c p = ex_G p).
Proof. exact (conj ex_subdivided (conj ex_represents ex_inner)). Qed.
Example C27_run :
  match mpi_run Z.add 50 ex_dims ex_bd ex_gr (all_dims exchange_calls 2) (ex_schedule 4) (net_init ex_h0) with
  | Next st => grid_read (ex_gr [0;0]) (pr_mem (n_proc st [0;0])) [-1; 6] = Some (ex_G [9; 0]) /\
               grid_read (ex_gr [1;0]) (pr_mem (n_proc st [1;0])) [4; -1] = Some (ex_G [4; 5])
  | _ => False
  end.
Proof. exact ex_exchange_run. Qed.

(** The code violates the full property.  With ghost width zero the send buffer has no room for the
    layer of cells that the loop visits ... *)
Theorem C27_zero_ghosts_refuted : exists dims high (gr : vec -> grid) (h0 : vec -> heap Z),
  process_grid dims /\ length high = length dims /\
  (forall c i, is_process dims c -> (i < length dims)%nat -> 1 <= inner_width (mpi_bounds exact_cut dims high 0 c) i) /\
  (forall c, is_process dims c -> grid_wf (gr c) (h0 c) /\ forall p, in_local (mpi_bounds exact_cut dims high 0 c) p -> in_box (g_lo (gr c)) (g_hi (gr c)) p) /\
  forall fuel c, is_process dims c ->
  mpi_run Z.add fuel dims (mpi_bounds exact_cut dims high 0) gr (all_dims exchange_calls (length dims)) [Send c] (net_init h0) = Bad.
Proof. exact zero_exchange. Qed.
Print Assumptions C27_zero_ghosts_refuted.

(** ... and a process with fewer inner cells than ghost cells passes on ghost cells it has not
    received yet. *)
Theorem C27_narrow_refuted : exists dims high delta (gr : vec -> grid) (h0 : vec -> heap Z) m0 G,
  subdivided exact_cut dims high delta 0 gr /\
  (forall c i, is_process dims c -> (i < length dims)%nat -> 1 <= inner_width (mpi_bounds exact_cut dims high delta c) i) /\
  (forall c, is_process dims c -> represents (gr c) (h0 c) (m0 c)) /\
  (forall c p, is_process dims c -> in_inner (mpi_bounds exact_cut dims high delta c) p -> m0 c p = G p) /\
  let bd := mpi_bounds exact_cut dims high delta in
  let prog := all_dims exchange_calls (length dims) in
  exists es c p st, Forall (fun e => is_process dims (event_proc e)) es /\ is_process dims c /\ in_local (bd c) p /\
    (exists N, forall fuel, (N <= fuel)%nat -> mpi_run Z.add fuel dims bd gr prog es (net_init h0) = Next st) /\
    finished dims (length prog) st /\ grid_read (gr c) (pr_mem (n_proc st c)) p <> Some (G (wrap high p)).
Proof. exact exchange_narrow. Qed.
Print Assumptions C27_narrow_refuted.

(** C28.  The ids of the processes are exactly the numbers below the number of processes, each once. *)
Theorem C28_unique_ids : forall dims, process_grid dims -> dims <> [] ->
  (forall c, is_process dims c -> 0 <= unique_id dims c < number_of_processes dims) /\
  (forall c c', is_process dims c -> is_process dims c' -> unique_id dims c = unique_id dims c' -> c = c') /\
  (forall k, 0 <= k < number_of_processes dims -> exists c, is_process dims c /\ unique_id dims c = k).
Proof. exact ids. Qed.
Print Assumptions C28_unique_ids.

Example C28_hypotheses : is_process [3; 4; 2] [2; 1; 1] /\ unique_id [3; 4; 2] [2; 1; 1] = 19.
Proof. split; [split; [reflexivity|intros [|[|[|i]]] H; cbn in *; lia]|reflexivity]. Qed.

(** C30, in exact arithmetic: the inner extents start at the lower and end at the upper end of the
    physical domain and adjacent processes share their boundary.
    Missing from the full property: rounding, and global domains that do not start at zero or
    include ghost cells, see the refutations. *)
Theorem C30_extents_tile_partial : forall cut dims high delta, length high = length dims ->
  forall elo ehi i c, (i < length dims)%nat -> is_process dims c -> 0 <= vget high i ->
  let bd := mpi_bounds cut dims high delta in
  let lo := vget (r_lo (inner_domain (bd c))) i in
  let hi := vget (r_hi (inner_domain (bd c))) i in
  let next := cart_shift dims c i 1 in
  (is_bound_lo dims c i = true -> (inner_extent_min 0 (vget high i) elo ehi lo == elo)%Q) /\
  (is_bound_hi dims c i = true -> (inner_extent_max 0 (vget high i) elo ehi hi == ehi)%Q) /\
  (is_bound_hi dims c i = false ->
     vget next i = vget c i + 1 /\
     (inner_extent_max 0 (vget high i) elo ehi hi ==
      inner_extent_min 0 (vget high i) elo ehi (vget (r_lo (inner_domain (bd next))) i))%Q).
Proof. exact extents_tile. Qed.
Print Assumptions C30_extents_tile_partial.

(** A field with the inner bounds and inner extent of its process places cell [j] where the undivided
    domain has it. *)
Theorem C30_field_positions : forall cut dims high delta, length high = length dims ->
  forall elo ehi i c g stag j,
  (i < length dims)%nat -> is_process dims c -> 0 <= vget high i ->
  let bd := mpi_bounds cut dims high delta in
  let lo := vget (r_lo (inner_domain (bd c))) i in
  let hi := vget (r_hi (inner_domain (bd c))) i in
  lo <= hi ->
  let f := mkFD Q (lo - g) (hi + g) g stag (inner_extent_min 0 (vget high i) elo ehi lo) (inner_extent_max 0 (vget high i) elo ehi hi) in
  (index_to_position q_arith f j ==
   elo + (inject_Z j + (1 # 2) * inject_Z (if stag then 1 else 0)) * ((ehi - elo) / inject_Z (vget high i + 1)))%Q.
Proof. exact field_positions. Qed.
Print Assumptions C30_field_positions.

Example C30_hypotheses : let bd := mpi_bounds exact_cut [4] [63] 2 in
  is_process [4] [2] /\ vget (r_lo (inner_domain (bd [2]))) 0 = 32 /\ vget (r_hi (inner_domain (bd [2]))) 0 = 46.
Proof. split; [split; [reflexivity|intros [|i] H; cbn in *; lia]|split; vm_compute; reflexivity]. Qed.

(** The serial subdivision uses the domain with ghost cells as the global domain: the inner extent
    does not reach the end of the physical domain. *)
Theorem C30_serial_refuted : exists lo hi delta elo ehi,
  box_ok lo hi /\ 1 <= delta /\ (elo < ehi)%Q /\
  let b := mkBd lo hi delta in
  (inner_extent_min (vget (r_lo (serial_global b)) 0) (vget (r_hi (serial_global b)) 0) elo ehi (vget (r_lo (inner_domain b)) 0) == elo)%Q /\
  (~ inner_extent_max (vget (r_lo (serial_global b)) 0) (vget (r_hi (serial_global b)) 0) elo ehi (vget (r_hi (inner_domain b)) 0) == ehi)%Q.
Proof. exact serial_extent. Qed.
Print Assumptions C30_serial_refuted.

(** What it gives instead, for [n] inner cells that start at index zero: the inner extent starts at the
    lower end and covers the part n / (n + 2 delta) of the physical domain. *)
Theorem C30_serial_exact : forall lo hi delta n i elo ehi,
  length lo = length hi -> (i < length lo)%nat -> 1 <= n -> 0 <= delta ->
  vget lo i = - delta -> vget hi i = n - 1 + delta ->
  let b := mkBd lo hi delta in
  (inner_extent_min (vget (r_lo (serial_global b)) i) (vget (r_hi (serial_global b)) i) elo ehi (vget (r_lo (inner_domain b)) i) == elo)%Q /\
  (inner_extent_max (vget (r_lo (serial_global b)) i) (vget (r_hi (serial_global b)) i) elo ehi (vget (r_hi (inner_domain b)) i) ==
   elo + inject_Z n * (ehi - elo) / inject_Z (n + 2 * delta))%Q.
Proof. exact serial_exact. Qed.
Print Assumptions C30_serial_exact.

Example C30_serial_hypotheses : vget [-2] 0 = - 2 /\ vget [11] 0 = 10 - 1 + 2 /\
  (inner_extent_max (-2) 11 0 1 9 == 10 # 14)%Q.
Proof. vm_compute. repeat split. Qed.

(** The lower bound of the global domain is not subtracted. *)
Theorem C30_lower_bound_refuted : exists glo ghi elo ehi, glo <= ghi /\ (elo < ehi)%Q /\
  (~ inner_extent_min glo ghi elo ehi glo == elo)%Q /\ (~ inner_extent_max glo ghi elo ehi ghi == ehi)%Q.
Proof. exact lower_bound_extent. Qed.
Print Assumptions C30_lower_bound_refuted.

(** The extents of the whole domain are shifted by the lower bound times the cell width, so they are
    right exactly when the domain starts at index zero or has no width. *)
Theorem C30_lower_bound_exact : forall glo ghi elo ehi, glo <= ghi ->
  (inner_extent_min glo ghi elo ehi glo == elo + inject_Z glo * ((ehi - elo) / inject_Z (ghi - glo + 1)))%Q /\
  (inner_extent_max glo ghi elo ehi ghi == ehi + inject_Z glo * ((ehi - elo) / inject_Z (ghi - glo + 1)))%Q /\
  ((inner_extent_min glo ghi elo ehi glo == elo)%Q <-> glo = 0 \/ (ehi == elo)%Q).
Proof. exact lower_bound_exact. Qed.
Print Assumptions C30_lower_bound_exact.

Example C30_lower_bound_hypotheses : 5 <= 9 /\ (inner_extent_min 5 9 0 1 5 == 1)%Q /\ (inner_extent_max 5 9 0 1 9 == 2)%Q.
Proof. split; [lia|]. split; vm_compute; reflexivity. Qed.

(** C66.  After accumulation in all dimensions every cell of every local domain holds the sum of the
    values of all copies of its global cell, on all processes; under every schedule.
    Missing from the full property: ghost width zero, fewer inner cells than twice the ghost width. *)
Theorem C66_accumulate_partial : forall (V : Type) (plus : V -> V -> V) cut dims high delta k gr,
  subdivided cut dims high delta k gr ->
  forall zero (h0 : vec -> heap V) m0, 2 <= k ->
  (forall a b, plus a b = plus b a) -> (forall a b c, plus (plus a b) c = plus a (plus b c)) -> (forall a, plus zero a = a) ->
  (forall c, is_process dims c -> represents (gr c) (h0 c) (m0 c)) ->
  let bd := mpi_bounds cut dims high delta in
  let prog := all_dims accumulate_calls (length dims) in
  exists N, forall fuel, (N <= fuel)%nat ->
  under_every_schedule dims (length prog) (call_dst dims prog) (mpi_step plus fuel dims bd gr prog) (mpi_run plus fuel dims bd gr prog) h0
    (fun h => forall c, is_process dims c ->
      (forall p, in_local (bd c) p ->
         exists l, copies_of dims high bd p l /\ grid_read (gr c) (h c) p = Some (sum_over plus zero m0 l)) /\
      (forall p, in_box (g_lo (gr c)) (g_hi (gr c)) p -> ~ in_local (bd c) p -> grid_read (gr c) (h c) p = Some (m0 c p)) /\
      (forall b, b <> g_block (gr c) -> h c b = h0 c b)).
Proof. exact @mpi_accumulate_sums. Qed.
Print Assumptions C66_accumulate_partial.

Example C66_hypotheses : subdivided exact_cut ex_dims ex_high 1 2 ex_gr /\
  (forall c, is_process ex_dims c -> represents (ex_gr c) (ex_h0 c) (ex_start c)).
Proof. exact (conj ex_subdivided ex_represents). Qed.
Example C66_run :
  match mpi_run Z.add 50 ex_dims ex_bd ex_gr (all_dims accumulate_calls 2) (ex_schedule 8) (net_init ex_h0) with
  | Next st => grid_read (ex_gr [0;0]) (pr_mem (n_proc st [0;0])) [0; 0] = Some (ex_G [0; 0] + 7 + 7 + 7) /\
               grid_read (ex_gr [1;0]) (pr_mem (n_proc st [1;0])) [6; 3] = Some (ex_G [6; 3])
  | _ => False
  end.
Proof. exact ex_accumulate_run. Qed.

(** The code violates the full property: ghost width zero as for C27, and processes with fewer inner
    cells than twice the ghost width. *)
Theorem C66_zero_ghosts_refuted : exists dims high (gr : vec -> grid) (h0 : vec -> heap Z),
  process_grid dims /\ length high = length dims /\
  (forall c i, is_process dims c -> (i < length dims)%nat -> 1 <= inner_width (mpi_bounds exact_cut dims high 0 c) i) /\
  (forall c, is_process dims c -> grid_wf (gr c) (h0 c) /\ forall p, in_local (mpi_bounds exact_cut dims high 0 c) p -> in_box (g_lo (gr c)) (g_hi (gr c)) p) /\
  forall fuel c, is_process dims c ->
  mpi_run Z.add fuel dims (mpi_bounds exact_cut dims high 0) gr (all_dims accumulate_calls (length dims)) [Send c] (net_init h0) = Bad.
Proof. exact zero_accumulate. Qed.
Print Assumptions C66_zero_ghosts_refuted.

Theorem C66_overlapping_refuted : exists dims high delta (gr : vec -> grid) (h0 : vec -> heap Z) m0,
  subdivided exact_cut dims high delta 1 gr /\
  (forall c, is_process dims c -> represents (gr c) (h0 c) (m0 c)) /\
  let bd := mpi_bounds exact_cut dims high delta in
  let prog := all_dims accumulate_calls (length dims) in
  exists es c p st l, Forall (fun e => is_process dims (event_proc e)) es /\ is_process dims c /\ in_local (bd c) p /\
    (exists N, forall fuel, (N <= fuel)%nat -> mpi_run Z.add fuel dims bd gr prog es (net_init h0) = Next st) /\
    finished dims (length prog) st /\ copies_of dims high bd p l /\
    grid_read (gr c) (pr_mem (n_proc st c)) p <> Some (sum_over Z.add 0 m0 l).
Proof. exact accumulate_overlap. Qed.
Print Assumptions C66_overlapping_refuted.

(** C67.  [exchangeData] delivers to every process exactly the bytes its neighbour passed in, whatever
    their number; under every schedule. *)
Theorem C67_exchange_data : forall dims d up, process_grid dims -> (d < length dims)%nat ->
  forall (input : vec -> list Z) (m0 : vec -> xmem), (forall c, x_in (m0 c) = input c) ->
  under_every_schedule dims 2 (xd_dst dims d up)
    (net_step 2 (xd_dst dims d up) (xd_src dims d up) xd_fill xd_store)
    (net_run 2 (xd_dst dims d up) (xd_src dims d up) xd_fill xd_store) m0
    (fun m => forall c, is_process dims c ->
       x_in (m c) = input c /\ x_out (m c) = input (cart_shift dims c d (if up then -1 else 1))).
Proof. exact exchange_data_delivers. Qed.
Print Assumptions C67_exchange_data.

Example C67_run : let m0 c := mkX (if vget c 0 =? 0 then [1; 2; 3] else [4]) [9] 0 in
  match net_run 2 (xd_dst [2] 0 true) (xd_src [2] 0 true) xd_fill xd_store
          [Send [0]; Send [1]; Recv [0]; Recv [1]; Finish [0]; Send [0]; Finish [1]; Recv [1]; Send [1]; Finish [1]; Recv [0]; Finish [0]]
          (net_init m0) with
  | Next st => x_out (pr_mem (n_proc st [0])) = [4] /\ x_out (pr_mem (n_proc st [1])) = [1; 2; 3]
  | _ => False
  end.
Proof. vm_compute. split; reflexivity. Qed.
