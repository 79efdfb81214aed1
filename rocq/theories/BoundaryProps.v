(** Property theorems C21 - C25: views, ghost regions, serial exchange and accumulation. *)
From Verif Require Import Vec GridSpec RangeModel StorageModel GridModel GridOpSpec GridProofs
  BoundaryModel BoundarySpec SubGridProofs AccumulateProofs BoundaryExamples ViewDims.

(** C21.  Every history of reads, writes, fills and resizes of a view, with any checking policy of
    the view and of the base grid, behaves on the values of the base grid as [vspec_run]: a write
    changes one index, a fill exactly the indices of the range, nothing else changes.
    Missing from the full property: the reported dimensions, see the refutation. *)
Theorem C21_view_history_partial : forall V cv cb (g : grid) lo hi dims (h : heap V) m os,
  represents g h m -> view_range g lo hi -> vlegal g os lo hi ->
  exists N, forall fuel, (N <= fuel)%nat ->
  exists s' h', sub_run cv cb fuel os (mkSub g lo hi dims) h = Some (Some (s', h', snd (vspec_run os (m, (lo, hi))))) /\
    represents g h' (fst (fst (vspec_run os (m, (lo, hi))))) /\
    (forall b, b <> g_block g -> h' b = h b).
Proof. exact view_fill_exact. Qed.
Print Assumptions C21_view_history_partial.

(** With a checking policy, whatever index is used: the write fails an assertion or it changes
    nothing outside the range of the view. *)
Theorem C21_checked_write_confined : forall V cv cb (g : grid) lo hi dims p (v : V) (h : heap V),
  cv <> CkNone \/ cb <> CkNone -> grid_wf g h -> view_range g lo hi -> length p = length lo ->
  match sub_write cv cb (mkSub g lo hi dims) h p v with
  | None => True
  | Some h' => (forall q, in_box (g_lo g) (g_hi g) q -> ~ in_box lo hi q -> grid_read g h' q = grid_read g h q) /\
               (forall b, b <> g_block g -> h' b = h b)
  end /\
  (cv <> CkAssert -> cb <> CkAssert -> exists h', sub_write cv cb (mkSub g lo hi dims) h p v = Some h').
Proof. exact @checked_view_confined. Qed.
Print Assumptions C21_checked_write_confined.

(** Which cell it is: the debug policy uses the nearest cell [q] of the range, for reads and writes; the
    assertion fails for every index outside the range.  The policy of the view comes first, that of
    the base grid decides if the view does not check. *)
Theorem C21_outside_exact : forall V cv cb g lo hi dims p q (v : V) (h : heap V) m,
  represents g h m -> view_range g lo hi -> length p = length lo -> length q = length lo ->
  (forall i, (i < length lo)%nat -> vget q i = Z.max (vget lo i) (Z.min (vget hi i) (vget p i))) ->
  (cv = CkDebug \/ cv = CkNone /\ cb = CkDebug ->
     sub_read cv cb (mkSub g lo hi dims) h p = Some (m q) /\
     exists h', sub_write cv cb (mkSub g lo hi dims) h p v = Some h' /\ grid_read g h' q = Some v /\
       forall x, in_box (g_lo g) (g_hi g) x -> x <> q -> grid_read g h' x = Some (m x)) /\
  (cv = CkAssert \/ cv = CkNone /\ cb = CkAssert -> ~ in_box lo hi p ->
     sub_read cv cb (mkSub g lo hi dims) h p = None /\ sub_write cv cb (mkSub g lo hi dims) h p v = None).
Proof. exact access_outside. Qed.
Print Assumptions C21_outside_exact.

Example C21_outside_hypotheses : represents ex_g ex_h ex_m /\ view_range ex_g [0; 1] [2; 4] /\ ~ in_box [0; 1] [2; 4] [5; -7] /\
  sub_read CkDebug CkNone (sub_new ex_g [0; 1] [2; 4]) ex_h [5; -7] = Some (ex_m [2; 1]) /\
  sub_read CkNone CkAssert (sub_new ex_g [0; 1] [2; 4]) ex_h [5; -7] = None.
Proof. split; [exact ex_rep|]. split; [apply ex_vops_legal|]. split; [simpl; lia|]. split; vm_compute; reflexivity. Qed.

(** [view1 op= view2] changes nothing outside the range of [view1], even if the shapes differ or the
    views are views of the same grid. *)
Theorem C21_arithmetic_confined : forall V (op : V -> V -> V) gd gs lod hid los his dd ds (h : heap V),
  grid_wf gd h -> grid_wf gs h -> view_range gd lod hid -> view_range gs los his ->
  exists N, forall fuel, (N <= fuel)%nat ->
  exists h', sub_iop op fuel (mkSub gd lod hid dd) (mkSub gs los his ds) h = Some (Some h') /\
    (forall q, in_box (g_lo gd) (g_hi gd) q -> ~ in_box lod hid q -> grid_read gd h' q = grid_read gd h q) /\
    (forall b, b <> g_block gd -> h' b = h b).
Proof. exact sub_iop_confined_ex. Qed.
Print Assumptions C21_arithmetic_confined.

(** Views of the same shape (one is the other moved by [sh]) of different grids are combined cell
    by cell. *)
Theorem C21_arithmetic_cellwise : forall V (op : V -> V -> V) gd gs los his lod hid sh dd ds (h : heap V) md ms,
  g_block gd <> g_block gs -> represents gd h md -> represents gs h ms ->
  length sh = length los -> lod = vmap2 Z.add los sh -> hid = vmap2 Z.add his sh ->
  view_range gs los his -> inside_grid gd lod hid ->
  exists N, forall fuel, (N <= fuel)%nat ->
  exists h' md', sub_iop op fuel (mkSub gd lod hid dd) (mkSub gs los his ds) h = Some (Some h') /\
    represents gd h' md' /\
    (forall p, in_box los his p -> md' (vmap2 Z.add p sh) = op (md (vmap2 Z.add p sh)) (ms p)) /\
    (forall q, ~ in_box lod hid q -> md' q = md q) /\
    (forall b, b <> g_block gd -> h' b = h b).
Proof. exact sub_iop_exact_ex. Qed.
Print Assumptions C21_arithmetic_cellwise.

(** A new view reports the extents of its range... *)
Theorem C21_dims_after_construction : forall g lo hi i, length hi = length lo -> (i < length lo)%nat ->
  vget (sg_dims (sub_new g lo hi)) i = vget hi i - vget lo i + 1.
Proof. exact (fun g lo hi i => dims_spec lo hi i). Qed.
Print Assumptions C21_dims_after_construction.

(** A view made from a size covers 0 .. size-1 in every dimension and reports that size. *)
Theorem C21_view_from_size : forall g size,
  let v := sub_new_size g size in
  sg_base v = g /\ sg_dims v = size /\
  forall p, in_box (sg_lo v) (sg_hi v) p <->
            length p = length size /\ forall i, (i < length size)%nat -> 0 <= vget p i < vget size i.
Proof. exact view_from_size. Qed.
Print Assumptions C21_view_from_size.

(** ...but a resized one still reports the old extents. *)
Theorem C21_dims_after_resize_refuted : exists g lo hi lo' hi',
  view_range g lo hi /\ view_range g lo' hi' /\
  sg_dims (sub_resize (sub_new g lo hi) lo' hi') <> dims_of lo' hi'.
Proof. exact stale_dims. Qed.
Print Assumptions C21_dims_after_resize_refuted.

(** What a view reports after any history, with any checking policies: the grid it was made for, the
    range given last, and the extents of the range it was constructed with. *)
Theorem C21_reports_exact : forall V cv cb fuel (os : list (vop V)) g lo hi h s' h' out,
  length hi = length lo ->
  sub_run cv cb fuel os (sub_new g lo hi) h = Some (Some (s', h', out)) ->
  sg_base s' = g /\
  (sg_lo s', sg_hi s') = fold_left (fun r o => match o with VResize l h => (l, h) | _ => r end) os (lo, hi) /\
  forall i, (i < length lo)%nat -> vget (sg_dims s') i = vget hi i - vget lo i + 1.
Proof. exact view_reports. Qed.
Print Assumptions C21_reports_exact.

Example C21_reports_hypotheses : exists s' h' out,
  sub_run CkNone CkAssert 20 ex_vops (sub_new ex_g [0; 1] [2; 4]) ex_h = Some (Some (s', h', out)) /\
  exists lo hi, In (VResize lo hi) ex_vops /\ sg_dims s' <> dims_of lo hi.
Proof.
  eexists _, _, _. split; [vm_compute; reflexivity|].
  exists [-2; 0], [-1; 6]. split; [simpl; tauto|]. discriminate.
Qed.

Example C21_hypotheses : represents ex_g ex_h ex_m /\ view_range ex_g [0; 1] [2; 4] /\ vlegal ex_g ex_vops [0; 1] [2; 4] /\
  option_map (option_map snd) (sub_run CkNone CkAssert 20 ex_vops (sub_new ex_g [0; 1] [2; 4]) ex_h) =
  Some (Some [15; 7; 9; 36; 5]).
Proof. exact (conj ex_rep (conj (proj1 ex_vops_legal) (conj (proj2 ex_vops_legal) ex_vops_run))). Qed.

(** C22.  In each dimension a cell of the local domain is in exactly one of low ghost region, high
    ghost region and inner slab. *)
Theorem C22_partition : forall lo hi delta d p, box_ok lo hi -> (d < length lo)%nat -> 0 <= delta ->
  2 * delta <= vget hi d - vget lo d + 1 -> in_box lo hi p ->
  let b := mkBd lo hi delta in
  let L := in_box (r_lo (ghost_domain b d Min)) (r_hi (ghost_domain b d Min)) p in
  let H := in_box (r_lo (ghost_domain b d Max)) (r_hi (ghost_domain b d Max)) p in
  let I := vget lo d + delta <= vget p d <= vget hi d - delta in
  (L /\ ~ H /\ ~ I) \/ (~ L /\ H /\ ~ I) \/ (~ L /\ ~ H /\ I).
Proof. exact partition_dim. Qed.
Print Assumptions C22_partition.

Theorem C22_ghosts_in_domain : forall lo hi delta d s p, box_ok lo hi -> (d < length lo)%nat -> 0 <= delta ->
  delta <= vget hi d - vget lo d + 1 ->
  in_box (r_lo (ghost_domain (mkBd lo hi delta) d s)) (r_hi (ghost_domain (mkBd lo hi delta) d s)) p -> in_box lo hi p.
Proof. exact ghost_in_domain. Qed.
Print Assumptions C22_ghosts_in_domain.

(** The inner domain is the part of the local domain that is in no ghost region. *)
Theorem C22_inner_domain : forall lo hi delta p, box_ok lo hi -> 0 <= delta ->
  let b := mkBd lo hi delta in
  in_box (r_lo (inner_domain b)) (r_hi (inner_domain b)) p <->
  in_box lo hi p /\
  forall d s, (d < length lo)%nat -> ~ in_box (r_lo (ghost_domain b d s)) (r_hi (ghost_domain b d s)) p.
Proof. exact inner_domain_spec. Qed.
Print Assumptions C22_inner_domain.

(** A source region is the opposite ghost region moved by the inner extent, and it consists of inner
    cells if the inner extent is at least the ghost width. *)
Theorem C22_source_regions : forall lo hi delta d s p, box_ok lo hi -> (d < length lo)%nat -> 0 <= delta ->
  let b := mkBd lo hi delta in
  let n := inner_extent lo hi delta d in
  let opp := match s with Min => Max | Max => Min end in
  let k := match s with Min => n | Max => - n end in
  (in_box (r_lo (source_domain b d s)) (r_hi (source_domain b d s)) p <->
   length p = length lo /\
   in_box (r_lo (ghost_domain b d opp)) (r_hi (ghost_domain b d opp)) (vset p d (vget p d + k))) /\
  (delta <= n -> in_box (r_lo (source_domain b d s)) (r_hi (source_domain b d s)) p ->
   in_box lo hi p /\ vget lo d + delta <= vget p d <= vget hi d - delta).
Proof. exact source_matches. Qed.
Print Assumptions C22_source_regions.

Example C22_hypotheses : box_ok [-2; 0] [3; 6] /\ 2 * 2 <= vget [3; 6] 1 - vget [-2; 0] 1 + 1 /\
  in_box [-2; 0] [3; 6] [3; 5] /\
  source_domain (mkBd [-2; 0] [3; 6] 2) 1 Max = mkRange [-2; 3] [3; 4] /\
  ghost_domain (mkBd [-2; 0] [3; 6] 2) 1 Min = mkRange [-2; 0] [3; 1].
Proof. repeat split; vm_compute; congruence. Qed.

(** C23.  Missing from the full property: ghost width zero, see the refutation. *)
Theorem C23_serial_exchange_periodic_partial : forall V (g : grid) (h : heap V) m lo hi delta,
  represents g h m -> box_ok lo hi -> inside_grid g lo hi -> 1 <= delta -> inner_at_least lo hi delta delta ->
  exists N, forall fuel, (N <= fuel)%nat ->
  exists h', serial_exchange fuel (mkBd lo hi delta) g h = Some (Some h') /\
    (forall p, in_box lo hi p -> exists q, periodic_image lo hi delta p q /\ grid_read g h' p = Some (m q)) /\
    (forall p, in_box (g_lo g) (g_hi g) p -> ~ in_box lo hi p -> grid_read g h' p = Some (m p)) /\
    (forall c, c <> g_block g -> h' c = h c).
Proof. exact serial_periodic. Qed.
Print Assumptions C23_serial_exchange_periodic_partial.

(** The periodic image is unique, and an inner cell is its own image: inner cells are unchanged. *)
Theorem C23_image_unique : forall lo hi delta p q q', 0 <= delta ->
  (forall d, (d < length p)%nat -> 1 <= inner_extent lo hi delta d) ->
  periodic_image lo hi delta p q -> periodic_image lo hi delta p q' -> q = q'.
Proof. exact SerialProofs.image_unique. Qed.
Print Assumptions C23_image_unique.
Theorem C23_inner_is_own_image : forall lo hi delta p, length p = length lo ->
  (forall d, (d < length lo)%nat -> vget lo d + delta <= vget p d <= vget hi d - delta) ->
  periodic_image lo hi delta p p.
Proof. exact inner_is_own_image. Qed.
Print Assumptions C23_inner_is_own_image.

Example C23_hypotheses : represents ex_g ex_h ex_m /\ box_ok [-2; 0] [3; 6] /\ inside_grid ex_g [-2; 0] [3; 6] /\
  inner_at_least [-2; 0] [3; 6] 1 2.
Proof. exact ex_dom_ok. Qed.
Example C23_corner : exists h', serial_exchange 20 (mkBd [-2; 0] [3; 6] 1) ex_g ex_h = Some (Some h') /\
  grid_read ex_g h' [-2; 0] = grid_read ex_g ex_h [2; 5] /\ grid_read ex_g h' [3; 3] = grid_read ex_g ex_h [-1; 3].
Proof. exact corner_ex. Qed.

(** With ghost width zero the exchange accesses memory outside the grid. *)
Theorem C23_zero_ghosts_refuted : grid_wf (line_g 4) (line 4) /\ inner_at_least [0] [3] 0 0 /\
  serial_exchange 10 (mkBd [0] [3] 0) (line_g 4) (line 4) = Some None.
Proof. exact (conj (proj1 line_wf) zero_ghosts). Qed.
Print Assumptions C23_zero_ghosts_refuted.

(** C24, with the restrictions of C23. *)
Theorem C24_exchange_idempotent_partial : forall V (g : grid) (h : heap V) lo hi delta,
  grid_wf g h -> box_ok lo hi -> inside_grid g lo hi -> 1 <= delta -> inner_at_least lo hi delta delta ->
  exists N, forall fuel, (N <= fuel)%nat ->
  exists h' h'', serial_exchange fuel (mkBd lo hi delta) g h = Some (Some h') /\
    serial_exchange fuel (mkBd lo hi delta) g h' = Some (Some h'') /\
    (forall p, in_box (g_lo g) (g_hi g) p -> grid_read g h'' p = grid_read g h' p) /\
    (forall c, c <> g_block g -> h'' c = h' c).
Proof. exact serial_idempotent. Qed.
Print Assumptions C24_exchange_idempotent_partial.

(** If the inner extent is smaller than the ghost width, exchanging twice differs from exchanging
    once: 7 cells, ghost width 3, one inner cell. *)
Theorem C24_narrow_domain_refuted : grid_wf (line_g 7) (line 7) /\ exists h' h'',
  serial_exchange 10 (mkBd [0] [6] 3) (line_g 7) (line 7) = Some (Some h') /\
  serial_exchange 10 (mkBd [0] [6] 3) (line_g 7) h' = Some (Some h'') /\
  grid_read (line_g 7) h'' [0] <> grid_read (line_g 7) h' [0].
Proof. exact (conj (proj2 line_wf) narrow_twice). Qed.
Print Assumptions C24_narrow_domain_refuted.

(** C25, for one dimension.  Missing from the full property: an inner extent below twice the ghost
    width (see the refutation) and ghost width zero (as for C23). *)
Theorem C25_accumulate_partial : forall V (plus : V -> V -> V) (g : grid) (h : heap V) m lo hi delta d,
  represents g h m -> box_ok lo hi -> inside_grid g lo hi -> (d < length lo)%nat ->
  1 <= delta -> 2 * delta <= inner_extent lo hi delta d ->
  exists N, forall fuel, (N <= fuel)%nat ->
  exists h', serial_accumulate_dim plus fuel (mkBd lo hi delta) g d h = Some (Some h') /\
    (forall p s, in_box lo hi p -> ghost_of lo hi delta d p s ->
       grid_read g h' p = Some (plus (m p) (m s)) /\ grid_read g h' s = Some (plus (m p) (m s))) /\
    (forall p, in_box (g_lo g) (g_hi g) p ->
       (~ exists s, in_box lo hi p /\ ghost_of lo hi delta d p s) ->
       (~ exists q, in_box lo hi q /\ ghost_of lo hi delta d q p) ->
       grid_read g h' p = Some (m p)) /\
    (forall c, c <> g_block g -> h' c = h c).
Proof. exact serial_accumulate_dim_sums. Qed.
Print Assumptions C25_accumulate_partial.

(** Over all dimensions, for a commutative and associative sum: every cell of the local domain,
    corners included, holds the sum over all cells of the domain that are the same cell of the
    periodic domain. *)
Theorem C25_accumulate_all_dimensions_partial : forall V (plus : V -> V -> V) zero (g : grid) (h : heap V) m lo hi delta,
  (forall a b, plus a b = plus b a) -> (forall a b c, plus (plus a b) c = plus a (plus b c)) -> (forall a, plus zero a = a) ->
  represents g h m -> box_ok lo hi -> inside_grid g lo hi ->
  1 <= delta -> inner_at_least lo hi delta (2 * delta) ->
  exists N, forall fuel, (N <= fuel)%nat ->
  exists h', serial_accumulate plus fuel (mkBd lo hi delta) g h = Some (Some h') /\
    (forall p l, in_box lo hi p -> NoDup l ->
       (forall q, In q l <-> in_box lo hi q /\ same_cell lo hi delta p q) ->
       grid_read g h' p = Some (sum_over plus zero m l)) /\
    (forall p, in_box (g_lo g) (g_hi g) p -> ~ in_box lo hi p -> grid_read g h' p = Some (m p)) /\
    (forall c, c <> g_block g -> h' c = h c).
Proof. exact serial_accumulate_sums. Qed.
Print Assumptions C25_accumulate_all_dimensions_partial.

(** The list of images used in the statement exists for every cell. *)
Theorem C25_images_exist : forall lo hi delta p, length p = length lo ->
  exists l, NoDup l /\ forall q, In q l <-> in_box lo hi q /\ same_cell lo hi delta p q.
Proof. exact images_exist. Qed.
Print Assumptions C25_images_exist.

Example C25_hypotheses : represents ex_g ex_h ex_m /\ box_ok [-2; 0] [3; 6] /\ inside_grid ex_g [-2; 0] [3; 6] /\
  inner_at_least [-2; 0] [3; 6] 1 2.
Proof. exact ex_dom_ok. Qed.

(** With ghost width 2 and 3 inner cells the inner cell 3 is a source of both sides; the low ghost
    cell 0, whose source is cell 3, holds 1 + 4 and cell 3 holds 1 + 4 + 7. *)
Theorem C25_overlapping_sources_refuted :
  grid_wf (line_g 7) (line 7) /\ ghost_of [0] [6] 2 0 [0] [3] /\
  exists h', serial_accumulate_dim Z.add 10 (mkBd [0] [6] 2) (line_g 7) 0 (line 7) = Some (Some h') /\
    grid_read (line_g 7) h' [0] = Some 5 /\ grid_read (line_g 7) h' [3] = Some 12.
Proof. exact (conj (proj2 line_wf) (conj overlap_ghost overlap_sum)). Qed.
Print Assumptions C25_overlapping_sources_refuted.

(** C68.  The boundary cells of a field in a direction are exactly the cells of its domain whose
    position lies strictly outside the box covered by the inner cells, on the requested side.  The
    position of index [i] is [i], or [i + 1/2] if the field is staggered; the inner cells cover
    [lo + delta - 1/2 .. hi - delta + 1/2] (everything is doubled in the statement). *)
Theorem C68_boundary_cells_of_fields : forall lo hi delta d s stagger (g : grid) p,
  box_ok lo hi -> (d < length lo)%nat -> 1 <= delta -> 2 * delta <= vget hi d - vget lo d + 1 ->
  let v := field_ghost_boundary (mkBd lo hi delta) d s stagger g in
  let twice_position := 2 * vget p d + (if stagger then 1 else 0) in
  sg_base v = g /\
  (in_box (sg_lo v) (sg_hi v) p <->
   in_box lo hi p /\
   match s with
   | Min => twice_position < 2 * (vget lo d + delta) - 1
   | Max => twice_position > 2 * (vget hi d - delta) + 1
   end).
Proof. exact boundary_cells_spec. Qed.
Print Assumptions C68_boundary_cells_of_fields.

(** Without staggering these are the ghost cells; the view of a grid is the view of its ghost
    cells. *)
Theorem C68_unstaggered : forall b d s (g : grid),
  field_ghost_boundary b d s false g = grid_ghost_boundary b d s g /\
  sg_lo (grid_ghost_boundary b d s g) = r_lo (ghost_domain b d s) /\
  sg_hi (grid_ghost_boundary b d s g) = r_hi (ghost_domain b d s).
Proof. exact boundary_unstaggered. Qed.
Print Assumptions C68_unstaggered.

Example C68_hypotheses : exists p,
  in_box (sg_lo (field_ghost_boundary (mkBd [0; 0] [9; 7] 2) 1 Max true ex_g))
         (sg_hi (field_ghost_boundary (mkBd [0; 0] [9; 7] 2) 1 Max true ex_g)) p /\
  box_ok [0; 0] [9; 7].
Proof. exact boundary_cells_ex. Qed.
