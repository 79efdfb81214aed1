(** Property theorems C09, C14, C15, C16: element access, checking policies and whole-grid
    operations. *)
From Verif Require Import Vec GridSpec StorageModel GridModel GridOpSpec GridProofs ViewDims.

(** [grid_wf g h]: at least one dimension, [lo <= hi], the block of [g] has as many elements as the
    box, and (C order) the bias computation does not overflow. *)
Theorem grid_wf_meaning : forall V (g : grid) (h : heap V),
  grid_wf g h <->
  (g_lo g <> [] /\ box_ok (g_lo g) (g_hi g) /\
   Z.of_nat (length (h (g_block g))) = box_size (g_lo g) (g_hi g) /\
   box_size (g_lo g) (g_hi g) < 2 ^ 64 /\
   (g_order g = COrder -> c_fast (g_lo g) (dims_of (g_lo g) (g_hi g)) <> None)).
Proof. exact (fun V g h => iff_refl (grid_wf g h)). Qed.

(** C09.  Any program of reads and writes at in-range indices runs without undefined behaviour,
    its reads return what the abstract map from indices to values returns, the grid afterwards
    represents the map afterwards, and no other block has changed. *)
Theorem C09_grid_is_map : forall V (g : grid) (h : heap V) (ops : list (gop V)),
  grid_wf g h -> Forall (fun o => in_box (g_lo g) (g_hi g) (op_index o)) ops ->
  forall m, (forall p, in_box (g_lo g) (g_hi g) p -> grid_read g h p = Some (m p)) ->
  exists h', grid_run g h ops = Some (h', snd (map_run m ops)) /\
    (forall p, in_box (g_lo g) (g_hi g) p -> grid_read g h' p = Some (fst (map_run m ops) p)) /\
    (forall b, b <> g_block g -> h' b = h b).
Proof. exact @grid_is_map. Qed.
Print Assumptions C09_grid_is_map.

(** Reading is always defined inside the range, so the map [m] of C09 exists. *)
Theorem C09_reads_defined : forall V (g : grid) (h : heap V) p,
  grid_wf g h -> in_box (g_lo g) (g_hi g) p -> exists v, grid_read g h p = Some v.
Proof. exact @grid_read_ok. Qed.
Print Assumptions C09_reads_defined.

Definition ex_heap : heap Z := fun b => match b with O => [1;2;3;4;5;6] | _ => [10;20;30;40;50;60] end.
Definition ex_c := mkGrid COrder 0 [-1; 2] [0; 4].
Definition ex_f := mkGrid FOrder 1 [-1; 2] [0; 4].

Example ex_c_wf : grid_wf ex_c ex_heap.
Proof. split; [discriminate|]. split; [simpl; lia|]. split; [reflexivity|]. split; [vm_compute; reflexivity|].
  intros _. vm_compute. discriminate. Qed.
Example ex_f_wf : grid_wf ex_f ex_heap.
Proof. split; [discriminate|]. split; [simpl; lia|]. split; [reflexivity|]. split; [vm_compute; reflexivity|].
  intros H. discriminate H. Qed.

Example C09_hypotheses :
  grid_wf ex_c ex_heap /\ grid_wf ex_f ex_heap /\
  grid_read ex_c ex_heap [0; 3] = Some 5 /\ grid_read ex_f ex_heap [0; 3] = Some 40 /\
  option_map snd (grid_run ex_f ex_heap [GRead [0; 3]; GWrite [0; 3] 7; GRead [-1; 3]; GRead [0; 3]]) =
  Some [40; 30; 7].
Proof. split; [exact ex_c_wf|]. split; [exact ex_f_wf|]. repeat split; vm_compute; reflexivity. Qed.

(** C14. *)
Theorem C14_debug_check : forall d pos lo hi,
  length lo = length pos -> box_ok lo hi ->
  exists pc d', debug_check d pos lo hi = (pc, d') /\
    in_box lo hi pc /\
    (in_box lo hi pos -> pc = pos /\ d' = d) /\
    (~ in_box lo hi pos -> dbg_flag d' = true /\ dbg_off d' = pos) /\
    (forall i, (i < length pos)%nat -> vget lo i <= vget pos i <= vget hi i -> vget pc i = vget pos i).
Proof. exact debug_check_spec. Qed.
Print Assumptions C14_debug_check.

(** The index it uses is the nearest one inside the bounds. *)
Theorem C14_debug_nearest : forall d pos lo hi, length lo = length pos -> box_ok lo hi ->
  length (fst (debug_check d pos lo hi)) = length pos /\
  forall i, (i < length pos)%nat ->
    vget (fst (debug_check d pos lo hi)) i = Z.max (vget lo i) (Z.min (vget hi i) (vget pos i)).
Proof. exact debug_nearest. Qed.
Print Assumptions C14_debug_nearest.

(** Over any history of checks the flag is set iff it was set or some index was out of range. *)
Theorem C14_debug_check_history : forall lo hi, box_ok lo hi -> forall ps d,
  (forall p, In p ps -> length lo = length p) ->
  dbg_flag (fold_left (fun d p => snd (debug_check d p lo hi)) ps d) = true <->
  dbg_flag d = true \/ exists p, In p ps /\ ~ in_box lo hi p.
Proof. exact debug_check_history. Qed.
Print Assumptions C14_debug_check_history.

Theorem C14_assert_check : forall pos lo hi,
  length lo = length pos -> length hi = length pos ->
  (in_box lo hi pos -> assert_check pos lo hi = Some pos) /\
  (~ in_box lo hi pos -> assert_check pos lo hi = None).
Proof. exact assert_check_spec. Qed.
Print Assumptions C14_assert_check.

Example C14_hypotheses : box_ok [-1; 2; 0] [3; 2; 5] /\
  debug_check (mkDbg false 0 []) [4; 2; -7] [-1; 2; 0] [3; 2; 5] =
    ([3; 2; 0], mkDbg true (-2) [4; 2; -7]) /\
  debug_check (mkDbg false 0 []) [3; 2; 5] [-1; 2; 0] [3; 2; 5] = ([3; 2; 5], mkDbg false 0 []) /\
  assert_check [4; 2; 0] [-1; 2; 0] [3; 2; 5] = None.
Proof. split; [simpl; lia|]. repeat split; vm_compute; reflexivity. Qed.

(** C15. *)
Theorem C15_fill : forall V (g : grid) (v : V) (h : heap V),
  grid_wf g h ->
  exists h', grid_fill g v h = Some h' /\
    (forall p, in_box (g_lo g) (g_hi g) p -> grid_read g h' p = Some v) /\
    (forall b, b <> g_block g -> h' b = h b).
Proof. exact @grid_fill_spec. Qed.
Print Assumptions C15_fill.

(** Same storage policy; the two grids may even share their block ([a += a]). *)
Theorem C15_same_storage : forall V (op : V -> V -> V) (a b : grid) (h : heap V),
  grid_wf a h -> grid_wf b h -> g_order a = g_order b -> g_lo a = g_lo b -> g_hi a = g_hi b ->
  exists h', grid_iop_same op a b h = Some h' /\
    (forall p x y, in_box (g_lo a) (g_hi a) p -> grid_read a h p = Some x -> grid_read b h p = Some y ->
       grid_read a h' p = Some (op x y)) /\
    (forall blk, blk <> g_block a -> h' blk = h blk).
Proof. exact @grid_iop_same_spec. Qed.
Print Assumptions C15_same_storage.

(** Different storage policies (then the blocks are different, too). *)
Theorem C15_mixed_storage : forall V (op : V -> V -> V) (a b : grid) (h : heap V),
  grid_wf a h -> grid_wf b h -> g_lo a = g_lo b -> g_hi a = g_hi b -> g_block a <> g_block b ->
  exists h', (forall fuel, (Z.to_nat (box_size (g_lo a) (g_hi a)) <= fuel)%nat ->
                grid_iop_mixed op fuel a b h = Some (Some h')) /\
    (forall p x y, in_box (g_lo a) (g_hi a) p -> grid_read a h p = Some x -> grid_read b h p = Some y ->
       grid_read a h' p = Some (op x y)) /\
    (forall blk, blk <> g_block a -> h' blk = h blk).
Proof. exact @grid_iop_mixed_spec. Qed.
Print Assumptions C15_mixed_storage.

Example C15_hypotheses :
  grid_wf ex_c ex_heap /\ grid_wf ex_f ex_heap /\ g_block ex_c <> g_block ex_f /\
  match grid_iop_mixed Z.add 6 ex_c ex_f ex_heap with
  | Some (Some h) => h 0%nat = [11; 32; 53; 24; 45; 66]
  | _ => False
  end /\
  match grid_iop_same Z.sub ex_c ex_c ex_heap with Some h => h 0%nat = [0;0;0;0;0;0] | None => False end /\
  match grid_fill ex_c 9 ex_heap with Some h => h 0%nat = [9;9;9;9;9;9] | None => False end.
Proof. split; [exact ex_c_wf|]. split; [exact ex_f_wf|]. split; [discriminate|].
  repeat split; vm_compute; reflexivity. Qed.

(** C16 is false of the code: [a += b] with a larger [b] runs past the end of [a]; it stays inside
    both allocations exactly when [b] is not larger than [a]. *)
Theorem C16_safe_iff_source_not_larger_partial : forall V (op : V -> V -> V) (a b : grid) (h : heap V),
  grid_wf a h -> grid_wf b h ->
  (grid_iop_same op a b h <> None <-> box_size (g_lo b) (g_hi b) <= box_size (g_lo a) (g_hi a)).
Proof. exact @grid_iop_same_safe_iff. Qed.
Print Assumptions C16_safe_iff_source_not_larger_partial.

Definition ex_small := mkGrid COrder 2 [0] [1].
Definition ex_large := mkGrid COrder 3 [0] [2].
Definition ex_heap2 : heap Z := fun b => match b with 2%nat => [1; 2] | _ => [1; 2; 3] end.

Theorem C16_overrun_refuted :
  exists a b (h : heap Z), grid_wf a h /\ grid_wf b h /\ grid_iop_same Z.add a b h = None.
Proof.
  exists ex_small, ex_large, ex_heap2. split; [|split; [|vm_compute; reflexivity]].
  - split; [discriminate|]. split; [simpl; lia|]. split; [reflexivity|]. split; [vm_compute; reflexivity|].
    intros _. vm_compute. discriminate.
  - split; [discriminate|]. split; [simpl; lia|]. split; [reflexivity|]. split; [vm_compute; reflexivity|].
    intros _. vm_compute. discriminate.
Qed.
Print Assumptions C16_overrun_refuted.
