(** Property theorems C19 and C20: fields. *)
From Coq Require Import QArith Floats.SpecFloat.
From Verif Require Import Vec GridSpec StorageModel GridModel ShareModel ShareSpec ShareProofs ShareExamples
  FieldModel FieldSpec FieldProofs FieldExamples FieldFloatModel FieldFloat.
From Coq Require Import Reals.
Open Scope Z_scope.

(** C19.  In every program of constructions (from a size or from bounds), copies, assignments,
    destructions and resizes of fields, under either storage order and allocation policy, every
    field has the inner range last asked for and its index range extends it by the ghost width on
    every side ([fobs_run], [grown]).
    Missing from the full property: resizing a field that shares its data with another field (see the
    refutation), and assignment to a field that shares its data (C11). *)
Theorem C19_field_layout_partial : forall V A (junk : V) (avg0 : A) rank ord pol, policy_ok pol ->
  forall os, flegal_run ord (resize_alone (is_lazy pol)) os (@ainit V) (fun _ => None) ->
  exists s, frun junk avg0 rank ord pol os (finit avg0) = Some (s, fobs_run os (fun _ => None)).
Proof. exact field_layout_all. Qed.
Print Assumptions C19_field_layout_partial.

Theorem C19_inner_cells_inside : forall lo hi g p, 0 <= g ->
  in_box lo hi p -> in_box (fst (grown (lo, hi, g))) (snd (grown (lo, hi, g))) p.
Proof. exact grown_contains. Qed.
Print Assumptions C19_inner_cells_inside.

Example C19_hypotheses : flegal_run COrder (resize_alone false) ex_field (@ainit Z) (fun _ => None) /\
  option_map snd (frun 0 tt 2 COrder Instant ex_field (finit tt)) =
  Some [ ([-2; -2], [11; 5], [0; 0], [9; 3]);
         ([-2; -2], [11; 5], [0; 0], [9; 3]);
         ([-6; 2], [6; 4], [-5; 3], [5; 3]);
         ([0; 0], [5; 5], [0; 0], [5; 5]);
         ([-1; -1], [6; 12], [2; 2], [3; 9]);
         ([-1; -1], [6; 12], [2; 2], [3; 9]) ].
Proof. exact ex_field_ok. Qed.

(** A copy of a field follows a resize of the original in its bounds but not in its ghost width: the
    copy reports an inner range [-2..9] that nobody asked for. *)
Theorem C19_copy_keeps_ghost_width_refuted :
  flegal_run COrder (fun _ _ => True) [FNewSize 1 [4] 1; FCopy 2 1; FResizeSize 1 [8] 3; FLayout 1; FLayout 2]
    (@ainit Z) (fun _ => None) /\
  option_map snd (frun 0 tt 1 COrder Instant
    [FNewSize 1 [4] 1; FCopy 2 1; FResizeSize 1 [8] 3; FLayout 1; FLayout 2] (finit tt)) =
  Some [([-3], [10], [0], [7]); ([-3], [10], [-2], [9])].
Proof. exact field_copy_resize. Qed.
Print Assumptions C19_copy_keeps_ghost_width_refuted.

(** C20, where the points of a field lie, in exact arithmetic: the inner cells divide the domain into
    equal parts, the first of them starts at its low end, and on a staggered axis the point is the
    middle of its cell. *)
Theorem C20_positions : forall ilo ihi g (stag : bool) (dlo dhi : Q) i, ilo <= ihi ->
  (index_to_position q_arith (mkFD Q (ilo - g) (ihi + g) g stag dlo dhi) i ==
   dlo + (inject_Z (i - ilo) + (if stag then 1 # 2 else 0)) * ((dhi - dlo) / inject_Z (ihi - ilo + 1)))%Q.
Proof. exact positions. Qed.
Print Assumptions C20_positions.

(** C20, in exact arithmetic: the round trip returns the index with offset zero. *)
Theorem C20_round_trip_exact_partial : forall (f : fdim Q) i,
  ~ (fd_dhi f == fd_dlo f)%Q -> 0 < cells f ->
  exists o, position_to_index q_arith f (index_to_position q_arith f i) = Some (i, o) /\ (o == 0)%Q.
Proof. exact round_trip_exact. Qed.
Print Assumptions C20_round_trip_exact_partial.

(** In exact arithmetic [positionToIndex] finds the grid point at or left of the position, and the
    offset is the relative position between it and the next one. *)
Theorem C20_index_left_of_position : forall (f : fdim Q) x,
  (fd_dlo f < fd_dhi f)%Q -> 0 < cells f ->
  exists i o, position_to_index q_arith f x = Some (i, o) /\
    (index_to_position q_arith f i <= x /\ x < index_to_position q_arith f (i + 1) /\
     0 <= o /\ o < 1 /\
     x == (1 - o) * index_to_position q_arith f i + o * index_to_position q_arith f (i + 1))%Q.
Proof. exact index_left. Qed.
Print Assumptions C20_index_left_of_position.

Example C20_hypotheses : let f := mkFD Q (-2) 12 2 true (-1 # 2)%Q (3 # 1)%Q in
  (fd_dlo f < fd_dhi f)%Q /\ 0 < cells f /\
  option_map (fun p => (fst p, Qred (snd p))) (position_to_index q_arith f (13 # 10)) = Some (5, (11 # 70)%Q) /\
  Qred (index_to_position q_arith f 5) = (5 # 4)%Q.
Proof. repeat split; vm_compute; reflexivity. Qed.

(** In binary64, as computed by the code, the round trip fails: 49 cells without ghost cells on
    [0,1], index 1 comes back as 0. *)
Theorem C20_binary64_refuted :
  let f := mkFD spec_float 0 48 0 false (sf_of_Z 0) (sf_of_Z 1) in
  option_map fst (position_to_index b64_arith f (index_to_position b64_arith f 1)) = Some 0.
Proof. exact b64_round_trip_fails. Qed.
Print Assumptions C20_binary64_refuted.

(** C20 in rounded arithmetic, every operation rounded to binary64: for at most 2^31 cells and a
    domain whose distance from zero is at most 2^40 cells ([moderate]), [indexToPosition] returns
    the position of the grid point up to 1/4000 of a cell. *)
Theorem C20_positions_rounded : forall ilo ihi g stag (dlo dhi : R), moderate ilo ihi g dlo dhi ->
  forall i, Z.abs i <= 2 ^ 31 ->
  (Rabs (index_to_position r64_arith (mkFD R (ilo - g) (ihi + g) g stag dlo dhi) i -
         (dlo + cell_coord ilo stag i * ((dhi - dlo) / IZR (ihi - ilo + 1)))) <=
   / 4000 * ((dhi - dlo) / IZR (ihi - ilo + 1)))%R.
Proof. exact stated_position. Qed.
Print Assumptions C20_positions_rounded.

(** ... and the round trip returns the index, with an offset near zero, or the index before it, with an
    offset near one.
    Missing: overflow, and domains more than 2^40 cells from zero. *)
Theorem C20_round_trip_rounded_partial : forall ilo ihi g stag (dlo dhi : R), moderate ilo ihi g dlo dhi ->
  forall i, Z.abs i <= 2 ^ 31 ->
  let f := mkFD R (ilo - g) (ihi + g) g stag dlo dhi in
  exists j o, position_to_index r64_arith f (index_to_position r64_arith f i) = Some (j, o) /\
    ((j = i /\ (0 <= o <= / 2048)%R) \/ (j = i - 1 /\ (1 - / 2048 <= o <= 1)%R)).
Proof. exact stated_round_trip. Qed.
Print Assumptions C20_round_trip_rounded_partial.

(** ... and for any position within 2^33 cells of the low end, index and offset describe it up to 1/1000 of
    a cell. *)
Theorem C20_index_rounded : forall ilo ihi g stag (dlo dhi : R), moderate ilo ihi g dlo dhi ->
  forall x, (Rabs (x - dlo) <= 2 ^ 33 * ((dhi - dlo) / IZR (ihi - ilo + 1)))%R ->
  exists j o, position_to_index r64_arith (mkFD R (ilo - g) (ihi + g) g stag dlo dhi) x = Some (j, o) /\
    (0 <= o <= 1)%R /\
    (Rabs (x - (dlo + (cell_coord ilo stag j + o) * ((dhi - dlo) / IZR (ihi - ilo + 1)))) <=
     / 1000 * ((dhi - dlo) / IZR (ihi - ilo + 1)))%R.
Proof. exact stated_any. Qed.
Print Assumptions C20_index_rounded.

Example C20_rounded_hypotheses : moderate 0 48 2 (-1) 1000 /\
  moderate (-5) 1000000 1 100000 100001%R.
Proof. exact ex_moderate. Qed.

(** The index computed from a finite binary64 number is its floor: for negative positions too it is not
    rounded towards zero. *)
Theorem C20_floor : forall s m e, exists n, sf_floor (S754_finite s m e) = Some n /\
  (IZR n <= IZR (if s then Zneg m else Zpos m) * powerRZ 2 e < IZR n + 1)%R.
Proof. exact sf_floor_is_floor. Qed.
Print Assumptions C20_floor.
