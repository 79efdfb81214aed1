(** Further theorems for C30: inner extents in rounded arithmetic. *)
From Coq Require Import ZArith Reals Floats.SpecFloat.
From Verif Require Import Vec RangeModel BoundaryModel FieldModel NetModel MpiModel MpiSpec FieldFloatModel FieldFloat
  ExtFloatModel ExtFloatSpec ExtFloatProofs ExtFloatExamples.
Local Open Scope Z_scope.

(** C30 in any arithmetic: whatever the type of the extent and however its operations round, the inner extent of a process ends
    with exactly the number with which that of the next process begins. *)
Theorem C30_neighbours_meet : forall T (a : pos_arith T) cut dims high delta, length high = length dims ->
  forall elo ehi i c, (i < length dims)%nat -> is_process dims c -> is_bound_hi dims c i = false ->
  let bd := mpi_bounds cut dims high delta in
  let next := cart_shift dims c i 1 in
  ext_max a 0 (vget high i) elo ehi (vget (r_hi (inner_domain (bd c))) i) =
  ext_min a 0 (vget high i) elo ehi (vget (r_lo (inner_domain (bd next))) i).
Proof. exact meet_any. Qed.
Print Assumptions C30_neighbours_meet.

(** In doubles the edges of the inner extents lie where they should up to a few units in the last place, and the first extent
    begins exactly at the lower end.
    Missing from the full property: the last extent need not end exactly at the upper end (refuted below). *)
Theorem C30_edges_rounded_partial : forall cut dims high delta, length high = length dims ->
  forall elo ehi i c, (i < length dims)%nat -> is_process dims c ->
  cut_ok cut (vget high i) (vget dims i) -> 0 <= vget high i < 2 ^ 31 ->
  let bd := mpi_bounds cut dims high delta in
  let lo := vget (r_lo (inner_domain (bd c))) i in
  let hi := vget (r_hi (inner_domain (bd c))) i in
  let dx := ((ehi - elo) / IZR (vget high i + 1))%R in
  near_edge elo ehi (ext_min r64_arith 0 (vget high i) elo ehi lo) (elo + IZR lo * dx)%R /\
  near_edge elo ehi (ext_max r64_arith 0 (vget high i) elo ehi hi) (elo + IZR (hi + 1) * dx)%R /\
  (dbl elo -> is_bound_lo dims c i = true -> ext_min r64_arith 0 (vget high i) elo ehi lo = elo).
Proof. exact edges_rounded. Qed.
Print Assumptions C30_edges_rounded_partial.

(** 49 cells on four processes. *)
Example C30_rounded_hypotheses :
  cut_ok exact_cut 48 4 /\ is_process [4] [1] /\ is_bound_hi [4] [1] 0 = false /\
  map (fun c => let d := inner_domain (mpi_bounds exact_cut [4] [48] 2 [c]) in (vget (r_lo d) 0, vget (r_hi d) 0)) [0; 1; 2; 3] =
    [(0, 11); (12, 23); (24, 35); (36, 48)] /\
  ext_max b64_arith 0 48 (sf_of_Z 0) (sf_of_Z 1) 11 = ext_min b64_arith 0 48 (sf_of_Z 0) (sf_of_Z 1) 12 /\ dbl 0%R.
Proof. exact ex_edges. Qed.

(** In binary64 the extent [0,1] of 49 cells ends before 1, whichever process has the last cell. *)
Theorem C30_upper_end_refuted : SFltb (ext_max b64_arith 0 48 (sf_of_Z 0) (sf_of_Z 1) 48) (sf_of_Z 1) = true.
Proof. exact ends_short. Qed.
Print Assumptions C30_upper_end_refuted.
