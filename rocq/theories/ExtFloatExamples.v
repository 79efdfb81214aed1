(** Wrapper lemmas and examples for ExtFloatProps. *)
From Coq Require Import ZArith Reals Lra Lia Floats.SpecFloat.
From Flocq Require Import Core.
From Verif Require Import Vec RangeModel BoundaryModel FieldModel NetModel MpiModel MpiSpec MpiProofs MpiExamples MpiFloatModel MpiFloat
  FieldFloatModel FieldFloat ExtFloatModel ExtFloatSpec ExtFloatProofs.
Local Open Scope R_scope.

Lemma edge_near n elo ehi k : (1 <= n <= 2 ^ 31)%Z -> (0 <= k <= n)%Z ->
  near_edge elo ehi (ext_min r64_arith 0 (n - 1) elo ehi k) (elo + IZR k * ((ehi - elo) / IZR n)).
Proof.
  intros Hn Hk. pose proof (edge n elo ehi Hn k Hk) as H. unfold near_edge.
  replace (bpow radix2 (-49)) with (16 * uu); [|unfold uu; change (bpow radix2 (-49)) with (/ 562949953421312); lra].
  replace (bpow radix2 (-1041)) with (17179869184 * eta); [exact H|].
  unfold eta. change 17179869184 with (bpow radix2 34). rewrite <- bpow_plus. reflexivity.
Qed.

Lemma edge_high high elo ehi k : (0 <= high < 2 ^ 31)%Z -> (0 <= k <= high + 1)%Z ->
  near_edge elo ehi (ext_min r64_arith 0 high elo ehi k) (elo + IZR k * ((ehi - elo) / IZR (high + 1))).
Proof.
  intros Hh Hk. pose proof (edge_near (high + 1) elo ehi k ltac:(lia) Hk) as H. replace (high + 1 - 1)%Z with high in H by lia. exact H.
Qed.

Lemma edges_rounded cut dims high delta : length high = length dims ->
  forall elo ehi i c, (i < length dims)%nat -> is_process dims c ->
  cut_ok cut (vget high i) (vget dims i) -> (0 <= vget high i < 2 ^ 31)%Z ->
  let bd := mpi_bounds cut dims high delta in
  let lo := vget (r_lo (inner_domain (bd c))) i in
  let hi := vget (r_hi (inner_domain (bd c))) i in
  let dx := (ehi - elo) / IZR (vget high i + 1) in
  near_edge elo ehi (ext_min r64_arith 0 (vget high i) elo ehi lo) (elo + IZR lo * dx) /\
  near_edge elo ehi (ext_max r64_arith 0 (vget high i) elo ehi hi) (elo + IZR (hi + 1) * dx) /\
  (dbl elo -> is_bound_lo dims c i = true -> ext_min r64_arith 0 (vget high i) elo ehi lo = elo).
Proof.
  intros Hl elo ehi i c Hi [_ Hc] Hcut Hh bd lo hi dx. specialize (Hc i Hi).
  unfold lo, hi, bd. rewrite inner_hi_eq, inner_lo_eq by exact Hi. unfold iHi, iLo.
  assert (L : (0 <= ilo cut delta (vget high i) (vget dims i) (vget c i) <= vget high i + 1)%Z).
  { rewrite ilo_eq. destruct (Z.ltb_spec 0 (vget c i)); [|lia]. pose proof (proj1 Hcut (vget c i) ltac:(lia)). lia. }
  assert (U : (0 <= ihi cut delta (vget high i) (vget dims i) (vget c i) + 1 <= vget high i + 1)%Z).
  { rewrite ihi_eq. destruct (Z.ltb_spec (vget c i) (vget dims i - 1)); [|lia]. pose proof (proj1 Hcut (vget c i + 1)%Z ltac:(lia)). lia. }
  split; [apply edge_high; assumption|]. split.
  - apply (edge_high (vget high i) elo ehi (ihi cut delta (vget high i) (vget dims i) (vget c i) + 1)); assumption.
  - intros Hd Hb. unfold is_bound_lo in Hb. apply Z.eqb_eq in Hb. rewrite Hb, ilo_eq. cbn [Z.ltb Z.compare].
    replace (vget high i) with (vget high i + 1 - 1)%Z by lia. apply first_edge. exact Hd.
Qed.

Lemma ends_short :
  SFltb (ext_max b64_arith 0 48 (sf_of_Z 0) (sf_of_Z 1) 48) (sf_of_Z 1) = true.
Proof. vm_compute. reflexivity. Qed.

Local Open Scope Z_scope.
Lemma ex_edges :
  cut_ok exact_cut 48 4 /\ is_process [4] [1] /\ is_bound_hi [4] [1] 0 = false /\
  map (fun c => let d := inner_domain (mpi_bounds exact_cut [4] [48] 2 [c]) in (vget (r_lo d) 0, vget (r_hi d) 0)) [0; 1; 2; 3] =
    [(0, 11); (12, 23); (24, 35); (36, 48)] /\
  ext_max b64_arith 0 48 (sf_of_Z 0) (sf_of_Z 1) 11 = ext_min b64_arith 0 48 (sf_of_Z 0) (sf_of_Z 1) 12 /\ dbl 0%R.
Proof.
  split; [apply exact_cut_ok; lia|]. split. { split; [reflexivity|]. intros [|i] Hi; cbn in *; lia. }
  split; [reflexivity|]. split; [vm_compute; reflexivity|]. split; [vm_compute; reflexivity|]. apply generic_format_0.
Qed.

