(** Proofs about HDF files. *)
From Coq Require Import String Ascii.
From Verif Require Import Vec GridSpec BoxFacts RangeModel StorageModel StorageSpec StorageProofs GridModel GridOpSpec GridProofs HdfModel HdfSpec.

Local Transparent two64.

(** ** Selections *)

Lemma upto_zloop a b : map (fun i => a + i) (upto (b - a + 1)) = zloop a b.
Proof. unfold upto, zloop. rewrite map_map. reflexivity. Qed.

Lemma sizes_length lo hi : length hi = length lo -> length (sizes lo hi) = length lo.
Proof. revert hi; induction lo; intros [|h hi] L; cbn in *; auto. Qed.
Lemma relative_length lo p : length p = length lo -> length (relative lo p) = length lo.
Proof. revert p; induction lo; intros [|h hi] L; cbn in *; auto. Qed.
Lemma sizes_product lo hi : length hi = length lo -> fold_right Z.mul 1 (sizes lo hi) = box_size lo hi.
Proof. revert hi; induction lo as [|l lo IH]; intros [|h hi] L; cbn in *; try discriminate; auto. rewrite IH by lia. reflexivity. Qed.
Lemma fold_left_right l : fold_left Z.mul l 1 = fold_right Z.mul 1 l.
Proof.
  assert (G : forall a, fold_left Z.mul l a = a * fold_right Z.mul 1 l).
  { induction l as [|x l IH]; intros a; cbn; [lia|]. rewrite IH. lia. }
  rewrite G. lia.
Qed.

Lemma slab_box : forall lo hi l r pos, length hi = length lo -> length l = length lo -> length r = length lo ->
  slab (sizes lo hi) (relative lo l) (sizes l r) pos = map (fun p => pos * box_size lo hi + row_major lo hi p) (box l r).
Proof.
  induction lo as [|a lo IH]; intros [|b hi] [|x l] [|y r] pos L1 L2 L3; try discriminate; cbn [sizes relative slab box map box_size row_major].
  - f_equal. lia.
  - rewrite map_flat_map, <- (upto_zloop x y). rewrite flat_map_concat_map, (flat_map_concat_map _ (map _ _)), map_map.
    f_equal. apply map_ext. intros i. rewrite IH by (cbn in *; lia). rewrite map_map. apply map_ext. intros p.
    cbn [row_major]. ring.
Qed.

Lemma c_index_row lo hi p : length hi = length lo -> length p = length lo -> c_index (sizes lo hi) (relative lo p) = row_major lo hi p.
Proof.
  revert hi p; induction lo as [|l lo IH]; intros [|h hi] [|x p] L1 L2; try discriminate; cbn in *; auto.
  rewrite sizes_product, IH by lia. reflexivity.
Qed.

Lemma part_corners lo hi lo' hi' : box_ok lo hi -> part_of lo hi lo' hi' -> in_box lo' hi' lo /\ in_box lo' hi' hi.
Proof.
  intros B P. split; apply P; [now apply box_ok_in_box_lo|].
  clear P. revert hi B; induction lo; intros [|h hi]; cbn; auto. intros [A B]. split; [lia|auto].
Qed.

Lemma inside_ok lo : forall hi l r, in_box lo hi r -> length l = length lo -> inside_extent (sizes lo hi) (relative lo l) (sizes l r) = true.
Proof.
  induction lo as [|a lo IH]; intros [|b hi] [|x l] [|y r] H L; cbn in *; try tauto; try discriminate.
  rewrite IH by (tauto || lia). rewrite andb_true_r. apply Z.leb_le. lia.
Qed.

Lemma hsize_small z : 0 <= z < 2 ^ 31 -> hsize z = Done z.
Proof.
  intros H. unfold hsize. replace ((- 2 ^ 31 <=? z) && (z <? 2 ^ 31)) with true by (symmetry; apply andb_true_iff; lia).
  rewrite w64_small; [reflexivity|]. unfold two64. lia.
Qed.
Lemma hsize_int z : - 2 ^ 31 <= z < 2 ^ 31 -> hsize z = Done (w64 z).
Proof. intros H. unfold hsize. replace ((- 2 ^ 31 <=? z) && (z <? 2 ^ 31)) with true by (symmetry; apply andb_true_iff; lia). reflexivity. Qed.

Lemma slab_loop_ok : forall gmin gmax llo lhi mlo mhi,
  box_ok llo lhi -> in_box gmin gmax llo -> in_box gmin gmax lhi -> in_box mlo mhi llo -> in_box mlo mhi lhi ->
  small gmin gmax -> small mlo mhi ->
  slab_loop gmin gmax llo lhi mlo mhi =
  Done (mkSlabs (sizes gmin gmax) (sizes llo lhi) (relative gmin llo) (sizes mlo mhi) (relative mlo llo)).
Proof.
  induction gmin as [|gn gmin IH]; intros [|gx gmax] [|ln llo] [|lx lhi] [|mn mlo] [|mx mhi] B G1 G2 M1 M2 S1 S2;
    try (cbn in *; tauto); try reflexivity.
  destruct B as [B0 B], G1 as [G10 G1], G2 as [G20 G2], M1 as [M10 M1], M2 as [M20 M2].
  destruct S1 as [S1 S1'], S2 as [S2 S2']. inversion_clear S1. inversion_clear S1'. inversion_clear S2. inversion_clear S2'.
  cbn [slab_loop]. rewrite (hsize_int (1 + gx)) by lia. cbn [io_bind].
  rewrite !hsize_small by lia. cbn [io_bind].
  rewrite w64_small by (unfold two64; lia).
  destruct (Z.ltb_spec (1 + gx - gn) (ln - gn + (lx - ln + 1))); [lia|].
  rewrite IH by (auto; split; auto). cbn [io_bind dims locdims locstart memdims memstart sizes relative].
  do 3 f_equal. lia.
Qed.

Lemma fits_slabs {V} gmin gmax c (h : heap V) : fits gmin gmax c h ->
  slabs_of c = Done (mkSlabs (sizes gmin gmax) (sizes (c_lmin c) (c_lmax c)) (relative gmin (c_lmin c))
    (sizes (g_lo (c_grid c)) (g_hi (c_grid c))) (relative (g_lo (c_grid c)) (c_lmin c))).
Proof.
  intros (W & O & <- & <- & S1 & S2 & B & P1 & P2). unfold slabs_of.
  destruct (part_corners _ _ _ _ B P1), (part_corners _ _ _ _ B P2). apply slab_loop_ok; auto.
Qed.

(** The pairs of positions. *)
Definition positions (c : container) (gmin gmax : vec) : list (Z * Z) :=
  map (fun p => (row_major (g_lo (c_grid c)) (g_hi (c_grid c)) p, row_major gmin gmax p)) (box (c_lmin c) (c_lmax c)).
Lemma combine_map {A B C} (f : A -> B) (g : A -> C) l : combine (map f l) (map g l) = map (fun x => (f x, g x)) l.
Proof. induction l; cbn; [reflexivity|now f_equal]. Qed.
Lemma fits_pairs {V} gmin gmax c (h : heap V) : fits gmin gmax c h ->
  pairs (mkSlabs (sizes gmin gmax) (sizes (c_lmin c) (c_lmax c)) (relative gmin (c_lmin c))
    (sizes (g_lo (c_grid c)) (g_hi (c_grid c))) (relative (g_lo (c_grid c)) (c_lmin c))) (sizes gmin gmax) = Done (positions c gmin gmax).
Proof.
  intros (W & O & E1 & E2 & S1 & S2 & B & P1 & P2).
  destruct (part_corners _ _ _ _ B P1) as [A1 A2], (part_corners _ _ _ _ B P2) as [A3 A4].
  destruct (in_box_length _ _ _ A1) as [L1 L2], (in_box_length _ _ _ A2) as [L3 _], (in_box_length _ _ _ A3) as [L4 L5], (in_box_length _ _ _ A4) as [L6 _].
  unfold pairs. cbn [locstart locdims memdims memstart]. rewrite !inside_ok by auto. cbn [andb].
  rewrite !slab_box by lia. rewrite combine_map. unfold positions. do 2 f_equal.
Qed.

(** ** Copying *)
Section Copy.
  Context {V X : Type}.
  Lemma copy_out_spec b (h : heap V) (m f : X -> Z) : forall l data,
    (forall p, In p l -> exists v, read_elem h b (m p) = Some v) ->
    (forall p, In p l -> 0 <= f p < Z.of_nat (length data)) ->
    NoDup l -> (forall p q, In p l -> In q l -> f p = f q -> p = q) ->
    exists data', copy_out (map (fun p => (m p, f p)) l) b h data = Done data' /\ length data' = length data /\
      (forall p, In p l -> nth_error data' (Z.to_nat (f p)) = read_elem h b (m p)) /\
      (forall k, (forall p, In p l -> k <> Z.to_nat (f p)) -> nth_error data' k = nth_error data k).
  Proof.
    induction l as [|p l IH]; intros data R F N I.
    - exists data. cbn. repeat split; auto. intros q [].
    - cbn [map copy_out]. destruct (R p (or_introl eq_refl)) as [v Rv]. rewrite Rv.
      inversion N as [|? ? Np N']; subst.
      destruct (IH (list_set data (Z.to_nat (f p)) v)) as (data' & E & L & A & B).
      + intros q Hq. apply R. now right.
      + intros q Hq. rewrite list_set_length. apply F. now right.
      + exact N'.
      + intros q r Hq Hr. apply I; now right.
      + exists data'. rewrite list_set_length in L. split; [exact E|]. split; [exact L|]. split.
        * intros q [<-|Hq]; [|now apply A]. rewrite B.
          -- rewrite Rv. apply list_set_same. pose proof (F p (or_introl eq_refl)). lia.
          -- intros q Hq K. apply Np. rewrite (I p q) ; [exact Hq|now left|now right|].
             pose proof (F p (or_introl eq_refl)). pose proof (F q (or_intror Hq)). lia.
        * intros k Hk. rewrite B; [|intros q Hq; apply Hk; now right]. apply list_set_other. intros K. exact (Hk p (or_introl eq_refl) (eq_sym K)).
  Qed.

  Lemma copy_in_spec b (data : list V) (m f : X -> Z) : forall l (h : heap V),
    (forall p, In p l -> exists v, nth_error data (Z.to_nat (f p)) = Some v) ->
    (forall p, In p l -> 0 <= m p < Z.of_nat (length (h b))) ->
    NoDup l -> (forall p q, In p l -> In q l -> m p = m q -> p = q) ->
    exists h', copy_in (map (fun p => (m p, f p)) l) b data h = Done h' /\ (forall b', length (h' b') = length (h b')) /\
      (forall p, In p l -> read_elem h' b (m p) = nth_error data (Z.to_nat (f p))) /\
      (forall k, 0 <= k -> (forall p, In p l -> k <> m p) -> read_elem h' b k = read_elem h b k) /\
      (forall b', b' <> b -> h' b' = h b').
  Proof.
    induction l as [|p l IH]; intros h R F N I.
    - exists h. cbn. repeat split; auto. intros q [].
    - cbn [map copy_in]. destruct (R p (or_introl eq_refl)) as [v Rv]. rewrite Rv.
      inversion N as [|? ? Np N']; subst.
      destruct (write_elem_ok h b (m p) v (F p (or_introl eq_refl))) as (h1 & E1 & L1 & A1). rewrite E1.
      destruct (IH h1) as (h' & E & L & A & B & C).
      + intros q Hq. apply R. now right.
      + intros q Hq. rewrite L1. apply F. now right.
      + exact N'.
      + intros q r Hq Hr. apply I; now right.
      + exists h'. split; [exact E|]. split; [intros b'; now rewrite L|]. split; [|split].
        * intros q [<-|Hq]; [|now apply A]. pose proof (F p (or_introl eq_refl)). rewrite B; [|lia|].
          -- rewrite A1 by lia. now rewrite Nat.eqb_refl, Z.eqb_refl, Rv.
          -- intros q Hq K. apply Np. rewrite (I p q); [exact Hq|now left|now right|exact K].
        * intros k Hk K. rewrite B; [|exact Hk|intros q Hq; apply K; now right]. rewrite A1 by lia.
          destruct (Z.eqb_spec k (m p)); [exfalso; apply (K p); [now left|assumption]|]. now rewrite andb_false_r.
        * intros b' Hb. rewrite C by exact Hb. eapply write_elem_other; eauto.
  Qed.
End Copy.

(** ** One process *)
Lemma fits_read {V} gmin gmax c (h : heap V) p : fits gmin gmax c h -> local_to c p ->
  grid_read (c_grid c) h p = read_elem h (g_block (c_grid c)) (row_major (g_lo (c_grid c)) (g_hi (c_grid c)) p).
Proof.
  intros (W & O & _ & _ & _ & _ & _ & P1 & _) Hp. rewrite grid_read_elem by auto. unfold g_pos. rewrite O. reflexivity.
Qed.

Lemma write_part_ok {V} gmin gmax c (h : heap V) ds : fits gmin gmax c h -> d_dims ds = sizes gmin gmax -> complete ds ->
  exists ds', write_part c h ds = Done ds' /\ d_dims ds' = sizes gmin gmax /\ complete ds' /\
    (forall p, local_to c p -> exists v, grid_read (c_grid c) h p = Some v /\ stored ds' (relative gmin p) v) /\
    (forall p, in_box gmin gmax p -> ~ local_to c p -> forall v, stored ds (relative gmin p) v -> stored ds' (relative gmin p) v).
Proof.
  intros F D C. pose proof F as (W & O & E1 & E2 & S1 & S2 & B & P1 & P2).
  destruct (part_corners _ _ _ _ B P1) as [A1 A2], (part_corners _ _ _ _ B P2) as [A3 A4].
  destruct (in_box_length _ _ _ A3) as [L1 L2].
  unfold write_part. rewrite (fits_slabs _ _ _ _ F). cbn [io_bind]. rewrite D, (fits_pairs _ _ _ _ F). cbn [io_bind].
  unfold complete in C. rewrite D, sizes_product in C by exact L2.
  destruct (copy_out_spec (g_block (c_grid c)) h (row_major (g_lo (c_grid c)) (g_hi (c_grid c))) (row_major gmin gmax)
    (box (c_lmin c) (c_lmax c)) (d_data ds)) as (data & E & L & R & K).
  - intros p Hp. apply box_In in Hp. rewrite <- (fits_read gmin gmax) by auto. apply grid_read_ok; auto.
  - intros p Hp. apply box_In in Hp. rewrite C. apply row_major_bound; auto.
  - apply box_NoDup.
  - intros p q Hp Hq. apply box_In in Hp, Hq. apply row_major_inj; auto.
  - unfold positions. rewrite E. cbn [io_bind]. eexists. split; [reflexivity|]. cbn [d_dims]. split; [reflexivity|].
    split; [unfold complete; cbn [d_dims d_data]; rewrite sizes_product by exact L2; lia|]. unfold stored; cbn [d_dims d_data]. split.
    + intros p Hp. destruct (grid_read_ok (c_grid c) h p W (P1 p Hp)) as [v Hv]. exists v. split; [exact Hv|].
      destruct (in_box_length _ _ _ (P2 p Hp)). rewrite c_index_row by lia. rewrite R by now apply box_In.
      rewrite <- (fits_read gmin gmax) by auto. exact Hv.
    + intros p Hp Np v. destruct (in_box_length _ _ _ Hp). rewrite D, !c_index_row by lia. intros Hv. rewrite K; [exact Hv|].
      intros q Hq Eq. apply box_In in Hq. apply Np. unfold local_to.
      pose proof (row_major_bound _ _ _ Hp). pose proof (row_major_bound _ _ _ (P2 q Hq)).
      assert (row_major gmin gmax p = row_major gmin gmax q) as X by lia. apply row_major_inj in X; auto. now subst q.
Qed.

Lemma local_dec c p : length (c_lmax c) = length (c_lmin c) -> local_to c p \/ ~ local_to c p.
Proof.
  intros L. unfold local_to. revert L p. generalize (c_lmin c) (c_lmax c). intros lo. induction lo as [|l lo IH]; intros [|x hi] L [|y p]; try discriminate; cbn; try tauto.
  destruct (IH hi ltac:(cbn in L; lia) p), (Z_le_dec l y), (Z_le_dec y x); tauto.
Qed.

(** ** All processes *)
Lemma write_parts_ok {V} gmin gmax : forall (procs : list (container * heap V)) ds,
  Forall (fun x => fits gmin gmax (fst x) (snd x)) procs -> disjoint (map fst procs) ->
  d_dims ds = sizes gmin gmax -> complete ds ->
  exists ds', write_parts procs ds = Done ds' /\ d_dims ds' = sizes gmin gmax /\ complete ds' /\
    (forall c h p, In (c, h) procs -> local_to c p -> exists v, grid_read (c_grid c) h p = Some v /\ stored ds' (relative gmin p) v) /\
    (forall p, in_box gmin gmax p -> (forall c h, In (c, h) procs -> ~ local_to c p) ->
      forall v, stored ds (relative gmin p) v -> stored ds' (relative gmin p) v).
Proof.
  induction procs as [|[c h] procs IH]; intros ds F N D C.
  - exists ds. cbn. repeat split; auto. intros ? ? ? [].
  - inversion F as [|? ? F0 F1]; subst. cbn [fst snd] in F0. cbn [map disjoint fst] in N. destruct N as [N0 N1].
    destruct (write_part_ok _ _ _ _ _ F0 D C) as (ds1 & E1 & D1 & C1 & A1 & B1).
    destruct (IH ds1 F1 N1 D1 C1) as (ds2 & E2 & D2 & C2 & A2 & B2).
    exists ds2. cbn [write_parts]. rewrite E1. cbn [io_bind]. split; [exact E2|]. split; [exact D2|]. split; [exact C2|]. split.
    + intros c' h' p [Eq|Hin] Hp.
      * injection Eq as <- <-. destruct (A1 p Hp) as (v & R & S). exists v. split; [exact R|].
        apply B2; [destruct F0 as (_ & _ & _ & _ & _ & _ & _ & _ & P2); now apply P2| |exact S].
        intros c' h' Hin Hl. apply (N0 c' p); auto. apply in_map_iff. exists (c', h'). auto.
      * apply (A2 c' h' p Hin Hp).
    + intros p Hp Nl v S. apply B2; [exact Hp|intros c' h' Hin; apply (Nl c' h'); now right|].
      apply B1; [exact Hp|apply (Nl c h); now left|exact S].
Qed.

Lemma create_ok {V} (zero : V) gmin gmax : forall procs, procs <> [] ->
  Forall (fun x => fits gmin gmax (fst x) (snd x)) procs ->
  create zero procs = Done (mkDs (sizes gmin gmax) (repeat zero (Z.to_nat (box_size gmin gmax)))).
Proof.
  intros procs N F. destruct procs as [|x0 procs]; [congruence|]. clear N. revert x0 F.
  induction procs as [|x1 procs IH]; intros [c h] F; inversion F as [|? ? F0 F1]; subst; cbn [fst snd] in F0.
  - cbn [create]. rewrite (fits_slabs _ _ _ _ F0). cbn [io_bind dims]. destruct F0 as (_ & _ & _ & _ & _ & _ & B & _ & P2).
    destruct (part_corners _ _ _ _ B P2) as [A _]. destruct (in_box_length _ _ _ A).
    rewrite fold_left_right, sizes_product by lia. reflexivity.
  - change (create zero ((c, h) :: x1 :: procs)) with
      (io_bind (slabs_of c) (fun s => io_bind (create zero (x1 :: procs)) (fun ds => if list_eq_dec Z.eq_dec (dims s) (d_dims ds) then Done ds else Undef))).
    rewrite (fits_slabs _ _ _ _ F0), (IH x1 F1). cbn [io_bind dims d_dims]. destruct (list_eq_dec _ _ _); [reflexivity|congruence].
Qed.

Lemma parallel_written {V} (zero : V) gmin gmax procs :
  procs <> [] -> Forall (fun x => fits gmin gmax (fst x) (snd x)) procs -> disjoint (map fst procs) ->
  exists ds, parallel_write zero procs = Done ds /\ d_dims ds = sizes gmin gmax /\ complete ds /\
    (forall c h p, In (c, h) procs -> local_to c p -> exists v, grid_read (c_grid c) h p = Some v /\ stored ds (relative gmin p) v) /\
    (forall p, in_box gmin gmax p -> (forall c h, In (c, h) procs -> ~ local_to c p) -> stored ds (relative gmin p) zero).
Proof.
  intros N F Dj. unfold parallel_write. rewrite (create_ok _ gmin gmax) by auto. cbn [io_bind].
  assert (length gmax = length gmin /\ 0 <= box_size gmin gmax) as [L S0].
  { destruct procs as [|[c h] procs]; [congruence|]. inversion F as [|? ? F0 F1]; subst. destruct F0 as (_ & _ & _ & _ & _ & _ & B & _ & P2).
    destruct (part_corners _ _ _ _ B P2) as [A _]. destruct (in_box_length _ _ _ A). split; [lia|]. pose proof (box_size_nonneg _ _ _ A). lia. }
  destruct (write_parts_ok gmin gmax procs (mkDs (sizes gmin gmax) (repeat zero (Z.to_nat (box_size gmin gmax)))) F Dj eq_refl) as (ds & E & D & C & A & B).
  { unfold complete; cbn [d_dims d_data]. rewrite repeat_length, sizes_product by exact L. lia. }
  exists ds. split; [exact E|]. split; [exact D|]. split; [exact C|]. split; [exact A|].
  intros p Hp Nl. apply B; auto. unfold stored; cbn [d_dims d_data]. destruct (in_box_length _ _ _ Hp). rewrite c_index_row by lia.
  pose proof (row_major_bound _ _ _ Hp). rewrite nth_error_repeat by lia. reflexivity.
Qed.

Lemma parallel_reads {V} gmin gmax c (h : heap V) ds :
  fits gmin gmax c h -> d_dims ds = sizes gmin gmax -> complete ds ->
  exists h', parallel_read c h ds = Done h' /\ grid_wf (c_grid c) h' /\
    (forall p, local_to c p -> exists v, stored ds (relative gmin p) v /\ grid_read (c_grid c) h' p = Some v) /\
    (forall p, in_box (g_lo (c_grid c)) (g_hi (c_grid c)) p -> ~ local_to c p -> grid_read (c_grid c) h' p = grid_read (c_grid c) h p) /\
    (forall b, b <> g_block (c_grid c) -> h' b = h b).
Proof.
  intros F D C. pose proof F as (W & O & E1 & E2 & S1 & S2 & B & P1 & P2).
  destruct (part_corners _ _ _ _ B P1) as [A1 A2], (part_corners _ _ _ _ B P2) as [A3 A4].
  destruct (in_box_length _ _ _ A3) as [L1 L2].
  unfold parallel_read. rewrite (fits_slabs _ _ _ _ F). cbn [io_bind]. rewrite D, (fits_pairs _ _ _ _ F). cbn [io_bind].
  unfold complete in C. rewrite D, sizes_product in C by exact L2.
  assert (forall p, local_to c p -> exists v, nth_error (d_data ds) (Z.to_nat (row_major gmin gmax p)) = Some v) as Rd.
  { intros p Hp. pose proof (row_major_bound _ _ _ (P2 p Hp)). destruct (nth_error (d_data ds) _) eqn:X; [eauto|]. apply nth_error_None in X. lia. }
  destruct (copy_in_spec (g_block (c_grid c)) (d_data ds) (row_major (g_lo (c_grid c)) (g_hi (c_grid c))) (row_major gmin gmax)
    (box (c_lmin c) (c_lmax c)) h) as (h' & E & L & R & K & Ob).
  - intros p Hp. apply box_In in Hp. now apply Rd.
  - intros p Hp. apply box_In in Hp. destruct W as (_ & _ & -> & _). apply row_major_bound; auto.
  - apply box_NoDup.
  - intros p q Hp Hq. apply box_In in Hp, Hq. apply row_major_inj; auto.
  - exists h'. split; [exact E|]. assert (W' : grid_wf (c_grid c) h') by (eapply grid_wf_ext; eauto). split; [exact W'|]. split; [|split; [|exact Ob]].
    + intros p Hp. destruct (Rd p Hp) as [v Hv]. exists v. unfold stored. destruct (in_box_length _ _ _ (P2 p Hp)).
      rewrite D, c_index_row by lia. split; [exact Hv|]. rewrite grid_read_elem by auto. unfold g_pos. rewrite O. rewrite R by now apply box_In. exact Hv.
    + intros p Hp Np. rewrite !grid_read_elem by auto. unfold g_pos. rewrite O. pose proof (row_major_bound _ _ _ Hp).
      apply K; [lia|]. intros q Hq X. apply box_In in Hq. apply row_major_inj in X; auto. subst q. contradiction.
Qed.

(** Writing with one decomposition and reading with another. *)
Lemma parallel_round_trip {V} (zero : V) (val : vec -> V) gmin gmax procs procs' :
  procs <> [] -> Forall (fun x => fits gmin gmax (fst x) (snd x)) procs -> disjoint (map fst procs) ->
  Forall (fun x => fits gmin gmax (fst x) (snd x)) procs' ->
  (forall p, in_box gmin gmax p -> exists c h, In (c, h) procs /\ local_to c p) ->
  (forall c h p, In (c, h) procs -> local_to c p -> grid_read (c_grid c) h p = Some (val p)) ->
  exists ds, parallel_write zero procs = Done ds /\
  forall c h, In (c, h) procs' -> exists h', parallel_read c h ds = Done h' /\
    (forall p, local_to c p -> grid_read (c_grid c) h' p = Some (val p)) /\
    (forall p, in_box (g_lo (c_grid c)) (g_hi (c_grid c)) p -> ~ local_to c p -> grid_read (c_grid c) h' p = grid_read (c_grid c) h p) /\
    (forall b, b <> g_block (c_grid c) -> h' b = h b).
Proof.
  intros N F Dj F' Cov Val. destruct (parallel_written zero gmin gmax procs N F Dj) as (ds & E & D & C & A & _).
  exists ds. split; [exact E|]. intros c h Hin. rewrite Forall_forall in F'. pose proof (F' _ Hin) as Fc. cbn [fst snd] in Fc.
  destruct (parallel_reads gmin gmax c h ds Fc D C) as (h' & E' & _ & R & K & Ob). exists h'. split; [exact E'|]. split; [|split; assumption].
  intros p Hp. destruct (R p Hp) as (v & Sv & Rv). rewrite Rv. f_equal.
  destruct (Cov p) as (c0 & h0 & Hin0 & Hl0); [destruct Fc as (_ & _ & _ & _ & _ & _ & _ & _ & P2); now apply P2|].
  destruct (A c0 h0 p Hin0 Hl0) as (v0 & Rv0 & Sv0). rewrite (Val _ _ _ Hin0 Hl0) in Rv0. unfold stored in *. congruence.
Qed.

(** ** Requests outside the global domain are refused *)
Lemma slab_loop_bad : forall gmin gmax llo lhi mlo mhi,
  length gmax = length gmin -> length llo = length gmin -> length mlo = length gmin -> length mhi = length gmin ->
  box_ok llo lhi -> small gmin gmax -> small mlo mhi -> small llo lhi ->
  match slab_loop gmin gmax llo lhi mlo mhi with
  | Done s => inside_extent (sizes gmin gmax) (locstart s) (locdims s) = true -> in_box gmin gmax llo /\ in_box gmin gmax lhi
  | Abort => True
  | Undef => False
  end.
Proof.
  induction gmin as [|gn gmin IH]; intros [|gx gmax] [|ln llo] [|lx lhi] [|mn mlo] [|mx mhi] L1 L2 L3 L4 B S1 S2 S3;
    try discriminate; try (cbn in B; tauto); [cbn; tauto|].
  destruct B as [B0 B]. destruct S1 as [S1 S1'], S2 as [S2 S2'], S3 as [S3 S3'].
  inversion_clear S1. inversion_clear S1'. inversion_clear S2. inversion_clear S2'. inversion_clear S3. inversion_clear S3'.
  cbn [slab_loop]. rewrite !hsize_int by lia. cbn [io_bind].
  destruct (_ <? _) eqn:T; [exact I|].
  specialize (IH gmax llo lhi mlo mhi). destruct (slab_loop gmin gmax llo lhi mlo mhi) as [s| |]; cbn [io_bind]; [|exact I|].
  2: { apply IH; auto; split; auto. }
  cbn [locstart locdims sizes inside_extent in_box]. intros K. apply andb_true_iff in K. destruct K as [K0 K].
  assert (in_box gmin gmax llo /\ in_box gmin gmax lhi) as [I1 I2] by (apply IH; auto; split; auto).
  apply Z.leb_le in K0. rewrite (w64_small (lx - ln + 1)) in K0 by (unfold two64; lia).
  assert (gn <= ln) as G.
  { destruct (Z_le_dec gn ln); [assumption|exfalso]. unfold w64 in K0.
    assert ((ln - gn) mod two64 = ln - gn + two64) as X by (symmetry; apply Z.mod_unique with (-1); unfold two64; lia).
    rewrite X in K0. unfold two64 in K0. lia. }
  rewrite w64_small in K0 by (unfold two64; lia). repeat split; try assumption; lia.
Qed.

Lemma in_box_corners lo hi l r p : in_box lo hi l -> in_box lo hi r -> in_box l r p -> in_box lo hi p.
Proof.
  revert hi l r p; induction lo as [|a lo IH]; intros [|b hi] [|x l] [|y r] [|z p]; cbn; try tauto.
  intros [A1 A2] [B1 B2] [C1 C2]. split; [lia|eauto].
Qed.

Lemma outside_refused {V} c (h : heap V) ds :
  length (c_gmax c) = length (c_gmin c) -> length (c_lmin c) = length (c_gmin c) ->
  length (g_lo (c_grid c)) = length (c_gmin c) -> length (g_hi (c_grid c)) = length (c_gmin c) ->
  box_ok (c_lmin c) (c_lmax c) -> small (c_gmin c) (c_gmax c) -> small (g_lo (c_grid c)) (g_hi (c_grid c)) -> small (c_lmin c) (c_lmax c) ->
  ~ part_of (c_lmin c) (c_lmax c) (c_gmin c) (c_gmax c) -> d_dims ds = sizes (c_gmin c) (c_gmax c) ->
  write_part c h ds = Abort /\ parallel_read c h ds = Abort.
Proof.
  intros L1 L2 L3 L4 B S1 S2 S3 N D. unfold write_part, parallel_read, slabs_of.
  pose proof (slab_loop_bad _ _ _ _ _ _ L1 L2 L3 L4 B S1 S2 S3) as Q.
  destruct (slab_loop _ _ _ _ _ _) as [s| |]; cbn [io_bind]; [|split; reflexivity|contradiction].
  unfold pairs. rewrite D. destruct (inside_extent (sizes _ _) _ _) eqn:X; [|split; reflexivity].
  exfalso. apply N. destruct (Q eq_refl) as [Q1 Q2]. intros p Hp. exact (in_box_corners _ _ _ _ _ Q1 Q2 Hp).
Qed.
