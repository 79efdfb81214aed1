(** Proofs about HDF files written without parallel HDF5, and about the names of data sets. *)
From Coq Require Import String Ascii.
From Verif Require Import Vec GridSpec BoxFacts RangeModel StorageModel StorageSpec StorageProofs GridModel GridOpSpec GridProofs DiagModel DiagSpec DiagNameProofs HdfModel HdfSpec HdfProofs.

Lemma fits_any_slabs {V} gmin gmax c (h : heap V) : fits_any gmin gmax c h ->
  slabs_of c = Done (mkSlabs (sizes gmin gmax) (sizes (c_lmin c) (c_lmax c)) (relative gmin (c_lmin c))
    (sizes (g_lo (c_grid c)) (g_hi (c_grid c))) (relative (g_lo (c_grid c)) (c_lmin c))).
Proof.
  intros (W & <- & <- & S1 & S2 & B & P1 & P2). unfold slabs_of.
  destruct (part_corners _ _ _ _ B P1), (part_corners _ _ _ _ B P2). apply slab_loop_ok; auto.
Qed.

Lemma nth_error_all {X} (a : list X) : forall b, (forall k, nth_error a k = nth_error b k) -> a = b.
Proof.
  induction a as [|x a IH]; intros [|y b] H; [reflexivity|discriminate (H 0%nat)|discriminate (H 0%nat)|].
  pose proof (H 0%nat) as H0. cbn in H0. injection H0 as ->. f_equal. apply IH. intros k. exact (H (S k)).
Qed.

Lemma serial_written {V} (zero : V) gmin gmax c (h : heap V) : fits_any gmin gmax c h ->
  exists ds, serial_write zero c h = Done ds /\ d_dims ds = sizes (g_lo (c_grid c)) (g_hi (c_grid c)) /\ complete ds /\
    d_data ds = h (g_block (c_grid c)).
Proof.
  intros F. pose proof F as (W & _ & _ & _ & _ & _ & P & _). unfold serial_write. rewrite (fits_any_slabs _ _ _ _ F). cbn [io_bind memdims].
  destruct W as (_ & Hok & Hlen & _ & _). pose proof (box_ok_length _ _ Hok) as L.
  rewrite fold_left_right, sizes_product by exact L. set (n := Z.to_nat (box_size (g_lo (c_grid c)) (g_hi (c_grid c)))) in *.
  assert (n = length (h (g_block (c_grid c)))) as En by (unfold n; lia).
  destruct (copy_out_spec (g_block (c_grid c)) h Z.of_nat Z.of_nat (seq 0 n) (repeat zero n)) as (data & E & Ld & A & _).
  - intros i Hi. apply in_seq in Hi. apply read_elem_ok. lia.
  - intros i Hi. apply in_seq in Hi. rewrite repeat_length. lia.
  - apply seq_NoDup.
  - intros i j _ _ X. lia.
  - unfold everything. rewrite E. cbn [io_bind]. rewrite repeat_length in Ld. eexists. split; [reflexivity|]. cbn [d_dims d_data]. split; [reflexivity|].
    split.
    + unfold complete; cbn [d_dims d_data]. rewrite sizes_product by exact L. unfold n in *. lia.
    + apply nth_error_all. intros k. destruct (Nat.lt_ge_cases k n) as [Hk|Hk].
      * specialize (A k (proj2 (in_seq n 0 k) ltac:(lia))). rewrite Nat2Z.id in A. rewrite A. unfold read_elem.
        destruct (Z.ltb_spec (Z.of_nat k) 0); [lia|]. now rewrite Nat2Z.id.
      * rewrite (proj2 (nth_error_None _ _)), (proj2 (nth_error_None _ _)) by lia. reflexivity.
Qed.

Lemma serial_reads {V} gmin gmax c (h : heap V) ds : fits_any gmin gmax c h ->
  (length (d_data ds) <= length (h (g_block (c_grid c))))%nat ->
  exists h', serial_read c h ds = Done h' /\ (forall b, length (h' b) = length (h b)) /\
    (forall k, (k < length (d_data ds))%nat -> nth_error (h' (g_block (c_grid c))) k = nth_error (d_data ds) k) /\
    (forall b, b <> g_block (c_grid c) -> h' b = h b).
Proof.
  intros F Hle. unfold serial_read. rewrite (fits_any_slabs _ _ _ _ F). cbn [io_bind].
  destruct (copy_in_spec (g_block (c_grid c)) (d_data ds) Z.of_nat Z.of_nat (seq 0 (length (d_data ds))) h) as (h' & E & L & A & _ & Ob).
  - intros i Hi. apply in_seq in Hi. rewrite Nat2Z.id. destruct (nth_error (d_data ds) i) eqn:X; [eauto|]. apply nth_error_None in X. lia.
  - intros i Hi. apply in_seq in Hi. lia.
  - apply seq_NoDup.
  - intros i j _ _ X. lia.
  - exists h'. split; [exact E|]. split; [exact L|]. split; [|exact Ob]. intros k Hk.
    specialize (A k (proj2 (in_seq (length (d_data ds)) 0 k) ltac:(lia))). rewrite Nat2Z.id in A. rewrite <- A. unfold read_elem.
    destruct (Z.ltb_spec (Z.of_nat k) 0); [lia|]. now rewrite Nat2Z.id.
Qed.

Lemma serial_round_trip {V} (zero : V) gmin gmax gmin' gmax' c (h : heap V) c' h' :
  fits_any gmin gmax c h -> fits_any gmin' gmax' c' h' ->
  g_lo (c_grid c') = g_lo (c_grid c) -> g_hi (c_grid c') = g_hi (c_grid c) -> g_order (c_grid c') = g_order (c_grid c) ->
  exists ds h'', serial_write zero c h = Done ds /\ serial_read c' h' ds = Done h'' /\
    (forall p, in_box (g_lo (c_grid c)) (g_hi (c_grid c)) p -> grid_read (c_grid c') h'' p = grid_read (c_grid c) h p) /\
    (forall b, b <> g_block (c_grid c') -> h'' b = h' b).
Proof.
  intros F F' El Eh Eo. destruct (serial_written zero _ _ _ _ F) as (ds & E & D & C & X).
  pose proof F as ((W1 & W2 & W3 & W4) & _). pose proof F' as (W' & _). pose proof W' as (V1 & V2 & V3 & V4).
  rewrite El, Eh in V3. destruct (serial_reads _ _ _ _ ds F') as (h'' & E' & L & A & Ob).
  { rewrite X. apply Nat2Z.inj_le. rewrite W3, V3. lia. }
  exists ds, h''. split; [exact E|]. split; [exact E'|]. split; [|exact Ob].
  intros p Hp. assert (grid_wf (c_grid c') h'') as W'' by (eapply grid_wf_ext; eauto).
  rewrite grid_read_elem by (auto; rewrite El, Eh; exact Hp). rewrite grid_read_elem by (auto; apply F).
  assert (g_pos (c_grid c') p = g_pos (c_grid c) p) as -> by (unfold g_pos; rewrite Eo, El, Eh; reflexivity).
  pose proof (g_pos_bound _ _ Hp). unfold read_elem. destruct (_ <? 0); [reflexivity|].
  rewrite A by (rewrite X; lia). now rewrite X.
Qed.

Lemma serial_position {V} (zero : V) gmin gmax c (h : heap V) : fits_any gmin gmax c h -> g_order (c_grid c) = COrder ->
  exists ds, serial_write zero c h = Done ds /\ d_dims ds = sizes (g_lo (c_grid c)) (g_hi (c_grid c)) /\
    forall p, in_box (g_lo (c_grid c)) (g_hi (c_grid c)) p ->
      exists v, grid_read (c_grid c) h p = Some v /\ stored ds (relative (g_lo (c_grid c)) p) v.
Proof.
  intros F O. destruct (serial_written zero _ _ _ _ F) as (ds & E & D & C & X). exists ds. split; [exact E|]. split; [exact D|].
  intros p Hp. pose proof F as (W & _). destruct (grid_read_ok _ _ _ W Hp) as [v Hv]. exists v. split; [exact Hv|].
  unfold stored. destruct (in_box_length _ _ _ Hp). rewrite D, c_index_row by lia. rewrite X.
  rewrite grid_read_elem in Hv by auto. unfold g_pos in Hv. rewrite O in Hv. unfold read_elem in Hv.
  pose proof (row_major_bound _ _ _ Hp). destruct (Z.ltb_spec (row_major (g_lo (c_grid c)) (g_hi (c_grid c)) p) 0); [lia|exact Hv].
Qed.

(** ** Names *)

Lemma all_digits_chars s : all_digits s <-> Forall digit (chars s).
Proof.
  unfold chars. induction s as [|c s IH]; cbn; split; intros H; auto.
  - destruct H as [A B]. constructor; [exact A|now apply IH].
  - inversion H; subst. split; [assumption|now apply IH].
Qed.
Lemma decimal_all_digits z : 0 <= z -> all_digits (decimal z) /\ decimal z <> ""%string.
Proof.
  intros H. destruct (decimal_digits z H) as [A B]. split; [now apply all_digits_chars|]. intros E. rewrite E in B. now apply B.
Qed.

Lemma app_split a : forall b s t, (a ++ s = b ++ t)%string -> exists u, (a = b ++ u /\ t = u ++ s)%string \/ (b = a ++ u /\ s = u ++ t)%string.
Proof.
  induction a as [|x a IH]; intros b s t E.
  - exists b. right. split; [reflexivity|exact E].
  - destruct b as [|y b].
    + exists (String x a). left. split; [reflexivity|]. symmetry. exact E.
    + cbn in E. injection E as -> E. destruct (IH b s t E) as [u [[-> ->]|[-> ->]]]; exists u; [left|right]; split; reflexivity.
Qed.
Lemma all_digits_app a b : all_digits (a ++ b) -> all_digits a /\ all_digits b.
Proof. induction a as [|c a IH]; cbn; [tauto|]. intros [A B]. apply IH in B. tauto. Qed.

(** A name: block name followed by a counter or by nothing. *)
Definition suffix (k : Z) : string := if k <? 0 then ""%string else decimal k.
Lemma suffix_digits k : all_digits (suffix k).
Proof. unfold suffix. destruct (Z.ltb_spec k 0); [exact I|now apply decimal_all_digits]. Qed.
Lemma same_name a b j k : (a ++ suffix j = b ++ suffix k)%string -> extends a b \/ extends b a.
Proof.
  intros E. destruct (app_split _ _ _ _ E) as [u [[-> H]|[-> H]]]; [left|right]; exists u; (split; [|reflexivity]).
  - pose proof (suffix_digits k) as D. rewrite H in D. now apply all_digits_app in D.
  - pose proof (suffix_digits j) as D. rewrite H in D. now apply all_digits_app in D.
Qed.
Lemma app_same a s t : (a ++ s = a ++ t)%string -> s = t.
Proof. induction a as [|c a IH]; cbn; [auto|]. intros E. injection E as E. auto. Qed.

(** The names from now on: the current block name with a counter not below the present one, or another
    block name that is still to be set. *)
Lemma names_shape : forall os s x, In x (names s os) -> -1 <= sets_count s ->
  (exists b k, In b (used (blockname s) true os) /\ x = (b ++ suffix k)%string) /\
  ((exists k, sets_count s <= k /\ x = (blockname s ++ suffix k)%string) \/
   (exists b k, In b (used (blockname s) false os) /\ x = (b ++ suffix k)%string)).
Proof.
  induction os as [|[n|] os IH]; intros s x H L; cbn [names] in H; [destruct H| |].
  - destruct (IH _ _ H) as [Q _]; [cbn; lia|]. cbn [used]. cbn [blockname set_block_name] in Q. split; [exact Q|right; exact Q].
  - cbn [used].
    assert ((exists k, sets_count s <= k /\ x = (blockname s ++ suffix k)%string) \/
      (exists b k, In b (used (blockname s) false os) /\ x = (b ++ suffix k)%string)) as Q.
    { unfold next_block_name in H. destruct (Z.ltb_spec (sets_count s) 0).
      - destruct H as [<-|H].
        + left. exists (-1). split; [lia|]. unfold suffix. cbn. induction (blockname s); cbn; congruence.
        + destruct (IH _ _ H) as [_ [(k & Hk & ->)|Q]]; [cbn; lia| |right; exact Q].
          left. exists k. cbn in Hk. split; [lia|reflexivity].
      - destruct H as [<-|H].
        + left. exists (sets_count s). split; [lia|]. unfold suffix. destruct (Z.ltb_spec (sets_count s) 0); [lia|reflexivity].
        + destruct (IH _ _ H) as [_ [(k & Hk & ->)|Q]]; [cbn; lia| |right; exact Q].
          left. exists k. cbn in Hk. split; [lia|reflexivity]. }
    split; [|exact Q]. destruct Q as [(k & Hk & ->)|(b & k & Hb & ->)].
    + exists (blockname s), k. split; [now left|reflexivity].
    + exists b, k. split; [now right|reflexivity].
Qed.

Lemma suffix_inj j k : -1 <= j -> -1 <= k -> suffix j = suffix k -> j = k.
Proof.
  unfold suffix. intros Hj Hk. destruct (Z.ltb_spec j 0), (Z.ltb_spec k 0); intros E.
  - lia.
  - exfalso. now apply (proj2 (decimal_all_digits k ltac:(lia))).
  - exfalso. now apply (proj2 (decimal_all_digits j ltac:(lia))).
  - now apply decimal_inj.
Qed.

Lemma names_distinct : forall os s, -1 <= sets_count s ->
  (unrelated (used (blockname s) true os) -> NoDup (names s os)) /\
  (unrelated (blockname s :: used (blockname s) false os) -> NoDup (names s os)).
Proof.
  induction os as [|[n|] os IH]; intros s L; cbn [names used]; [split; constructor| |].
  - destruct (IH (set_block_name n s) ltac:(cbn; lia)) as [A _]. cbn [blockname set_block_name] in A. split; [exact A|]. intros U. apply A. exact (proj2 U).
  - assert (unrelated (blockname s :: used (blockname s) false os) -> NoDup (let (n, s') := next_block_name s in n :: names s' os)) as G; [|split; exact G].
    intros U.
    assert (forall s', blockname s' = blockname s -> sets_count s < sets_count s' ->
      ~ In (blockname s ++ suffix (sets_count s))%string (names s' os)) as G.
    { intros s' E1 E2 H. destruct (names_shape _ _ _ H) as [_ [(k & Hk & E)|(b & k & Hb & E)]]; [lia| |].
      - rewrite E1 in E. apply app_same in E. apply suffix_inj in E; lia.
      - rewrite E1 in Hb. apply same_name in E. destruct U as [U _]. destruct (U b Hb). tauto. }
    unfold next_block_name. destruct (Z.ltb_spec (sets_count s) 0) as [Hn|Hp].
    + constructor; [|apply IH; [cbn; lia|exact U]].
      assert (blockname s = blockname s ++ suffix (sets_count s))%string as E.
      { unfold suffix. destruct (Z.ltb_spec (sets_count s) 0); [|lia]. clear. induction (blockname s); cbn; congruence. }
      rewrite E at 1. apply G; cbn; [reflexivity|lia].
    + assert (decimal (sets_count s) = suffix (sets_count s)) as E by (unfold suffix; destruct (Z.ltb_spec (sets_count s) 0); [lia|reflexivity]).
      rewrite E. constructor; [|apply IH; [cbn; lia|exact U]]. apply G; cbn; [reflexivity|lia].
Qed.

Lemma names_count : forall os s, length (names s os) = transfers os.
Proof.
  unfold transfers. induction os as [|[n|] os IH]; intros s; cbn [names filter]; [reflexivity|apply IH|].
  destruct (next_block_name s) as [x s'] eqn:E. cbn [List.length]. now rewrite IH.
Qed.

Section Files.
  Context {D : Type}.
  Lemma lookup_app n (f g : list (string * D)) : lookup n (f ++ g) = match lookup n f with Some d => Some d | None => lookup n g end.
  Proof. unfold lookup. induction f as [|[k d] f IH]; cbn [app find]; [reflexivity|]. cbn [fst]. destruct (String.eqb k n); [reflexivity|exact IH]. Qed.
  Lemma write_sets_ok : forall ns (ds : list D) f, NoDup ns -> length ds = length ns -> (forall n, In n ns -> lookup n f = None) ->
    write_sets ns ds f = Done (f ++ combine ns ds).
  Proof.
    induction ns as [|n ns IH]; intros [|d ds] f N L H; try discriminate; cbn [write_sets combine]; [now rewrite app_nil_r|].
    inversion N; subst. rewrite H by now left. rewrite IH; [now rewrite <- app_assoc|assumption|cbn in L; lia|].
    intros m Hm. rewrite lookup_app, H by now right. unfold lookup. cbn [find fst]. destruct (String.eqb_spec n m); [subst; contradiction|reflexivity].
  Qed.
  Lemma read_sets_ok : forall ns (ds : list D) f, NoDup ns -> length ds = length ns ->
    (forall n d, In (n, d) (combine ns ds) -> lookup n f = Some d) -> read_sets ns f = Done ds.
  Proof.
    induction ns as [|n ns IH]; intros [|d ds] f N L H; try discriminate; cbn [read_sets]; [reflexivity|].
    inversion N; subst. rewrite (H n d) by now left. rewrite (IH ds f); [reflexivity|assumption|cbn in L; lia|].
    intros m e Hin. apply H. now right.
  Qed.
  Lemma lookup_combine : forall ns (ds : list D) n d, NoDup ns -> In (n, d) (combine ns ds) -> lookup n (combine ns ds) = Some d.
  Proof.
    induction ns as [|m ns IH]; intros [|e ds] n d N H; try (cbn in H; tauto). inversion N; subst. cbn [combine] in *. unfold lookup. cbn [find fst].
    destruct H as [H|H].
    - injection H as -> ->. now rewrite String.eqb_refl.
    - destruct (String.eqb_spec m n) as [->|]; [exfalso; apply H2; eapply in_combine_l; eauto|]. now apply IH.
  Qed.

  Lemma sets_round_trip s os (ds : list D) : length ds = transfers os -> unrelated (used (blockname s) true os) ->
    exists f, written s os ds = Done f /\ NoDup (map fst f) /\ map snd f = ds /\ reread s os f = Done ds.
  Proof.
    intros L U. unfold written, reread. pose proof (proj1 (names_distinct os (opened s) ltac:(cbn; lia)) U) as N.
    pose proof (names_count os (opened s)) as C. eexists. split; [apply write_sets_ok; [exact N|lia|reflexivity]|]. cbn [app].
    split; [|split].
    - assert (map fst (combine (names (opened s) os) ds) = names (opened s) os) as ->; [|exact N].
      assert (length ds = length (names (opened s) os)) as E by lia. revert E. clear. generalize (names (opened s) os) as ns.
      intros ns. revert ds. induction ns; intros [|d ds] E; cbn in *; try discriminate; auto. f_equal. auto.
    - assert (length ds = length (names (opened s) os)) as E by lia. revert E. clear. generalize (names (opened s) os) as ns.
      intros ns. revert ds. induction ns; intros [|d ds] E; cbn in *; try discriminate; auto. f_equal. auto.
    - apply read_sets_ok; [exact N|lia|]. intros n d Hin. now apply lookup_combine.
  Qed.
End Files.

(** ** Local cells *)
Lemma local_cells : forall g gmin gmax ilo ihi n p,
  g_lo g = map (fun l => l - n) ilo -> g_hi g = map (fun x => x + n) ihi ->
  (local_to (copy_to_container g (Some n) gmin gmax) p <-> in_box ilo ihi p) /\
  (local_to (copy_to_container g None gmin gmax) p <-> in_box (g_lo g) (g_hi g) p).
Proof.
  intros g gmin gmax ilo ihi n p El Eh. split; [|reflexivity]. unfold local_to, copy_to_container. cbn [c_lmin c_lmax].
  rewrite El, Eh, !map_map. rewrite (map_ext (fun x => x - n + n) (fun x => x)) by (intros; lia). rewrite (map_ext (fun x => x + n - n) (fun x => x)) by (intros; lia).
  rewrite !map_id. reflexivity.
Qed.
