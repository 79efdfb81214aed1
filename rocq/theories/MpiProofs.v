(** Proofs about the distributed subdivision: tiling, ids, extents. *)
From Coq Require Import QArith Qfield.
From Verif Require Import Vec GridSpec RangeModel BoxFacts GridModel GridOpSpec GridProofs BoundaryModel BoundarySpec
  BoundaryProofs SerialProofs MpiModel MpiSpec.
Local Open Scope Z_scope.
Local Arguments Z.mul : simpl never.
Local Arguments Z.add : simpl never.
Local Arguments Z.sub : simpl never.
Local Arguments Z.of_nat : simpl never.

Lemma vec_choice (P : nat -> Z -> Prop) n : (forall i, (i < n)%nat -> exists x, P i x) ->
  exists v, length v = n /\ forall i, (i < n)%nat -> P i (vget v i).
Proof.
  revert P. induction n as [|n IH]; intros P H.
  - exists []. split; [reflexivity|]. intros i Hi. lia.
  - destruct (H 0%nat ltac:(lia)) as [x Hx]. destruct (IH (fun i => P (S i))) as (v & Lv & Hv).
    { intros i Hi. apply H. lia. }
    exists (x :: v). split; [simpl; lia|]. intros [|i] Hi; [exact Hx|]. apply Hv. lia.
Qed.

Lemma vget_map f v i : (i < length v)%nat -> vget (map f v) i = f (vget v i).
Proof.
  revert i. induction v as [|x v IH]; intros [|i] H; simpl in *; try lia; [reflexivity|].
  rewrite !vget_cons_S. apply IH. lia.
Qed.

(** ** One dimension *)
Section OneDim.
  Variable cut : Z -> Z -> Z -> Z.
  Variables (delta high n : Z).
  Hypothesis Hcut : cut_ok cut high n.
  Hypothesis Hn : 1 <= n.

  Definition ilo (c : Z) : Z := mpi_low cut delta high n c + delta.
  Definition ihi (c : Z) : Z := mpi_high cut delta high n c - delta.

  Lemma ilo_eq c : ilo c = if 0 <? c then cut high n c + 1 else 0.
  Proof. unfold ilo, mpi_low. destruct (0 <? c); lia. Qed.
  Lemma ihi_eq c : ihi c = if c <? n - 1 then cut high n (c + 1) else high.
  Proof. unfold ihi, mpi_high. destruct (c <? n - 1); lia. Qed.

  Lemma owner_unique c c' x : 0 <= c < n -> 0 <= c' < n -> ilo c <= x <= ihi c -> ilo c' <= x <= ihi c' -> c = c'.
  Proof.
    assert (W : forall a b, 0 <= a -> a < b -> b < n -> ilo a <= x <= ihi a -> ilo b <= x <= ihi b -> False).
    { intros a b Ha Hab Hb H1 H2. rewrite ilo_eq, ihi_eq in *.
      destruct (Z.ltb_spec a (n - 1)); [|lia]. destruct (Z.ltb_spec 0 b); [|lia].
      pose proof (proj2 Hcut (a + 1) b ltac:(lia) ltac:(lia) ltac:(lia)). lia. }
    intros H1 H2 H3 H4. destruct (Z.lt_trichotomy c c') as [L|[E|L]]; [|exact E|].
    - exfalso. apply (W c c'); auto; lia.
    - exfalso. apply (W c' c); auto; lia.
  Qed.

  Lemma owner_exists x : 0 <= x <= high -> exists c, 0 <= c < n /\ ilo c <= x <= ihi c.
  Proof.
    intros Hx.
    assert (W : forall k, (0 <= k < n)%Z -> (k = 0 \/ cut high n k < x) -> exists c, k <= c < n /\ ilo c <= x <= ihi c).
    { intros k Hk. replace k with (n - 1 - Z.of_nat (Z.to_nat (n - 1 - k))) in * by lia.
      generalize (Z.to_nat (n - 1 - k)) as j, Hk. clear k Hk. induction j as [|j IH]; intros Hk Hlow.
      - exists (n - 1). split; [lia|]. rewrite ilo_eq, ihi_eq. destruct (Z.ltb_spec (n - 1) (n - 1)); [lia|].
        destruct (Z.ltb_spec 0 (n - 1)); [|lia]. replace (n - 1 - Z.of_nat 0) with (n - 1) in Hlow by lia. lia.
      - set (k := n - 1 - Z.of_nat (S j)) in *. destruct (Z_le_gt_dec x (cut high n (k + 1))) as [L|G].
        + exists k. split; [lia|]. rewrite ilo_eq, ihi_eq. destruct (Z.ltb_spec k (n - 1)); [|lia].
          destruct (Z.ltb_spec 0 k); lia.
        + destruct IH as (c & Hc & Hin).
          * lia.
          * right. replace (n - 1 - Z.of_nat j) with (k + 1) by lia. lia.
          * exists c. split; [lia|exact Hin]. }
    destruct (W 0 ltac:(lia) (or_introl eq_refl)) as (c & Hc & Hin). exists c. split; [lia|exact Hin].
  Qed.

  Lemma inner_in_global c x : 0 <= c < n -> ilo c <= x <= ihi c -> 0 <= x <= high.
  Proof.
    intros Hc H. rewrite ilo_eq, ihi_eq in H. destruct (Z.ltb_spec 0 c).
    - pose proof (proj1 Hcut c ltac:(lia)). destruct (Z.ltb_spec c (n - 1)); [|lia].
      pose proof (proj1 Hcut (c + 1) ltac:(lia)). lia.
    - destruct (Z.ltb_spec c (n - 1)); [|lia]. pose proof (proj1 Hcut (c + 1) ltac:(lia)). lia.
  Qed.

  (** The local domains of neighbours fit together. *)
  Lemma prev_match c : 0 <= c < n -> ihi ((c - 1) mod n) + 1 = ilo c + (if 0 <? c then 0 else high + 1).
  Proof.
    intros Hc. rewrite ilo_eq, ihi_eq. destruct (Z.ltb_spec 0 c) as [H|H].
    - rewrite Z.mod_small by lia. destruct (Z.ltb_spec (c - 1) (n - 1)); [|lia]. replace (c - 1 + 1) with c by lia. lia.
    - replace c with 0 by lia. replace ((0 - 1) mod n) with (n - 1).
      + destruct (Z.ltb_spec (n - 1) (n - 1)); [lia|]. lia.
      + apply (Z.mod_unique_pos _ _ (-1)); lia.
  Qed.
  Lemma next_match c : 0 <= c < n -> ilo ((c + 1) mod n) + (if c <? n - 1 then 0 else high + 1) = ihi c + 1.
  Proof.
    intros Hc. rewrite ilo_eq, ihi_eq. destruct (Z.ltb_spec c (n - 1)) as [H|H].
    - rewrite Z.mod_small by lia. destruct (Z.ltb_spec 0 (c + 1)); lia.
    - replace c with (n - 1) by lia. replace (n - 1 + 1) with n by lia. rewrite Z_mod_same_full.
      destruct (Z.ltb_spec 0 0); lia.
  Qed.
End OneDim.

(** Exact arithmetic. *)
Lemma exact_cut_ok high n : 0 <= high -> 1 <= n -> cut_ok exact_cut high n.
Proof.
  intros Hh Hn. unfold cut_ok, exact_cut. destruct (Z.eq_dec high 0) as [->|Nz].
  - assert (E : forall c, 1 <= c < n -> Z.quot ((0 - 1) * c) n = 0).
    { intros c Hc. replace ((0 - 1) * c) with (- c) by lia. rewrite Z.quot_opp_l by lia. rewrite Z.quot_small by lia. reflexivity. }
    split; [intros c Hc; rewrite E by exact Hc; lia|]. intros c c' H1 H2 H3. rewrite !E by lia. lia.
  - split.
    + intros c Hc. rewrite Z.quot_div_nonneg by nia. split; [apply Z.div_pos; nia|].
      apply Z.div_le_upper_bound; nia.
    + intros c c' H1 H2 H3. apply Z.quot_le_mono; nia.
Qed.

(** ** All dimensions *)
Section Bounds.
  Variable cut : Z -> Z -> Z -> Z.
  Variables (dims high : vec) (delta : Z).
  Let bd := mpi_bounds cut dims high delta.

  Lemma bd_lo_length c : length (bd_lo (bd c)) = length dims.
  Proof. unfold bd, mpi_bounds. cbn [bd_lo]. rewrite map_length, seq_length. reflexivity. Qed.
  Lemma bd_hi_length c : length (bd_hi (bd c)) = length dims.
  Proof. unfold bd, mpi_bounds. cbn [bd_hi]. rewrite map_length, seq_length. reflexivity. Qed.
  Lemma bd_lo_get c i : (i < length dims)%nat -> vget (bd_lo (bd c)) i = mpi_low cut delta (vget high i) (vget dims i) (vget c i).
  Proof. intros H. unfold bd, mpi_bounds. cbn [bd_lo]. apply (vget_map_seq (fun i => mpi_low cut delta (vget high i) (vget dims i) (vget c i))), H. Qed.
  Lemma bd_hi_get c i : (i < length dims)%nat -> vget (bd_hi (bd c)) i = mpi_high cut delta (vget high i) (vget dims i) (vget c i).
  Proof. intros H. unfold bd, mpi_bounds. cbn [bd_hi]. apply (vget_map_seq (fun i => mpi_high cut delta (vget high i) (vget dims i) (vget c i))), H. Qed.

  Definition iLo (c : vec) (i : nat) : Z := ilo cut delta (vget high i) (vget dims i) (vget c i).
  Definition iHi (c : vec) (i : nat) : Z := ihi cut delta (vget high i) (vget dims i) (vget c i).

  Lemma in_inner_iff c p : in_inner (bd c) p <->
    length p = length dims /\ forall i, (i < length dims)%nat -> iLo c i <= vget p i <= iHi c i.
  Proof.
    unfold in_inner, inner_domain. cbn [r_lo r_hi]. rewrite in_box_vget, !map_length, bd_lo_length, bd_hi_length. split.
    - intros (_ & L & H). split; [exact L|]. intros i Hi. specialize (H i Hi).
      rewrite !vget_map in H by (rewrite ?bd_lo_length, ?bd_hi_length; exact Hi).
      rewrite bd_lo_get, bd_hi_get in H by exact Hi. unfold iLo, iHi, ilo, ihi. exact H.
    - intros (L & H). split; [reflexivity|]. split; [exact L|]. intros i Hi. specialize (H i Hi).
      rewrite !vget_map by (rewrite ?bd_lo_length, ?bd_hi_length; exact Hi).
      rewrite bd_lo_get, bd_hi_get by exact Hi. exact H.
  Qed.

  Lemma in_local_iff c p : in_local (bd c) p <->
    length p = length dims /\ forall i, (i < length dims)%nat -> iLo c i - delta <= vget p i <= iHi c i + delta.
  Proof.
    unfold in_local. rewrite in_box_vget, bd_lo_length, bd_hi_length. split.
    - intros (_ & L & H). split; [exact L|]. intros i Hi. specialize (H i Hi).
      rewrite bd_lo_get, bd_hi_get in H by exact Hi. unfold iLo, iHi, ilo, ihi. lia.
    - intros (L & H). split; [reflexivity|]. split; [exact L|]. intros i Hi. specialize (H i Hi).
      rewrite bd_lo_get, bd_hi_get by exact Hi. unfold iLo, iHi, ilo, ihi in H. lia.
  Qed.

  Hypothesis Hdims : process_grid dims.
  Hypothesis Hlen : length high = length dims.
  Hypothesis Hcuts : forall i, (i < length dims)%nat -> cut_ok cut (vget high i) (vget dims i).

  Lemma tiling_exists p : in_global high p -> exists c, is_process dims c /\ in_inner (bd c) p.
  Proof.
    intros [L H]. rewrite Hlen in *.
    destruct (vec_choice (fun i x => 0 <= x < vget dims i /\
                ilo cut delta (vget high i) (vget dims i) x <= vget p i <= ihi cut delta (vget high i) (vget dims i) x) (length dims))
      as (c & Lc & Hc).
    { intros i Hi. apply owner_exists; [apply Hdims, Hi|apply H, Hi]. }
    exists c. split; [split; [exact Lc|]; intros i Hi; apply (Hc i Hi)|].
    apply in_inner_iff. split; [exact L|]. intros i Hi. apply (Hc i Hi).
  Qed.

  Lemma tiling_unique p c c' : is_process dims c -> is_process dims c' -> in_inner (bd c) p -> in_inner (bd c') p -> c = c'.
  Proof.
    intros [L1 P1] [L2 P2] H1 H2. apply in_inner_iff in H1. apply in_inner_iff in H2.
    apply vec_ext; [lia|]. intros i Hi. rewrite L1 in Hi.
    apply (owner_unique cut delta (vget high i) (vget dims i) (Hcuts i Hi) _ _ (vget p i)); auto.
    - apply H1, Hi.
    - apply H2, Hi.
  Qed.

  Lemma tiling_inside p c : is_process dims c -> in_inner (bd c) p -> in_global high p.
  Proof.
    intros [L1 P1] H1. apply in_inner_iff in H1. destruct H1 as [Lp H1]. split; [lia|]. intros i Hi. rewrite Hlen in Hi.
    apply (inner_in_global cut delta _ _ (Hcuts i Hi) (vget c i)); auto. apply H1, Hi.
  Qed.
End Bounds.

(** ** Unique ids *)
Lemma id_loop_bounds dims : forall coord id N, length coord = length dims ->
  (forall i, (i < length dims)%nat -> 0 <= vget coord i < vget dims i) -> 0 <= id < N ->
  0 <= id_loop dims coord id < N * number_of_processes dims.
Proof.
  induction dims as [|d dims IH]; intros [|c coord] id N L H Hid; cbn [id_loop number_of_processes fold_right length] in *; try lia.
  pose proof (H 0%nat ltac:(lia)) as H0. cbn in H0.
  pose proof (IH coord (d * id + c) (N * d) ltac:(lia) (fun i Hi => H (S i) ltac:(lia)) ltac:(nia)) as K.
  unfold number_of_processes in K. lia.
Qed.

Lemma id_loop_inj dims : forall c c' id id', length c = length dims -> length c' = length dims ->
  (forall i, (i < length dims)%nat -> 0 <= vget c i < vget dims i) ->
  (forall i, (i < length dims)%nat -> 0 <= vget c' i < vget dims i) ->
  id_loop dims c id = id_loop dims c' id' -> id = id' /\ c = c'.
Proof.
  induction dims as [|d dims IH]; intros [|x c] [|x' c'] id id' L L' H H' E; cbn [id_loop length] in *; try lia; [auto|].
  destruct (IH c c' _ _ ltac:(lia) ltac:(lia) (fun i Hi => H (S i) ltac:(lia)) (fun i Hi => H' (S i) ltac:(lia)) E) as [E1 E2].
  pose proof (H 0%nat ltac:(lia)) as H0. pose proof (H' 0%nat ltac:(lia)) as H0'. cbn in H0, H0'.
  assert (E3 : id = id') by (apply (Z.div_mod_unique d id id' x x' ltac:(lia) ltac:(lia) E1)).
  subst id'. split; [reflexivity|]. f_equal; [lia|exact E2].
Qed.

Lemma unique_id_inj dims c c' : is_process dims c -> is_process dims c' -> unique_id dims c = unique_id dims c' -> c = c'.
Proof.
  intros [L H] [L' H'] E. destruct dims as [|d dims]; [destruct c; [|discriminate]; destruct c'; [reflexivity|discriminate]|].
  destruct c as [|x c]; [discriminate|]. destruct c' as [|x' c']; [discriminate|]. cbn [unique_id length] in *.
  apply id_loop_inj in E; [destruct E; congruence|lia|lia| |].
  - intros i Hi. apply (H (S i)). lia.
  - intros i Hi. apply (H' (S i)). lia.
Qed.

Lemma unique_id_bounds dims c : is_process dims c -> dims <> [] -> 0 <= unique_id dims c < number_of_processes dims.
Proof.
  intros [L H] Ne. destruct dims as [|d dims]; [congruence|]. destruct c as [|x c]; [discriminate|].
  cbn [unique_id length number_of_processes fold_right] in *. apply id_loop_bounds; [lia| |apply (H 0%nat); lia].
  intros i Hi. apply (H (S i)). lia.
Qed.

(** Every id is taken. *)
Lemma id_loop_surj dims : (forall i, (i < length dims)%nat -> 1 <= vget dims i) -> forall N k, 0 <= k < N * number_of_processes dims ->
  exists id c, 0 <= id < N /\ length c = length dims /\ (forall i, (i < length dims)%nat -> 0 <= vget c i < vget dims i) /\ id_loop dims c id = k.
Proof.
  induction dims as [|d dims IH]; intros Hd N k Hk; cbn [number_of_processes fold_right] in Hk.
  - exists k, []. repeat split; try lia; simpl in *; lia.
  - pose proof (Hd 0%nat ltac:(simpl; lia)) as H0. cbn in H0.
    destruct (IH (fun i Hi => Hd (S i) ltac:(simpl; lia)) (N * d) k) as (id & c & H1 & H2 & H3 & H4).
    { unfold number_of_processes. lia. }
    exists (id / d), (id mod d :: c). split; [|split; [|split]].
    + split; [apply Z.div_pos; lia|]. apply Z.div_lt_upper_bound; lia.
    + simpl. lia.
    + intros [|i] Hi; [cbn; apply Z.mod_pos_bound; lia|]. apply H3. simpl in Hi. lia.
    + cbn [id_loop]. rewrite <- Z.div_mod by lia. exact H4.
Qed.
Lemma unique_id_surj dims k : process_grid dims -> dims <> [] -> 0 <= k < number_of_processes dims ->
  exists c, is_process dims c /\ unique_id dims c = k.
Proof.
  intros Hd Ne Hk. destruct dims as [|d dims]; [congruence|]. cbn [number_of_processes fold_right] in Hk.
  destruct (id_loop_surj dims (fun i Hi => Hd (S i) ltac:(simpl; lia)) d k) as (id & c & H1 & H2 & H3 & H4).
  { unfold number_of_processes. lia. }
  exists (id :: c). split; [split; [simpl; lia|]|exact H4]. intros [|i] Hi; [exact H1|]. apply H3. simpl in Hi. lia.
Qed.
