(** Wrapper lemmas and examples for MpiProps. *)
From Coq Require Import QArith.
From Verif Require Import Vec GridSpec RangeModel BoxFacts RangeProofs StorageModel GridModel GridOpSpec GridProofs BoundaryModel BoundarySpec
  SubGridProofs BoundaryExamples FactorModel FactorExamples FieldModel NetModel MpiModel MpiSpec MpiProofs MpiResults.
Local Open Scope Z_scope.
Local Arguments Z.mul : simpl never.
Local Arguments Z.add : simpl never.
Local Arguments Z.sub : simpl never.

(** C26 *)
Lemma tiling cut dims high delta : process_grid dims -> length high = length dims ->
  (forall i, (i < length dims)%nat -> cut_ok cut (vget high i) (vget dims i)) ->
  forall p,
    (in_global high p -> exists c, is_process dims c /\ in_inner (mpi_bounds cut dims high delta c) p /\
       forall c', is_process dims c' -> in_inner (mpi_bounds cut dims high delta c') p -> c' = c) /\
    (forall c, is_process dims c -> in_inner (mpi_bounds cut dims high delta c) p -> in_global high p).
Proof.
  intros Hd Hl Hc p. split.
  - intros Hp. destruct (tiling_exists cut dims high delta Hd Hl p Hp) as (c & H1 & H2). exists c. split; [exact H1|]. split; [exact H2|].
    intros c' H3 H4. eapply (tiling_unique cut dims high delta Hl Hc); eassumption.
  - intros c H1 H2. eapply (tiling_inside cut dims high delta Hl Hc); eassumption.
Qed.

Lemma Forall_vget_all (P : Z -> Prop) v : Forall P v -> forall i, (i < length v)%nat -> P (vget v i).
Proof. induction 1 as [|x v H _ IH]; intros i Hi; simpl in Hi; [lia|]. destruct i; [exact H|]. rewrite vget_cons_S. apply IH. lia. Qed.

Lemma process_grid_of (F : Type) (fdiv : Z -> Z -> F) fmul fsum fltb isqrt comsize rank box_ :
  1 <= comsize -> (1 <= rank)%nat ->
  exists dims, (exists N, forall fuel, (N <= fuel)%nat -> equalFactors fdiv fmul fsum fltb fuel isqrt comsize rank box_ = Some dims) /\
    length dims = rank /\ process_grid dims /\ number_of_processes dims = comsize.
Proof.
  intros H1 H2. destruct (equalFactors_exact F fdiv fmul fsum fltb isqrt comsize rank box_ H1 H2) as (v & E & L & P & A).
  exists v. split; [exact E|]. split; [exact L|]. split; [|exact P]. intros i Hi. apply (Forall_vget_all _ _ A i Hi).
Qed.

(** [init(low, high, delta)] with a lower bound. *)
Lemma lower_bound_ignored : exists dims low high delta p c,
  process_grid dims /\ (forall i, (i < length dims)%nat -> vget low i <= vget high i) /\
  is_process dims c /\ in_inner (mpi_bounds exact_cut dims high delta c) p /\ ~ in_box low high p.
Proof.
  exists [1], [5], [9], 1, [2], [0]. split; [intros [|[|i]] Hi; simpl in Hi; try lia; vm_compute; congruence|].
  split; [intros [|[|i]] Hi; simpl in Hi; try lia; vm_compute; congruence|].
  split; [split; [reflexivity|]; intros [|[|i]] Hi; simpl in Hi; try lia; vm_compute; split; congruence|].
  split; [vm_compute; intuition congruence|]. vm_compute. intuition congruence.
Qed.

(** C28 *)
Lemma ids dims : process_grid dims -> dims <> [] ->
  (forall c, is_process dims c -> 0 <= unique_id dims c < number_of_processes dims) /\
  (forall c c', is_process dims c -> is_process dims c' -> unique_id dims c = unique_id dims c' -> c = c') /\
  (forall k, 0 <= k < number_of_processes dims -> exists c, is_process dims c /\ unique_id dims c = k).
Proof.
  intros H Ne. split; [intros c Hc; apply unique_id_bounds; assumption|]. split; [intros; eapply unique_id_inj; eassumption|].
  intros k Hk. apply unique_id_surj; assumption.
Qed.

(** C30 *)
Section Extents.
  Variable cut : Z -> Z -> Z -> Z.
  Variables (dims high : vec) (delta : Z).
  Hypothesis Hd : process_grid dims.
  Hypothesis Hl : length high = length dims.
  Hypothesis Hc : forall i, (i < length dims)%nat -> cut_ok cut (vget high i) (vget dims i).
  Let bd := mpi_bounds cut dims high delta.

  Lemma inner_lo_eq c i : (i < length dims)%nat -> vget (r_lo (inner_domain (bd c))) i = iLo cut dims high delta c i.
  Proof. intros Hi. unfold inner_domain, bd. cbn [r_lo]. rewrite vget_map by (rewrite bd_lo_length; exact Hi). rewrite bd_lo_get by exact Hi. reflexivity. Qed.
  Lemma inner_hi_eq c i : (i < length dims)%nat -> vget (r_hi (inner_domain (bd c))) i = iHi cut dims high delta c i.
  Proof. intros Hi. unfold inner_domain, bd. cbn [r_hi]. rewrite vget_map by (rewrite bd_hi_length; exact Hi). rewrite bd_hi_get by exact Hi. reflexivity. Qed.

  Lemma extents_tile elo ehi i c : (i < length dims)%nat -> is_process dims c -> 0 <= vget high i ->
    let lo := vget (r_lo (inner_domain (bd c))) i in
    let hi := vget (r_hi (inner_domain (bd c))) i in
    let next := cart_shift dims c i 1 in
    (is_bound_lo dims c i = true -> (inner_extent_min 0 (vget high i) elo ehi lo == elo)%Q) /\
    (is_bound_hi dims c i = true -> (inner_extent_max 0 (vget high i) elo ehi hi == ehi)%Q) /\
    (is_bound_hi dims c i = false ->
       vget next i = vget c i + 1 /\
       (inner_extent_max 0 (vget high i) elo ehi hi ==
        inner_extent_min 0 (vget high i) elo ehi (vget (r_lo (inner_domain (bd next))) i))%Q).
  Proof.
    intros Hi Pc H0 lo hi next. pose proof Pc as [Lc Pc']. specialize (Pc' i Hi).
    unfold lo, hi, next. rewrite !inner_lo_eq, !inner_hi_eq by exact Hi. unfold iLo, iHi.
    unfold is_bound_lo, is_bound_hi. unfold cart_shift. rewrite vget_vset_same by lia.
    split; [|split].
    - intros E. apply Z.eqb_eq in E. rewrite E. rewrite ilo_eq. cbn. unfold inner_extent_min. ring_simplify. reflexivity.
    - intros E. apply Z.eqb_eq in E. rewrite E. rewrite ihi_eq.
      destruct (Z.ltb_spec (vget dims i - 1) (vget dims i - 1)); [lia|].
      unfold inner_extent_max, cell_width. rewrite Z.sub_0_r. field. intros K.
      apply (f_equal Qnum) in K || idtac. unfold Qeq in K. cbn in K. lia.
    - intros E. apply Z.eqb_neq in E. rewrite Z.mod_small by lia. split; [reflexivity|].
      pose proof (next_match cut delta (vget high i) (vget dims i) (vget c i) ltac:(lia)) as N.
      rewrite Z.mod_small in N by lia. destruct (Z.ltb_spec (vget c i) (vget dims i - 1)); [|lia].
      unfold inner_extent_max, inner_extent_min. rewrite <- N, Z.add_0_r. reflexivity.
  Qed.

  (** A field of the process, with the inner extent as its physical domain, places its cells where the
      undivided domain has them. *)
  Lemma field_positions elo ehi i c g stag j : (i < length dims)%nat -> is_process dims c -> 0 <= vget high i -> 
    let lo := vget (r_lo (inner_domain (bd c))) i in
    let hi := vget (r_hi (inner_domain (bd c))) i in
    lo <= hi ->
    let f := mkFD Q (lo - g) (hi + g) g stag (inner_extent_min 0 (vget high i) elo ehi lo) (inner_extent_max 0 (vget high i) elo ehi hi) in
    (index_to_position q_arith f j ==
     elo + (inject_Z j + (1 # 2) * inject_Z (if stag then 1 else 0)) * ((ehi - elo) / inject_Z (vget high i + 1)))%Q.
  Proof.
    intros Hi Pc H0 lo hi Hlh f. clearbody lo hi. unfold index_to_position, f, FieldModel.cells, stag_int. cbn.
    unfold inner_extent_min, inner_extent_max, cell_width. rewrite !Z.sub_0_r.
    replace (hi + g - (lo - g) - 2 * g + 1) with (hi - lo + 1) by lia.
    unfold Zminus. rewrite !inject_Z_plus, !inject_Z_opp, !inject_Z_plus. rewrite !inject_Z_opp.
    assert (N1 : ~ (inject_Z (vget high i) + 1 == 0)%Q).
    { change 1%Q with (inject_Z 1). rewrite <- inject_Z_plus. unfold Qeq, inject_Z. cbn. lia. }
    assert (N2 : ~ (inject_Z hi - inject_Z lo + 1 == 0)%Q).
    { change 1%Q with (inject_Z 1). unfold Qminus. rewrite <- inject_Z_opp, <- !inject_Z_plus. unfold Qeq, inject_Z. cbn. lia. }
    change (inject_Z 1) with 1%Q. field. split; assumption.
  Qed.
End Extents.

(** The serial subdivision: its global domain contains the ghost cells. *)
Lemma serial_extent : exists lo hi delta elo ehi,
  box_ok lo hi /\ 1 <= delta /\ (elo < ehi)%Q /\
  let b := mkBd lo hi delta in
  (inner_extent_min (vget (r_lo (serial_global b)) 0) (vget (r_hi (serial_global b)) 0) elo ehi (vget (r_lo (inner_domain b)) 0) == elo)%Q /\
  (~ inner_extent_max (vget (r_lo (serial_global b)) 0) (vget (r_hi (serial_global b)) 0) elo ehi (vget (r_hi (inner_domain b)) 0) == ehi)%Q.
Proof.
  exists [-2], [11], 2, 0%Q, 1%Q. split; [simpl; lia|]. split; [lia|]. split; [reflexivity|].
  vm_compute. split; [reflexivity|congruence].
Qed.
Lemma serial_exact lo hi delta n i elo ehi : length lo = length hi -> (i < length lo)%nat -> 1 <= n -> 0 <= delta ->
  vget lo i = - delta -> vget hi i = n - 1 + delta ->
  let b := mkBd lo hi delta in
  (inner_extent_min (vget (r_lo (serial_global b)) i) (vget (r_hi (serial_global b)) i) elo ehi (vget (r_lo (inner_domain b)) i) == elo)%Q /\
  (inner_extent_max (vget (r_lo (serial_global b)) i) (vget (r_hi (serial_global b)) i) elo ehi (vget (r_hi (inner_domain b)) i) ==
   elo + inject_Z n * (ehi - elo) / inject_Z (n + 2 * delta))%Q.
Proof.
  intros L Hi Hn Hd El Eh b. unfold b, serial_global, inner_domain. cbn [r_lo r_hi bd_lo bd_hi bd_delta]. rewrite !vget_map by lia. rewrite El, Eh.
  replace (- delta + delta) with 0 by lia. replace (n - 1 + delta - delta + 1) with n by lia.
  unfold inner_extent_min, inner_extent_max, cell_width.
  replace (n - 1 + delta - - delta + 1) with (n + 2 * delta) by lia.
  replace (n - 1 + delta - delta + 1) with n by lia.
  assert (H : (~ inject_Z (n + 2 * delta) == 0)%Q) by (unfold Qeq, inject_Z; simpl; lia).
  split; [change (inject_Z 0) with 0%Q; ring|]. field. exact H.
Qed.
Lemma lower_bound_extent : exists glo ghi elo ehi, glo <= ghi /\ (elo < ehi)%Q /\
  (~ inner_extent_min glo ghi elo ehi glo == elo)%Q /\ (~ inner_extent_max glo ghi elo ehi ghi == ehi)%Q.
Proof. exists 5, 9, 0%Q, 1%Q. split; [lia|]. split; [reflexivity|]. vm_compute. split; congruence. Qed.
Lemma lower_bound_exact glo ghi elo ehi : glo <= ghi ->
  (inner_extent_min glo ghi elo ehi glo == elo + inject_Z glo * ((ehi - elo) / inject_Z (ghi - glo + 1)))%Q /\
  (inner_extent_max glo ghi elo ehi ghi == ehi + inject_Z glo * ((ehi - elo) / inject_Z (ghi - glo + 1)))%Q /\
  ((inner_extent_min glo ghi elo ehi glo == elo)%Q <-> glo = 0 \/ (ehi == elo)%Q).
Proof.
  intros H. unfold inner_extent_min, inner_extent_max, cell_width.
  assert (N : (~ inject_Z (ghi - glo + 1) == 0)%Q) by (unfold Qeq, inject_Z; simpl; lia).
  split; [reflexivity|]. split.
  - replace (ghi + 1) with (glo + (ghi - glo + 1)) by lia. rewrite inject_Z_plus. field. exact N.
  - split.
    + intros E.
      assert (P : (inject_Z glo * (ehi - elo) == 0)%Q).
      { setoid_replace (inject_Z glo * (ehi - elo))%Q
          with ((elo + inject_Z glo * ((ehi - elo) / inject_Z (ghi - glo + 1)) - elo) * inject_Z (ghi - glo + 1))%Q
          by (field; exact N).
        rewrite E. ring. }
      apply Qmult_integral in P. destruct P as [P|P].
      * left. unfold Qeq, inject_Z in P. simpl in P. lia.
      * right. setoid_replace ehi with ((ehi - elo) + elo)%Q by ring. rewrite P. ring.
    + intros [E|E].
      * subst glo. change (inject_Z 0) with 0%Q. ring.
      * rewrite E. field. exact N.
Qed.

(** A domain of 10 x 6 cells on two processes. *)
Definition ex_dims : vec := [2; 1].
Definition ex_high : vec := [9; 5].
Definition ex_bd := mpi_bounds exact_cut ex_dims ex_high 1.
Definition ex_gr (c : vec) : grid := mkGrid COrder 1 (bd_lo (ex_bd c)) (bd_hi (ex_bd c)).
Definition ex_G (p : vec) : Z := 100 * vget p 0 + vget p 1.
Definition ex_start (c : vec) : vec -> Z := fun p => if in_boxb (r_lo (inner_domain (ex_bd c))) (r_hi (inner_domain (ex_bd c))) p then ex_G p else 7.
Definition ex_h0 (c : vec) : heap Z := fun b => match b with 1%nat => map (ex_start c) (box (bd_lo (ex_bd c)) (bd_hi (ex_bd c))) | _ => [] end.

Lemma is_process_ex c : is_process ex_dims c -> c = [0; 0] \/ c = [1; 0].
Proof.
  intros [L H]. destruct c as [|a [|b [|]]]; try discriminate. pose proof (H 0%nat ltac:(simpl; lia)) as H0. pose proof (H 1%nat ltac:(simpl; lia)) as H1.
  cbn in H0, H1. assert (b = 0) by lia. subst b. assert (a = 0 \/ a = 1) as [-> | ->] by lia; auto.
Qed.

Lemma ex_subdivided : subdivided exact_cut ex_dims ex_high 1 2 ex_gr.
Proof.
  split; [intros [|[|i]] Hi; simpl in Hi; try lia; vm_compute; congruence|].
  split; [reflexivity|]. split; [lia|].
  split; [intros [|[|i]] Hi; simpl in Hi; try lia; apply exact_cut_ok; vm_compute; congruence|].
  split; [|intros c p _ Hp; exact Hp].
  intros c i Hc Hi. apply is_process_ex in Hc. destruct Hc as [-> | ->]; destruct i as [|[|i]]; simpl in Hi; try lia; vm_compute; congruence.
Qed.

Lemma represents_check (g : grid) (h : heap Z) m : grid_wf g h ->
  forallb (fun p => match grid_read g h p with Some v => v =? m p | None => false end) (box (g_lo g) (g_hi g)) = true ->
  represents g h m.
Proof.
  intros W H. split; [exact W|]. apply reads_by_box. rewrite forallb_forall in H. intros p Hp. specialize (H p Hp).
  destruct (grid_read g h p) as [v|]; [|discriminate]. apply Z.eqb_eq in H. congruence.
Qed.

Lemma ex_represents c : is_process ex_dims c -> represents (ex_gr c) (ex_h0 c) (ex_start c).
Proof.
  intros Hc. apply is_process_ex in Hc. destruct Hc as [-> | ->]; (apply represents_check; [|vm_compute; reflexivity]).
  - split; [discriminate|]. split; [vm_compute; intuition congruence|]. split; [reflexivity|]. split; [vm_compute; reflexivity|]. intros _; vm_compute; discriminate.
  - split; [discriminate|]. split; [vm_compute; intuition congruence|]. split; [reflexivity|]. split; [vm_compute; reflexivity|]. intros _; vm_compute; discriminate.
Qed.

Lemma ex_inner c p : is_process ex_dims c -> in_inner (ex_bd c) p -> ex_start c p = ex_G p.
Proof. intros _ H. unfold ex_start. apply in_boxb_iff in H. rewrite H. reflexivity. Qed.

(** One schedule: the second process runs ahead as far as it can. *)
Definition ex_round : list event := [Send [1;0]; Send [0;0]; Recv [0;0]; Finish [0;0]; Recv [1;0]; Finish [1;0]].
Definition ex_schedule (n : nat) : list event := concat (repeat ex_round n).

Lemma ex_exchange_run : 
  match mpi_run Z.add 50 ex_dims ex_bd ex_gr (all_dims exchange_calls 2) (ex_schedule 4) (net_init ex_h0) with
  | Next st => grid_read (ex_gr [0;0]) (pr_mem (n_proc st [0;0])) [-1; 6] = Some (ex_G [9; 0]) /\
               grid_read (ex_gr [1;0]) (pr_mem (n_proc st [1;0])) [4; -1] = Some (ex_G [4; 5])
  | _ => False
  end.
Proof. vm_compute. split; reflexivity. Qed.

Lemma ex_accumulate_run : 
  match mpi_run Z.add 50 ex_dims ex_bd ex_gr (all_dims accumulate_calls 2) (ex_schedule 8) (net_init ex_h0) with
  | Next st => grid_read (ex_gr [0;0]) (pr_mem (n_proc st [0;0])) [0; 0] = Some (ex_G [0; 0] + 7 + 7 + 7) /\
               grid_read (ex_gr [1;0]) (pr_mem (n_proc st [1;0])) [6; 3] = Some (ex_G [6; 3])
  | _ => False
  end.
Proof. vm_compute. split; reflexivity. Qed.
