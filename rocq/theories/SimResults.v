(** Simulations: results for all schedules, and with the serial subdivision. *)
From Verif Require Import Vec GridSpec RangeModel BoxFacts RangeProofs GridModel GridOpSpec GridProofs BoundaryModel BoundarySpec
  BoundaryProofs SerialProofs SubGridProofs NetModel NetProofs MpiModel MpiSpec MpiProofs MpiComm MpiExchange MpiResults
  SimModel SimSpec SimProofs.
Local Open Scope Z_scope.
Local Arguments Z.mul : simpl never.
Local Arguments Z.add : simpl never.
Local Arguments Z.sub : simpl never.
Local Arguments Z.of_nat : simpl never.

Definition enough_inner (cut : Z -> Z -> Z -> Z) (dims high : vec) (delta : Z) : nat :=
  list_sum (map (fun c => Z.to_nat (box_size (r_lo (inner_domain (mpi_bounds cut dims high delta c)))
                                             (r_hi (inner_domain (mpi_bounds cut dims high delta c))))) (plist dims)).

Theorem simulation_undivided (V : Type) (plus : V -> V -> V) cut dims high delta k gr tmp offs f n :
  subdivided cut dims high delta k gr -> 1 <= k -> (0 < length dims)%nat ->
  reach_at_most (length dims) delta offs ->
  let bd := mpi_bounds cut dims high delta in
  forall (h0 : vec -> heap V) m0 G,
  (forall c, is_process dims c -> represents (gr c) (h0 c) (m0 c)) ->
  (forall c p, is_process dims c -> in_inner (bd c) p -> m0 c p = G p) ->
  (forall c, is_process dims c -> grid_wf (tmp c) (h0 c) /\ g_block (tmp c) <> g_block (gr c) /\
     forall p, in_inner (bd c) p -> in_box (g_lo (tmp c)) (g_hi (tmp c)) p) ->
  exists N, forall fuel, (N <= fuel)%nat ->
  let update c := update_two_grids offs f fuel (bd c) (gr c) (tmp c) in
  let prog := sim_prog dims n in
  under_every_schedule dims (length prog) (call_dst dims prog)
    (sim_step plus fuel dims bd gr update n) (sim_run plus fuel dims bd gr update n) h0
    (fun h => forall c, is_process dims c ->
      (forall p, in_local (bd c) p -> grid_read (gr c) (h c) p = Some (undivided (wrap high) offs f G n (wrap high p))) /\
      (forall b, b <> g_block (gr c) -> b <> g_block (tmp c) -> h c b = h0 c b)).
Proof.
  intros (Hdims & Hlen & Hdelta & Hcuts & Hw & Hgr) Hk Hrank Hreach bd h0 m0 G R0 HG Htmp.
  assert (Hwide : forall c i, is_process dims c -> (i < length dims)%nat ->
            delta <= iHi cut dims high delta c i - iLo cut dims high delta c i + 1).
  { intros c i Hc Hi. rewrite <- inner_width_eq by exact Hi. specialize (Hw c i Hc Hi). nia. }
  assert (Hgr' : forall c, is_process dims c -> inside_grid (gr c) (bd_lo (bd c)) (bd_hi (bd c))).
  { intros c Hc p Hp. apply Hgr; assumption. }
  exists (Nat.max (enough cut dims high delta) (enough_inner cut dims high delta)). intros fuel Hf update prog.
  assert (Hfuel : forall c d, is_process dims c -> (d < length dims)%nat -> (Z.to_nat (exch_size (bd c) d) <= fuel)%nat).
  { intros c d Hc Hd. pose proof (enough_ok cut dims high delta c d Hlen Hc Hd). unfold bd. lia. }
  assert (Hfuel' : forall c, is_process dims c ->
    (Z.to_nat (box_size (r_lo (inner_domain (bd c))) (r_hi (inner_domain (bd c)))) <= fuel)%nat).
  { intros c Hc. transitivity (enough_inner cut dims high delta); [|lia]. apply list_sum_ge.
    apply (in_map (fun c => Z.to_nat (box_size (r_lo (inner_domain (bd c))) (r_hi (inner_domain (bd c)))))), (plist_In dims high Hlen), Hc. }
  assert (Htmp1 : forall c, is_process dims c -> g_block (tmp c) <> g_block (gr c) /\
    forall p, in_inner (bd c) p -> in_box (g_lo (tmp c)) (g_hi (tmp c)) p) by (intros c Hc; apply (Htmp c Hc)).
  assert (W0 : forall c, is_process dims c -> grid_wf (tmp c) (h0 c)) by (intros c Hc; apply (Htmp c Hc)).
  pose proof (sim_lockstep plus cut dims high delta gr tmp Hdims Hrank Hlen Hdelta Hwide Hgr' Htmp1 offs f Hreach fuel Hfuel Hfuel' n h0 m0 R0 W0) as LS.
  eapply (lift dims high Hdims Hlen _ _ _ _ _ _ _ LS); [reflexivity|].
  intros g Hg c Hc.
  destruct (smem_ok plus cut dims high delta gr tmp Hdims Hrank Hlen Hdelta Hwide Hgr' Htmp1 offs f Hreach fuel Hfuel Hfuel' n h0 m0 R0 W0
    (length prog) (le_n _)) as (Rk & _ & Fk).
  rewrite Hg by exact Hc. split.
  - intros p Hp. etransitivity; [exact (proj2 (Rk c Hc) p (Hgr c p Hc Hp))|]. f_equal.
    apply sval_final; assumption.
  - intros b B1 B2. apply Fk; assumption.
Qed.

Section Serial.
  Context {V : Type}.
  Variables (high : vec) (delta : Z).
  Let lo : vec := map (fun _ => - delta) high.
  Let hi : vec := map (fun x => x + delta) high.
  Let b := mkBd lo hi delta.
  Variables g tmp : grid.
  Variable offs : list vec.
  Variable f : vec -> list V -> V.
  Hypothesis Hdelta : 1 <= delta.
  Hypothesis Hhigh : forall i, (i < length high)%nat -> delta <= vget high i + 1.
  Hypothesis Hg : inside_grid g lo hi.
  Hypothesis Htb : g_block tmp <> g_block g.
  Hypothesis Htin : forall p, in_global high p -> in_box (g_lo tmp) (g_hi tmp) p.
  Hypothesis Hreach : reach_at_most (length high) delta offs.

  Lemma lo_hi_ok : box_ok lo hi.
  Proof.
    apply box_ok_vget. unfold lo, hi. rewrite !map_length. split; [reflexivity|]. intros i Hi. rewrite !vget_map by exact Hi.
    specialize (Hhigh i Hi). lia.
  Qed.
  Lemma ext_eq i : (i < length high)%nat -> inner_extent lo hi delta i = vget high i + 1.
  Proof. intros Hi. unfold inner_extent, lo, hi. rewrite !vget_map by exact Hi. lia. Qed.
  Lemma inner_enough : inner_at_least lo hi delta delta.
  Proof. intros i Hi. unfold lo in Hi. rewrite map_length in Hi. rewrite ext_eq by exact Hi. apply Hhigh, Hi. Qed.

  Lemma serial_inner p : in_box (r_lo (inner_domain b)) (r_hi (inner_domain b)) p <-> in_global high p.
  Proof.
    unfold inner_domain, b, in_global. cbn [r_lo r_hi bd_lo bd_hi bd_delta]. rewrite in_box_vget. unfold lo, hi. rewrite !map_length. split.
    - intros (_ & L & H). split; [exact L|]. intros i Hi. specialize (H i Hi). rewrite !vget_map in H by (rewrite ?map_length; exact Hi). lia.
    - intros (L & H). split; [reflexivity|]. split; [exact L|]. intros i Hi. specialize (H i Hi).
      rewrite !vget_map by (rewrite ?map_length; exact Hi). lia.
  Qed.
  Lemma serial_inner_ok : box_ok (r_lo (inner_domain b)) (r_hi (inner_domain b)).
  Proof.
    apply box_ok_vget. unfold inner_domain, b. cbn [r_lo r_hi bd_lo bd_hi bd_delta]. unfold lo, hi. rewrite !map_length. split; [reflexivity|].
    intros i Hi. rewrite !vget_map by (rewrite ?map_length; exact Hi). specialize (Hhigh i Hi). lia.
  Qed.
  Lemma in_lo_hi p : in_box lo hi p <-> length p = length high /\ forall i, (i < length high)%nat -> - delta <= vget p i <= vget high i + delta.
  Proof.
    rewrite in_box_vget. unfold lo, hi. rewrite !map_length. split.
    - intros (_ & L & H). split; [exact L|]. intros i Hi. specialize (H i Hi). rewrite !vget_map in H by exact Hi. lia.
    - intros (L & H). split; [reflexivity|]. split; [exact L|]. intros i Hi. specialize (H i Hi). rewrite !vget_map by exact Hi. lia.
  Qed.
  Lemma global_in p : in_global high p -> in_box lo hi p.
  Proof. intros [L H]. apply in_lo_hi. split; [exact L|]. intros i Hi. specialize (H i Hi). lia. Qed.
  Lemma reach_in p o : in_global high p -> In o offs -> in_box lo hi (vmap2 Z.add p o).
  Proof.
    intros [L H] Ho. destruct (Hreach o Ho) as [Lo B]. apply in_lo_hi. rewrite length_add by lia. split; [exact L|]. intros i Hi.
    rewrite vget_add by lia. specialize (H i Hi). specialize (B i Hi). lia.
  Qed.
  Lemma wrap_vget p i : (i < length high)%nat -> vget (wrap high p) i = vget p i mod (vget high i + 1).
  Proof. intros Hi. unfold wrap. apply (vget_map_seq (fun i => vget p i mod (vget high i + 1))), Hi. Qed.
  Lemma wrap_image p : in_box lo hi p -> periodic_image lo hi delta p (wrap high p).
  Proof.
    intros Hp. apply in_lo_hi in Hp. destruct Hp as [L H]. split; [unfold wrap; rewrite map_length, seq_length; lia|].
    intros i Hi. rewrite L in Hi. rewrite wrap_vget, ext_eq by exact Hi. unfold lo, hi. rewrite !vget_map by exact Hi.
    specialize (Hhigh i Hi). assert (P : 0 < vget high i + 1) by lia. pose proof (Z.mod_pos_bound (vget p i) _ P).
    split; [lia|]. rewrite Zminus_mod_idemp_r, Z.sub_diag. apply Z.mod_0_l. lia.
  Qed.
  Lemma wrap_global p : in_box lo hi p -> in_global high (wrap high p).
  Proof.
    intros Hp. split; [unfold wrap; rewrite map_length, seq_length; lia|]. intros i Hi. rewrite wrap_vget by exact Hi.
    specialize (Hhigh i Hi). assert (P : 0 < vget high i + 1) by lia. pose proof (Z.mod_pos_bound (vget p i) _ P). lia.
  Qed.

  Variable G : vec -> V.
  Notation U := (undivided (wrap high) offs f G).
  Variable fuel : nat.
  Hypothesis Hf1 : (fuel_all lo hi delta <= fuel)%nat.
  Hypothesis Hf2 : (Z.to_nat (box_size (r_lo (inner_domain b)) (r_hi (inner_domain b))) <= fuel)%nat.
  Notation update := (update_two_grids offs f fuel b g tmp).

  Lemma exchange_U (h : heap V) m t : represents g h m -> grid_wf tmp h -> (forall p, in_global high p -> m p = U t p) ->
    exists h' m', serial_exchange fuel b g h = Some (Some h') /\ represents g h' m' /\ grid_wf tmp h' /\
      (forall p, in_box lo hi p -> m' p = U t (wrap high p)) /\
      (forall c, c <> g_block g -> h' c = h c).
  Proof.
    intros R W H.
    destruct (exchange_ok lo hi delta lo_hi_ok Hdelta g Hg inner_enough fuel h m Hf1 R) as (h' & m' & E & R' & A & _ & F).
    exists h', m'. split; [exact E|]. split; [exact R'|]. split; [|split; [|exact F]].
    - eapply wf_frame; [|exact W]. apply F, Htb.
    - intros p Hp. rewrite (A p _ Hp (wrap_image p Hp)). apply H, wrap_global, Hp.
  Qed.

  Lemma steps_U n : forall (h : heap V) m t, represents g h m -> grid_wf tmp h -> (forall p, in_box lo hi p -> m p = U t (wrap high p)) ->
    exists h' m', serial_steps fuel b g update n h = Some (Some h') /\ represents g h' m' /\
      (forall p, in_box lo hi p -> m' p = U (n + t) (wrap high p)) /\
      (forall c, c <> g_block g -> c <> g_block tmp -> h' c = h c).
  Proof.
    induction n as [|n IH]; intros h m t R W H; cbn [serial_steps].
    - exists h, m. split; [reflexivity|]. split; [exact R|]. split; [exact H|]. reflexivity.
    - destruct (update_ok offs f fuel b g tmp h m serial_inner_ok Hf2 Htb R W) as (h1 & -> & R1 & W1 & F1).
      { intros p Hp. apply serial_inner in Hp. split; [apply Hg, global_in, Hp|]. split; [apply Htin, Hp|].
        intros o Ho. apply Hg, reach_in; assumption. }
      destruct (exchange_U h1 _ (S t) R1 W1) as (h2 & m2 & -> & R2 & W2 & A2 & F2).
      { intros p Hp. unfold upd_val. rewrite (proj2 (in_boxb_iff _ _ _) (proj2 (serial_inner p) Hp)). cbn [undivided]. f_equal.
        apply map_ext_in. intros o Ho. apply H, reach_in; assumption. }
      destruct (IH h2 m2 (S t) R2 W2 A2) as (h' & m' & E & R' & A' & F').
      exists h', m'. split; [exact E|]. split; [exact R'|]. split.
      + intros p Hp. rewrite A' by exact Hp. f_equal. lia.
      + intros c C1 C2. rewrite F', F2, F1 by assumption. reflexivity.
  Qed.
End Serial.

Theorem serial_simulation_undivided (V : Type) high delta (g tmp : grid) offs f n :
  1 <= delta -> (forall i, (i < length high)%nat -> delta <= vget high i + 1) ->
  let lo := map (fun _ => - delta) high in
  let hi := map (fun x => x + delta) high in
  let b := mkBd lo hi delta in
  inside_grid g lo hi -> reach_at_most (length high) delta offs ->
  forall (h0 : heap V) m0 G,
  represents g h0 m0 -> (forall p, in_global high p -> m0 p = G p) ->
  grid_wf tmp h0 -> g_block tmp <> g_block g -> (forall p, in_global high p -> in_box (g_lo tmp) (g_hi tmp) p) ->
  exists N, forall fuel, (N <= fuel)%nat ->
  exists h, serial_sim fuel b g (update_two_grids offs f fuel b g tmp) n h0 = Some (Some h) /\
    (forall p, in_box lo hi p -> grid_read g h p = Some (undivided (wrap high) offs f G n (wrap high p))) /\
    (forall c, c <> g_block g -> c <> g_block tmp -> h c = h0 c).
Proof.
  intros Hd Hh lo hi b Hg Hr h0 m0 G R0 HG W0 Tb Tin.
  exists (Nat.max (fuel_all lo hi delta) (Z.to_nat (box_size (r_lo (inner_domain b)) (r_hi (inner_domain b))))). intros fuel Hf.
  assert (Hf1 : (fuel_all lo hi delta <= fuel)%nat) by lia.
  assert (Hf2 : (Z.to_nat (box_size (r_lo (inner_domain b)) (r_hi (inner_domain b))) <= fuel)%nat) by lia.
  destruct (exchange_U high delta g tmp offs f Hd Hh Hg Tb G fuel Hf1 h0 m0 0%nat R0 W0 HG) as (h1 & m1 & E1 & R1 & W1 & A1 & F1).
  destruct (steps_U high delta g tmp offs f Hd Hh Hg Tb Tin Hr G fuel Hf1 Hf2 n h1 m1 0%nat R1 W1 A1) as (h2 & m2 & E2 & R2 & A2 & F2).
  exists h2. split; [|split].
  - unfold serial_sim. fold lo hi b in E1. rewrite E1. exact E2.
  - intros p Hp. rewrite (proj2 R2 p (Hg p Hp)). f_equal. rewrite A2 by exact Hp. f_equal. lia.
  - intros c C1 C2. rewrite F2, F1 by assumption. reflexivity.
Qed.
