(** Proofs about simulations on a divided domain. *)
From Verif Require Import Vec GridSpec RangeModel BoxFacts RangeProofs GridModel GridOpSpec GridProofs BoundaryModel BoundarySpec
  BoundaryProofs SerialProofs SubGridProofs NetModel NetProofs MpiModel MpiSpec MpiProofs MpiComm MpiExchange MpiResults SimModel SimSpec.
Local Open Scope Z_scope.
Local Arguments Z.mul : simpl never.
Local Arguments Z.add : simpl never.
Local Arguments Z.sub : simpl never.
Local Arguments Z.of_nat : simpl never.

Lemma some_values {V} (g : grid) (h : heap V) : grid_wf g h -> exists m, represents g h m.
Proof.
  intros Hw. destruct (grid_read_ok g h (g_lo g) Hw (box_ok_in_box_lo _ _ (proj1 (proj2 Hw)))) as [v0 _].
  exists (fun p => match grid_read g h p with Some v => v | None => v0 end). split; [exact Hw|].
  intros p Hp. destruct (grid_read_ok g h p Hw Hp) as [v ->]. reflexivity.
Qed.

Lemma represents_frame {V} (g : grid) (h h' : heap V) m : h' (g_block g) = h (g_block g) -> represents g h m -> represents g h' m.
Proof.
  intros E [W R]. assert (W' : grid_wf g h') by (eapply grid_wf_ext; [|exact W]; rewrite E; reflexivity).
  split; [exact W'|]. intros p Hp. rewrite <- (R p Hp).
  rewrite !grid_read_elem by assumption. unfold read_elem. rewrite E. reflexivity.
Qed.
Lemma wf_frame {V} (g : grid) (h h' : heap V) : h' (g_block g) = h (g_block g) -> grid_wf g h -> grid_wf g h'.
Proof. intros E W. eapply grid_wf_ext; [|exact W]. rewrite E. reflexivity. Qed.

Section Rule.
  Context {V : Type}.
  Variable offs : list vec.
  Variable f : vec -> list V -> V.

  Lemma apply_rule_spec (src dst : grid) m : g_block src <> g_block dst ->
    forall l (h : heap V) m', represents src h m -> represents dst h m' ->
    (forall p, In p l -> in_box (g_lo dst) (g_hi dst) p /\
       forall o, In o offs -> in_box (g_lo src) (g_hi src) (vmap2 Z.add p o)) ->
    exists h' m'', apply_rule offs f src dst l h = Some h' /\ represents src h' m /\ represents dst h' m'' /\
      (forall q, In q l -> m'' q = f q (map (fun o => m (vmap2 Z.add q o)) offs)) /\
      (forall q, ~ In q l -> m'' q = m' q) /\
      (forall b, b <> g_block dst -> h' b = h b).
  Proof.
    intros Hb. induction l as [|p l IH]; intros h m' Rs Rd Hl; cbn [apply_rule].
    - exists h, m'. split; [reflexivity|]. split; [exact Rs|]. split; [exact Rd|]. split; [intros q []|]. auto.
    - destruct (Hl p (or_introl eq_refl)) as [Hp Ho].
      rewrite (read_cells_spec src h m) by (try exact Rs; intros q Hq; apply in_map_iff in Hq; destruct Hq as (o & <- & Hin); apply Ho, Hin).
      rewrite map_map.
      set (v := f p (map (fun o => m (vmap2 Z.add p o)) offs)).
      destruct (rep_write dst h m' p v Rd Hp) as (h1 & -> & Rd1 & F1).
      assert (Rs1 : represents src h1 m) by (eapply represents_frame; [|exact Rs]; apply F1, Hb).
      destruct (IH h1 _ Rs1 Rd1) as (h' & m'' & E & Rs' & Rd' & A & B & F).
      { intros q Hq. apply Hl. right; exact Hq. }
      exists h', m''. split; [exact E|]. split; [exact Rs'|]. split; [exact Rd'|]. split; [|split].
      + intros q Hq. destruct (in_dec vec_dec q l) as [Hi|Hn]; [apply A, Hi|].
        destruct Hq as [<-|Hq]; [|contradiction]. rewrite B by exact Hn. rewrite veqb_refl. reflexivity.
      + intros q Hq. rewrite B by (intros K; apply Hq; right; exact K). rewrite veqb_neq; [reflexivity|].
        intros ->. apply Hq. left; reflexivity.
      + intros b Hb'. rewrite F by exact Hb'. apply F1, Hb'.
  Qed.

  Lemma copy_between_spec (src dst : grid) m : g_block src <> g_block dst ->
    forall l (h : heap V) m', represents src h m -> represents dst h m' ->
    (forall p, In p l -> in_box (g_lo dst) (g_hi dst) p /\ in_box (g_lo src) (g_hi src) p) ->
    exists h' m'', copy_between src dst l h = Some h' /\ represents src h' m /\ represents dst h' m'' /\
      (forall q, In q l -> m'' q = m q) /\ (forall q, ~ In q l -> m'' q = m' q) /\
      (forall b, b <> g_block dst -> h' b = h b).
  Proof.
    intros Hb. induction l as [|p l IH]; intros h m' Rs Rd Hl; cbn [copy_between].
    - exists h, m'. split; [reflexivity|]. split; [exact Rs|]. split; [exact Rd|]. split; [intros q []|]. auto.
    - destruct (Hl p (or_introl eq_refl)) as [Hp Ho]. rewrite (proj2 Rs p Ho).
      destruct (rep_write dst h m' p (m p) Rd Hp) as (h1 & -> & Rd1 & F1).
      assert (Rs1 : represents src h1 m) by (eapply represents_frame; [|exact Rs]; apply F1, Hb).
      destruct (IH h1 _ Rs1 Rd1) as (h' & m'' & E & Rs' & Rd' & A & B & F).
      { intros q Hq. apply Hl. right; exact Hq. }
      exists h', m''. split; [exact E|]. split; [exact Rs'|]. split; [exact Rd'|]. split; [|split].
      + intros q Hq. destruct (in_dec vec_dec q l) as [Hi|Hn]; [apply A, Hi|].
        destruct Hq as [<-|Hq]; [|contradiction]. rewrite B by exact Hn. rewrite veqb_refl. reflexivity.
      + intros q Hq. rewrite B by (intros K; apply Hq; right; exact K). rewrite veqb_neq; [reflexivity|].
        intros ->. apply Hq. left; reflexivity.
      + intros b Hb'. rewrite F by exact Hb'. apply F1, Hb'.
  Qed.

  (** Values of a grid after an update of the inner cells [lo..hi]. *)
  Definition upd_val (lo hi : vec) (m : vec -> V) (p : vec) : V :=
    if in_boxb lo hi p then f p (map (fun o => m (vmap2 Z.add p o)) offs) else m p.

  Lemma update_ok fuel b (field tmp : grid) (h : heap V) m :
    let lo := r_lo (inner_domain b) in let hi := r_hi (inner_domain b) in
    box_ok lo hi -> (Z.to_nat (box_size lo hi) <= fuel)%nat -> g_block tmp <> g_block field ->
    represents field h m -> grid_wf tmp h ->
    (forall p, in_box lo hi p -> in_box (g_lo field) (g_hi field) p /\ in_box (g_lo tmp) (g_hi tmp) p /\
       forall o, In o offs -> in_box (g_lo field) (g_hi field) (vmap2 Z.add p o)) ->
    exists h', update_two_grids offs f fuel b field tmp h = Some h' /\ represents field h' (upd_val lo hi m) /\ grid_wf tmp h' /\
      (forall b', b' <> g_block field -> b' <> g_block tmp -> h' b' = h b').
  Proof.
    intros lo hi Ok Hf Hb R Wt Hin. unfold update_two_grids.
    replace (inner_domain b) with (mkRange lo hi) by (subst lo hi; destruct (inner_domain b); reflexivity).
    rewrite range_visits_box by assumption.
    destruct (some_values tmp h Wt) as [mt Rt].
    destruct (apply_rule_spec field tmp m (not_eq_sym Hb) (box lo hi) h mt R Rt) as (h1 & m1 & -> & R1 & Rt1 & A1 & _ & F1).
    { intros p Hp. apply box_In in Hp. destruct (Hin p Hp) as (_ & X & Y). split; assumption. }
    destruct (copy_between_spec tmp field m1 Hb (box lo hi) h1 m Rt1 R1) as (h2 & m2 & -> & Rt2 & R2 & A2 & B2 & F2).
    { intros p Hp. apply box_In in Hp. destruct (Hin p Hp) as (X & Y & _). split; assumption. }
    exists h2. split; [reflexivity|]. split; [|split].
    - eapply represents_ext; [exact R2|]. intros p _. unfold upd_val. destruct (in_boxb lo hi p) eqn:E.
      + apply in_boxb_iff, box_In in E. rewrite A2, A1 by exact E. reflexivity.
      + apply B2. intros K. apply box_In, in_boxb_iff in K. congruence.
    - apply Rt2.
    - intros b' H1 H2. rewrite F2, F1 by assumption. reflexivity.
  Qed.
End Rule.

Lemma vget_add (p o : vec) i : length o = length p -> (i < length p)%nat -> vget (vmap2 Z.add p o) i = vget p i + vget o i.
Proof.
  revert o i. induction p as [|x p IH]; intros [|y o] i L Hi; cbn in L, Hi; try lia. destruct i as [|i]; [reflexivity|].
  cbn [vmap2]. change (vget (vmap2 Z.add p o) i = vget p i + vget o i). apply IH; lia.
Qed.
Lemma length_add (p o : vec) : length o = length p -> length (vmap2 Z.add p o) = length p.
Proof. revert o. induction p as [|x p IH]; intros [|y o] L; cbn in L; try lia; cbn; [reflexivity|]. rewrite IH; lia. Qed.

Section Processes.
  Context {V : Type}.
  Variable plus : V -> V -> V.
  Variable cut : Z -> Z -> Z -> Z.
  Variables (dims high : vec) (delta : Z).
  Let bd := mpi_bounds cut dims high delta.
  Variables gr tmp : vec -> grid.
  Hypothesis Hdims : process_grid dims.
  Hypothesis Hrank : (0 < length dims)%nat.
  Hypothesis Hlen : length high = length dims.
  Hypothesis Hcuts : forall i, (i < length dims)%nat -> cut_ok cut (vget high i) (vget dims i).
  Hypothesis Hdelta : 1 <= delta.
  Hypothesis Hwide : forall c i, is_process dims c -> (i < length dims)%nat ->
    delta <= iHi cut dims high delta c i - iLo cut dims high delta c i + 1.
  Hypothesis Hgr : forall c, is_process dims c -> inside_grid (gr c) (bd_lo (bd c)) (bd_hi (bd c)).
  Hypothesis Htmp : forall c, is_process dims c -> g_block (tmp c) <> g_block (gr c) /\
    forall p, in_inner (bd c) p -> in_box (g_lo (tmp c)) (g_hi (tmp c)) p.

  Variable offs : list vec.
  Variable f : vec -> list V -> V.
  Hypothesis Hreach : reach_at_most (length dims) delta offs.

  Variable fuel : nat.
  Hypothesis Hfuel : forall c d, is_process dims c -> (d < length dims)%nat ->
    (Z.to_nat (exch_size (bd c) d) <= fuel)%nat.
  Hypothesis Hfuel' : forall c, is_process dims c ->
    (Z.to_nat (box_size (r_lo (inner_domain (bd c))) (r_hi (inner_domain (bd c)))) <= fuel)%nat.
  Variable n : nat.
  Notation prog := (sim_prog dims n).
  Notation R := (length dims * 2)%nat.
  Notation update := (fun c => update_two_grids offs f fuel (bd c) (gr c) (tmp c)).
  Notation store := (sim_store plus fuel dims bd gr update n).
  Notation src := (call_src dims prog).
  Notation upd_call := (upd_call plus cut dims high delta).
  Notation lmsg := (lmsg cut dims high delta gr fuel prog).

  Lemma xprog_length : length (xprog dims) = R.
  Proof. apply all_dims_length. reflexivity. Qed.

  Lemma repeat_length_concat {A} (l : list A) k : length (concat (repeat l k)) = (k * length l)%nat.
  Proof. induction k as [|k IH]; cbn [repeat concat]; [reflexivity|]. rewrite app_length, IH. lia. Qed.
  Lemma nth_repeat_concat {A} (l : list A) k d : forall t r, (t < k)%nat -> (r < length l)%nat ->
    nth (t * length l + r) (concat (repeat l k)) d = nth r l d.
  Proof.
    induction k as [|k IH]; intros t r Ht Hr; [lia|]. cbn [repeat concat]. destruct t as [|t].
    - rewrite app_nth1 by lia. reflexivity.
    - rewrite app_nth2 by lia. replace (S t * length l + r - length l)%nat with (t * length l + r)%nat by lia. apply IH; lia.
  Qed.

  Lemma prog_length : length prog = (S n * R)%nat.
  Proof. unfold sim_prog. rewrite repeat_length_concat. f_equal. apply xprog_length. Qed.
  Lemma prog_call t r : (t <= n)%nat -> (r < R)%nat -> the_call prog (t * R + r) = the_call (xprog dims) r.
  Proof.
    intros Ht Hr. unfold the_call, sim_prog. rewrite <- xprog_length in Hr |- *. apply nth_repeat_concat; [lia|exact Hr].
  Qed.
  Lemma prog_dims cl : In cl prog -> (cl_dim cl < length dims)%nat.
  Proof.
    unfold sim_prog. intros H. apply in_concat in H. destruct H as (l & Hl & Hc). apply repeat_spec in Hl. subst l.
    apply (xprog_dims dims high Hlen), Hc.
  Qed.

  Lemma ends_false t r : (t <= n)%nat -> (S r < R)%nat -> ends_exchange dims n (t * R + r) = false.
  Proof.
    intros Ht Hr. unfold ends_exchange. apply andb_false_iff. right. apply Nat.eqb_neq.
    replace (S (t * R + r)) with (S r + t * R)%nat by lia. rewrite Nat.mod_add, Nat.mod_small by lia. lia.
  Qed.
  Lemma ends_true t r : (t < n)%nat -> S r = R -> ends_exchange dims n (t * R + r) = true.
  Proof.
    intros Ht Hr. unfold ends_exchange. rewrite prog_length. apply andb_true_iff. split.
    - apply Nat.ltb_lt. nia.
    - apply Nat.eqb_eq. replace (S (t * R + r)) with (0 + S t * R)%nat by lia. rewrite Nat.mod_add by lia. apply Nat.mod_small. lia.
  Qed.
  Lemma ends_last r : S r = R -> ends_exchange dims n (n * R + r) = false.
  Proof.
    intros Hr. unfold ends_exchange. rewrite prog_length. apply andb_false_iff. left. apply Nat.ltb_ge. nia.
  Qed.

  (** *** Lock step *)
  Definition smsg (mem : vec -> heap V) (k : nat) (c : vec) : list V := lmsg mem k c.
  Fixpoint smem (h0 : vec -> heap V) (k : nat) : vec -> heap V :=
    match k with
    | O => h0
    | S k' => fun c => match store k' c (smem h0 k' c) (smsg (smem h0 k') k' (src k' c)) with Some h => h | None => smem h0 k' c end
    end.
  Definition uval (m : vec -> vec -> V) (c : vec) : vec -> V :=
    upd_val offs f (r_lo (inner_domain (bd c))) (r_hi (inner_domain (bd c))) (m c).
  Fixpoint sval (m0 : vec -> vec -> V) (k : nat) : vec -> vec -> V :=
    match k with
    | O => m0
    | S k' => let m := upd_call (the_call prog k') (sval m0 k') in if ends_exchange dims n k' then uval m else m
    end.

  Lemma inner_ok c : is_process dims c -> box_ok (r_lo (inner_domain (bd c))) (r_hi (inner_domain (bd c))).
  Proof.
    intros Hc. apply box_ok_vget. unfold inner_domain. cbn [r_lo r_hi]. rewrite !map_length.
    unfold bd. rewrite bd_lo_length, bd_hi_length. split; [reflexivity|]. intros i Hi.
    rewrite !vget_map by (rewrite ?bd_lo_length, ?bd_hi_length; exact Hi).
    rewrite bd_lo_get, bd_hi_get by exact Hi. pose proof (Hwide c i Hc Hi) as W. unfold iLo, iHi, ilo, ihi in W.
    unfold mpi_bounds. cbn [bd_delta]. lia.
  Qed.

  Lemma reach_local c p o : is_process dims c -> in_inner (bd c) p -> In o offs -> in_local (bd c) (vmap2 Z.add p o).
  Proof.
    intros Hc Hp Ho. destruct (Hreach o Ho) as [Lo Bo]. apply in_inner_iff in Hp. destruct Hp as [Lp Hp].
    apply in_local_iff. rewrite length_add by lia. split; [exact Lp|]. intros i Hi. rewrite vget_add by lia.
    specialize (Hp i Hi). specialize (Bo i Hi). lia.
  Qed.
  Lemma inner_local c p : is_process dims c -> in_inner (bd c) p -> in_local (bd c) p.
  Proof.
    intros Hc Hp. apply in_inner_iff in Hp. destruct Hp as [Lp Hp]. apply in_local_iff. split; [exact Lp|]. intros i Hi.
    specialize (Hp i Hi). lia.
  Qed.

  Lemma step_ok mem m k c : rep_all dims gr mem m -> (forall c', is_process dims c' -> grid_wf (tmp c') (mem c')) ->
    (k < length prog)%nat -> is_process dims c ->
    exists h', store k c (mem c) (smsg mem k (src k c)) = Some h' /\
      represents (gr c) h' ((let m' := upd_call (the_call prog k) m in if ends_exchange dims n k then uval m' else m') c) /\
      grid_wf (tmp c) h' /\ (forall b, b <> g_block (gr c) -> b <> g_block (tmp c) -> h' b = mem c b).
  Proof.
    intros Rm Wt Hk Hc.
    destruct (store_ok plus cut dims high delta gr Hdims Hlen Hdelta Hwide Hgr fuel Hfuel prog prog_dims mem m k c Rm Hk Hc)
      as (h1 & E & R1 & F1).
    unfold sim_store, smsg. fold bd in E. rewrite E. destruct (Htmp c Hc) as [Tb Tin].
    assert (W1 : grid_wf (tmp c) h1) by (eapply wf_frame; [|apply Wt, Hc]; apply F1, Tb).
    destruct (ends_exchange dims n k).
    - destruct (update_ok offs f fuel (bd c) (gr c) (tmp c) h1 _ (inner_ok c Hc) (Hfuel' c Hc) Tb R1 W1) as (h' & E' & R' & W' & F').
      + intros p Hp. split; [apply (Hgr c Hc), inner_local; assumption|]. split; [apply Tin, Hp|].
        intros o Ho. apply (Hgr c Hc). apply reach_local; assumption.
      + exists h'. split; [exact E'|]. split; [exact R'|]. split; [exact W'|]. intros b B1 B2. rewrite F' by assumption. apply F1, B1.
    - exists h1. split; [reflexivity|]. split; [exact R1|]. split; [exact W1|]. intros b B1 _. apply F1, B1.
  Qed.

  Section Run.
    Variables (h0 : vec -> heap V) (m0 : vec -> vec -> V).
    Hypothesis R0 : rep_all dims gr h0 m0.
    Hypothesis W0 : forall c, is_process dims c -> grid_wf (tmp c) (h0 c).

    Lemma smem_ok k : (k <= length prog)%nat ->
      rep_all dims gr (smem h0 k) (sval m0 k) /\ (forall c, is_process dims c -> grid_wf (tmp c) (smem h0 k c)) /\
      forall c b, is_process dims c -> b <> g_block (gr c) -> b <> g_block (tmp c) -> smem h0 k c b = h0 c b.
    Proof.
      induction k as [|k IH]; intros Hk; [split; [exact R0|split; [exact W0|reflexivity]]|].
      destruct IH as (Rk & Wk & Fk); [lia|].
      split; [|split].
      - intros c Hc. cbn [smem sval]. destruct (step_ok _ _ k c Rk Wk ltac:(lia) Hc) as (h' & -> & Rh & _). exact Rh.
      - intros c Hc. cbn [smem]. destruct (step_ok _ _ k c Rk Wk ltac:(lia) Hc) as (h' & -> & _ & Wh & _). exact Wh.
      - intros c b Hc B1 B2. cbn [smem]. destruct (step_ok _ _ k c Rk Wk ltac:(lia) Hc) as (h' & -> & _ & _ & Fh).
        rewrite Fh by assumption. apply Fk; assumption.
    Qed.

    Lemma sim_lockstep : lockstep (length prog) (call_dst dims prog) src (call_fill fuel bd gr prog) store (plist dims)
                           (smem h0) (fun k => smsg (smem h0 k) k).
    Proof.
      intros k c Hk Hc. apply (plist_In dims high Hlen) in Hc.
      assert (Hd : (cl_dim (the_call prog k) < length dims)%nat) by (apply prog_dims, nth_In, Hk).
      destruct (smem_ok k ltac:(lia)) as (Rk & Wk & _).
      assert (Hds : is_process dims (call_dst dims prog k c)) by (eapply shift_process; eassumption).
      assert (Hsr : is_process dims (src k c)) by (eapply shift_process; eassumption).
      split; [apply (plist_In dims high Hlen), Hds|]. split; [apply (plist_In dims high Hlen), Hsr|]. split; [|split; [|split]].
      - apply (MpiComm.shift_back dims high Hdims Hlen); [exact Hc|exact Hd|]. destruct (cl_up _); lia.
      - apply (MpiComm.shift_back dims high Hdims Hlen); [exact Hc|exact Hd|]. destruct (cl_up _); lia.
      - unfold smsg, MpiComm.lmsg.
        pose proof (fill_ok cut dims high delta gr Hlen Hdelta Hwide Hgr fuel Hfuel prog prog_dims _ _ k c Rk Hk Hc) as K. unfold bd. rewrite K. reflexivity.
      - destruct (step_ok _ _ k c Rk Wk Hk Hc) as (h' & E & _). cbn [smem]. rewrite E. reflexivity.
    Qed.

    (** *** Values *)
    Lemma sval_round t r : (t <= n)%nat -> (r < R)%nat ->
      sval m0 (t * R + r) = MpiComm.lval plus cut dims high delta (xprog dims) (sval m0 (t * R)) r.
    Proof.
      intros Ht. induction r as [|r IH]; intros Hr; [rewrite Nat.add_0_r; reflexivity|].
      rewrite Nat.add_succ_r. cbn [sval MpiComm.lval]. rewrite ends_false by lia. rewrite IH by lia.
      rewrite prog_call by lia. reflexivity.
    Qed.
    Lemma sval_update t : (t < n)%nat ->
      sval m0 (S t * R) = uval (MpiComm.lval plus cut dims high delta (xprog dims) (sval m0 (t * R)) R).
    Proof.
      intros Ht. assert (E : exists r, S r = R) by (exists (R - 1)%nat; lia). destruct E as [r Hr].
      replace (S t * R)%nat with (S (t * R + r)) by lia. cbn [sval]. rewrite ends_true by assumption.
      rewrite sval_round by lia. rewrite prog_call by lia. rewrite <- Hr. reflexivity.
    Qed.
    Lemma sval_last : sval m0 (S n * R) = MpiComm.lval plus cut dims high delta (xprog dims) (sval m0 (n * R)) R.
    Proof.
      assert (E : exists r, S r = R) by (exists (R - 1)%nat; lia). destruct E as [r Hr].
      replace (S n * R)%nat with (S (n * R + r)) by lia. cbn [sval]. rewrite ends_last by assumption.
      rewrite sval_round by lia. rewrite prog_call by lia. rewrite <- Hr. reflexivity.
    Qed.

    Variable G : vec -> V.
    Hypothesis HG : forall c p, is_process dims c -> in_inner (bd c) p -> m0 c p = G p.
    Notation U := (undivided (wrap high) offs f G).

    Lemma exchanged m t : (forall c p, is_process dims c -> in_inner (bd c) p -> m c p = U t p) ->
      forall c p, is_process dims c -> in_local (bd c) p ->
      MpiComm.lval plus cut dims high delta (xprog dims) m R c p = U t (wrap high p).
    Proof.
      intros H c p Hc Hp. apply exchange_values; try assumption; try lia.
    Qed.

    Lemma sval_undivided t : (t <= n)%nat -> forall c p, is_process dims c -> in_inner (bd c) p -> sval m0 (t * R) c p = U t p.
    Proof.
      induction t as [|t IH]; intros Ht c p Hc Hp; [apply HG; assumption|].
      rewrite sval_update by lia. unfold uval, upd_val. unfold in_inner in Hp. rewrite (proj2 (in_boxb_iff _ _ _) Hp).
      cbn [undivided]. f_equal. apply map_ext_in. intros o Ho. apply exchanged; [|exact Hc|].
      - intros c' p' Hc' Hp'. apply IH; [lia|assumption|assumption].
      - apply reach_local; assumption.
    Qed.

    Lemma sval_final c p : is_process dims c -> in_local (bd c) p -> sval m0 (length prog) c p = U n (wrap high p).
    Proof.
      intros Hc Hp. rewrite prog_length, sval_last. apply exchanged; [|exact Hc|exact Hp].
      intros c' p' Hc' Hp'. apply sval_undivided; [lia|assumption|assumption].
    Qed.
  End Run.
End Processes.
