(** Exchange, accumulation and data exchange under every schedule. *)
From Verif Require Import Vec GridSpec RangeModel BoxFacts RangeProofs GridModel GridOpSpec GridProofs BoundaryModel BoundarySpec
  BoundaryProofs SerialProofs SubGridProofs NetModel NetProofs MpiModel MpiSpec MpiProofs MpiComm MpiExchange MpiAccumulate.
Local Open Scope Z_scope.
Local Arguments Z.mul : simpl never.
Local Arguments Z.add : simpl never.
Local Arguments Z.sub : simpl never.
Local Arguments Z.of_nat : simpl never.

Section Lift.
  Context {M B : Type}.
  Variables (dims high : vec).
  Hypothesis Hdims : process_grid dims.
  Hypothesis Hlen : length high = length dims.
  Variable ncalls : nat.
  Variables dst src : nat -> vec -> vec.
  Variable fill : nat -> vec -> M -> option B.
  Variable store : nat -> vec -> M -> B -> option M.
  Variable mem : nat -> vec -> M.
  Variable msg : nat -> vec -> B.
  Hypothesis LS : lockstep ncalls dst src fill store (plist dims) mem msg.

  Lemma lift m0 (post : (vec -> M) -> Prop) : (forall p, m0 p = mem 0%nat p) ->
    (forall f, (forall c, is_process dims c -> f c = mem ncalls c) -> post f) ->
    under_every_schedule dims ncalls dst (net_step ncalls dst src fill store) (net_run ncalls dst src fill store) m0 post.
  Proof.
    intros H0 HP es He.
    assert (He' : Forall (fun e => In (event_proc e) (plist dims)) es).
    { eapply Forall_impl; [|exact He]. intros e. apply (plist_In dims high Hlen). }
    pose proof (schedule_independent ncalls dst src fill store _ mem msg LS m0 H0 (plist_NoDup dims) es He') as S.
    pose proof (run_inv ncalls dst src fill store _ mem msg LS es _ (inv_init ncalls dst src (plist dims) mem msg m0 H0) He') as I.
    destruct (net_run ncalls dst src fill store es (net_init m0)) as [| |st]; [exact Logic.I|exact S|].
    assert (D : finished dims ncalls st <-> all_done ncalls (plist dims) st).
    { split; intros H c Hc; apply H; apply (plist_In dims high Hlen) in Hc; exact Hc. }
    destruct S as (S1 & S2 & S3). split; [|split].
    - pose proof (plist_length dims high Hdims Hlen) as PL. rewrite <- PL. lia.
    - intros F. apply HP. intros c Hc. apply S2; [apply D, F|]. apply (plist_In dims high Hlen), Hc.
    - intros F. assert (F' : ~ all_done ncalls (plist dims) st) by (intros K; apply F, D, K). split.
      + destruct (S3 F') as (e & st' & Hp & E). exists e, st'. split; [apply (plist_In dims high Hlen), Hp|exact E].
      + intros Nm. destruct (progress_unbuffered ncalls dst src fill store _ mem msg LS st I F') as (p & st1 & Hp & K).
        { intros s d Hs Hd. apply (plist_In dims high Hlen) in Hs. apply (plist_In dims high Hlen) in Hd. apply Nm; assumption. }
        exists p, st1. split; [apply (plist_In dims high Hlen), Hp|]. destruct K as [K|(st2 & K1 & K2 & K3 & K4)]; [left; exact K|right].
        exists st2. split; [exact K1|]. split; [apply (plist_In dims high Hlen), K2|]. split; [exact K3|].
        intros s d Hs Hd. apply K4; apply (plist_In dims high Hlen); assumption.
  Qed.
End Lift.

Lemma inner_width_eq cut dims high delta c i : (i < length dims)%nat ->
  inner_width (mpi_bounds cut dims high delta c) i = iHi cut dims high delta c i - iLo cut dims high delta c i + 1.
Proof.
  intros Hi. unfold inner_width, inner_domain. cbn [r_lo r_hi].
  rewrite !vget_map by (rewrite ?bd_lo_length, ?bd_hi_length; exact Hi). rewrite bd_lo_get, bd_hi_get by exact Hi. reflexivity.
Qed.

(** Enough fuel for all regions. *)
Definition enough (cut : Z -> Z -> Z -> Z) (dims high : vec) (delta : Z) : nat :=
  list_sum (flat_map (fun c => map (fun d => Z.to_nat (exch_size (mpi_bounds cut dims high delta c) d)) (seq 0 (length dims))) (plist dims)).

Lemma list_sum_ge x l : In x l -> (x <= list_sum l)%nat.
Proof. induction l as [|y l IH]; intros []; cbn [list_sum fold_right]; [subst; lia|]. specialize (IH H). unfold list_sum in IH. lia. Qed.

Lemma enough_ok cut dims high delta c d : length high = length dims -> is_process dims c -> (d < length dims)%nat ->
  (Z.to_nat (exch_size (mpi_bounds cut dims high delta c) d) <= enough cut dims high delta)%nat.
Proof.
  intros Hlen Hc Hd. apply list_sum_ge, in_flat_map. exists c. split; [apply (plist_In dims high Hlen), Hc|].
  apply in_map_iff. exists d. split; [reflexivity|]. apply in_seq. lia.
Qed.

Section Results.
  Context {V : Type}.
  Variable plus : V -> V -> V.
  Variable cut : Z -> Z -> Z -> Z.
  Variables (dims high : vec) (delta k : Z).
  Variable gr : vec -> grid.
  Let bd := mpi_bounds cut dims high delta.
  Hypothesis Hsub : subdivided cut dims high delta k gr.

  Lemma general (prog : list call) h0 m0 (post : (vec -> heap V) -> Prop) : 1 <= k ->
    (forall cl, In cl prog -> (cl_dim cl < length dims)%nat) ->
    (forall c, is_process dims c -> represents (gr c) (h0 c) (m0 c)) ->
    (forall (f : vec -> heap V), 
       (forall c p, is_process dims c -> in_box (g_lo (gr c)) (g_hi (gr c)) p ->
          grid_read (gr c) (f c) p = Some (lval plus cut dims high delta prog m0 (length prog) c p)) ->
       (forall c b, is_process dims c -> b <> g_block (gr c) -> f c b = h0 c b) -> post f) ->
    exists N, forall fuel, (N <= fuel)%nat ->
    under_every_schedule dims (length prog) (call_dst dims prog) (mpi_step plus fuel dims bd gr prog) (mpi_run plus fuel dims bd gr prog) h0 post.
  Proof.
    intros Hk Hprog R0 HP. destruct Hsub as (Hdims & Hlen & Hdelta & Hcuts & Hw & Hgr).
    assert (Hwide : forall c i, is_process dims c -> (i < length dims)%nat ->
              delta <= iHi cut dims high delta c i - iLo cut dims high delta c i + 1).
    { intros c i Hc Hi. rewrite <- inner_width_eq by exact Hi. specialize (Hw c i Hc Hi). nia. }
    assert (Hgr' : forall c, is_process dims c -> inside_grid (gr c) (bd_lo (bd c)) (bd_hi (bd c))).
    { intros c Hc p Hp. apply Hgr; assumption. }
    exists (enough cut dims high delta). intros fuel Hf.
    assert (Hfuel : forall c d, is_process dims c -> (d < length dims)%nat ->
              (Z.to_nat (exch_size (mpi_bounds cut dims high delta c) d) <= fuel)%nat).
    { intros c d Hc Hd. pose proof (enough_ok cut dims high delta c d Hlen Hc Hd). lia. }
    pose proof (lockstep_ok plus cut dims high delta gr Hdims Hlen Hdelta Hwide Hgr' fuel Hfuel prog Hprog h0 m0 R0) as LS.
    eapply (lift dims high Hdims Hlen _ _ _ _ _ _ _ LS); [reflexivity|].
    intros f Hf'. destruct (lmem_ok plus cut dims high delta gr Hdims Hlen Hdelta Hwide Hgr' fuel Hfuel prog Hprog h0 m0 R0 (length prog) (le_n _)) as [Rk Fk].
    apply HP.
    - intros c p Hc Hp. rewrite Hf' by exact Hc. apply (Rk c Hc), Hp.
    - intros c b Hc Hb. rewrite Hf' by exact Hc. apply Fk; assumption.
  Qed.

  Theorem mpi_exchange_delivers h0 m0 G : 1 <= k ->
    (forall c, is_process dims c -> represents (gr c) (h0 c) (m0 c)) ->
    (forall c p, is_process dims c -> in_inner (bd c) p -> m0 c p = G p) ->
    let prog := all_dims exchange_calls (length dims) in
    exists N, forall fuel, (N <= fuel)%nat ->
    under_every_schedule dims (length prog) (call_dst dims prog) (mpi_step plus fuel dims bd gr prog) (mpi_run plus fuel dims bd gr prog) h0
      (fun h => forall c, is_process dims c ->
        (forall p, in_local (bd c) p -> grid_read (gr c) (h c) p = Some (G (wrap high p))) /\
        (forall p, in_box (g_lo (gr c)) (g_hi (gr c)) p -> ~ in_local (bd c) p -> grid_read (gr c) (h c) p = Some (m0 c p)) /\
        (forall b, b <> g_block (gr c) -> h c b = h0 c b)).
  Proof.
    intros Hk R0 HG prog. apply general with m0; [exact Hk| |exact R0|].
    - destruct Hsub as (_ & Hlen & _). apply (xprog_dims dims high Hlen).
    - intros f Hf Fb c Hc. destruct Hsub as (Hdims & Hlen & Hdelta & Hcuts & Hw & Hgr).
      assert (Hwide : forall c i, is_process dims c -> (i < length dims)%nat ->
                delta <= iHi cut dims high delta c i - iLo cut dims high delta c i + 1).
      { intros c' i Hc' Hi. rewrite <- inner_width_eq by exact Hi. specialize (Hw c' i Hc' Hi). nia. }
      assert (L2 : length prog = (length dims * 2)%nat) by (apply all_dims_length; reflexivity).
      split; [|split].
      + intros p Hp. rewrite Hf by (try assumption; apply Hgr; assumption). f_equal.
        rewrite L2. apply exchange_values; try assumption; try lia. 
      + intros p Hp Hn. rewrite Hf by assumption. f_equal. apply lval_outside; try assumption; [apply (xprog_dims dims high Hlen)|lia].
      + intros b Hb. apply Fb; assumption.
  Qed.

  Theorem mpi_accumulate_sums zero h0 m0 : 2 <= k ->
    (forall a b, plus a b = plus b a) -> (forall a b c, plus (plus a b) c = plus a (plus b c)) -> (forall a, plus zero a = a) ->
    (forall c, is_process dims c -> represents (gr c) (h0 c) (m0 c)) ->
    let prog := all_dims accumulate_calls (length dims) in
    exists N, forall fuel, (N <= fuel)%nat ->
    under_every_schedule dims (length prog) (call_dst dims prog) (mpi_step plus fuel dims bd gr prog) (mpi_run plus fuel dims bd gr prog) h0
      (fun h => forall c, is_process dims c ->
        (forall p, in_local (bd c) p ->
           exists l, copies_of dims high bd p l /\ grid_read (gr c) (h c) p = Some (sum_over plus zero m0 l)) /\
        (forall p, in_box (g_lo (gr c)) (g_hi (gr c)) p -> ~ in_local (bd c) p -> grid_read (gr c) (h c) p = Some (m0 c p)) /\
        (forall b, b <> g_block (gr c) -> h c b = h0 c b)).
  Proof.
    intros Hk Pc Pa P0 R0 prog. apply general with m0; [lia| |exact R0|].
    - destruct Hsub as (_ & Hlen & _). apply (aprog_dims dims high Hlen).
    - intros f Hf Fb c Hc. destruct Hsub as (Hdims & Hlen & Hdelta & Hcuts & Hw & Hgr).
      assert (Hwide2 : forall c i, is_process dims c -> (i < length dims)%nat ->
                2 * delta <= iHi cut dims high delta c i - iLo cut dims high delta c i + 1).
      { intros c' i Hc' Hi. rewrite <- inner_width_eq by exact Hi. specialize (Hw c' i Hc' Hi). nia. }
      assert (Hwide : forall c i, is_process dims c -> (i < length dims)%nat ->
                delta <= iHi cut dims high delta c i - iLo cut dims high delta c i + 1).
      { intros c' i Hc' Hi. specialize (Hwide2 c' i Hc' Hi). lia. }
      assert (L4 : length prog = (length dims * 4)%nat) by (apply all_dims_length; reflexivity).
      split; [|split].
      + intros p Hp. exists (cells cut dims high delta (length dims) (c, p)). split.
        * split; [apply cells_NoDup|]. intros c' q. apply cells_all; assumption.
        * rewrite Hf by (try assumption; apply Hgr; assumption). f_equal. rewrite L4. change prog with (aprog dims).
          rewrite (accumulate_values plus zero Pc Pa P0 cut dims high delta Hdims Hlen Hcuts Hdelta Hwide2 m0 (length dims) (le_n _) c p Hc Hp).
          unfold sum_over. induction (cells cut dims high delta (length dims) (c, p)) as [|[x y] l IH]; cbn [psum fold_right fst snd]; [reflexivity|].
          rewrite IH. reflexivity.
      + intros p Hp Hn. rewrite Hf by assumption. f_equal. apply lval_outside; try assumption; [apply (aprog_dims dims high Hlen)|lia].
      + intros b Hb. apply Fb; assumption.
  Qed.
End Results.

(** ** Data buffers *)
Section Data.
  Variables (dims high : vec) (d : nat) (up : bool).
  Hypothesis Hdims : process_grid dims.
  Hypothesis Hd : (d < length dims)%nat.
  Variable input : vec -> list Z.
  Variable m0 : vec -> xmem.
  Hypothesis Hin : forall c, x_in (m0 c) = input c.

  Definition dmem (k : nat) (c : vec) : xmem :=
    match k with
    | O => m0 c
    | 1%nat => mkX (input c) (repeat 0 (length (input (xd_src dims d up 0 c)))) (Z.of_nat (length (input (xd_src dims d up 0 c))))
    | _ => mkX (input c) (input (xd_src dims d up 0 c)) (Z.of_nat (length (input (xd_src dims d up 0 c))))
    end.
  Definition dmsg (k : nat) (c : vec) : list Z :=
    match k with
    | O => [Z.of_nat (length (input c))]
    | _ => input c
    end.

  Lemma data_lockstep : lockstep 2 (xd_dst dims d up) (xd_src dims d up) xd_fill xd_store (plist dims) dmem dmsg.
  Proof.
    assert (Hlen : length dims = length dims) by reflexivity.
    intros k c Hk Hc. apply (plist_In dims dims Hlen) in Hc.
    split; [apply (plist_In dims dims Hlen); apply (shift_process dims dims Hdims Hlen); assumption|].
    split; [apply (plist_In dims dims Hlen); apply (shift_process dims dims Hdims Hlen); assumption|].
    split; [apply (shift_back dims dims Hdims Hlen); [assumption..|]; destruct up; lia|].
    split; [apply (shift_back dims dims Hdims Hlen); [assumption..|]; destruct up; lia|].
    destruct k as [|[|k]]; [| |lia].
    - cbn [dmem dmsg xd_fill xd_store]. rewrite Hin. split; [reflexivity|]. rewrite Nat2Z.id. reflexivity.
    - cbn [dmem dmsg xd_fill xd_store x_in x_out x_size]. split; [reflexivity|].
      change (xd_src dims d up 1 c) with (xd_src dims d up 0 c). rewrite Z.leb_refl, Z.sub_diag. cbn [Z.to_nat repeat].
      rewrite app_nil_r. reflexivity.
  Qed.

  Theorem exchange_data_delivers :
    under_every_schedule dims 2 (xd_dst dims d up)
      (net_step 2 (xd_dst dims d up) (xd_src dims d up) xd_fill xd_store)
      (net_run 2 (xd_dst dims d up) (xd_src dims d up) xd_fill xd_store) m0
      (fun m => forall c, is_process dims c ->
         x_in (m c) = input c /\ x_out (m c) = input (cart_shift dims c d (if up then -1 else 1))).
  Proof.
    eapply (lift dims dims Hdims eq_refl); [apply data_lockstep|reflexivity|].
    intros f Hf c Hc. rewrite Hf by exact Hc. split; reflexivity.
  Qed.
End Data.
