(** Proofs about [fill_field]. *)
From Coq Require Import ZArith List Bool Lia Relations.
From Verif Require Import Vec GridSpec BoxFacts RangeModel RangeProofs GridModel GridOpSpec GridProofs FieldModel ExprModel DepModel DepSpec DepProofs DepUpdateProofs FillModel FillSpec.
Import ListNotations.

Section Proofs.
  Variable A : arith.
  Variable pa : pos_arith (F A).
  Variable exprs : nat -> expr A.
  Variable funs : vec -> fsig -> list (value A) -> result (value A).
  Variable t : fill_target A.
  Variable at_ : nat -> nat.
  Notation rank := (length (g_lo (t_grid t))).
  Hypothesis at_inj : forall i j, (i < rank)%nat -> (j < rank)%nat -> at_ i = at_ j -> i = j.

  Lemma coords_fold : forall pos n st, (n <= rank)%nat ->
    let st' := fold_left (fun st i => set_ext st (at_ i) (VFloat (index_to_position pa (target_dim A pa t i) (vget pos i)))) (seq 0 n) st in
    s_val st' = s_val st /\ s_fixed st' = s_fixed st /\ s_id st' = s_id st /\ s_fun st' = s_fun st /\
    (forall i, (i < n)%nat -> s_ext st' (at_ i) = VFloat (index_to_position pa (target_dim A pa t i) (vget pos i))) /\
    (forall x, (forall i, (i < n)%nat -> x <> at_ i) -> s_ext st' x = s_ext st x).
  Proof.
    intros pos n. induction n as [|n IH]; intros st Hn; cbn zeta.
    - cbn. repeat split; auto. intros i Hi. lia.
    - rewrite seq_S, fold_left_app. cbn [fold_left]. specialize (IH st ltac:(lia)). cbn zeta in IH.
      set (st1 := fold_left _ (seq 0 n) st) in *. clearbody st1. destruct IH as (H1 & H2 & H3 & H4 & H5 & H6). cbn [plus set_ext s_val s_fixed s_id s_fun s_ext].
      do 4 (split; [assumption|]). split.
      + intros i Hi. destruct (Nat.eqb_spec (at_ i) (at_ n)) as [E|E].
        * apply at_inj in E; [subst; reflexivity|lia|lia].
        * apply H5. assert (i <> n) by congruence. lia.
      + intros x Hx. destruct (Nat.eqb_spec x (at_ n)) as [E|E]; [exfalso; apply (Hx n); [lia|exact E]|]. apply H6. intros i Hi. apply Hx. lia.
  Qed.
  Lemma set_coords_located : forall pos st, located A pa funs t at_ st pos (set_funs A funs pos (set_coords A pa t at_ pos st)) /\
    s_val (set_funs A funs pos (set_coords A pa t at_ pos st)) = s_val st.
  Proof.
    intros pos st. unfold set_coords. destruct (coords_fold pos rank st (le_n _)) as (H1 & H2 & H3 & H4 & H5 & H6). unfold located, set_funs. cbn [s_val s_fixed s_id s_fun s_ext].
    repeat split; auto.
  Qed.

  Variables (dummy : nat) (st0 : store A) (b : bvars) (m0 : dmap) (ro : nat -> bool).
  Let V := defined st0 b.
  Hypothesis Hm : dep_map A exprs st0 dummy b = Some m0.
  Hypothesis Hset : setting exprs V dummy st0.
  Hypothesis Hac : acyclic exprs V.

  Local Notation steady := (steady funs).
  Local Notation coords_registered := (coords_registered exprs V t at_).

  Lemma world_located : forall ind st st' pos, coords_registered ind -> steady st -> located A pa funs t at_ st pos st' -> s_val st' = s_val st ->
    world_change exprs V ind st st'.
  Proof.
    intros ind st st' pos Hc Hs (H1 & H2 & H3 & H4 & H5) Hv. unfold world_change. rewrite H1, H2, H3, Hv. split; [reflexivity|]. split; [reflexivity|]. split; [reflexivity|].
    split; [intros f Hf; apply Hs; exact Hf|]. intros v x Hv' Hn Hx. apply H5. intros i Hi ->. apply Hn. apply (Hc v i); assumption.
  Qed.

  (** The states between cells: the state at the start, but for the coordinates and the variables. *)
  Definition similar (st st' : store A) : Prop :=
    s_fixed st' = s_fixed st /\ s_id st' = s_id st /\ (forall f, fs_always f = false -> s_fun st' f = s_fun st f) /\
    (forall x, (forall i, (i < rank)%nat -> x <> at_ i) -> s_ext st' x = s_ext st x) /\
    (forall x, x <> dummy -> ~ In x V -> s_val st' x = s_val st x).
  Lemma similar_refl : forall st, similar st st.
  Proof. intros st. unfold similar. repeat split; auto. Qed.
  Lemma located_similar : forall st st1 pos st2, similar st st1 -> located A pa funs t at_ st1 pos st2 -> located A pa funs t at_ st pos st2.
  Proof.
    intros st st1 pos st2 (S1 & S2 & S3 & S4 & S5) (L1 & L2 & L3 & L4 & L5). unfold located. rewrite L1, L2, S1, S2. repeat split; auto.
    intros x Hx. rewrite L5, S4; auto.
  Qed.
  Lemma same_located : forall st pos st1 st2, located A pa funs t at_ st pos st1 -> same_world st1 st2 -> located A pa funs t at_ st pos st2.
  Proof. intros st pos st1 st2 (L1 & L2 & L3 & L4 & L5) (W1 & W2 & W3 & W4). unfold located. rewrite W1, W2, W3, W4. repeat split; auto. Qed.

  Definition the_cell (d : nat) (st : store A) (pos : vec) (v : value A) : Prop := value_at A pa exprs V dummy funs t at_ st pos d v.

  Lemma cells_filled : forall d st0' l fuel u st c h, ro d = false ->
    history exprs V st0 m0 dummy ro u st c -> (enough m0 (u_ind u) (u_dep u) <= fuel)%nat ->
    coords_registered (u_ind u) -> steady st0' -> similar st0' st ->
    grid_wf (t_grid t) h -> (forall p, In p l -> in_box (g_lo (t_grid t)) (g_hi (t_grid t)) p) -> NoDup l ->
    exists r, fill_cells A pa exprs funs fuel ro t at_ d l u st c h = Some (Some r) /\
    match r with
    | Ok (u', st', c', h') =>
        grid_wf (t_grid t) h' /\ (forall b, b <> g_block (t_grid t) -> h' b = h b) /\
        (forall p, In p l -> exists v, grid_read (t_grid t) h' p = Some v /\ (In d (u_dep u) -> the_cell d st0' p v) /\ (~ In d (u_dep u) -> v = c d)) /\
        (forall p, in_box (g_lo (t_grid t)) (g_hi (t_grid t)) p -> ~ In p l -> grid_read (t_grid t) h' p = grid_read (t_grid t) h p) /\
        history exprs V st0 m0 dummy ro u' st' c' /\ similar st0' st' /\ u_ind u' = u_ind u /\ u_dep u' = u_dep u
    | _ => exists p v st1, In p l /\ In v (dummy :: V) /\ located A pa funs t at_ st0' p st1 /\ forall x, eval st1 (exprs v) <> Ok x
    end.
  Proof.
    intros d st0' l. induction l as [|pos l IH]; intros fuel u st c h Hro Hh Hf Hc Hs Hsim Hw Hin Hnd; cbn [fill_cells].
    - eexists. split; [reflexivity|]. cbn. split; [exact Hw|]. split; [reflexivity|]. split; [intros p []|]. split; [reflexivity|]. auto.
    - destruct (set_coords_located pos st) as [L Lv]. set (st1 := set_funs A funs pos (set_coords A pa t at_ pos st)) in *. clearbody st1.
      assert (Hs1 : steady st). { intros q f Hq. rewrite (Hs q f Hq). symmetry. apply Hsim. exact Hq. }
      assert (H1 : history exprs V st0 m0 dummy ro u st1 c). { eapply H_world; [exact Hh|]. eapply world_located; eauto. }
      assert (L0 : located A pa funs t at_ st0' pos st1) by (eapply located_similar; eauto).
      destruct (update_up_to_date A exprs dummy st0 b m0 ro Hm Hset Hac u st1 c fuel H1 Hf) as (u' & r & E & U1 & U2 & R). rewrite E.
      assert (Err : forall v st2, (v = dummy \/ In v V /\ changing exprs V (u_ind u) v /\ needed exprs V (u_dep u) v) -> same_world st1 st2 -> is_error (eval st2 (exprs v)) ->
        exists p v st1, In p (pos :: l) /\ In v (dummy :: V) /\ located A pa funs t at_ st0' p st1 /\ forall x, eval st1 (exprs v) <> Ok x).
      { intros v st2 Hv W He. exists pos, v, st2. split; [left; reflexivity|]. split; [destruct Hv as [->|[Hv _]]; cbn; auto|]. split; [eapply same_located; eauto|]. intros x Ex. rewrite Ex in He. exact He. }
      destruct r as [[st2 c2]| | |]; try (eexists; split; [reflexivity|]; destruct R as (v & st2 & Hv & W & He); exact (Err v st2 Hv W He)).
      destruct R as (R1 & R2 & R3 & R4).
      assert (H2 : history exprs V st0 m0 dummy ro u' st2 c2) by (eapply H_update; [exact H1|exact E]).
      assert (Hp : in_box (g_lo (t_grid t)) (g_hi (t_grid t)) pos) by (apply Hin; left; reflexivity).
      destruct (grid_write_ok (t_grid t) h pos (c2 d) Hw Hp) as (h1 & Ew & Hw1 & _ & Hb & Hr). rewrite Ew.
      assert (L2 : located A pa funs t at_ st0' pos st2) by (eapply same_located; eauto).
      assert (V2 : forall x, x <> dummy -> ~ In x V -> s_val st2 x = s_val st0' x).
      { intros x Hx Hx'. destruct (R3 x) as [Q|[Q|[Q _]]]; [|contradiction|contradiction]. rewrite Q, Lv. apply Hsim; assumption. }
      assert (S2 : similar st0' st2).
      { destruct L2 as (K1 & K2 & K3 & K4 & K5). split; [exact K1|]. split; [exact K2|]. split; [|split; [exact K5|exact V2]]. intros f Hq. rewrite K3. apply Hs. exact Hq. }
      inversion Hnd as [|? ? Hn1 Hn2]; subst.
      destruct (IH fuel u' st2 c2 h1 Hro H2) as (r & Er & Rr); try rewrite U1; try rewrite U2; auto.
      { intros p Hp'. apply Hin. right. exact Hp'. }
      rewrite Er. exists r. split; [reflexivity|]. destruct r as [[[[u3 st3] c3] h3]| | |].
      + destruct Rr as (T1 & T2 & T3 & T4 & T5 & T6 & T7 & T8). split; [exact T1|]. split; [intros b' Hb'; rewrite T2, Hb; auto|]. split; [|split; [|split; [exact T5|split; [exact T6|split; congruence]]]].
        * intros p [<-|Hpl].
          -- exists (c2 d). split.
             ++ rewrite T4, Hr by assumption. rewrite (proj2 (veqb_eq pos pos) eq_refl). reflexivity.
             ++ split.
                ** intros Hd. destruct (R1 d Hd) as [Y1 Y2]. exists st2. split; [exact L2|]. split; [exact V2|]. split; [exact Y1|]. symmetry. apply Y2. exact Hro.
                ** intros Hd. destruct (R4 d) as [Q|Q]; [exact Q|contradiction].
          -- destruct (T3 p Hpl) as (v & Ev & Y1 & Y2). exists v. rewrite U2 in Y1, Y2. split; [exact Ev|]. split; [exact Y1|]. intros Hd. rewrite (Y2 Hd). destruct (R4 d) as [Q|Q]; [exact Q|contradiction].
        * intros p Hpb Hpn. rewrite T4; [rewrite Hr by exact Hpb|exact Hpb|].
          -- destruct (veqb p pos) eqn:Ev; [|reflexivity]. apply veqb_eq in Ev. subst p. exfalso. apply Hpn. left. reflexivity.
          -- intros Q. apply Hpn. right. exact Q.
      + destruct Rr as (p & v & st4 & Hpl & Q). exists p, v, st4. split; [right; exact Hpl|exact Q].
      + destruct Rr as (p & v & st4 & Hpl & Q). exists p, v, st4. split; [right; exact Hpl|exact Q].
      + destruct Rr as (p & v & st4 & Hpl & Q). exists p, v, st4. split; [right; exact Hpl|exact Q].
  Qed.
  Lemma field_filled : forall d st fuel u c h, ro d = false ->
    history exprs V st0 m0 dummy ro u st c -> (enough m0 (u_ind u) (u_dep u) + Z.to_nat (box_size (g_lo (t_grid t)) (g_hi (t_grid t))) <= fuel)%nat ->
    coords_registered (u_ind u) -> steady st -> grid_wf (t_grid t) h ->
    exists r, fill_field A pa exprs funs fuel ro t at_ d u st c h = Some (Some r) /\
    match r with
    | Ok (u', st', c', h') =>
        (forall b, b <> g_block (t_grid t) -> h' b = h b) /\
        (forall p, in_box (g_lo (t_grid t)) (g_hi (t_grid t)) p ->
          exists v, grid_read (t_grid t) h' p = Some v /\ (In d (u_dep u) -> the_cell d st p v) /\ (~ In d (u_dep u) -> v = c d)) /\
        history exprs V st0 m0 dummy ro u' st' c' /\ u_dep u' = u_dep u
    | _ => exists p v st1, in_box (g_lo (t_grid t)) (g_hi (t_grid t)) p /\ In v (dummy :: V) /\ located A pa funs t at_ st p st1 /\ forall x, eval st1 (exprs v) <> Ok x
    end.
  Proof.
    intros d st fuel u c h Hro Hh Hf Hc Hs Hw. unfold fill_field. destruct Hw as (W1 & W2 & W3) eqn:Ew. rewrite range_visits_box by (auto; lia).
    destruct (cells_filled d st (box (g_lo (t_grid t)) (g_hi (t_grid t))) fuel u st c h Hro Hh) as (r & E & R); auto.
    - lia.
    - apply similar_refl.
    - intros p Hp. apply box_In. exact Hp.
    - apply box_NoDup.
    - exists r. split; [exact E|]. destruct r as [[[[u3 st3] c3] h3]| | |].
      + destruct R as (T1 & T2 & T3 & T4 & T5 & T6 & T7 & T8). split; [exact T2|]. split; [|auto]. intros p Hp. apply T3. apply box_In. exact Hp.
      + destruct R as (p & v & st4 & Hpl & Q). exists p, v, st4. split; [apply box_In; exact Hpl|exact Q].
      + destruct R as (p & v & st4 & Hpl & Q). exists p, v, st4. split; [apply box_In; exact Hpl|exact Q].
      + destruct R as (p & v & st4 & Hpl & Q). exists p, v, st4. split; [apply box_In; exact Hpl|exact Q].
  Qed.

  (** There is only one such value. *)
  Lemma cell_unique : forall d st p v v', In d V -> the_cell d st p v -> the_cell d st p v' -> v = v'.
  Proof.
    intros d st p v v' Hd (st1 & L1 & X1 & Y1 & <-) (st2 & L2 & X2 & Y2 & <-).
    assert (Hdm : ~ In dummy V) by (apply (g_dummy _ _ _ _ _ _ (the_graph A exprs dummy st0 b m0 Hm Hset))).
    destruct L1 as (A1 & A2 & A3 & A4 & A5). destruct L2 as (B1 & B2 & B3 & B4 & B5).
    assert (Ext : forall x, s_ext st2 x = s_ext st1 x).
    { intros x. destruct (in_dec Nat.eq_dec x (map at_ (seq 0 rank))) as [Hx|Hx].
      - apply in_map_iff in Hx. destruct Hx as (i & <- & Hi). apply in_seq in Hi. rewrite A4, B4 by lia. reflexivity.
      - assert (Q : forall i, (i < rank)%nat -> x <> at_ i). { intros i Hi ->. apply Hx. apply in_map. apply in_seq. lia. } rewrite A5, B5 by exact Q. reflexivity. }
    pose proof (edge_wf A exprs V Hac d) as W. revert Hd Y1 Y2. induction W as [d _ IH]. intros Hd Y1 Y2.
    assert (E : eval st2 (exprs d) = eval st1 (exprs d)).
    { apply eval_reads.
      - intros x Hr. destruct (in_dec Nat.eq_dec x V) as [HxV|Hn].
        + assert (He : edge exprs V x d) by (split; [|split]; assumption). symmetry. apply IH; [exact He|exact HxV| |].
          * intros w Hw. apply Y1. eapply rt_trans; [exact Hw|apply rt_step, He].
          * intros w Hw. apply Y2. eapply rt_trans; [exact Hw|apply rt_step, He].
        + assert (x <> dummy) by (intros ->; destruct Hset as (_ & _ & _ & H4); exact (H4 d Hd Hr)). rewrite X1, X2 by assumption. reflexivity.
      - intros x _. apply Ext.
      - intros f _. rewrite A3, B3. reflexivity. }
    pose proof (Y1 d (rt_refl _ _ _)) as Q1. pose proof (Y2 d (rt_refl _ _ _)) as Q2. unfold has_value in *. congruence.
  Qed.

  (** The variant with a parameter. *)
  Lemma field_filled_for : forall d st u c h, ro d = false ->
    history exprs V st0 m0 dummy ro u st c -> In d V \/ s_fixed st d = true ->
    coords_registered (u_ind u) -> steady st -> grid_wf (t_grid t) h ->
    exists N, forall fuel, (N <= fuel)%nat ->
    exists r, fill_field_for A pa exprs funs fuel ro t at_ d u st c h = Some (Some r) /\
    match r with
    | Ok (u', st', c', h') =>
        (forall b, b <> g_block (t_grid t) -> h' b = h b) /\
        (forall p, in_box (g_lo (t_grid t)) (g_hi (t_grid t)) p ->
          exists v, grid_read (t_grid t) h' p = Some v /\ if s_fixed st d then v = s_val st d else the_cell d st p v) /\
        history exprs V st0 m0 dummy ro u' st' c' /\ u_dep u' = if s_fixed st d then [] else [d]
    | _ => exists p v st1, in_box (g_lo (t_grid t)) (g_hi (t_grid t)) p /\ In v (dummy :: V) /\ located A pa funs t at_ st p st1 /\ forall x, eval st1 (exprs v) <> Ok x
    end.
  Proof.
    intros d st u c h Hro Hh Hd Hc Hs Hw. unfold fill_field_for.
    assert (H1 : history exprs V st0 m0 dummy ro (add_dependent st (clear_dependent u) d) st (add_dependent_param A ro st c d)).
    { eapply H_world with (st := st) (c := c); [apply H_dependent; [apply H_clear; exact Hh|exact Hd]|]. unfold world_change. auto. }
    eexists. intros fuel Hf.
    destruct (field_filled d st fuel (add_dependent st (clear_dependent u) d) (add_dependent_param A ro st c d) h Hro H1) as (r & E & R); try exact Hf; auto.
    { unfold add_dependent, clear_dependent. destruct (s_fixed st d); exact Hc. }
    exists r. split; [exact E|]. destruct r as [[[[u3 st3] c3] h3]| | |]; try exact R.
    destruct R as (R1 & R2 & R3 & R4). split; [exact R1|]. split; [|split; [exact R3|]].
    - intros p Hp. destruct (R2 p Hp) as (v & Ev & Y1 & Y2). exists v. split; [exact Ev|]. unfold add_dependent, add_dependent_param, clear_dependent, param_update in *. destruct (s_fixed st d); cbn [u_dep] in *.
      + rewrite (Y2 (fun f => f)), Hro, Nat.eqb_refl. reflexivity.
      + apply Y1. left. reflexivity.
    - rewrite R4. unfold add_dependent, clear_dependent. destruct (s_fixed st d); reflexivity.
  Qed.
End Proofs.
