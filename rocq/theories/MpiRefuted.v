(** Witnesses for MpiProps: ghost widths for which the exchange and the accumulation fail. *)
From Verif Require Import Vec GridSpec RangeModel BoxFacts RangeProofs StorageModel GridModel GridOpSpec GridProofs BoundaryModel BoundarySpec
  SubGridProofs BoundaryExamples NetModel MpiModel MpiSpec MpiProofs MpiResults MpiExamples.
Local Open Scope Z_scope.

(** More fuel does not change a run that has not failed. *)
Section Mono.
  Context {M B : Type}.
  Variable ncalls : nat.
  Variables dst src : nat -> vec -> vec.
  Variables fill fill' : nat -> vec -> M -> option B.
  Variables store store' : nat -> vec -> M -> B -> option M.
  Hypothesis Hf : forall k c m b, fill k c m = Some b -> fill' k c m = Some b.
  Hypothesis Hs : forall k c m b m', store k c m b = Some m' -> store' k c m b = Some m'.
  Lemma step_mono e s s' : net_step ncalls dst src fill store e s = Next s' -> net_step ncalls dst src fill' store' e s = Next s'.
  Proof.
    destruct e as [p|p|p]; unfold net_step; intros H.
    - cbv zeta in *. destruct ((pr_calls (n_proc s p) <? ncalls)%nat && negb (pr_sent (n_proc s p))); [|discriminate].
      destruct (fill _ p _) as [b|] eqn:E; [|discriminate]. rewrite (Hf _ _ _ _ E). exact H.
    - exact H.
    - cbv zeta in *. destruct (pr_sent (n_proc s p)); [|discriminate]. destruct (pr_got (n_proc s p)) as [b|]; [|discriminate].
      destruct (store _ p _ b) as [m|] eqn:E; [|discriminate]. rewrite (Hs _ _ _ _ _ E). exact H.
  Qed.
  Lemma run_mono es : forall s s', net_run ncalls dst src fill store es s = Next s' -> net_run ncalls dst src fill' store' es s = Next s'.
  Proof.
    induction es as [|e es IH]; intros s s' H; cbn in *; [exact H|].
    destruct (net_step ncalls dst src fill store e s) as [| |s1] eqn:E; try discriminate. rewrite (step_mono _ _ _ E). apply IH. exact H.
  Qed.
End Mono.

Lemma range_loop_more r : forall fuel it l, range_loop fuel r it = Some l -> forall fuel', (fuel <= fuel')%nat -> range_loop fuel' r it = Some l.
Proof.
  induction fuel as [|f IH]; intros it l H fuel' Hle.
  - cbn in H. destruct fuel'; cbn; destruct (iter_eqb it (range_end r)); (exact H || discriminate).
  - destruct fuel' as [|f']; [lia|]. cbn in *. destruct (iter_eqb it (range_end r)); [exact H|].
    destruct (range_loop f r (iter_incr r it)) as [l'|] eqn:E; [|discriminate]. rewrite (IH _ _ E f'); [exact H|lia].
Qed.
Lemma mpi_run_more {V} (plus : V -> V -> V) fuel dims bd gr prog es s s' : mpi_run plus fuel dims bd gr prog es s = Next s' ->
  forall fuel', (fuel <= fuel')%nat -> mpi_run plus fuel' dims bd gr prog es s = Next s'.
Proof.
  intros H fuel' Hle. revert H. unfold mpi_run. apply run_mono.
  - intros k c m b. unfold call_fill, range_visits. destruct (range_loop fuel _ _) as [l|] eqn:E; [|discriminate].
    rewrite (range_loop_more _ _ _ _ E fuel' Hle). exact (fun H => H).
  - intros k c m b m'. unfold call_store, range_visits. destruct (range_loop fuel _ _) as [l|] eqn:E; [|discriminate].
    rewrite (range_loop_more _ _ _ _ E fuel' Hle). exact (fun H => H).
Qed.

(** Lines of cells; the inner cells hold ten times their coordinate, the others 7. *)
Section Line.
  Variables (dims high : vec) (delta : Z).
  Definition l_bd := mpi_bounds exact_cut dims high delta.
  Definition l_gr (c : vec) : grid := mkGrid COrder 1 (bd_lo (l_bd c)) (bd_hi (l_bd c)).
  Definition l_G (p : vec) : Z := 10 * vget p 0.
  Definition l_start (c : vec) : vec -> Z := fun p => if in_boxb (r_lo (inner_domain (l_bd c))) (r_hi (inner_domain (l_bd c))) p then l_G p else 7.
  Definition l_h0 (c : vec) : heap Z := fun b => match b with 1%nat => map (l_start c) (box (bd_lo (l_bd c)) (bd_hi (l_bd c))) | _ => [] end.
  Lemma l_inner c p : in_inner (l_bd c) p -> l_start c p = l_G p.
  Proof. intros H. unfold l_start. apply in_boxb_iff in H. rewrite H. reflexivity. Qed.
End Line.

Lemma process_of n c : is_process [n] c -> exists a, c = [a] /\ 0 <= a < n.
Proof. intros [L H]. destruct c as [|a [|b l]]; try discriminate. exists a. split; [reflexivity|]. exact (H 0%nat ltac:(simpl; lia)). Qed.
Lemma process_by n a : 0 <= a < n -> is_process [n] [a].
Proof. intros H. split; [reflexivity|]. intros [|i] Hi; [exact H|simpl in Hi; lia]. Qed.

(** Steps all processes of a line through one call. *)
Definition all_send (n : nat) : list event := map (fun i => Send [Z.of_nat i]) (seq 0 n).
Definition all_rest (n : nat) : list event := flat_map (fun i => [Recv [Z.of_nat i]; Finish [Z.of_nat i]]) (seq 0 n).
Definition lockstep (n calls : nat) : list event := concat (repeat (all_send n ++ all_rest n) calls).

Lemma events_check n es : forallb (fun e => match event_proc e with [a] => (0 <=? a) && (a <? n) | _ => false end) es = true ->
  Forall (fun e => is_process [n] (event_proc e)) es.
Proof.
  rewrite forallb_forall, Forall_forall. intros H e He. specialize (H e He). destruct (event_proc e) as [|a [|b l]]; try discriminate.
  apply process_by. lia.
Qed.

(** C27: five cells on three processes with 2, 1 and 2 inner cells and ghost width 2. *)
Lemma exchange_narrow : exists dims high delta (gr : vec -> grid) (h0 : vec -> heap Z) m0 G,
  subdivided exact_cut dims high delta 0 gr /\
  (forall c i, is_process dims c -> (i < length dims)%nat -> 1 <= inner_width (mpi_bounds exact_cut dims high delta c) i) /\
  (forall c, is_process dims c -> represents (gr c) (h0 c) (m0 c)) /\
  (forall c p, is_process dims c -> in_inner (mpi_bounds exact_cut dims high delta c) p -> m0 c p = G p) /\
  let bd := mpi_bounds exact_cut dims high delta in
  let prog := all_dims exchange_calls (length dims) in
  exists es c p st, Forall (fun e => is_process dims (event_proc e)) es /\ is_process dims c /\ in_local (bd c) p /\
    (exists N, forall fuel, (N <= fuel)%nat -> mpi_run Z.add fuel dims bd gr prog es (net_init h0) = Next st) /\
    finished dims (length prog) st /\ grid_read (gr c) (pr_mem (n_proc st c)) p <> Some (G (wrap high p)).
Proof.
  exists [3], [4], 2, (l_gr [3] [4] 2), (l_h0 [3] [4] 2), (l_start [3] [4] 2), l_G.
  assert (P : forall c, is_process [3] c -> c = [0] \/ c = [1] \/ c = [2]).
  { intros c Hc. destruct (process_of _ _ Hc) as (a & -> & Ha). assert (a = 0 \/ a = 1 \/ a = 2) as [-> | [-> | ->]] by lia; auto. }
  assert (W : forall c i, is_process [3] c -> (i < length [3])%nat -> 1 <= inner_width (mpi_bounds exact_cut [3] [4] 2 c) i).
  { intros c i Hc Hi. apply P in Hc. destruct i as [|i]; [|simpl in Hi; lia]. destruct Hc as [-> | [-> | ->]]; vm_compute; congruence. }
  split.
  { split; [intros [|i] Hi; simpl in Hi; try lia; vm_compute; congruence|]. split; [reflexivity|]. split; [lia|].
    split; [intros [|i] Hi; simpl in Hi; try lia; apply exact_cut_ok; vm_compute; congruence|]. split; [|intros c p _ Hp; exact Hp].
    intros c i Hc Hi. specialize (W c i Hc Hi). lia. }
  split; [exact W|].
  split. { intros c Hc. apply P in Hc. destruct Hc as [-> | [-> | ->]];
    (apply represents_check; [|vm_compute; reflexivity]; split; [discriminate|]; split; [vm_compute; intuition congruence|]; split; [reflexivity|]; split; [vm_compute; reflexivity|]; intros _; vm_compute; discriminate). }
  split; [intros c p _; apply l_inner|]. intros bd prog.
  assert (R : exists st, mpi_run Z.add 20 [3] bd (l_gr [3] [4] 2) prog (lockstep 3 2) (net_init (l_h0 [3] [4] 2)) = Next st /\
     (forall c, In c [[0]; [1]; [2]] -> pr_calls (n_proc st c) = 2%nat) /\ grid_read (l_gr [3] [4] 2 [0]) (pr_mem (n_proc st [0])) [3] <> Some 30).
  { eexists. split; [vm_compute; reflexivity|]. split; [|vm_compute; congruence]. intros c [<-|[<-|[<-|[]]]]; vm_compute; reflexivity. }
  destruct R as (st & R & F & D). exists (lockstep 3 2), [0], [3], st.
  split; [apply events_check; vm_compute; reflexivity|].
  split; [apply process_by; lia|]. split; [vm_compute; intuition congruence|].
  split; [exists 20%nat; intros fuel Hf; apply (mpi_run_more _ _ _ _ _ _ _ _ _ R fuel Hf)|].
  split; [|exact D]. intros c Hc. apply F. apply P in Hc. cbn. intuition.
Qed.

(** C27, C66: with ghost width zero the send buffers are empty, but the loops that fill them are not. *)
Lemma fill_nonempty fuel r l : range_visits fuel r = Some l -> l <> [].
Proof.
  unfold range_visits. destruct fuel; cbn; destruct (iter_eqb (range_begin r) (range_end r)) eqn:E; try discriminate.
  - destruct (range_loop fuel r _); [|discriminate]. intros H. injection H as <-. discriminate.
Qed.
Lemma zero_ghosts_overrun : exists dims high (gr : vec -> grid) (h0 : vec -> heap Z),
  process_grid dims /\ length high = length dims /\
  (forall c i, is_process dims c -> (i < length dims)%nat -> 1 <= inner_width (mpi_bounds exact_cut dims high 0 c) i) /\
  (forall c, is_process dims c -> grid_wf (gr c) (h0 c) /\ forall p, in_local (mpi_bounds exact_cut dims high 0 c) p -> in_box (g_lo (gr c)) (g_hi (gr c)) p) /\
  forall calls fuel c, calls = exchange_calls \/ calls = accumulate_calls -> is_process dims c ->
  mpi_run Z.add fuel dims (mpi_bounds exact_cut dims high 0) gr (all_dims calls (length dims)) [Send c] (net_init h0) = Bad.
Proof.
  exists [2], [7], (l_gr [2] [7] 0), (l_h0 [2] [7] 0).
  assert (P : forall c, is_process [2] c -> c = [0] \/ c = [1]).
  { intros c Hc. destruct (process_of _ _ Hc) as (a & -> & Ha). assert (a = 0 \/ a = 1) as [-> | ->] by lia; auto. }
  split; [intros [|i] Hi; simpl in Hi; try lia; vm_compute; congruence|]. split; [reflexivity|].
  split. { intros c i Hc Hi. apply P in Hc. destruct i as [|i]; [|simpl in Hi; lia]. destruct Hc as [-> | ->]; vm_compute; congruence. }
  split. { intros c Hc. apply P in Hc. split; [|intros p Hp; exact Hp]. destruct Hc as [-> | ->];
    (split; [discriminate|]; split; [vm_compute; intuition congruence|]; split; [reflexivity|]; split; [vm_compute; reflexivity|]; intros _; vm_compute; discriminate). }
  intros calls fuel c Hcalls Hc. assert (Z0 : exch_size (mpi_bounds exact_cut [2] [7] 0 c) 0 = 0) by (apply P in Hc; destruct Hc as [-> | ->]; reflexivity).
  unfold mpi_run. cbn [net_run net_step net_init n_proc pr_calls pr_sent pr_mem negb andb].
  replace (call_fill fuel _ _ _ 0 c _) with (@None (list Z)); [destruct Hcalls as [-> | ->]; reflexivity|]. symmetry. unfold call_fill.
  destruct (range_visits fuel _) as [l|] eqn:E; [|reflexivity]. apply fill_nonempty in E.
  replace (cl_dim (the_call (all_dims calls (length [2])) 0)) with 0%nat by (destruct Hcalls as [-> | ->]; reflexivity). rewrite Z0.
  destruct l; [congruence|]. reflexivity.
Qed.

(** C66: six cells on two processes, three inner cells each, ghost width 2. *)
Lemma accumulate_overlap : exists dims high delta (gr : vec -> grid) (h0 : vec -> heap Z) m0,
  subdivided exact_cut dims high delta 1 gr /\
  (forall c, is_process dims c -> represents (gr c) (h0 c) (m0 c)) /\
  let bd := mpi_bounds exact_cut dims high delta in
  let prog := all_dims accumulate_calls (length dims) in
  exists es c p st l, Forall (fun e => is_process dims (event_proc e)) es /\ is_process dims c /\ in_local (bd c) p /\
    (exists N, forall fuel, (N <= fuel)%nat -> mpi_run Z.add fuel dims bd gr prog es (net_init h0) = Next st) /\
    finished dims (length prog) st /\ copies_of dims high bd p l /\
    grid_read (gr c) (pr_mem (n_proc st c)) p <> Some (sum_over Z.add 0 m0 l).
Proof.
  exists [2], [5], 2, (l_gr [2] [5] 2), (l_h0 [2] [5] 2), (l_start [2] [5] 2).
  assert (P : forall c, is_process [2] c -> c = [0] \/ c = [1]).
  { intros c Hc. destruct (process_of _ _ Hc) as (a & -> & Ha). assert (a = 0 \/ a = 1) as [-> | ->] by lia; auto. }
  split.
  { split; [intros [|i] Hi; simpl in Hi; try lia; vm_compute; congruence|]. split; [reflexivity|]. split; [lia|].
    split; [intros [|i] Hi; simpl in Hi; try lia; apply exact_cut_ok; vm_compute; congruence|]. split; [|intros c p _ Hp; exact Hp].
    intros c i Hc Hi. apply P in Hc. destruct i as [|i]; [|simpl in Hi; lia]. destruct Hc as [-> | ->]; vm_compute; congruence. }
  split. { intros c Hc. apply P in Hc. destruct Hc as [-> | ->];
    (apply represents_check; [|vm_compute; reflexivity]; split; [discriminate|]; split; [vm_compute; intuition congruence|]; split; [reflexivity|]; split; [vm_compute; reflexivity|]; intros _; vm_compute; discriminate). }
  intros bd prog.
  assert (R : exists st, mpi_run Z.add 20 [2] bd (l_gr [2] [5] 2) prog (lockstep 2 4) (net_init (l_h0 [2] [5] 2)) = Next st /\
     (forall c, In c [[0]; [1]] -> pr_calls (n_proc st c) = 4%nat) /\ grid_read (l_gr [2] [5] 2 [1]) (pr_mem (n_proc st [1])) [1] <> Some (sum_over Z.add 0 (l_start [2] [5] 2) [([0], [1]); ([1], [1]); ([1], [7])])).
  { eexists. split; [vm_compute; reflexivity|]. split; [|vm_compute; congruence]. intros c [<-|[<-|[]]]; vm_compute; reflexivity. }
  destruct R as (st & R & F & D). exists (lockstep 2 4), [1], [1], st, [([0], [1]); ([1], [1]); ([1], [7])].
  split; [apply events_check; vm_compute; reflexivity|].
  split; [apply process_by; lia|]. split; [vm_compute; intuition congruence|].
  split; [exists 20%nat; intros fuel Hf; apply (mpi_run_more _ _ _ _ _ _ _ _ _ R fuel Hf)|].
  split; [intros c Hc; apply F; apply P in Hc; cbn; intuition|]. split; [|exact D].
  split; [repeat constructor; cbn; intuition congruence|]. intros c q. split.
  - intros [E|[E|[E|[]]]]; injection E as <- <-; (split; [apply process_by; lia|]; split; [vm_compute; intuition congruence|reflexivity]).
  - intros (Hc & Hl & Hw). apply P in Hc. destruct q as [|x [|y q]]; [destruct Hc as [-> | ->]; destruct Hl | |destruct Hc as [-> | ->]; destruct Hl as [_ []]].
    unfold wrap in Hw. cbn in Hw. injection Hw as Hw. change (vget [1] 0 mod (vget [5] 0 + 1)) with 1 in Hw. change (vget [x] 0) with x in Hw. change (vget [5] 0 + 1) with 6 in Hw.
    destruct Hc as [-> | ->]; destruct Hl as [Hl _].
    + change (-2 <= x <= 4) in Hl. assert (x = 1) by (Z.to_euclidean_division_equations; lia). subst x. left. reflexivity.
    + change (1 <= x <= 7) in Hl. assert (x = 1 \/ x = 7) as [-> | ->] by (Z.to_euclidean_division_equations; lia); [right; left|right; right; left]; reflexivity.
Qed.

Lemma zero_exchange : exists dims high (gr : vec -> grid) (h0 : vec -> heap Z),
  process_grid dims /\ length high = length dims /\
  (forall c i, is_process dims c -> (i < length dims)%nat -> 1 <= inner_width (mpi_bounds exact_cut dims high 0 c) i) /\
  (forall c, is_process dims c -> grid_wf (gr c) (h0 c) /\ forall p, in_local (mpi_bounds exact_cut dims high 0 c) p -> in_box (g_lo (gr c)) (g_hi (gr c)) p) /\
  forall fuel c, is_process dims c ->
  mpi_run Z.add fuel dims (mpi_bounds exact_cut dims high 0) gr (all_dims exchange_calls (length dims)) [Send c] (net_init h0) = Bad.
Proof. destruct zero_ghosts_overrun as (dims & high & gr & h0 & A & B & C & D & E). exists dims, high, gr, h0. repeat (split; [assumption|]). intros fuel c. exact (E _ fuel c (or_introl eq_refl)). Qed.

Lemma zero_accumulate : exists dims high (gr : vec -> grid) (h0 : vec -> heap Z),
  process_grid dims /\ length high = length dims /\
  (forall c i, is_process dims c -> (i < length dims)%nat -> 1 <= inner_width (mpi_bounds exact_cut dims high 0 c) i) /\
  (forall c, is_process dims c -> grid_wf (gr c) (h0 c) /\ forall p, in_local (mpi_bounds exact_cut dims high 0 c) p -> in_box (g_lo (gr c)) (g_hi (gr c)) p) /\
  forall fuel c, is_process dims c ->
  mpi_run Z.add fuel dims (mpi_bounds exact_cut dims high 0) gr (all_dims accumulate_calls (length dims)) [Send c] (net_init h0) = Bad.
Proof. destruct zero_ghosts_overrun as (dims & high & gr & h0 & A & B & C & D & E). exists dims, high, gr, h0. repeat (split; [assumption|]). intros fuel c. exact (E _ fuel c (or_intror eq_refl)). Qed.
