(** Examples, refutations and corollaries for C95. *)
From Verif Require Import Vec GridSpec RangeModel BoxFacts RangeProofs GridModel GridOpSpec GridProofs BoundaryModel BoundarySpec
  BoundaryProofs SerialProofs SubGridProofs NetModel MpiModel MpiSpec MpiProofs MpiComm MpiResults MpiExamples SimModel SimSpec SimProofs SimResults.
Local Open Scope Z_scope.

Lemma set_up_undivided (V : Type) (plus : V -> V -> V) cut dims high delta gr tmp offs f n (h0 : vec -> heap V) G :
  set_up cut dims high delta gr tmp offs h0 G ->
  let bd := mpi_bounds cut dims high delta in
  exists N, forall fuel, (N <= fuel)%nat ->
  let update c := update_two_grids offs f fuel (bd c) (gr c) (tmp c) in
  let prog := sim_prog dims n in
  under_every_schedule dims (length prog) (call_dst dims prog)
    (sim_step plus fuel dims bd gr update n) (sim_run plus fuel dims bd gr update n) h0
    (fun h => forall c, is_process dims c ->
      (forall p, in_local (bd c) p -> grid_read (gr c) (h c) p = Some (undivided (wrap high) offs f G n (wrap high p))) /\
      (forall b, b <> g_block (gr c) -> b <> g_block (tmp c) -> h c b = h0 c b)).
Proof.
  intros (Hsub & Hrank & Hreach & H) bd.
  apply (simulation_undivided V plus cut dims high delta 1 gr tmp offs f n Hsub ltac:(lia) Hrank Hreach h0
           (fun c p => match grid_read (gr c) (h0 c) p with Some v => v | None => G p end) G).
  - intros c Hc. destruct (H c Hc) as (W & _). split; [exact W|]. intros p Hp. destruct (grid_read_ok _ _ _ W Hp) as [v ->]. reflexivity.
  - intros c p Hc Hp. destruct (H c Hc) as (_ & R & _). rewrite R by exact Hp. reflexivity.
  - intros c Hc. destruct (H c Hc) as (_ & _ & A & B & C). auto.
Qed.

Lemma same_result (V : Type) (plus : V -> V -> V) high offs f n G
    cut1 dims1 delta1 gr1 tmp1 (h1 : vec -> heap V) cut2 dims2 delta2 gr2 tmp2 (h2 : vec -> heap V) :
  set_up cut1 dims1 high delta1 gr1 tmp1 offs h1 G -> set_up cut2 dims2 high delta2 gr2 tmp2 offs h2 G ->
  let bd1 := mpi_bounds cut1 dims1 high delta1 in
  let bd2 := mpi_bounds cut2 dims2 high delta2 in
  exists N, forall fuel, (N <= fuel)%nat -> forall es1 es2 st1 st2,
  Forall (fun e => is_process dims1 (event_proc e)) es1 -> Forall (fun e => is_process dims2 (event_proc e)) es2 ->
  sim_run plus fuel dims1 bd1 gr1 (fun c => update_two_grids offs f fuel (bd1 c) (gr1 c) (tmp1 c)) n es1 (net_init h1) = Next st1 ->
  sim_run plus fuel dims2 bd2 gr2 (fun c => update_two_grids offs f fuel (bd2 c) (gr2 c) (tmp2 c)) n es2 (net_init h2) = Next st2 ->
  finished dims1 (length (sim_prog dims1 n)) st1 -> finished dims2 (length (sim_prog dims2 n)) st2 ->
  forall p c1 c2, is_process dims1 c1 -> is_process dims2 c2 -> in_inner (bd1 c1) p -> in_inner (bd2 c2) p ->
  exists v, grid_read (gr1 c1) (pr_mem (n_proc st1 c1)) p = Some v /\ grid_read (gr2 c2) (pr_mem (n_proc st2 c2)) p = Some v.
Proof.
  intros S1 S2 bd1 bd2.
  destruct (set_up_undivided V plus cut1 dims1 high delta1 gr1 tmp1 offs f n h1 G S1) as [N1 H1].
  destruct (set_up_undivided V plus cut2 dims2 high delta2 gr2 tmp2 offs f n h2 G S2) as [N2 H2].
  exists (Nat.max N1 N2). intros fuel Hf es1 es2 st1 st2 F1 F2 E1 E2 D1 D2 p c1 c2 P1 P2 I1 I2.
  specialize (H1 fuel ltac:(lia) es1 F1). specialize (H2 fuel ltac:(lia) es2 F2).
  cbv zeta in H1, H2. fold bd1 in H1. fold bd2 in H2. rewrite E1 in H1. rewrite E2 in H2.
  destruct H1 as (_ & H1 & _). destruct H2 as (_ & H2 & _).
  destruct (H1 D1 c1 P1) as [A1 _]. destruct (H2 D2 c2 P2) as [A2 _].
  destruct S1 as ((X1 & X2 & X3 & X4 & _) & X5 & _). destruct S2 as ((Y1 & Y2 & Y3 & Y4 & _) & Y5 & _).
  exists (undivided (wrap high) offs f G n (wrap high p)). split.
  - apply A1. eapply (inner_local cut1 dims1 high delta1); eassumption.
  - apply A2. eapply (inner_local cut2 dims2 high delta2); eassumption.
Qed.

Lemma serial_set_up_undivided (V : Type) high delta (g tmp : grid) offs f n (h0 : heap V) G :
  serial_set_up high delta g tmp offs h0 G ->
  let lo := map (fun _ => - delta) high in
  let hi := map (fun x => x + delta) high in
  let b := mkBd lo hi delta in
  exists N, forall fuel, (N <= fuel)%nat ->
  exists h, serial_sim fuel b g (update_two_grids offs f fuel b g tmp) n h0 = Some (Some h) /\
    (forall p, in_box lo hi p -> grid_read g h p = Some (undivided (wrap high) offs f G n (wrap high p))) /\
    (forall c, c <> g_block g -> c <> g_block tmp -> h c = h0 c).
Proof.
  intros (A & B & C & D & E & F & H & I & J) lo hi b.
  apply (serial_simulation_undivided V high delta g tmp offs f n A B C D h0
           (fun p => match grid_read g h0 p with Some v => v | None => G p end) G); try assumption.
  - split; [exact E|]. intros p Hp. destruct (grid_read_ok _ _ _ E Hp) as [v ->]. reflexivity.
  - intros p Hp. rewrite F by exact Hp. reflexivity.
Qed.

(** ** A domain of 10 x 6 cells, on one process, on two and on two others *)
Definition s_bd (dims : vec) := mpi_bounds exact_cut dims ex_high 1.
Definition s_gr (dims c : vec) : grid := mkGrid COrder 1 (bd_lo (s_bd dims c)) (bd_hi (s_bd dims c)).
Definition s_tmp (dims c : vec) : grid := mkGrid COrder 2 (r_lo (inner_domain (s_bd dims c))) (r_hi (inner_domain (s_bd dims c))).
Definition s_G (p : vec) : Z := vget p 0 * vget p 0 + 10 * vget p 1 * vget p 1.
Definition s_start (dims c p : vec) : Z :=
  if in_boxb (r_lo (inner_domain (s_bd dims c))) (r_hi (inner_domain (s_bd dims c))) p then s_G p else 7.
Definition s_h0 (dims c : vec) : heap Z := fun b =>
  match b with
  | 1%nat => map (s_start dims c) (box (bd_lo (s_bd dims c)) (bd_hi (s_bd dims c)))
  | 2%nat => map (fun _ => 0) (box (r_lo (inner_domain (s_bd dims c))) (r_hi (inner_domain (s_bd dims c))))
  | _ => []
  end.

Lemma is_process_s dims c : dims = [1; 1] \/ dims = [2; 1] \/ dims = [1; 2] -> is_process dims c -> 
  (dims = [1; 1] /\ c = [0; 0]) \/ (dims = [2; 1] /\ (c = [0; 0] \/ c = [1; 0])) \/ (dims = [1; 2] /\ (c = [0; 0] \/ c = [0; 1])).
Proof.
  intros D [L H]. destruct c as [|a [|b [|]]]; try (destruct D as [-> | [-> | ->]]; discriminate).
  destruct D as [-> | [-> | ->]]; pose proof (H 0%nat ltac:(simpl; lia)) as H0; pose proof (H 1%nat ltac:(simpl; lia)) as H1; cbn in H0, H1.
  - left. split; [reflexivity|]. f_equal; [lia|f_equal; lia].
  - right; left. split; [reflexivity|]. assert (b = 0) by lia. subst b. assert (a = 0 \/ a = 1) as [-> | ->] by lia; auto.
  - right; right. split; [reflexivity|]. assert (a = 0) by lia. subst a. assert (b = 0 \/ b = 1) as [-> | ->] by lia; auto.
Qed.

Lemma s_set_up dims : dims = [1; 1] \/ dims = [2; 1] \/ dims = [1; 2] ->
  set_up exact_cut dims ex_high 1 (s_gr dims) (s_tmp dims) example_offsets (s_h0 dims) s_G.
Proof.
  intros D. split; [|split; [|split]].
  - split; [destruct D as [-> | [-> | ->]]; intros [|[|i]] Hi; simpl in Hi; try lia; vm_compute; congruence|].
    split; [destruct D as [-> | [-> | ->]]; reflexivity|]. split; [lia|].
    split; [destruct D as [-> | [-> | ->]]; intros [|[|i]] Hi; simpl in Hi; try lia; apply exact_cut_ok; vm_compute; congruence|].
    split; [|intros c p _ Hp; exact Hp].
    intros c i Hc Hi. apply is_process_s in Hc; [|exact D].
    destruct Hc as [[-> ->] | [[-> [-> | ->]] | [-> [-> | ->]]]]; destruct i as [|[|i]]; simpl in Hi; try lia; vm_compute; congruence.
  - destruct D as [-> | [-> | ->]]; simpl; lia.
  - replace (length dims) with 2%nat by (destruct D as [-> | [-> | ->]]; reflexivity).
    intros o Ho. cbn in Ho. destruct Ho as [<-|[<-|[<-|[<-|[<-|[]]]]]]; (split; [reflexivity|]); intros [|[|i]] Hi; try lia; vm_compute; split; congruence.
  - intros c Hc. apply is_process_s in Hc; [|exact D].
    split; [|split; [|split; [|split]]].
    + destruct Hc as [[-> ->] | [[-> [-> | ->]] | [-> [-> | ->]]]];
        (split; [discriminate|]; split; [vm_compute; intuition congruence|]; split; [reflexivity|]; split; [vm_compute; reflexivity|]; intros _; vm_compute; discriminate).
    + intros p Hp. unfold in_inner in Hp. fold (s_bd dims) in Hp.
      assert (A : forallb (fun q => match grid_read (s_gr dims c) (s_h0 dims c) q with Some v => v =? s_G q | None => false end)
                    (box (r_lo (inner_domain (s_bd dims c))) (r_hi (inner_domain (s_bd dims c)))) = true)
        by (destruct Hc as [[-> ->] | [[-> [-> | ->]] | [-> [-> | ->]]]]; vm_compute; reflexivity).
      rewrite forallb_forall in A. apply box_In in Hp. specialize (A p Hp). destruct (grid_read _ _ p) as [v|]; [|discriminate].
      apply Z.eqb_eq in A. congruence.
    + destruct Hc as [[-> ->] | [[-> [-> | ->]] | [-> [-> | ->]]]];
        (split; [discriminate|]; split; [vm_compute; intuition congruence|]; split; [reflexivity|]; split; [vm_compute; reflexivity|]; intros _; vm_compute; discriminate).
    + discriminate.
    + intros p Hp. exact Hp.
Qed.

(** All processes in step. *)
Definition s_schedule (procs : list vec) (calls : nat) : list event :=
  concat (repeat (map Send procs ++ map Recv procs ++ map Finish procs) calls).
(** Value of an inner cell on process [c] at the end of [n] steps. *)
Definition s_value (update : vec -> vec -> heap Z -> option (heap Z)) (dims : vec) (procs : list vec) (n : nat) (c p : vec) : option Z :=
  match sim_run Z.add 100 dims (s_bd dims) (s_gr dims) (update dims) n (s_schedule procs (S n * 4)) (net_init (s_h0 dims)) with
  | Next st => if forallb (fun q => (pr_calls (n_proc st q) =? length (sim_prog dims n))%nat) procs
               then grid_read (s_gr dims c) (pr_mem (n_proc st c)) p else None
  | _ => None
  end.
Definition two_grids (dims c : vec) : heap Z -> option (heap Z) :=
  update_two_grids example_offsets (example_rule 1) 100 (s_bd dims c) (s_gr dims c) (s_tmp dims c).
Definition in_place (dims c : vec) : heap Z -> option (heap Z) :=
  update_in_place example_offsets (example_rule 1) example_cells (s_bd dims c) (s_gr dims c).

Lemma s_run : s_value two_grids [2; 1] [[0; 0]; [1; 0]] 2 [1; 0] [5; 2] = Some (undivided (wrap ex_high) example_offsets (example_rule 1) s_G 2 [5; 2]) /\
  s_value two_grids [1; 2] [[0; 0]; [0; 1]] 2 [0; 0] [5; 2] = Some (undivided (wrap ex_high) example_offsets (example_rule 1) s_G 2 [5; 2]).
Proof. vm_compute. split; reflexivity. Qed.

(** The loops of the example program, one step: updating in place makes the result depend on the
    division — cells of the second process next to its neighbour, and, because every process starts
    with its own lowest [j], cells the undivided program does not touch at all. *)
Lemma in_place_differs :
  s_value in_place [1; 1] [[0; 0]] 1 [0; 0] [5; 2] = Some 277 /\
  s_value in_place [2; 1] [[0; 0]; [1; 0]] 1 [1; 0] [5; 2] = Some 87 /\
  s_value in_place [1; 1] [[0; 0]] 1 [0; 0] [5; 3] = Some (s_G [5; 3]) /\
  s_value in_place [1; 2] [[0; 0]; [0; 1]] 1 [0; 1] [5; 3] = Some 327.
Proof. vm_compute. repeat split. Qed.

Lemma serial_s_set_up : serial_set_up ex_high 1 (s_gr [1; 1] [0; 0]) (s_tmp [1; 1] [0; 0]) example_offsets (s_h0 [1; 1] [0; 0]) s_G.
Proof.
  destruct (s_set_up [1; 1] (or_introl eq_refl)) as (_ & _ & R & H).
  destruct (H [0; 0]) as (A & B & C & D & E).
  { split; [reflexivity|]. intros [|[|i]] Hi; simpl in Hi; try lia; vm_compute; split; congruence. }
  assert (I : forall p, in_global ex_high p -> in_inner (mpi_bounds exact_cut [1; 1] ex_high 1 [0; 0]) p).
  { intros p [L P]. apply in_inner_iff. split; [exact L|]. intros i Hi. specialize (P i Hi).
    destruct i as [|[|i]]; simpl in Hi; try lia; vm_compute in P |- *; exact P. }
  split; [lia|]. split; [intros [|[|i]] Hi; simpl in Hi; try lia; vm_compute; congruence|].
  split; [intros p Hp; exact Hp|]. split; [exact R|]. split; [exact A|]. split; [intros p Hp; apply B, I, Hp|].
  split; [exact C|]. split; [exact D|]. intros p Hp. apply E, I, Hp.
Qed.
