(** Wrapper lemmas and examples for BoundaryProps. *)
From Verif Require Import Vec GridSpec RangeModel BoxFacts RangeProofs StorageModel GridModel GridOpSpec GridProofs
  BoundaryModel BoundarySpec BoundaryProofs SerialProofs SubGridProofs.

Definition ex_g := mkGrid FOrder 1 [-2; 0] [3; 6].
Definition ex_h : heap Z := fun b => match b with 1%nat => map Z.of_nat (seq 0 42) | 2%nat => map Z.of_nat (seq 100 42) | _ => [] end.
Definition ex_m (p : vec) : Z := (vget p 0 + 2) + 6 * vget p 1.

Lemma ex_wf : grid_wf ex_g ex_h.
Proof. split; [discriminate|]. split; [simpl; lia|]. split; [reflexivity|]. split; [vm_compute; reflexivity|].
  intros H; discriminate H. Qed.

Lemma reads_by_box {V} (g : grid) (h : heap V) m :
  (forall p, In p (box (g_lo g) (g_hi g)) -> grid_read g h p = Some (m p)) ->
  forall p, in_box (g_lo g) (g_hi g) p -> grid_read g h p = Some (m p).
Proof. intros H p Hp. apply H, box_In, Hp. Qed.

Lemma ex_rep : represents ex_g ex_h ex_m.
Proof.
  split; [exact ex_wf|]. apply reads_by_box.
  assert (H : forallb (fun p => match grid_read ex_g ex_h p with Some v => v =? ex_m p | None => false end)
                      (box (g_lo ex_g) (g_hi ex_g)) = true) by (vm_compute; reflexivity).
  rewrite forallb_forall in H. intros p Hp. specialize (H p Hp).
  destruct (grid_read ex_g ex_h p) as [v|]; [|discriminate]. apply Z.eqb_eq in H. congruence.
Qed.

Lemma inside_self (g : grid) lo hi : g_lo g = lo -> g_hi g = hi -> inside_grid g lo hi.
Proof. intros <- <- p Hp. exact Hp. Qed.

(** C22 *)
Lemma partition_dim lo hi delta d p : box_ok lo hi -> (d < length lo)%nat -> 0 <= delta ->
  2 * delta <= vget hi d - vget lo d + 1 -> in_box lo hi p ->
  let b := mkBd lo hi delta in
  let L := in_box (r_lo (ghost_domain b d Min)) (r_hi (ghost_domain b d Min)) p in
  let H := in_box (r_lo (ghost_domain b d Max)) (r_hi (ghost_domain b d Max)) p in
  let I := vget lo d + delta <= vget p d <= vget hi d - delta in
  (L /\ ~ H /\ ~ I) \/ (~ L /\ H /\ ~ I) \/ (~ L /\ ~ H /\ I).
Proof.
  intros Ok Hd H0 H2 Hp b L H I. pose proof (box_ok_length _ _ Ok) as Ln.
  assert (EL : L <-> slab lo hi d (vget lo d) (vget lo d + delta - 1) p).
  { unfold L, b. rewrite loGhost_eq. apply in_box_slab; assumption. }
  assert (EH : H <-> slab lo hi d (vget hi d - delta + 1) (vget hi d) p).
  { unfold H, b. rewrite hiGhost_eq. apply in_box_slab; assumption. }
  apply (in_box_slab_whole lo hi d) in Hp; [|assumption|assumption]. destruct Hp as (A & B & C).
  rewrite EL, EH. unfold slab, I.
  destruct (Z_lt_dec (vget p d) (vget lo d + delta)) as [X|X].
  - left. split; [split; [exact A|split; [lia|exact C]]|]. split; [intros (_ & K & _); lia|lia].
  - destruct (Z_lt_dec (vget hi d - delta) (vget p d)) as [Y|Y].
    + right; left. split; [intros (_ & K & _); lia|]. split; [split; [exact A|split; [lia|exact C]]|lia].
    + right; right. split; [intros (_ & K & _); lia|]. split; [intros (_ & K & _); lia|lia].
Qed.

Lemma ghost_in_domain lo hi delta d s p : box_ok lo hi -> (d < length lo)%nat -> 0 <= delta ->
  delta <= vget hi d - vget lo d + 1 ->
  in_box (r_lo (ghost_domain (mkBd lo hi delta) d s)) (r_hi (ghost_domain (mkBd lo hi delta) d s)) p -> in_box lo hi p.
Proof.
  intros Ok Hd H0 H1 H. pose proof (box_ok_length _ _ Ok) as Ln. apply (in_box_slab_whole lo hi d); try assumption.
  destruct s; [rewrite loGhost_eq in H|rewrite hiGhost_eq in H]; apply in_box_slab in H; try assumption;
    (eapply slab_sub; [| |exact H]); lia.
Qed.

Lemma inner_domain_spec lo hi delta p : box_ok lo hi -> 0 <= delta ->
  let b := mkBd lo hi delta in
  in_box (r_lo (inner_domain b)) (r_hi (inner_domain b)) p <->
  in_box lo hi p /\
  forall d s, (d < length lo)%nat -> ~ in_box (r_lo (ghost_domain b d s)) (r_hi (ghost_domain b d s)) p.
Proof.
  intros Ok H0 b. pose proof (box_ok_length _ _ Ok) as Ln.
  assert (E : in_box (r_lo (inner_domain b)) (r_hi (inner_domain b)) p <->
    length p = length lo /\ forall i, (i < length lo)%nat -> vget lo i + delta <= vget p i <= vget hi i - delta).
  { unfold inner_domain, b. cbn [r_lo r_hi bd_lo bd_hi bd_delta]. rewrite in_box_vget, !map_length.
    assert (G : forall (f : Z -> Z) v i, (i < length v)%nat -> vget (map f v) i = f (vget v i)).
    { intros f v i Hi. unfold vget. rewrite (nth_indep _ 0 (f 0)) by (rewrite map_length; exact Hi). apply map_nth. }
    split.
    - intros (_ & A & B). split; [exact A|]. intros i Hi. specialize (B i Hi). rewrite !G in B by lia. exact B.
    - intros (A & B). split; [exact Ln|]. split; [exact A|]. intros i Hi. rewrite !G by lia. apply B, Hi. }
  rewrite E. split.
  - intros (A & B). split.
    + apply in_box_vget. split; [exact Ln|]. split; [exact A|]. intros i Hi. specialize (B i Hi). lia.
    + intros d s Hd K. unfold b in K. specialize (B d Hd).
      destruct s; [rewrite loGhost_eq in K|rewrite hiGhost_eq in K]; apply in_box_slab in K; try assumption;
      apply slab_comp in K; lia.
  - intros (A & B). pose proof A as A'. apply in_box_vget in A'. destruct A' as (_ & Lp & A').
    split; [exact Lp|]. intros i Hi. pose proof (B i Min Hi) as B1. pose proof (B i Max Hi) as B2.
    unfold b in B1, B2. rewrite loGhost_eq in B1. rewrite hiGhost_eq in B2. cbn [r_lo r_hi] in B1, B2.
    rewrite in_box_slab in B1 by assumption. rewrite in_box_slab in B2 by assumption.
    apply (in_box_slab_whole lo hi i) in A; [|assumption|assumption]. destruct A as (_ & A1 & A2).
    destruct (Z_lt_dec (vget p i) (vget lo i + delta)) as [X|X].
    + exfalso. apply B1. split; [exact Lp|]. split; [lia|exact A2].
    + destruct (Z_lt_dec (vget hi i - delta) (vget p i)) as [Y|Y]; [|lia].
      exfalso. apply B2. split; [exact Lp|]. split; [lia|exact A2].
Qed.

Lemma source_matches lo hi delta d s p : box_ok lo hi -> (d < length lo)%nat -> 0 <= delta ->
  let b := mkBd lo hi delta in
  let n := inner_extent lo hi delta d in
  let opp := match s with Min => Max | Max => Min end in
  let k := match s with Min => n | Max => - n end in
  (in_box (r_lo (source_domain b d s)) (r_hi (source_domain b d s)) p <->
   length p = length lo /\
   in_box (r_lo (ghost_domain b d opp)) (r_hi (ghost_domain b d opp)) (vset p d (vget p d + k))) /\
  (delta <= n -> in_box (r_lo (source_domain b d s)) (r_hi (source_domain b d s)) p ->
   in_box lo hi p /\ vget lo d + delta <= vget p d <= vget hi d - delta).
Proof.
  intros Ok Hd H0 b n opp k. pose proof (box_ok_length _ _ Ok) as Ln. unfold opp, k, b.
  assert (En : n = vget hi d - vget lo d + 1 - 2 * delta) by reflexivity.
  assert (S1 : forall a c k0, slab lo hi d a c p -> length p = length lo /\
            slab lo hi d (a + k0) (c + k0) (shift_d d k0 p)).
  { intros a c k0 H. split; [apply H|]. apply slab_shift; [exact Hd|apply H|]. eapply slab_sub; [| |exact H]; lia. }
  assert (S2 : forall a c k0, length p = length lo -> slab lo hi d (a + k0) (c + k0) (shift_d d k0 p) -> slab lo hi d a c p).
  { intros a c k0 Lp H. apply slab_shift in H; [|exact Hd|exact Lp]. eapply slab_sub; [| |exact H]; lia. }
  destruct s; rewrite ?loSource_eq, ?hiSource_eq, ?loGhost_eq, ?hiGhost_eq by assumption;
    cbn [r_lo r_hi]; rewrite !in_box_slab by assumption; (split; [split|]).
  - intros H. destruct (S1 _ _ n H) as [A B]. split; [exact A|]. eapply slab_sub; [| |exact B]; lia.
  - intros [A B]. apply (S2 _ _ n A). eapply slab_sub; [| |exact B]; lia.
  - intros Hn H. split.
    + apply (in_box_slab_whole lo hi d); try assumption. eapply slab_sub; [| |exact H]; lia.
    + apply slab_comp in H. lia.
  - intros H. destruct (S1 _ _ (- n) H) as [A B]. split; [exact A|]. eapply slab_sub; [| |exact B]; lia.
  - intros [A B]. apply (S2 _ _ (- n) A). eapply slab_sub; [| |exact B]; lia.
  - intros Hn H. split.
    + apply (in_box_slab_whole lo hi d); try assumption. eapply slab_sub; [| |exact H]; lia.
    + apply slab_comp in H. lia.
Qed.

(** C23 *)
Lemma serial_periodic V (g : grid) (h : heap V) m lo hi delta :
  represents g h m -> box_ok lo hi -> inside_grid g lo hi -> 1 <= delta -> inner_at_least lo hi delta delta ->
  exists N, forall fuel, (N <= fuel)%nat ->
  exists h', serial_exchange fuel (mkBd lo hi delta) g h = Some (Some h') /\
    (forall p, in_box lo hi p -> exists q, periodic_image lo hi delta p q /\ grid_read g h' p = Some (m q)) /\
    (forall p, in_box (g_lo g) (g_hi g) p -> ~ in_box lo hi p -> grid_read g h' p = Some (m p)) /\
    (forall c, c <> g_block g -> h' c = h c).
Proof.
  intros Hr Ok Ins Hd Hn. exists (fuel_all lo hi delta). intros fuel Hf.
  destruct (exchange_ok lo hi delta Ok Hd g Ins Hn fuel h m Hf Hr) as (h' & m' & E & Hr' & A & B & F).
  exists h'. split; [exact E|]. split; [|split; [|exact F]].
  - intros p Hp. exists (wrapv lo hi delta (length lo) p). pose proof (wrapv_image lo hi delta p Hn Hp) as Hi.
    split; [exact Hi|]. rewrite (proj2 Hr' p (Ins p Hp)). rewrite (A _ _ Hp Hi). reflexivity.
  - intros p Hp Np. rewrite (proj2 Hr' p Hp), B by exact Np. reflexivity.
Qed.

Lemma inner_is_own_image lo hi delta p : length p = length lo ->
  (forall d, (d < length lo)%nat -> vget lo d + delta <= vget p d <= vget hi d - delta) ->
  periodic_image lo hi delta p p.
Proof.
  intros L H. split; [reflexivity|]. intros d Hd. split; [apply H; lia|]. rewrite Z.sub_diag. reflexivity.
Qed.

Lemma serial_idempotent V (g : grid) (h : heap V) lo hi delta :
  grid_wf g h -> box_ok lo hi -> inside_grid g lo hi -> 1 <= delta -> inner_at_least lo hi delta delta ->
  exists N, forall fuel, (N <= fuel)%nat ->
  exists h' h'', serial_exchange fuel (mkBd lo hi delta) g h = Some (Some h') /\
    serial_exchange fuel (mkBd lo hi delta) g h' = Some (Some h'') /\
    (forall p, in_box (g_lo g) (g_hi g) p -> grid_read g h'' p = grid_read g h' p) /\
    (forall c, c <> g_block g -> h'' c = h' c).
Proof.
  intros Hw Ok Ins Hd Hn. exists (fuel_all lo hi delta). intros fuel Hf.
  assert (Hm : exists m, represents g h m).
  { destruct (grid_read_ok g h (g_lo g) Hw (box_ok_in_box_lo _ _ (proj1 (proj2 Hw)))) as [v0 _].
    exists (fun p => match grid_read g h p with Some v => v | None => v0 end). split; [exact Hw|].
    intros p Hp. destruct (grid_read_ok g h p Hw Hp) as [v ->]. reflexivity. }
  destruct Hm as [m Hr].
  destruct (exchange_ok lo hi delta Ok Hd g Ins Hn fuel h m Hf Hr) as (h1 & m1 & E1 & Hr1 & A1 & B1 & F1).
  destruct (exchange_ok lo hi delta Ok Hd g Ins Hn fuel h1 m1 Hf Hr1) as (h2 & m2 & E2 & Hr2 & A2 & B2 & F2).
  exists h1, h2. split; [exact E1|]. split; [exact E2|]. split; [|exact F2].
  intros p Hp. rewrite (proj2 Hr1 p Hp), (proj2 Hr2 p Hp). f_equal.
  destruct (in_boxb lo hi p) eqn:Eb.
  - apply in_boxb_iff in Eb. pose proof (wrapv_image lo hi delta p Hn Eb) as Hi.
    set (q := wrapv lo hi delta (length lo) p) in *.
    rewrite (A2 p q Eb Hi), (A1 p q Eb Hi). assert (Lp : length p = length lo) by (apply in_box_length in Eb; tauto).
    destruct Hi as [Lq Hi].
    assert (Hq : forall d, (d < length lo)%nat -> vget lo d + delta <= vget q d <= vget hi d - delta).
    { intros d Hd'. apply Hi. lia. }
    apply A1; [|apply inner_is_own_image; [lia|exact Hq]].
    apply in_box_vget. split; [apply box_ok_length, Ok|]. split; [lia|]. intros i Hi'. specialize (Hq i Hi'). lia.
  - apply B2. intros K. apply in_boxb_iff in K. congruence.
Qed.

(** C25 *)
Lemma serial_accumulate_dim_sums V (plus : V -> V -> V) (g : grid) (h : heap V) m lo hi delta d :
  represents g h m -> box_ok lo hi -> inside_grid g lo hi -> (d < length lo)%nat ->
  1 <= delta -> 2 * delta <= inner_extent lo hi delta d ->
  exists N, forall fuel, (N <= fuel)%nat ->
  exists h', serial_accumulate_dim plus fuel (mkBd lo hi delta) g d h = Some (Some h') /\
    (forall p s, in_box lo hi p -> ghost_of lo hi delta d p s ->
       grid_read g h' p = Some (plus (m p) (m s)) /\ grid_read g h' s = Some (plus (m p) (m s))) /\
    (forall p, in_box (g_lo g) (g_hi g) p ->
       (~ exists s, in_box lo hi p /\ ghost_of lo hi delta d p s) ->
       (~ exists q, in_box lo hi q /\ ghost_of lo hi delta d q p) ->
       grid_read g h' p = Some (m p)) /\
    (forall c, c <> g_block g -> h' c = h c).
Proof.
  intros Hr Ok Ins Hd H1 H2. exists (fuel_bound lo hi delta d). intros fuel Hf.
  pose proof (box_ok_length _ _ Ok) as Ln. set (n := inner_extent lo hi delta d) in *.
  assert (En : n = vget hi d - vget lo d + 1 - 2 * delta) by reflexivity.
  destruct (accumulate_dim_ok lo hi delta d Ok Hd H1 g Ins plus H2 h m fuel Hr Hf)
    as (h' & m' & E & Hr' & A & B & C & F).
  fold n in A, B.
  assert (Sft : forall p s k, length p = length lo -> agree_except d p s -> vget s d = vget p d + k -> s = shift_d d k p).
  { intros p s k Lp [La Ag] Es. apply vec_ext; [rewrite shift_d_length; congruence|]. intros i Hi.
    destruct (Nat.eq_dec d i) as [<-|Ne].
    - rewrite shift_d_same by lia. exact Es.
    - rewrite shift_d_other by exact Ne. symmetry. apply Ag. congruence. }
  exists h'. split; [exact E|]. split; [|split; [|exact F]].
  - intros p s Hp [Ag Hg]. pose proof Hp as Hs. apply (in_box_slab_whole lo hi d) in Hs; [|exact Ln|exact Hd].
    assert (Lp : length p = length lo) by apply Hs.
    assert (Sin : in_box (g_lo g) (g_hi g) s).
    { apply Ins, (in_box_slab_whole lo hi d); [exact Ln|exact Hd|]. destruct Ag as [La Ag]. split; [congruence|]. split.
      - fold n in Hg. destruct Hs as (_ & Hs & _). lia.
      - intros i Hi Ne. rewrite <- Ag by exact Ne. apply Hs; assumption. }
    rewrite (proj2 Hr' p (Ins p Hp)), (proj2 Hr' s Sin). fold n in Hg. destruct Hg as [[G1 G2]|[G1 G2]].
    + rewrite (Sft p s n Lp Ag G2). destruct (A p) as [-> ->]; [|auto].
      split; [exact Lp|]. split; [lia|apply Hs].
    + rewrite (Sft p s (- n) Lp Ag G2). destruct (B p) as [-> ->]; [|auto].
      split; [exact Lp|]. split; [lia|apply Hs].
  - intros p Hp N1 N2. rewrite (proj2 Hr' p Hp). f_equal. apply C.
    destruct (in_boxb lo hi p) eqn:Eb; [|left; intros K; apply in_boxb_iff in K; congruence].
    right. apply in_boxb_iff in Eb. pose proof Eb as Hs. apply (in_box_slab_whole lo hi d) in Hs; [|exact Ln|exact Hd].
    assert (Lp : length p = length lo) by apply Hs. destruct Hs as (_ & Hc & Ho).
    assert (Ag : forall k, agree_except d p (shift_d d k p)).
    { intros k. split; [rewrite shift_d_length; reflexivity|]. intros i Ne. rewrite shift_d_other by congruence. reflexivity. }
    assert (Ag' : forall k, agree_except d (shift_d d k p) p).
    { intros k. split; [rewrite shift_d_length; reflexivity|]. intros i Ne. rewrite shift_d_other by congruence. reflexivity. }
    assert (InS : forall k, vget lo d <= vget p d + k <= vget hi d -> in_box lo hi (shift_d d k p)).
    { intros k Hk. apply (in_box_slab_whole lo hi d); [exact Ln|exact Hd|]. split; [rewrite shift_d_length; exact Lp|].
      split; [rewrite shift_d_same by lia; lia|]. intros i Hi Ne. rewrite shift_d_other by congruence. apply Ho; assumption. }
    destruct (Z_lt_dec (vget p d) (vget lo d + delta)) as [X1|X1].
    { exfalso. apply N1. exists (shift_d d n p). split; [exact Eb|]. split; [apply Ag|]. left. fold n.
      rewrite shift_d_same by lia. lia. }
    destruct (Z_lt_dec (vget hi d - delta) (vget p d)) as [X2|X2].
    { exfalso. apply N1. exists (shift_d d (- n) p). split; [exact Eb|]. split; [apply Ag|]. right. fold n.
      rewrite shift_d_same by lia. lia. }
    destruct (Z_lt_dec (vget p d) (vget lo d + 2 * delta)) as [X3|X3].
    { exfalso. apply N2. exists (shift_d d n p). split; [apply InS; lia|]. split; [apply Ag'|]. right. fold n.
      rewrite shift_d_same by lia. lia. }
    destruct (Z_lt_dec (vget hi d - 2 * delta) (vget p d)) as [X4|X4].
    { exfalso. apply N2. exists (shift_d d (- n) p). split; [apply InS; lia|]. split; [apply Ag'|]. left. fold n.
      rewrite shift_d_same by lia. lia. }
    lia.
Qed.

(** A view [0..2]x[1..4] of the example grid. *)
Definition ex_vops : list (vop Z) :=
  [VRead [1; 2]; VWrite [1; 2] 7; VRead [1; 2]; VFill 9; VRead [0; 4]; VResize [-2; 0] [-1; 6]; VRead [-2; 6]; VFill 5; VRead [-1; 3]].

Lemma sub_in (g : grid) lo hi : length (g_hi g) = length (g_lo g) -> length lo = length (g_lo g) ->
  (forall i, (i < length (g_lo g))%nat -> vget (g_lo g) i <= vget lo i /\ vget hi i <= vget (g_hi g) i) ->
  inside_grid g lo hi.
Proof.
  intros L1 L2 H p Hp. apply in_box_vget in Hp. destruct Hp as (A & B & C). apply in_box_vget.
  split; [exact L1|]. split; [congruence|]. intros i Hi. specialize (H i Hi). specialize (C i ltac:(lia)). lia.
Qed.

Ltac view_ok := split; [simpl; lia|apply sub_in; [reflexivity|reflexivity|
  intros i Hi; simpl in Hi; destruct i as [|[|i]]; simpl; unfold vget; simpl; lia]].

Lemma ex_range2 : view_range ex_g [-2; 0] [-1; 6].
Proof. view_ok. Qed.

Lemma ex_vops_legal : view_range ex_g [0; 1] [2; 4] /\ vlegal ex_g ex_vops [0; 1] [2; 4].
Proof.
  split; [view_ok|]. unfold ex_vops. cbn [vlegal].
  repeat match goal with |- _ /\ _ => split end; try (simpl; lia); try exact I.
  exact ex_range2.
Qed.

Lemma ex_vops_run : option_map (option_map snd) (sub_run CkNone CkAssert 20 ex_vops (sub_new ex_g [0; 1] [2; 4]) ex_h) =
  Some (Some [15; 7; 9; 36; 5]).
Proof. vm_compute. reflexivity. Qed.

(** The model of the domain used in the examples: all of the grid, ghost width 1. *)
Lemma ex_dom_ok : represents ex_g ex_h ex_m /\ box_ok [-2; 0] [3; 6] /\ inside_grid ex_g [-2; 0] [3; 6] /\
  inner_at_least [-2; 0] [3; 6] 1 2.
Proof.
  split; [exact ex_rep|]. split; [simpl; lia|]. split; [apply inside_self; reflexivity|].
  intros d Hd. simpl in Hd. destruct d as [|[|d]]; unfold inner_extent, vget; simpl; lia.
Qed.

Lemma view_fill_exact V cv cb (g : grid) lo hi dims (h : heap V) m os :
  represents g h m -> view_range g lo hi -> vlegal g os lo hi ->
  exists N, forall fuel, (N <= fuel)%nat ->
  exists s' h', sub_run cv cb fuel os (mkSub g lo hi dims) h = Some (Some (s', h', snd (vspec_run os (m, (lo, hi))))) /\
    represents g h' (fst (fst (vspec_run os (m, (lo, hi))))) /\
    (forall b, b <> g_block g -> h' b = h b).
Proof.
  intros Hr Hv Hl. exists (sub_fuel os lo hi). intros fuel Hf.
  destruct (view_history cv cb fuel os g lo hi dims h m Hr Hv Hl Hf) as (s' & h' & A & B & _ & D).
  exists s', h'. auto.
Qed.

Lemma sub_iop_confined_ex V (op : V -> V -> V) gd gs lod hid los his dd ds (h : heap V) :
  grid_wf gd h -> grid_wf gs h -> view_range gd lod hid -> view_range gs los his ->
  exists N, forall fuel, (N <= fuel)%nat ->
  exists h', sub_iop op fuel (mkSub gd lod hid dd) (mkSub gs los his ds) h = Some (Some h') /\
    (forall q, in_box (g_lo gd) (g_hi gd) q -> ~ in_box lod hid q -> grid_read gd h' q = grid_read gd h q) /\
    (forall b, b <> g_block gd -> h' b = h b).
Proof. intros. exists (Z.to_nat (box_size los his)). intros. apply sub_iop_confined; assumption. Qed.

Lemma sub_iop_exact_ex V (op : V -> V -> V) gd gs los his lod hid sh dd ds (h : heap V) md ms :
  g_block gd <> g_block gs -> represents gd h md -> represents gs h ms ->
  length sh = length los -> lod = vmap2 Z.add los sh -> hid = vmap2 Z.add his sh ->
  view_range gs los his -> inside_grid gd lod hid ->
  exists N, forall fuel, (N <= fuel)%nat ->
  exists h' md', sub_iop op fuel (mkSub gd lod hid dd) (mkSub gs los his ds) h = Some (Some h') /\
    represents gd h' md' /\
    (forall p, in_box los his p -> md' (vmap2 Z.add p sh) = op (md (vmap2 Z.add p sh)) (ms p)) /\
    (forall q, ~ in_box lod hid q -> md' q = md q) /\
    (forall b, b <> g_block gd -> h' b = h b).
Proof.
  intros Nb Hd Hs L -> -> Hv Hi. exists (Z.to_nat (box_size los his)). intros fuel Hf. apply sub_iop_exact; assumption.
Qed.

Lemma dims_spec lo hi i : length hi = length lo -> (i < length lo)%nat ->
  vget (dims_of lo hi) i = vget hi i - vget lo i + 1.
Proof. intros L Hi. unfold dims_of. rewrite vget_vmap2 by lia. reflexivity. Qed.

(** 1-D examples for the refutations. *)
Definition line (n : nat) : heap Z := fun b => match b with O => map Z.of_nat (seq 1 n) | _ => [] end.
Definition line_g (n : Z) : grid := mkGrid COrder 0 [0] [n - 1].

Lemma line_wf : grid_wf (line_g 4) (line 4) /\ grid_wf (line_g 7) (line 7).
Proof.
  split; (split; [discriminate|]; split; [simpl; lia|]; split; [reflexivity|]; split; [vm_compute; reflexivity|];
  intros _; vm_compute; discriminate).
Qed.

Lemma narrow_twice : exists h' h'',
  serial_exchange 10 (mkBd [0] [6] 3) (line_g 7) (line 7) = Some (Some h') /\
  serial_exchange 10 (mkBd [0] [6] 3) (line_g 7) h' = Some (Some h'') /\
  grid_read (line_g 7) h'' [0] <> grid_read (line_g 7) h' [0].
Proof.
  eexists. eexists. split; [vm_compute; reflexivity|]. split; [vm_compute; reflexivity|]. vm_compute. congruence.
Qed.

Lemma overlap_ghost : ghost_of [0] [6] 2 0 [0] [3].
Proof.
  split; [split; [reflexivity|]; intros [|i] Hi; [congruence|destruct i; reflexivity]|].
  left. unfold inner_extent, vget; simpl; lia.
Qed.

Lemma overlap_sum : exists h',
  serial_accumulate_dim Z.add 10 (mkBd [0] [6] 2) (line_g 7) 0 (line 7) = Some (Some h') /\
  grid_read (line_g 7) h' [0] = Some 5 /\ grid_read (line_g 7) h' [3] = Some 12.
Proof. eexists. split; [vm_compute; reflexivity|]. split; vm_compute; reflexivity. Qed.

Lemma zero_ghosts : inner_at_least [0] [3] 0 0 /\
  serial_exchange 10 (mkBd [0] [3] 0) (line_g 4) (line 4) = Some None.
Proof.
  split; [|vm_compute; reflexivity]. intros [|d] Hd; simpl in Hd; unfold inner_extent, vget; simpl; lia.
Qed.

Lemma corner_ex : exists h', serial_exchange 20 (mkBd [-2; 0] [3; 6] 1) ex_g ex_h = Some (Some h') /\
  grid_read ex_g h' [-2; 0] = grid_read ex_g ex_h [2; 5] /\ grid_read ex_g h' [3; 3] = grid_read ex_g ex_h [-1; 3].
Proof. eexists. split; [vm_compute; reflexivity|]. split; vm_compute; reflexivity. Qed.

Lemma stale_dims : exists g lo hi lo' hi', view_range g lo hi /\ view_range g lo' hi' /\
  sg_dims (sub_resize (sub_new g lo hi) lo' hi') <> dims_of lo' hi'.
Proof.
  exists ex_g, [0; 1], [2; 4], [-2; 0], [-1; 6]. split; [apply ex_vops_legal|]. split; [exact ex_range2|].
  unfold sub_resize, sub_new, dims_of. simpl. discriminate.
Qed.

Lemma view_from_size : forall g size,
  let v := sub_new_size g size in
  sg_base v = g /\ sg_dims v = size /\
  forall p, in_box (sg_lo v) (sg_hi v) p <->
            length p = length size /\ forall i, (i < length size)%nat -> 0 <= vget p i < vget size i.
Proof.
  intros g size v. split; [reflexivity|]. split.
  - unfold v, sub_new_size, sub_new, dims_of. cbn [sg_dims]. induction size as [|x s IH]; [reflexivity|].
    cbn [map vmap2]. f_equal; [lia|exact IH].
  - intros p. unfold v, sub_new_size, sub_new. cbn [sg_lo sg_hi]. rewrite in_box_vget, !map_length.
    assert (G : forall (f : Z -> Z) v i, (i < length v)%nat -> vget (map f v) i = f (vget v i)).
    { intros f w i Hi. unfold vget. rewrite (nth_indep _ 0 (f 0)) by (rewrite map_length; exact Hi). apply map_nth. }
    split.
    + intros (_ & A & B). split; [exact A|]. intros i Hi. specialize (B i Hi). rewrite !G in B by lia. lia.
    + intros (A & B). split; [reflexivity|]. split; [exact A|]. intros i Hi. rewrite !G by lia. specialize (B i Hi). lia.
Qed.

Lemma boundary_cells_spec : forall lo hi delta d s stagger (g : grid) p,
  box_ok lo hi -> (d < length lo)%nat -> 1 <= delta -> 2 * delta <= vget hi d - vget lo d + 1 ->
  let v := field_ghost_boundary (mkBd lo hi delta) d s stagger g in
  let twice_position := 2 * vget p d + (if stagger then 1 else 0) in
  sg_base v = g /\
  (in_box (sg_lo v) (sg_hi v) p <->
   in_box lo hi p /\
   match s with
   | Min => twice_position < 2 * (vget lo d + delta) - 1
   | Max => twice_position > 2 * (vget hi d - delta) + 1
   end).
Proof.
  intros lo hi delta d s stagger g p Ok Hd H0 H1 v tp. pose proof (box_ok_length _ _ Ok) as Ln.
  split; [reflexivity|].
  unfold v, field_ghost_boundary, sub_new. cbn [sg_lo sg_hi].
  assert (W : in_box lo hi p <-> length p = length lo /\ forall i, (i < length lo)%nat -> vget lo i <= vget p i <= vget hi i).
  { rewrite in_box_vget. intuition. }
  destruct s; unfold boundary_domain; cbn [r_lo r_hi bd_lo bd_hi bd_delta]; rewrite W, in_box_vget, ?vset_length.
  - split.
    + intros (_ & A & B). split; [split; [exact A|]|].
      * intros i Hi. specialize (B i Hi). destruct (Nat.eq_dec i d) as [->|N].
        -- rewrite vget_vset_same in B by lia. destruct stagger; lia.
        -- rewrite vget_vset_other in B by lia. exact B.
      * specialize (B d Hd). rewrite vget_vset_same in B by lia. unfold tp. destruct stagger; lia.
    + intros ((A & B) & T). split; [lia|]. split; [exact A|]. intros i Hi. specialize (B i Hi).
      destruct (Nat.eq_dec i d) as [->|N].
      * rewrite vget_vset_same by lia. unfold tp in T. destruct stagger; lia.
      * rewrite vget_vset_other by lia. exact B.
  - split.
    + intros (_ & A & B). split; [split; [exact A|]|].
      * intros i Hi. specialize (B i Hi). destruct (Nat.eq_dec i d) as [->|N].
        -- rewrite vget_vset_same in B by lia. destruct stagger; lia.
        -- rewrite vget_vset_other in B by lia. exact B.
      * specialize (B d Hd). rewrite vget_vset_same in B by lia. unfold tp. destruct stagger; lia.
    + intros ((A & B) & T). split; [lia|]. split; [exact A|]. intros i Hi. specialize (B i Hi).
      destruct (Nat.eq_dec i d) as [->|N].
      * rewrite vget_vset_same by lia. unfold tp in T. destruct stagger; lia.
      * rewrite vget_vset_other by lia. exact B.
Qed.

Lemma boundary_unstaggered : forall b d s (g : grid),
  field_ghost_boundary b d s false g = grid_ghost_boundary b d s g /\
  sg_lo (grid_ghost_boundary b d s g) = r_lo (ghost_domain b d s) /\
  sg_hi (grid_ghost_boundary b d s g) = r_hi (ghost_domain b d s).
Proof.
  intros b d s g. split; [|split; reflexivity]. unfold field_ghost_boundary, grid_ghost_boundary.
  destruct s; cbn [boundary_domain ghost_domain r_lo r_hi]; rewrite ?Z.sub_0_r; reflexivity.
Qed.

Lemma boundary_cells_ex : exists p,
  in_box (sg_lo (field_ghost_boundary (mkBd [0; 0] [9; 7] 2) 1 Max true ex_g))
         (sg_hi (field_ghost_boundary (mkBd [0; 0] [9; 7] 2) 1 Max true ex_g)) p /\
  box_ok [0; 0] [9; 7].
Proof. exists [3; 6]. vm_compute. intuition congruence. Qed.
