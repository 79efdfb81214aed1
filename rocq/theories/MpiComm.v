(** The lock step execution of a sequence of boundary calls on all processes. *)
From Verif Require Import Vec GridSpec RangeModel BoxFacts RangeProofs GridModel GridOpSpec GridProofs BoundaryModel BoundarySpec
  BoundaryProofs SerialProofs SubGridProofs NetModel NetProofs MpiModel MpiSpec MpiProofs.
Local Open Scope Z_scope.
Local Arguments Z.mul : simpl never.
Local Arguments Z.add : simpl never.
Local Arguments Z.sub : simpl never.
Local Arguments Z.of_nat : simpl never.

Lemma zloop_shift a b n : zloop (a + n) (b + n) = map (fun x => x + n) (zloop a b).
Proof.
  unfold zloop. rewrite map_map. replace (b + n - (a + n) + 1) with (b - a + 1) by lia.
  apply map_ext. intros k. lia.
Qed.

Lemma map_flat_map {A B C} (f : B -> C) (g : A -> list B) l : map f (flat_map g l) = flat_map (fun x => map f (g x)) l.
Proof. induction l as [|x l IH]; simpl; [reflexivity|]. rewrite map_app, IH. reflexivity. Qed.
Lemma flat_map_map {A B C} (f : A -> B) (g : B -> list C) l : flat_map g (map f l) = flat_map (fun x => g (f x)) l.
Proof. induction l as [|x l IH]; simpl; [reflexivity|]. rewrite IH. reflexivity. Qed.

Lemma box_shift lo hi : forall d a b n, length hi = length lo -> (d < length lo)%nat ->
  box (vset lo d (a + n)) (vset hi d (b + n)) = map (shift_d d n) (box (vset lo d a) (vset hi d b)).
Proof.
  revert hi. induction lo as [|l lo IH]; intros [|h hi] [|d] a b n L Hd; simpl in L, Hd; try lia; cbn [vset box].
  - rewrite zloop_shift, flat_map_map, map_flat_map. apply flat_map_ext. intros x. rewrite map_map. apply map_ext.
    intros p. reflexivity.
  - rewrite map_flat_map. apply flat_map_ext. intros x. rewrite (IH hi d a b n) by lia. rewrite !map_map. apply map_ext.
    intros p. reflexivity.
Qed.

Lemma box_size_vset lo hi : forall d a w, length hi = length lo -> (d < length lo)%nat ->
  box_size (vset lo d a) (vset hi d (a + w - 1)) * (vget hi d - vget lo d + 1) = w * box_size lo hi.
Proof.
  revert hi. induction lo as [|l lo IH]; intros [|h hi] [|d] a w L Hd; simpl in L, Hd; try lia; cbn [vset box_size].
  - unfold vget; simpl. lia.
  - rewrite !vget_cons_S. rewrite <- Z.mul_assoc, IH by lia. lia.
Qed.

Lemma size_product_eq lo hi delta : length hi = length lo ->
  size_product (mkBd lo hi delta) = delta * box_size lo hi.
Proof.
  intros L. unfold size_product. cbn [bd_lo bd_hi bd_delta].
  assert (W : forall l h k acc lo' hi', length l = k -> length h = k -> length lo' = length hi' ->
     fold_left (fun acc i => acc * (vget (h ++ hi') i - vget (l ++ lo') i + 1)) (seq k (length lo')) acc = acc * box_size lo' hi').
  { intros l h k acc lo'. revert l h k acc. induction lo' as [|x lo' IH]; intros l h k acc [|y hi'] L1 L2 L3; simpl in L3; try lia.
    - cbn. lia.
    - cbn [length seq fold_left box_size].
      replace (vget (h ++ y :: hi') k) with y by (unfold vget; rewrite app_nth2 by lia; replace (k - length h)%nat with 0%nat by lia; reflexivity).
      replace (vget (l ++ x :: lo') k) with x by (unfold vget; rewrite app_nth2 by lia; replace (k - length l)%nat with 0%nat by lia; reflexivity).
      specialize (IH (l ++ [x]) (h ++ [y]) (S k) (acc * (y - x + 1)) hi').
      rewrite <- !app_assoc in IH. cbn [app] in IH. rewrite IH; [lia| | |lia]; rewrite app_length; simpl; lia. }
  specialize (W [] [] 0%nat delta lo hi eq_refl eq_refl ltac:(lia)). cbn [app] in W. exact W.
Qed.

Section Cells.
  Context {V : Type}.
  Variable plus : V -> V -> V.

  Lemma read_cells_spec (g : grid) (h : heap V) m l : represents g h m ->
    (forall p, In p l -> in_box (g_lo g) (g_hi g) p) -> read_cells g l h = Some (map m l).
  Proof.
    intros Hr. induction l as [|p l IH]; intros Hl; cbn [read_cells map]; [reflexivity|].
    rewrite (proj2 Hr p (Hl p (or_introl eq_refl))), IH; [reflexivity|]. intros q Hq. apply Hl. right; exact Hq.
  Qed.

  Lemma store_cells_spec add (g : grid) (f : vec -> V) : forall l (h : heap V) m, represents g h m -> NoDup l ->
    (forall p, In p l -> in_box (g_lo g) (g_hi g) p) ->
    exists h' m', store_cells plus add g l (map f l) h = Some h' /\ represents g h' m' /\
      (forall q, In q l -> m' q = if add then plus (m q) (f q) else f q) /\ (forall q, ~ In q l -> m' q = m q) /\
      (forall b, b <> g_block g -> h' b = h b).
  Proof.
    induction l as [|p l IH]; intros h m Hr Nd Hl; cbn [map store_cells].
    - exists h, m. split; [reflexivity|]. split; [exact Hr|]. split; [intros q []|]. auto.
    - inversion Nd as [|? ? Np Nd']; subst. pose proof (Hl p (or_introl eq_refl)) as Hp.
      rewrite (proj2 Hr p Hp). destruct (rep_write g h m p (if add then plus (m p) (f p) else f p) Hr Hp) as (h1 & -> & Hr1 & Fr1).
      destruct (IH h1 _ Hr1 Nd') as (h' & m' & E & Hr' & H1 & H2 & Fr).
      { intros q Hq. apply Hl. right; exact Hq. }
      exists h', m'. split; [exact E|]. split; [exact Hr'|]. split; [|split].
      + intros q [<-|Hq].
        * rewrite H2 by exact Np. rewrite veqb_refl. reflexivity.
        * rewrite H1 by exact Hq. rewrite veqb_neq; [reflexivity|]. intros ->. contradiction.
      + intros q Hq. rewrite H2 by (intros K; apply Hq; right; exact K). rewrite veqb_neq; [reflexivity|].
        intros ->. apply Hq. left; reflexivity.
      + intros b Hb. rewrite Fr by exact Hb. apply Fr1, Hb.
  Qed.
End Cells.

Lemma represents_ext {V} (g : grid) (h : heap V) m m' : represents g h m ->
  (forall p, in_box (g_lo g) (g_hi g) p -> m p = m' p) -> represents g h m'.
Proof. intros [W R] H. split; [exact W|]. intros p Hp. rewrite <- H by exact Hp. apply R, Hp. Qed.

Section Comm.
  Context {V : Type}.
  Variable plus : V -> V -> V.
  Variable cut : Z -> Z -> Z -> Z.
  Variables (dims high : vec) (delta : Z).
  Let bd := mpi_bounds cut dims high delta.
  Variable gr : vec -> grid.
  Hypothesis Hdims : process_grid dims.
  Hypothesis Hlen : length high = length dims.
  Hypothesis Hcuts : forall i, (i < length dims)%nat -> cut_ok cut (vget high i) (vget dims i).
  Hypothesis Hdelta : 1 <= delta.
  (** Every process has at least [delta] inner cells in each dimension. *)
  Hypothesis Hwide : forall c i, is_process dims c -> (i < length dims)%nat ->
    delta <= iHi cut dims high delta c i - iLo cut dims high delta c i + 1.
  Hypothesis Hgr : forall c, is_process dims c -> inside_grid (gr c) (bd_lo (bd c)) (bd_hi (bd c)).

  Notation iLo := (iLo cut dims high delta).
  Notation iHi := (iHi cut dims high delta).

  (** First coordinate of a region in its dimension. *)
  Definition ra (c : vec) (d : nat) (r : region) : Z :=
    match r with
    | Ghost Min => iLo c d - delta
    | Ghost Max => iHi c d + 1
    | Source Min => iLo c d
    | Source Max => iHi c d - delta + 1
    end.

  Lemma lo_get c i : (i < length dims)%nat -> vget (bd_lo (bd c)) i = iLo c i - delta.
  Proof. intros H. unfold bd. rewrite bd_lo_get by exact H. unfold MpiProofs.iLo, ilo. lia. Qed.
  Lemma hi_get c i : (i < length dims)%nat -> vget (bd_hi (bd c)) i = iHi c i + delta.
  Proof. intros H. unfold bd. rewrite bd_hi_get by exact H. unfold MpiProofs.iHi, ihi. lia. Qed.
  Lemma lo_len c : length (bd_lo (bd c)) = length dims. Proof. apply bd_lo_length. Qed.
  Lemma hi_len c : length (bd_hi (bd c)) = length dims. Proof. apply bd_hi_length. Qed.
  Lemma hi_lo_len c : length (bd_hi (bd c)) = length (bd_lo (bd c)). Proof. rewrite lo_len, hi_len. reflexivity. Qed.

  Lemma region_eq c d r : (d < length dims)%nat ->
    region_of (bd c) d r = mkRange (vset (bd_lo (bd c)) d (ra c d r)) (vset (bd_hi (bd c)) d (ra c d r + delta - 1)).
  Proof.
    intros Hd. assert (Ed : bd_delta (bd c) = delta) by reflexivity.
    destruct r as [s|s], s; cbn [region_of ra ghost_domain source_domain]; rewrite ?Ed.
    - f_equal; [rewrite <- lo_get by exact Hd; symmetry; apply vset_vget_id|]. rewrite lo_get by exact Hd. f_equal; lia.
    - f_equal; [rewrite hi_get by exact Hd; f_equal; lia|].
      rewrite <- (vset_vget_id (bd_hi (bd c)) d) at 1. rewrite hi_get by exact Hd. f_equal; lia.
    - rewrite vget_vset_same by (rewrite lo_len; exact Hd). rewrite lo_get by exact Hd. f_equal; f_equal; lia.
    - rewrite vget_vset_same by (rewrite hi_len; exact Hd). rewrite hi_get by exact Hd. f_equal; f_equal; lia.
  Qed.

  Lemma local_ok c : is_process dims c -> box_ok (bd_lo (bd c)) (bd_hi (bd c)).
  Proof.
    intros Hc. apply box_ok_vget. split; [apply hi_lo_len|]. intros i Hi. rewrite lo_len in Hi.
    rewrite lo_get, hi_get by exact Hi. specialize (Hwide c i Hc Hi). lia.
  Qed.

  Lemma ra_inside c d r : is_process dims c -> (d < length dims)%nat ->
    vget (bd_lo (bd c)) d <= ra c d r /\ ra c d r + delta - 1 <= vget (bd_hi (bd c)) d.
  Proof.
    intros Hc Hd. rewrite lo_get, hi_get by exact Hd. specialize (Hwide c d Hc Hd).
    destruct r as [s|s], s; cbn [ra]; lia.
  Qed.

  Definition rslab (c : vec) (d : nat) (r : region) (p : vec) : Prop :=
    slab (bd_lo (bd c)) (bd_hi (bd c)) d (ra c d r) (ra c d r + delta - 1) p.

  Lemma rslab_local c d r p : is_process dims c -> (d < length dims)%nat -> rslab c d r p -> in_local (bd c) p.
  Proof.
    intros Hc Hd H. apply (in_box_slab_whole _ _ d); [apply hi_lo_len|rewrite lo_len; exact Hd|].
    destruct (ra_inside c d r Hc Hd). eapply slab_sub; [| |exact H]; lia.
  Qed.

  (** The fuel needed by every loop. *)
  Definition region_fuel (c : vec) (d : nat) : nat := Z.to_nat (delta * box_size (bd_lo (bd c)) (bd_hi (bd c))).

  Lemma region_size c d r : is_process dims c -> (d < length dims)%nat ->
    box_size (vset (bd_lo (bd c)) d (ra c d r)) (vset (bd_hi (bd c)) d (ra c d r + delta - 1)) = exch_size (bd c) d.
  Proof.
    intros Hc Hd. unfold exch_size.
    replace (size_product (bd c)) with (delta * box_size (bd_lo (bd c)) (bd_hi (bd c)))
      by (symmetry; apply (size_product_eq (bd_lo (bd c)) (bd_hi (bd c)) delta), hi_lo_len).
    rewrite <- (box_size_vset (bd_lo (bd c)) (bd_hi (bd c)) d (ra c d r) delta) by (rewrite ?lo_len, ?hi_len; auto).
    rewrite Z.quot_mul; [reflexivity|]. rewrite lo_get, hi_get by exact Hd. specialize (Hwide c d Hc Hd). lia.
  Qed.

  Lemma region_ok c d r : is_process dims c -> (d < length dims)%nat ->
    box_ok (vset (bd_lo (bd c)) d (ra c d r)) (vset (bd_hi (bd c)) d (ra c d r + delta - 1)).
  Proof. intros Hc Hd. apply box_ok_slab; [apply local_ok, Hc|rewrite lo_len; exact Hd|lia]. Qed.

  Variable fuel : nat.
  Hypothesis Hfuel : forall c d, is_process dims c -> (d < length dims)%nat -> (Z.to_nat (exch_size (bd c) d) <= fuel)%nat.

  Definition rbox (c : vec) (d : nat) (r : region) : list vec :=
    box (vset (bd_lo (bd c)) d (ra c d r)) (vset (bd_hi (bd c)) d (ra c d r + delta - 1)).

  Lemma rbox_In c d r p : (d < length dims)%nat -> In p (rbox c d r) <-> rslab c d r p.
  Proof. intros Hd. unfold rbox, rslab. rewrite box_In. apply in_box_slab; [apply hi_lo_len|rewrite lo_len; exact Hd]. Qed.

  Lemma region_visits c d r : is_process dims c -> (d < length dims)%nat ->
    range_visits fuel (region_of (bd c) d r) = Some (rbox c d r) /\
    Z.of_nat (length (rbox c d r)) = exch_size (bd c) d.
  Proof.
    intros Hc Hd. rewrite region_eq by exact Hd. split.
    - apply range_visits_box; [apply region_ok; assumption|]. rewrite region_size by assumption. apply Hfuel; assumption.
    - unfold rbox. rewrite box_length by (apply region_ok; assumption). apply region_size; assumption.
  Qed.

  (** Neighbours. *)
  Lemma shift_process c d k : is_process dims c -> (d < length dims)%nat -> is_process dims (cart_shift dims c d k).
  Proof.
    intros [L H] Hd. unfold cart_shift. split; [rewrite vset_length; exact L|]. intros i Hi.
    destruct (Nat.eq_dec d i) as [<-|N].
    - rewrite vget_vset_same by lia. apply Z.mod_pos_bound. specialize (Hdims d Hd). lia.
    - rewrite vget_vset_other by exact N. apply H, Hi.
  Qed.
  Lemma shift_back c d k k' : is_process dims c -> (d < length dims)%nat -> k + k' = 0 ->
    cart_shift dims (cart_shift dims c d k) d k' = c.
  Proof.
    intros [L H] Hd E. unfold cart_shift. rewrite vget_vset_same by lia. rewrite vset_vset.
    rewrite Z.add_mod_idemp_l by (specialize (Hdims d Hd); lia). replace (vget c d + k + k') with (vget c d) by lia.
    rewrite Z.mod_small by (apply H, Hd). apply vset_vget_id.
  Qed.
  Lemma shift_other c d k i : d <> i -> vget (cart_shift dims c d k) i = vget c i.
  Proof. intros N. unfold cart_shift. apply vget_vset_other, N. Qed.

  Lemma lo_vset c d k a : (d < length dims)%nat -> vset (bd_lo (bd (cart_shift dims c d k))) d a = vset (bd_lo (bd c)) d a.
  Proof.
    intros Hd. apply vec_ext; [rewrite !vset_length, !lo_len; reflexivity|]. intros i Hi. rewrite vset_length, lo_len in Hi.
    destruct (Nat.eq_dec d i) as [<-|N].
    - rewrite !vget_vset_same by (rewrite lo_len; exact Hd). reflexivity.
    - rewrite !vget_vset_other by exact N. rewrite !lo_get by exact Hi. unfold MpiProofs.iLo. rewrite shift_other by exact N. reflexivity.
  Qed.
  Lemma hi_vset c d k a : (d < length dims)%nat -> vset (bd_hi (bd (cart_shift dims c d k))) d a = vset (bd_hi (bd c)) d a.
  Proof.
    intros Hd. apply vec_ext; [rewrite !vset_length, !hi_len; reflexivity|]. intros i Hi. rewrite vset_length, hi_len in Hi.
    destruct (Nat.eq_dec d i) as [<-|N].
    - rewrite !vget_vset_same by (rewrite hi_len; exact Hd). reflexivity.
    - rewrite !vget_vset_other by exact N. rewrite !hi_get by exact Hi. unfold MpiProofs.iHi. rewrite shift_other by exact N. reflexivity.
  Qed.

  Lemma rbox_neighbour c d k r r' : (d < length dims)%nat ->
    rbox (cart_shift dims c d k) d r' = map (shift_d d (ra (cart_shift dims c d k) d r' - ra c d r)) (rbox c d r).
  Proof.
    intros Hd. unfold rbox. rewrite lo_vset, hi_vset by exact Hd. remember (ra (cart_shift dims c d k) d r' - ra c d r) as n eqn:En.
    replace (ra (cart_shift dims c d k) d r') with (ra c d r + n) by lia.
    replace (ra c d r + n + delta - 1) with (ra c d r + delta - 1 + n) by lia.
    apply box_shift; [apply hi_lo_len|rewrite lo_len; exact Hd].
  Qed.

  Lemma exch_size_neighbour c d k : is_process dims c -> (d < length dims)%nat ->
    exch_size (bd (cart_shift dims c d k)) d = exch_size (bd c) d.
  Proof.
    intros Hc Hd. pose proof (shift_process c d k Hc Hd) as Hs.
    rewrite <- (proj2 (region_visits _ d (Ghost Min) Hs Hd)), <- (proj2 (region_visits c d (Ghost Min) Hc Hd)).
    rewrite (rbox_neighbour c d k (Ghost Min)) by exact Hd. rewrite map_length. reflexivity.
  Qed.

  Lemma rbox_in_grid c d r p : is_process dims c -> (d < length dims)%nat -> In p (rbox c d r) -> in_box (g_lo (gr c)) (g_hi (gr c)) p.
  Proof.
    intros Hc Hd H. apply rbox_In in H; [|exact Hd]. apply Hgr; [exact Hc|]. apply (rslab_local c d r p Hc Hd H).
  Qed.

  (** Effect of a call on the values of all processes. *)
  Definition sender (cl : call) (c : vec) : vec := cart_shift dims c (cl_dim cl) (if cl_up cl then -1 else 1).
  Definition offset (cl : call) (c : vec) : Z := ra (sender cl c) (cl_dim cl) (cl_from cl) - ra c (cl_dim cl) (cl_to cl).
  Definition upd_call (cl : call) (m : vec -> vec -> V) (c q : vec) : V :=
    if in_boxb (vset (bd_lo (bd c)) (cl_dim cl) (ra c (cl_dim cl) (cl_to cl)))
               (vset (bd_hi (bd c)) (cl_dim cl) (ra c (cl_dim cl) (cl_to cl) + delta - 1)) q
    then let v := m (sender cl c) (shift_d (cl_dim cl) (offset cl c) q) in
         if cl_add cl then plus (m c q) v else v
    else m c q.

  Lemma upd_in cl m c q : (cl_dim cl < length dims)%nat -> rslab c (cl_dim cl) (cl_to cl) q ->
    upd_call cl m c q = let v := m (sender cl c) (shift_d (cl_dim cl) (offset cl c) q) in if cl_add cl then plus (m c q) v else v.
  Proof.
    intros Hd H. unfold upd_call. apply rbox_In in H; [|exact Hd]. unfold rbox in H. apply box_In, in_boxb_iff in H.
    rewrite H. reflexivity.
  Qed.
  Lemma upd_out cl m c q : (cl_dim cl < length dims)%nat -> ~ rslab c (cl_dim cl) (cl_to cl) q -> upd_call cl m c q = m c q.
  Proof.
    intros Hd H. unfold upd_call. destruct (in_boxb _ _ q) eqn:E; [|reflexivity]. exfalso. apply H.
    apply rbox_In; [exact Hd|]. apply box_In, in_boxb_iff, E.
  Qed.

  Variable prog : list call.
  Hypothesis Hprog : forall cl, In cl prog -> (cl_dim cl < length dims)%nat.

  Notation fill := (call_fill fuel bd gr prog).
  Notation store := (call_store plus fuel bd gr prog).
  Notation dst := (call_dst dims prog).
  Notation src := (call_src dims prog).

  Definition lmsg (mem : vec -> heap V) (k : nat) (c : vec) : list V :=
    match fill k c (mem c) with Some b => b | None => [] end.
  Definition lstep (mem : vec -> heap V) (k : nat) (c : vec) : heap V :=
    match store k c (mem c) (lmsg mem k (src k c)) with Some h => h | None => mem c end.
  Fixpoint lmem (h0 : vec -> heap V) (k : nat) : vec -> heap V :=
    match k with
    | O => h0
    | S k' => lstep (lmem h0 k') k'
    end.
  Fixpoint lval (m0 : vec -> vec -> V) (k : nat) : vec -> vec -> V :=
    match k with
    | O => m0
    | S k' => upd_call (the_call prog k') (lval m0 k')
    end.

  Lemma the_call_dim k : (k < length prog)%nat -> (cl_dim (the_call prog k) < length dims)%nat.
  Proof. intros Hk. apply Hprog. apply nth_In, Hk. Qed.

  Definition rep_all (mem : vec -> heap V) (m : vec -> vec -> V) : Prop :=
    forall c, is_process dims c -> represents (gr c) (mem c) (m c).

  Lemma fill_ok mem m k c : rep_all mem m -> (k < length prog)%nat -> is_process dims c ->
    fill k c (mem c) = Some (map (m c) (rbox c (cl_dim (the_call prog k)) (cl_from (the_call prog k)))).
  Proof.
    intros R Hk Hc. pose proof (the_call_dim k Hk) as Hd. unfold call_fill.
    destruct (region_visits c _ (cl_from (the_call prog k)) Hc Hd) as [-> Len]. rewrite Len, Z.eqb_refl.
    apply read_cells_spec; [apply R, Hc|]. intros p Hp. eapply rbox_in_grid; eauto.
  Qed.

  Lemma store_ok mem m k c : rep_all mem m -> (k < length prog)%nat -> is_process dims c ->
    exists h', store k c (mem c) (lmsg mem k (src k c)) = Some h' /\ represents (gr c) h' (upd_call (the_call prog k) m c) /\
      (forall b, b <> g_block (gr c) -> h' b = mem c b).
  Proof.
    intros R Hk Hc. pose proof (the_call_dim k Hk) as Hd. set (cl := the_call prog k) in *.
    assert (Hs : is_process dims (src k c)) by (apply shift_process; assumption).
    unfold lmsg. rewrite (fill_ok mem m k (src k c) R Hk Hs). fold cl. unfold call_store. fold cl.
    destruct (region_visits c (cl_dim cl) (cl_to cl) Hc Hd) as [-> Len].
    rewrite map_length, (proj2 (region_visits (src k c) (cl_dim cl) (cl_from cl) Hs Hd)).
    replace (exch_size (bd (src k c)) (cl_dim cl)) with (exch_size (bd c) (cl_dim cl)) by (symmetry; apply exch_size_neighbour; assumption).
    rewrite Z.eqb_refl.
    change (src k c) with (sender cl c) in *.
    assert (Eb : rbox (sender cl c) (cl_dim cl) (cl_from cl) = map (shift_d (cl_dim cl) (offset cl c)) (rbox c (cl_dim cl) (cl_to cl)))
      by (apply rbox_neighbour, Hd).
    rewrite Eb, map_map.
    destruct (store_cells_spec plus (cl_add cl) (gr c) (fun q => m (sender cl c) (shift_d (cl_dim cl) (offset cl c) q))
                (rbox c (cl_dim cl) (cl_to cl)) (mem c) (m c) (R c Hc)) as (h' & m' & E & R' & A & B & F).
    { apply box_NoDup. }
    { intros p Hp. eapply rbox_in_grid; eauto. }
    exists h'. split; [exact E|]. split; [|exact F]. eapply represents_ext; [exact R'|]. intros q _.
    destruct (in_dec vec_dec q (rbox c (cl_dim cl) (cl_to cl))) as [Hi|Hn].
    - rewrite A by exact Hi. symmetry. apply upd_in; [exact Hd|]. apply rbox_In; [exact Hd|exact Hi].
    - rewrite B by exact Hn. symmetry. apply upd_out; [exact Hd|]. intros K. apply Hn, rbox_In; [exact Hd|exact K].
  Qed.

  Lemma lmem_ok h0 m0 : rep_all h0 m0 -> forall k, (k <= length prog)%nat ->
    rep_all (lmem h0 k) (lval m0 k) /\
    forall c b, is_process dims c -> b <> g_block (gr c) -> lmem h0 k c b = h0 c b.
  Proof.
    intros R0 k. induction k as [|k IH]; intros Hk; [split; [exact R0|reflexivity]|].
    destruct IH as [R F]; [lia|]. split.
    - intros c Hc. cbn [lmem lval]. unfold lstep.
      destruct (store_ok (lmem h0 k) (lval m0 k) k c R ltac:(lia) Hc) as (h' & -> & Rh & _). exact Rh.
    - intros c b Hc Hb. cbn [lmem]. unfold lstep.
      destruct (store_ok (lmem h0 k) (lval m0 k) k c R ltac:(lia) Hc) as (h' & -> & _ & Fh).
      rewrite Fh by exact Hb. apply F; assumption.
  Qed.

  Definition plist : list vec := box (map (fun _ => 0) dims) (map (fun n => n - 1) dims).
  Lemma plist_In c : In c plist <-> is_process dims c.
  Proof.
    unfold plist. rewrite box_In, in_box_vget, !map_length. unfold is_process. split.
    - intros (_ & L & H). split; [exact L|]. intros i Hi. specialize (H i Hi). rewrite !vget_map in H by exact Hi. lia.
    - intros (L & H). split; [reflexivity|]. split; [exact L|]. intros i Hi. specialize (H i Hi). rewrite !vget_map by exact Hi. lia.
  Qed.
  Lemma plist_NoDup : NoDup plist. Proof. apply box_NoDup. Qed.
  Lemma plist_length : Z.of_nat (length plist) = number_of_processes dims.
  Proof.
    unfold plist. rewrite box_length.
    - clear. unfold number_of_processes. induction dims as [|n l IH]; cbn [map box_size fold_right]; [reflexivity|]. rewrite IH. lia.
    - apply box_ok_vget. rewrite !map_length. split; [reflexivity|]. intros i Hi. rewrite !vget_map by exact Hi.
      specialize (Hdims i Hi). lia.
  Qed.

  Lemma lockstep_ok h0 m0 : rep_all h0 m0 ->
    lockstep (length prog) dst src fill store plist (lmem h0) (fun k => lmsg (lmem h0 k) k).
  Proof.
    intros R0 k c Hk Hc. apply plist_In in Hc. pose proof (the_call_dim k Hk) as Hd.
    destruct (lmem_ok h0 m0 R0 k ltac:(lia)) as [R _].
    assert (Hds : is_process dims (dst k c)) by (apply shift_process; assumption).
    assert (Hsr : is_process dims (src k c)) by (apply shift_process; assumption).
    split; [apply plist_In, Hds|]. split; [apply plist_In, Hsr|]. split; [|split; [|split]].
    - apply shift_back; [exact Hc|exact Hd|]. destruct (cl_up _); lia.
    - apply shift_back; [exact Hc|exact Hd|]. destruct (cl_up _); lia.
    - unfold lmsg. rewrite (fill_ok _ _ k c R Hk Hc). reflexivity.
    - destruct (store_ok _ _ k c R Hk Hc) as (h' & E & _). cbn [lmem]. unfold lstep. rewrite E. reflexivity.
  Qed.
End Comm.
