(** Proofs about element access and whole-grid operations. *)
From Verif Require Import Vec GridSpec StorageSpec RangeModel StorageModel GridModel GridOpSpec
  BoxFacts RangeProofs StorageProofs.

Local Arguments Z.mul : simpl never.
Local Arguments Z.add : simpl never.
Local Arguments Z.sub : simpl never.
Local Arguments Z.of_nat : simpl never.

Ltac zb := repeat match goal with
  | H : (_ <=? _) = true |- _ => apply Z.leb_le in H
  | H : (_ <=? _) = false |- _ => apply Z.leb_gt in H
  | H : (_ <? _) = true |- _ => apply Z.ltb_lt in H
  | H : (_ <? _) = false |- _ => apply Z.ltb_ge in H
  end; exfalso; lia.

Lemma veqb_eq a b : veqb a b = true <-> a = b.
Proof.
  revert b; induction a as [|x a IH]; intros [|y b]; simpl; try (split; congruence).
  rewrite andb_true_iff, IH, Z.eqb_eq. split; [intros [-> ->]|intros H; inversion H]; auto.
Qed.

(** ** Checking policies *)
Lemma assert_check_loop_spec n : forall i pos lo hi,
  assert_check_loop n i pos lo hi =
  if forallb (fun k => (vget lo k <=? vget pos k) && (vget pos k <=? vget hi k)) (seq i n)
  then Some pos else None.
Proof.
  induction n as [|n IH]; intros i pos lo hi; simpl; auto.
  rewrite Z.geb_leb. destruct (vget lo i <=? vget pos i); simpl; auto.
  destruct (vget pos i <=? vget hi i); simpl; auto.
Qed.

Theorem assert_check_spec pos lo hi :
  length lo = length pos -> length hi = length pos ->
  (in_box lo hi pos -> assert_check pos lo hi = Some pos) /\
  (~ in_box lo hi pos -> assert_check pos lo hi = None).
Proof.
  intros H1 H2. unfold assert_check. rewrite assert_check_loop_spec.
  rewrite in_box_forall by lia.
  destruct (forallb _ _) eqn:E.
  - split; auto. intros Hn. exfalso. apply Hn. intros i Hi. rewrite forallb_forall in E.
    specialize (E i). rewrite in_seq in E. specialize (E ltac:(lia)).
    apply andb_true_iff in E. rewrite !Z.leb_le in E. lia.
  - split; auto. intros Hb. exfalso.
    assert (forallb (fun k => (vget lo k <=? vget pos k) && (vget pos k <=? vget hi k))
              (seq 0 (length pos)) = true); [|congruence].
    apply forallb_forall. intros i Hi. apply in_seq in Hi.
    rewrite andb_true_iff, !Z.leb_le. apply Hb. lia.
Qed.

Definition clamp (l h x : Z) : Z := if x <? l then (if l >? h then h else l) else if x >? h then h else x.

Lemma vec_ext (a b : vec) : length a = length b -> (forall i, (i < length a)%nat -> vget a i = vget b i) -> a = b.
Proof. intros H1 H2. apply nth_ext with (d := 0) (d' := 0); auto. Qed.

(** State of the debug loop after the dimensions below [n]. *)
Lemma debug_loop_inv pos lo hi d n :
  (n <= length pos)%nat -> length lo = length pos -> box_ok lo hi ->
  let '(pc, d') := fold_left (fun s i => debug_check_dim i pos lo hi s) (seq 0 n) (pos, d) in
  length pc = length pos /\
  (forall i, (i < n)%nat -> vget pc i = Z.max (vget lo i) (Z.min (vget hi i) (vget pos i))) /\
  (forall i, (n <= i)%nat -> vget pc i = vget pos i) /\
  ((forall i, (i < n)%nat -> vget lo i <= vget pos i <= vget hi i) -> d' = d) /\
  ((exists i, (i < n)%nat /\ ~ (vget lo i <= vget pos i <= vget hi i)) ->
     dbg_flag d' = true /\ dbg_off d' = pos).
Proof.
  intros Hn Hl Hok. pose proof (box_ok_length _ _ Hok) as Hlh.
  assert (Hlohi : forall i, (i < length lo)%nat -> vget lo i <= vget hi i).
  { intros i Hi. pose proof (box_ok_in_box_lo _ _ Hok) as Hb. rewrite in_box_forall in Hb by lia.
    apply Hb in Hi. lia. }
  induction n as [|n IH].
  - cbn. repeat split; auto; try lia. all: match goal with H : exists _, _ |- _ => destruct H as (i & Hi & _); lia end.
  - rewrite seq_S, fold_left_app. cbn [Nat.add fold_left].
    specialize (IH ltac:(lia)).
    destruct (fold_left (fun s i => debug_check_dim i pos lo hi s) (seq 0 n) (pos, d)) as [pc d0].
    destruct IH as (IH1 & IH2 & IH3 & IH4 & IH5).
    assert (Hpn : vget pc n = vget pos n) by (apply IH3; lia).
    pose proof (Hlohi n ltac:(lia)) as Hlo.
    unfold debug_check_dim.
    destruct (vget pc n <? vget lo n) eqn:E1.
    + apply Z.ltb_lt in E1. rewrite vget_vset_same by lia.
      destruct (vget lo n >? vget hi n) eqn:E2; [rewrite Z.gtb_ltb in E2; apply Z.ltb_lt in E2; lia|].
      repeat split.
      * now rewrite vset_length.
      * intros i Hi. destruct (Nat.eq_dec i n) as [->|Hne].
        -- rewrite vget_vset_same by lia. lia.
        -- rewrite vget_vset_other by lia. apply IH2. lia.
      * intros i Hi. rewrite vget_vset_other by lia. apply IH3. lia.
      * intros Hall. exfalso. specialize (Hall n ltac:(lia)). lia.
    + apply Z.ltb_ge in E1. destruct (vget pc n >? vget hi n) eqn:E2; rewrite Z.gtb_ltb in E2.
      * apply Z.ltb_lt in E2. repeat split.
        -- now rewrite vset_length.
        -- intros i Hi. destruct (Nat.eq_dec i n) as [->|Hne].
           ++ rewrite vget_vset_same by lia. lia.
           ++ rewrite vget_vset_other by lia. apply IH2. lia.
        -- intros i Hi. rewrite vget_vset_other by lia. apply IH3. lia.
        -- intros Hall. exfalso. specialize (Hall n ltac:(lia)). lia.
      * apply Z.ltb_ge in E2. repeat split; auto.
        -- intros i Hi. destruct (Nat.eq_dec i n) as [->|Hne]; [lia|apply IH2; lia].
        -- intros i Hi. apply IH3. lia.
        -- destruct H as (i & Hi & Hx). destruct (Nat.eq_dec i n) as [->|Hne]; [exfalso; lia|].
           apply IH5. exists i. split; [lia|auto].
        -- destruct H as (i & Hi & Hx). destruct (Nat.eq_dec i n) as [->|Hne]; [exfalso; lia|].
           apply IH5. exists i. split; [lia|auto].
Qed.

Lemma not_in_box_witness lo hi pos :
  length hi = length lo -> length pos = length lo -> ~ in_box lo hi pos ->
  exists i, (i < length lo)%nat /\ ~ (vget lo i <= vget pos i <= vget hi i).
Proof.
  revert hi pos; induction lo as [|l lo IH]; intros [|h hi] [|x p]; simpl; intros H1 H2 H; try lia; try tauto.
  destruct (Z_le_dec l x), (Z_le_dec x h).
  - destruct (IH hi p ltac:(lia) ltac:(lia)) as (i & Hi & Hx); [tauto|].
    exists (S i). split; [lia|exact Hx].
  - exists 0%nat. split; [lia|]. unfold vget; simpl. lia.
  - exists 0%nat. split; [lia|]. unfold vget; simpl. lia.
  - exists 0%nat. split; [lia|]. unfold vget; simpl. lia.
Qed.

Theorem debug_check_spec d pos lo hi :
  length lo = length pos -> box_ok lo hi ->
  exists pc d', debug_check d pos lo hi = (pc, d') /\
    in_box lo hi pc /\
    (in_box lo hi pos -> pc = pos /\ d' = d) /\
    (~ in_box lo hi pos -> dbg_flag d' = true /\ dbg_off d' = pos) /\
    (forall i, (i < length pos)%nat -> vget lo i <= vget pos i <= vget hi i -> vget pc i = vget pos i).
Proof.
  intros Hl Hok. pose proof (box_ok_length _ _ Hok) as Hlh.
  assert (Hlohi : forall i, (i < length lo)%nat -> vget lo i <= vget hi i).
  { intros i Hi. pose proof (box_ok_in_box_lo _ _ Hok) as Hb. rewrite in_box_forall in Hb by lia.
    apply Hb in Hi. lia. }
  pose proof (debug_loop_inv pos lo hi d (length pos) ltac:(lia) Hl Hok) as H.
  destruct (debug_check d pos lo hi) as [pc d'] eqn:Edc. change (debug_check d pos lo hi) with (fold_left (fun s i => debug_check_dim i pos lo hi s) (seq 0 (length pos)) (pos, d)) in Edc. rewrite Edc in H.
  destruct H as (H1 & H2 & _ & H4 & H5). exists pc, d'. split; [reflexivity|]. split; [|split; [|split]].
  - apply in_box_forall; [lia|lia|]. intros i Hi. rewrite H2 by lia. specialize (Hlohi i Hi). lia.
  - intros Hb. rewrite in_box_forall in Hb by lia. split.
    + apply vec_ext; [lia|]. intros i Hi. rewrite H2 by lia. specialize (Hb i ltac:(lia)). lia.
    + apply H4. intros i Hi. apply Hb. lia.
  - intros Hn. apply H5. apply not_in_box_witness in Hn; try lia.
    destruct Hn as (i & Hi & Hx). exists i. split; [lia|auto].
  - intros i Hi Hb. rewrite H2 by lia. lia.
Qed.

(** Histories of checks: the flag is set iff some check was out of range. *)
Theorem debug_check_history lo hi : box_ok lo hi -> forall ps d,
  (forall p, In p ps -> length lo = length p) ->
  dbg_flag (fold_left (fun d p => snd (debug_check d p lo hi)) ps d) = true <->
  dbg_flag d = true \/ exists p, In p ps /\ ~ in_box lo hi p.
Proof.
  intros Hok. induction ps as [|p ps IH]; intros d Hl; simpl.
  - split; [auto|]. intros [H|(p & [] & _)]; auto.
  - rewrite IH by (intros; apply Hl; now right).
    destruct (debug_check_spec d p lo hi (Hl p (or_introl eq_refl)) Hok) as (pc & d' & -> & _ & Hin & Hout & _).
    simpl. assert (Hdec : in_box lo hi p \/ ~ in_box lo hi p).
    { pose proof (box_ok_length _ _ Hok). pose proof (Hl p (or_introl eq_refl)).
      pose proof (range_inside_spec lo hi p ltac:(lia) ltac:(lia)) as Hr.
      destruct (range_inside (mkRange lo hi) p); [left; now apply Hr|right].
      intros Hc. apply Hr in Hc. congruence. }
    destruct Hdec as [Hb|Hb].
    + destruct (Hin Hb) as [_ ->]. split.
      * intros [H|(q & Hq & Hx)]; auto. right. exists q. auto.
      * intros [H|(q & [Heq|Hq] & Hx)]; [auto|subst; tauto|]. right. exists q. auto.
    + destruct (Hout Hb) as [Hf _]. split; [|auto]. intros _. right. exists p. auto.
Qed.

(** ** Element access *)

(** A well-formed grid: at least one dimension, [lo <= hi], the block has as many elements as the
    box (fewer than 2^64), and in C order the bias computation does not overflow. *)
Definition grid_wf {V} (g : grid) (h : heap V) : Prop :=
  g_lo g <> [] /\ box_ok (g_lo g) (g_hi g) /\
  Z.of_nat (length (h (g_block g))) = box_size (g_lo g) (g_hi g) /\
  box_size (g_lo g) (g_hi g) < two64 /\
  (g_order g = COrder -> c_fast (g_lo g) (g_dims g) <> None).

(** Position in the block, by storage order. *)
Definition g_pos (g : grid) (p : vec) : Z :=
  match g_order g with
  | COrder => row_major (g_lo g) (g_hi g) p
  | FOrder => col_major (g_lo g) (g_hi g) p
  end.

Lemma g_pos_bound g p : in_box (g_lo g) (g_hi g) p -> 0 <= g_pos g p < box_size (g_lo g) (g_hi g).
Proof. unfold g_pos. destruct (g_order g); [apply row_major_bound|apply col_major_bound]. Qed.

Lemma g_pos_inj g p q :
  in_box (g_lo g) (g_hi g) p -> in_box (g_lo g) (g_hi g) q -> g_pos g p = g_pos g q -> p = q.
Proof. unfold g_pos. destruct (g_order g); [apply row_major_inj|apply col_major_inj]. Qed.

Lemma g_pos_surj g k :
  box_ok (g_lo g) (g_hi g) -> 0 <= k < box_size (g_lo g) (g_hi g) ->
  exists p, in_box (g_lo g) (g_hi g) p /\ g_pos g p = k.
Proof. unfold g_pos. destruct (g_order g); [apply row_major_surj|apply col_major_surj]. Qed.

Lemma g_offset_exact {V} g (h : heap V) p :
  grid_wf g h -> in_box (g_lo g) (g_hi g) p -> g_offset g p = Some (g_pos g p).
Proof.
  intros (Hne & Hok & _ & Hfit & Hc) Hp. unfold g_offset, g_pos, g_dims in *.
  destruct (g_order g).
  - destruct (c_addr 0 1 (g_lo g) (dims_of (g_lo g) (g_hi g)) p) as [a|] eqn:E.
    + f_equal. apply c_addr_exact in E; auto; lia.
    + unfold c_addr in E. destruct (c_fast _ _) eqn:Ef; [discriminate|]. exfalso. now apply Hc.
  - f_equal. rewrite f_addr_exact by (auto; lia). lia.
Qed.

Section V.
  Context {V : Type}.
  Implicit Types h : heap V.

  Lemma list_set_length (l : list V) i v : length (list_set l i v) = length l.
  Proof. revert i; induction l; intros [|i]; simpl; auto. Qed.

  Lemma list_set_same (l : list V) i v : (i < length l)%nat -> nth_error (list_set l i v) i = Some v.
  Proof. revert i; induction l; intros [|i]; simpl; intros H; try lia; auto. apply IHl. lia. Qed.

  Lemma list_set_other (l : list V) i j v : i <> j -> nth_error (list_set l i v) j = nth_error l j.
  Proof. revert i j; induction l; intros [|i] [|j] H; simpl; auto; try lia. Qed.

  Lemma write_elem_ok h b k v :
    0 <= k < Z.of_nat (length (h b)) ->
    exists h', write_elem h b k v = Some h' /\
      (forall b', length (h' b') = length (h b')) /\
      (forall b' j, 0 <= j -> read_elem h' b' j = if Nat.eqb b' b && (j =? k) then Some v else read_elem h b' j).
  Proof.
    intros Hk. unfold write_elem.
    destruct (k <? 0) eqn:E1; [lia|]. destruct (Z.of_nat (length (h b)) <=? k) eqn:E2; [lia|].
    simpl. eexists. split; [reflexivity|]. split.
    - intros b'. destruct (Nat.eqb_spec b' b); [|reflexivity]. subst. apply list_set_length.
    - intros b' j Hj. unfold read_elem. destruct (j <? 0) eqn:E3; [lia|].
      destruct (Nat.eqb_spec b' b) as [->|Hne]; simpl; [|reflexivity].
      destruct (Z.eqb_spec j k) as [->|Hjk].
      + apply list_set_same. lia.
      + apply list_set_other. lia.
  Qed.

  Lemma write_elem_other h b k v h' b' :
    write_elem h b k v = Some h' -> b' <> b -> h' b' = h b'.
  Proof.
    unfold write_elem. destruct (_ || _); [discriminate|]. intros H Hne. inversion H.
    destruct (Nat.eqb_spec b' b); [congruence|reflexivity].
  Qed.

  Lemma read_elem_ok h b k : 0 <= k < Z.of_nat (length (h b)) -> exists v, read_elem h b k = Some v.
  Proof.
    intros Hk. unfold read_elem. destruct (k <? 0) eqn:E; [lia|].
    destruct (nth_error (h b) (Z.to_nat k)) eqn:E2; eauto.
    apply nth_error_None in E2. lia.
  Qed.

  Lemma grid_wf_ext g h h' : length (h' (g_block g)) = length (h (g_block g)) -> grid_wf g h -> grid_wf g h'.
  Proof. unfold grid_wf. intros ->. auto. Qed.

  Lemma grid_read_elem g h p :
    grid_wf g h -> in_box (g_lo g) (g_hi g) p -> grid_read g h p = read_elem h (g_block g) (g_pos g p).
  Proof. intros Hw Hp. unfold grid_read, noarg_check. now rewrite (g_offset_exact g h p Hw Hp). Qed.

  Lemma grid_read_ok g h p :
    grid_wf g h -> in_box (g_lo g) (g_hi g) p -> exists v, grid_read g h p = Some v.
  Proof.
    intros Hw Hp. rewrite grid_read_elem by auto. apply read_elem_ok.
    destruct Hw as (_ & _ & -> & _). now apply g_pos_bound.
  Qed.

  Lemma grid_write_ok g h p v :
    grid_wf g h -> in_box (g_lo g) (g_hi g) p ->
    exists h', grid_write g h p v = Some h' /\ grid_wf g h' /\
      (forall b, length (h' b) = length (h b)) /\
      (forall b, b <> g_block g -> h' b = h b) /\
      (forall q, in_box (g_lo g) (g_hi g) q ->
         grid_read g h' q = if veqb q p then Some v else grid_read g h q).
  Proof.
    intros Hw Hp. unfold grid_write, noarg_check. rewrite (g_offset_exact g h p Hw Hp).
    pose proof (g_pos_bound g p Hp) as Hb.
    destruct (write_elem_ok h (g_block g) (g_pos g p) v) as (h' & E & Hlen & Hr).
    { destruct Hw as (_ & _ & -> & _). auto. }
    exists h'. split; [exact E|]. assert (Hw' : grid_wf g h') by (eapply grid_wf_ext; eauto).
    split; [exact Hw'|]. split; [exact Hlen|]. split.
    - intros b Hne. eapply write_elem_other; eauto.
    - intros q Hq. rewrite !grid_read_elem by auto. pose proof (g_pos_bound g q Hq).
      rewrite Hr by lia. rewrite Nat.eqb_refl. simpl.
      destruct (Z.eqb_spec (g_pos g q) (g_pos g p)) as [Heq|Hne].
      + apply g_pos_inj in Heq; auto. subst q. now rewrite (proj2 (veqb_eq p p) eq_refl).
      + destruct (veqb q p) eqn:Ev; [|reflexivity]. apply veqb_eq in Ev. subst. congruence.
  Qed.

  Theorem grid_is_map g h ops :
    grid_wf g h -> Forall (fun o => in_box (g_lo g) (g_hi g) (op_index o)) ops ->
    forall m, (forall p, in_box (g_lo g) (g_hi g) p -> grid_read g h p = Some (m p)) ->
    exists h', grid_run g h ops = Some (h', snd (map_run m ops)) /\
      (forall p, in_box (g_lo g) (g_hi g) p -> grid_read g h' p = Some (fst (map_run m ops) p)) /\
      (forall b, b <> g_block g -> h' b = h b).
  Proof.
    intros Hw Hops. revert h Hw. induction Hops as [|o ops Ho Hops IH]; intros h Hw m Hm.
    - exists h. simpl. auto.
    - destruct o as [p|p v]; simpl in Ho; cbn [grid_run map_run].
      + rewrite Hm by auto. destruct (IH h Hw m Hm) as (h' & -> & H1 & H2).
        destruct (map_run m ops) as [m' out]. exists h'. simpl in *. auto.
      + destruct (grid_write_ok g h p v Hw Ho) as (h1 & -> & Hw1 & _ & Hfr & Hr).
        destruct (IH h1 Hw1 (fun q => if veqb q p then v else m q)) as (h' & E & H1 & H2).
        { intros q Hq. rewrite Hr by auto. destruct (veqb q p); auto. }
        exists h'. split; [exact E|]. split; [exact H1|]. intros b Hb. rewrite H2 by auto. auto.
  Qed.

  (** ** Fill *)
  Lemma fill_loop_spec n : forall k b v h,
    0 <= k -> k + Z.of_nat n <= Z.of_nat (length (h b)) ->
    exists h', fill_loop n k b v h = Some h' /\
      (forall b', length (h' b') = length (h b')) /\
      (forall b', b' <> b -> h' b' = h b') /\
      (forall j, 0 <= j -> read_elem h' b j = if (k <=? j) && (j <? k + Z.of_nat n) then Some v else read_elem h b j).
  Proof.
    induction n as [|n IH]; intros k b v h Hk Hn; cbn [fill_loop].
    - exists h. repeat split; auto. intros j Hj. destruct (k <=? j) eqn:E1, (j <? k + Z.of_nat 0) eqn:E2; simpl; auto; zb.
    - destruct (write_elem_ok h b k v) as (h1 & E & Hlen & Hr); [lia|]. rewrite E.
      destruct (IH (k + 1) b v h1) as (h' & E' & Hlen' & Hfr' & Hr'); [lia|rewrite Hlen; lia|].
      exists h'. split; [exact E'|]. split; [intros; rewrite Hlen'; auto|]. split.
      + intros b' Hb'. rewrite Hfr' by auto. eapply write_elem_other; eauto.
      + intros j Hj. rewrite Hr' by auto. rewrite Hr by auto. rewrite Nat.eqb_refl. simpl.
        destruct (Z.eqb_spec j k) as [Hjk|Hne];
        destruct (k + 1 <=? j) eqn:E1; destruct (j <? k + 1 + Z.of_nat n) eqn:E2;
        destruct (k <=? j) eqn:E3; destruct (j <? k + Z.of_nat (Datatypes.S n)) eqn:E4;
        cbn [andb]; auto; zb.
  Qed.

  Lemma g_size_exact g h : grid_wf g h -> Z.of_nat (g_size g) = box_size (g_lo g) (g_hi g).
  Proof.
    intros (_ & Hok & _ & Hs & _). unfold g_size, g_dims. rewrite alloc_size_exact by auto.
    pose proof (box_size_pos _ _ Hok). lia.
  Qed.

  Theorem grid_fill_spec g v h :
    grid_wf g h ->
    exists h', grid_fill g v h = Some h' /\
      (forall p, in_box (g_lo g) (g_hi g) p -> grid_read g h' p = Some v) /\
      (forall b, b <> g_block g -> h' b = h b).
  Proof.
    intros Hw. pose proof (g_size_exact g h Hw) as Hs. pose proof Hw as (_ & _ & Hlen & _).
    destruct (fill_loop_spec (g_size g) 0 (g_block g) v h) as (h' & E & Hl & Hfr & Hr); [lia|lia|].
    exists h'. split; [exact E|]. split; [|exact Hfr].
    intros p Hp. rewrite grid_read_elem; auto; [|eapply grid_wf_ext; eauto].
    pose proof (g_pos_bound g p Hp). rewrite Hr by lia.
    destruct (0 <=? g_pos g p) eqn:E1; destruct (g_pos g p <? 0 + Z.of_nat (g_size g)) eqn:E2; simpl; auto; zb.
  Qed.

  (** ** In-place operations *)
  Variable op : V -> V -> V.

  Lemma iop_lin_loop_spec n : forall k a b h,
    0 <= k -> k + Z.of_nat n <= Z.of_nat (length (h a)) -> k + Z.of_nat n <= Z.of_nat (length (h b)) ->
    exists h', iop_lin_loop op n k a b h = Some h' /\
      (forall b', length (h' b') = length (h b')) /\
      (forall b', b' <> a -> h' b' = h b') /\
      (forall j x y, read_elem h a j = Some x -> read_elem h b j = Some y ->
          read_elem h' a j = Some (if (k <=? j) && (j <? k + Z.of_nat n) then op x y else x)).
  Proof.
    induction n as [|n IH]; intros k a b h Hk Ha Hb; cbn [iop_lin_loop].
    - exists h. repeat split; auto. intros j x y Hx Hy.
      destruct (k <=? j) eqn:E1, (j <? k + Z.of_nat 0) eqn:E2; simpl; auto; zb.
    - destruct (read_elem_ok h b k) as [y Hy]; [lia|]. destruct (read_elem_ok h a k) as [x Hx]; [lia|].
      rewrite Hy, Hx.
      destruct (write_elem_ok h a k (op x y)) as (h1 & E & Hlen & Hr); [lia|]. rewrite E.
      destruct (IH (k + 1) a b h1) as (h' & E' & Hlen' & Hfr' & Hr'); [lia|rewrite Hlen; lia|rewrite Hlen; lia|].
      exists h'. split; [exact E'|]. split; [intros; rewrite Hlen'; auto|]. split.
      + intros b' Hb'. rewrite Hfr' by auto. eapply write_elem_other; eauto.
      + intros j xj yj Hxj Hyj.
        assert (Hj : 0 <= j). { unfold read_elem in Hxj. destruct (j <? 0) eqn:Ej; [discriminate|lia]. }
        destruct (Z.eqb_spec j k) as [->|Hne].
        * rewrite Hx in Hxj. inversion Hxj; subst xj. rewrite Hy in Hyj. inversion Hyj; subst yj.
          assert (Hx1 : read_elem h1 a k = Some (op x y)).
          { rewrite Hr by auto. rewrite Nat.eqb_refl, Z.eqb_refl. reflexivity. }
          destruct (read_elem_ok h1 b k) as [y1 Hy1]; [rewrite Hlen; lia|].
          rewrite (Hr' k _ _ Hx1 Hy1).
          destruct (k + 1 <=? k) eqn:E1; [lia|]. simpl.
          destruct (k <=? k) eqn:E3; [|lia]. destruct (k <? k + Z.of_nat (S n)) eqn:E4; [|zb]. reflexivity.
        * assert (Hx1 : read_elem h1 a j = Some xj).
          { rewrite Hr by auto. destruct (Z.eqb_spec j k); [lia|]. now rewrite andb_false_r. }
          assert (Hy1 : read_elem h1 b j = Some yj).
          { rewrite Hr by auto. destruct (Z.eqb_spec j k); [lia|]. now rewrite andb_false_r. }
          rewrite (Hr' j _ _ Hx1 Hy1).
          destruct (k + 1 <=? j) eqn:E1; destruct (j <? k + 1 + Z.of_nat n) eqn:E2;
          destruct (k <=? j) eqn:E3; destruct (j <? k + Z.of_nat (S n)) eqn:E4; simpl; auto; zb.
  Qed.

  Theorem grid_iop_same_spec a b h :
    grid_wf a h -> grid_wf b h -> g_order a = g_order b -> g_lo a = g_lo b -> g_hi a = g_hi b ->
    exists h', grid_iop_same op a b h = Some h' /\
      (forall p x y, in_box (g_lo a) (g_hi a) p -> grid_read a h p = Some x -> grid_read b h p = Some y ->
         grid_read a h' p = Some (op x y)) /\
      (forall blk, blk <> g_block a -> h' blk = h blk).
  Proof.
    intros Hwa Hwb Ho Hlo Hhi.
    pose proof (g_size_exact b h Hwb) as Hsb.
    pose proof Hwa as (_ & _ & Hla & _). pose proof Hwb as (_ & _ & Hlb & _).
    destruct (iop_lin_loop_spec (g_size b) 0 (g_block a) (g_block b) h) as (h' & E & Hl & Hfr & Hr).
    { lia. } { rewrite Hlo, Hhi in Hla. lia. } { lia. }
    exists h'. split; [exact E|]. split; [|exact Hfr].
    intros p x y Hp Hx Hy.
    rewrite grid_read_elem in Hx by auto. rewrite grid_read_elem in Hy by (auto; congruence).
    rewrite grid_read_elem; auto; [|eapply grid_wf_ext; eauto].
    assert (Eg : g_pos b p = g_pos a p) by (unfold g_pos; rewrite Ho, Hlo, Hhi; reflexivity).
    rewrite Eg in Hy. rewrite (Hr _ _ _ Hx Hy).
    pose proof (g_pos_bound a p Hp). rewrite Hlo, Hhi in H.
    destruct (0 <=? g_pos a p) eqn:E1; [|lia].
    destruct (g_pos a p <? 0 + Z.of_nat (g_size b)) eqn:E2; [|lia]. reflexivity.
  Qed.

  (** Exactly when does the linear loop leave a block? *)
  Lemma iop_lin_loop_overrun n : forall k a b h,
    0 <= k -> k + Z.of_nat n <= Z.of_nat (length (h b)) -> k <= Z.of_nat (length (h a)) ->
    Z.of_nat (length (h a)) < k + Z.of_nat n -> iop_lin_loop op n k a b h = None.
  Proof.
    induction n as [|n IH]; intros k a b h Hk Hb Hka Ha; [lia|].
    cbn [iop_lin_loop]. destruct (read_elem_ok h b k) as [y Hy]; [lia|]. rewrite Hy.
    destruct (Z.eq_dec k (Z.of_nat (length (h a)))) as [He|Hne].
    - assert (E : read_elem h a k = None).
      { unfold read_elem. destruct (k <? 0); auto. apply nth_error_None. lia. }
      now rewrite E.
    - destruct (read_elem_ok h a k) as [x Hx]; [lia|]. rewrite Hx.
      destruct (write_elem_ok h a k (op x y)) as (h1 & E & Hlen & _); [lia|]. rewrite E.
      apply IH; rewrite ?Hlen; lia.
  Qed.

  Theorem grid_iop_same_safe_iff a b h :
    grid_wf a h -> grid_wf b h ->
    (grid_iop_same op a b h <> None <-> box_size (g_lo b) (g_hi b) <= box_size (g_lo a) (g_hi a)).
  Proof.
    intros Hwa Hwb. pose proof (g_size_exact b h Hwb) as Hsb.
    pose proof Hwa as (_ & _ & Hla & _). pose proof Hwb as (_ & _ & Hlb & _).
    unfold grid_iop_same. split.
    - intros H. destruct (Z_le_gt_dec (box_size (g_lo b) (g_hi b)) (box_size (g_lo a) (g_hi a))) as [|Hgt]; auto.
      exfalso. apply H. apply iop_lin_loop_overrun; lia.
    - intros H. destruct (iop_lin_loop_spec (g_size b) 0 (g_block a) (g_block b) h) as (h' & -> & _); [lia|lia|lia|].
      discriminate.
  Qed.

  (** Mixed storage orders: index-wise loop. *)
  Lemma iop_idx_loop_spec a b l : forall h,
    grid_wf a h -> grid_wf b h -> NoDup l ->
    (forall p, In p l -> in_box (g_lo a) (g_hi a) p) ->
    (forall p, In p l -> in_box (g_lo b) (g_hi b) p) ->
    g_block a <> g_block b ->
    exists h', iop_idx_loop op l a b h = Some h' /\
      (forall blk, length (h' blk) = length (h blk)) /\
      (forall blk, blk <> g_block a -> h' blk = h blk) /\
      (forall p x y, in_box (g_lo a) (g_hi a) p -> In p l -> grid_read a h p = Some x -> grid_read b h p = Some y ->
          grid_read a h' p = Some (op x y)) /\
      (forall p, in_box (g_lo a) (g_hi a) p -> ~ In p l -> grid_read a h' p = grid_read a h p).
  Proof.
    induction l as [|q l IH]; intros h Hwa Hwb Hnd Hia Hib Hblk; cbn [iop_idx_loop].
    - exists h. repeat split; auto. intros p x y _ [].
    - inversion Hnd as [|? ? Hq Hnd']; subst.
      destruct (grid_read_ok b h q Hwb (Hib q (or_introl eq_refl))) as [y Hy].
      destruct (grid_read_ok a h q Hwa (Hia q (or_introl eq_refl))) as [x Hx].
      rewrite Hy, Hx.
      destruct (grid_write_ok a h q (op x y) Hwa (Hia q (or_introl eq_refl))) as (h1 & -> & Hwa1 & Hlen1 & Hfr1 & Hr1).
      assert (Hwb1 : grid_wf b h1) by (eapply grid_wf_ext; [|exact Hwb]; auto).
      destruct (IH h1 Hwa1 Hwb1 Hnd') as (h' & E & Hlen & Hfr & Hr & Hnr);
        [intros; apply Hia; now right|intros; apply Hib; now right|auto|].
      assert (Hrb : forall p, grid_read b h1 p = grid_read b h p).
      { intros p. unfold grid_read. destruct (g_offset b _); auto. unfold read_elem.
        now rewrite Hfr1 by auto. }
      exists h'. split; [exact E|]. split; [intros; now rewrite Hlen|]. split.
      { intros blk Hb'. now rewrite Hfr, Hfr1. } split.
      + intros p xp yp Hp Hin Hxp Hyp.
        destruct (veqb p q) eqn:Epq.
        * apply veqb_eq in Epq. subst p. rewrite Hnr by auto. rewrite Hr1 by auto.
          rewrite (proj2 (veqb_eq q q) eq_refl). congruence.
        * destruct Hin as [->|Hin]; [rewrite (proj2 (veqb_eq p p) eq_refl) in Epq; congruence|].
          apply (Hr p); auto; [rewrite Hr1 by auto; now rewrite Epq|now rewrite Hrb].
      + intros p Hp Hnin. simpl in Hnin. rewrite Hnr by tauto. rewrite Hr1 by auto.
        destruct (veqb p q) eqn:Epq; auto. apply veqb_eq in Epq. subst. tauto.
  Qed.

  Theorem grid_iop_mixed_spec a b h :
    grid_wf a h -> grid_wf b h -> g_lo a = g_lo b -> g_hi a = g_hi b -> g_block a <> g_block b ->
    exists h', (forall fuel, (Z.to_nat (box_size (g_lo a) (g_hi a)) <= fuel)%nat ->
                  grid_iop_mixed op fuel a b h = Some (Some h')) /\
      (forall p x y, in_box (g_lo a) (g_hi a) p -> grid_read a h p = Some x -> grid_read b h p = Some y ->
         grid_read a h' p = Some (op x y)) /\
      (forall blk, blk <> g_block a -> h' blk = h blk).
  Proof.
    intros Hwa Hwb Hlo Hhi Hblk. pose proof Hwa as (_ & Hok & _).
    destruct (iop_idx_loop_spec a b (box (g_lo a) (g_hi a)) h Hwa Hwb (box_NoDup _ _)) as (h' & E & _ & Hfr & Hr & _).
    { intros p Hp. now apply box_In. } { intros p Hp. rewrite <- Hlo, <- Hhi. now apply box_In. } { auto. }
    exists h'. split; [|split; [|exact Hfr]].
    - intros fuel Hf. unfold grid_iop_mixed. rewrite range_visits_box by auto. now rewrite E.
    - intros p x y Hp Hx Hy. apply Hr; auto. now apply box_In.
  Qed.
End V.
