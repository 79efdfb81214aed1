(** Proofs about ranges over machine integers. *)
From Verif Require Import Vec GridSpec RangeModel RangeIntModel BoxFacts RangeProofs.

Section Int.
Variable M : Z.

(** ** The iterator *)
Lemma incr_int_sound d r pos : incr_loop_int M d r pos = None \/ incr_loop_int M d r pos = Some (incr_loop d r pos).
Proof.
  revert pos. induction d as [|d IH]; intros pos; [right; reflexivity|]. cbn [incr_loop_int incr_loop].
  destruct (vget pos d =? M); [left; reflexivity|]. destruct (vget pos d + 1 >? vget (r_hi r) d); [apply IH|right; reflexivity].
Qed.
Lemma incr_int_ok d r pos : (forall i, (i < d)%nat -> vget pos i <= vget (r_hi r) i < M) ->
  incr_loop_int M d r pos = Some (incr_loop d r pos).
Proof.
  revert pos. induction d as [|d IH]; intros pos H; [reflexivity|]. cbn [incr_loop_int incr_loop].
  destruct (Z.eqb_spec (vget pos d) M) as [E|_]; [pose proof (H d); lia|].
  destruct (vget pos d + 1 >? vget (r_hi r) d); [|reflexivity]. apply IH. intros i Hi.
  rewrite vget_vset_other by lia. apply H. lia.
Qed.
Lemma incr_int_through d r pos q : (forall i, (i < d)%nat -> vget pos i <= vget (r_hi r) i) ->
  incr_loop_int M d r pos = Some (q, true) -> forall i, (i < d)%nat -> vget (r_hi r) i <> M.
Proof.
  revert pos. induction d as [|d IH]; intros pos H E i Hi; [lia|]. cbn [incr_loop_int] in E.
  destruct (Z.eqb_spec (vget pos d) M) as [|Hm]; [discriminate|].
  destruct (vget pos d + 1 >? vget (r_hi r) d) eqn:G; [|discriminate]. rewrite Z.gtb_ltb in G. apply Z.ltb_lt in G.
  destruct (Nat.eq_dec i d) as [->|].
  - pose proof (H d ltac:(lia)). lia.
  - apply (IH _) with (i := i) in E; [exact E| |lia]. intros j Hj. rewrite vget_vset_other by lia. apply H. lia.
Qed.

Lemma loop_int_sound n r : forall it, range_loop_int M n r it = Overflow \/
  range_loop_int M n r it = match range_loop n r it with Some l => Done l | None => Running end.
Proof.
  induction n as [|n IH]; intros it; cbn [range_loop_int range_loop]; destruct (iter_eqb it (range_end r)); try (right; reflexivity).
  unfold iter_incr_int, iter_incr. destruct (incr_int_sound (length (r_lo r)) r (it_pos it)) as [E|E]; rewrite E; [left; reflexivity|].
  destruct (incr_loop (length (r_lo r)) r (it_pos it)) as [p e].
  destruct (IH (mkIter p (e || it_end it))) as [Q|Q]; rewrite Q; [left; reflexivity|]. right. destruct (range_loop n r _); reflexivity.
Qed.

Lemma loop_int_ok lo hi n : box_ok lo hi -> Forall (fun h => h < M) hi -> forall p, in_box lo hi p ->
  range_loop_int M n (mkRange lo hi) (mkIter p false) =
  match range_loop n (mkRange lo hi) (mkIter p false) with Some l => Done l | None => Running end.
Proof.
  intros Hok Hh. assert (Hn : forall i, (i < length lo)%nat -> vget hi i < M).
  { intros i Hi. pose proof (box_ok_length _ _ Hok). rewrite Forall_forall in Hh. apply Hh. unfold vget. apply nth_In. lia. }
  induction n as [|n IH]; intros p Hp.
  - reflexivity.
  - pose proof (in_box_length _ _ _ Hp) as [L1 L2]. cbn [range_loop_int range_loop].
    destruct (iter_eqb _ _); [reflexivity|].
    unfold iter_incr_int. cbn [it_pos r_lo]. rewrite incr_int_ok.
    2:{ intros i Hi. cbn [r_hi]. split; [|apply Hn, Hi]. apply (proj1 (in_box_forall lo hi p ltac:(lia) ltac:(lia)) Hp i Hi). }
    pose proof (iter_incr_inc lo hi p false ltac:(lia) ltac:(lia)) as EI. unfold iter_incr in EI |- *. cbn [it_pos r_lo it_end] in EI |- *.
    destruct (incr_loop (length lo) (mkRange lo hi) p) as [q e].
    pose proof (inc_after _ _ _ Hok Hp) as HA. destruct (inc lo hi p) as [q' c]. injection EI as -> EC.
    rewrite !orb_false_r in EC. subst e. rewrite !orb_false_r. destruct c.
    + destruct HA as [-> _]. assert (E : iter_eqb (mkIter lo true) (range_end (mkRange lo hi)) = true).
      { unfold iter_eqb. simpl. apply vec_eqb_eq. reflexivity. }
      destruct n; cbn [range_loop_int range_loop]; rewrite E; reflexivity.
    + destruct HA as [Hq _]. rewrite (IH _ Hq). destruct (range_loop n _ _); reflexivity.
Qed.

Lemma loop_int_done lo hi n : box_ok lo hi -> forall p l, in_box lo hi p ->
  range_loop_int M n (mkRange lo hi) (mkIter p false) = Done l -> forall i, (i < length lo)%nat -> vget hi i <> M.
Proof.
  intros Hok. induction n as [|n IH]; intros p l Hp E; [discriminate|].
  pose proof (in_box_length _ _ _ Hp) as [L1 L2]. cbn [range_loop_int] in E. unfold iter_eqb at 1 in E. cbn [it_end range_end Bool.eqb andb] in E.
  unfold iter_incr_int in E. cbn [it_pos r_lo it_end] in E.
  destruct (incr_loop_int M (length lo) (mkRange lo hi) p) as [[q e]|] eqn:EI; [|discriminate].
  destruct e.
  - intros i Hi. apply (incr_int_through _ _ _ _) with (i := i) in EI; [exact EI| |exact Hi]. intros j Hj.
    apply (proj1 (in_box_forall lo hi p ltac:(lia) ltac:(lia)) Hp j Hj).
  - destruct (incr_int_sound (length lo) (mkRange lo hi) p) as [Q|Q]; rewrite Q in EI; [discriminate|]. injection EI as EI.
    pose proof (iter_incr_inc lo hi p false ltac:(lia) ltac:(lia)) as EQ. unfold iter_incr in EQ. cbn [it_pos r_lo it_end] in EQ.
    rewrite EI in EQ. pose proof (inc_after _ _ _ Hok Hp) as HA. destruct (inc lo hi p) as [q' c]. injection EQ as -> EC.
    rewrite !orb_false_r in EC. subst c. destruct HA as [Hq _]. cbn [orb] in E.
    destruct (range_loop_int M n (mkRange lo hi) (mkIter q' false)) as [l'| |] eqn:EL; try discriminate. exact (IH _ _ Hq EL).
Qed.

Lemma iterate_int lo hi : box_ok lo hi -> Forall (fun h => h <= M) hi ->
  exists l, enumerates lex_lt lo hi l /\
    forall fuel, (Z.to_nat (box_size lo hi) <= fuel)%nat ->
      (Forall (fun h => h < M) hi -> range_visits_int M fuel (mkRange lo hi) = Done l) /\
      (Exists (fun h => h = M) hi -> range_visits_int M fuel (mkRange lo hi) = Overflow).
Proof.
  intros Hok Hm. destruct (range_iteration_exact lo hi Hok) as (l & Hv & He & _). exists l. split; [exact He|].
  intros fuel Hf. specialize (Hv fuel Hf). assert (Hlo : in_box lo hi lo) by (apply box_ok_in_box_lo, Hok). split; intros H.
  - unfold range_visits_int, range_begin. cbn [r_lo]. rewrite (loop_int_ok lo hi fuel Hok H lo Hlo).
    unfold range_visits, range_begin in Hv. cbn [r_lo] in Hv. rewrite Hv. reflexivity.
  - destruct (loop_int_sound fuel (mkRange lo hi) (range_begin (mkRange lo hi))) as [E|E]; [exact E|].
    unfold range_visits in Hv. rewrite Hv in E. exfalso. apply Exists_exists in H. destruct H as (h & Hin & ->).
    apply (In_nth _ _ 0) in Hin. destruct Hin as (i & Hi & Ei). pose proof (box_ok_length _ _ Hok).
    exact (loop_int_done lo hi fuel Hok lo l Hlo E i ltac:(lia) Ei).
Qed.

(** ** forEach *)
Definition agree (D : nat -> Prop) (p q : vec) : Prop := length p = length q /\ forall i, D i -> vget p i = vget q i.

Lemma agree_all n (D : nat -> Prop) p q : length p = n -> (forall i, (i < n)%nat -> D i) -> agree D p q -> p = q.
Proof.
  intros L H (L2 & E). apply (nth_ext _ _ 0 0); [exact L2|]. intros i Hi. apply E, H. lia.
Qed.

Section Loops.
  Context {F S : Type}.
  Variables (D : nat -> Prop) (d n : nat) (hi : Z).
  Variables (body : vec -> S -> run (vec * S)) (g : vec -> S -> S).
  Hypothesis Hd : (d < n)%nat.
  Hypothesis HD : ~ D d.
  Hypothesis Hg : forall p q s, length p = n -> agree (fun i => D i \/ i = d) p q -> g p s = g q s.

  Section DoneBody.
  Hypothesis Hb : forall pos s, length pos = n -> exists pos', body pos s = Done (pos', g pos s) /\ agree (fun i => D i \/ i = d) pos' pos.

  Lemma for_done : hi < M -> forall fuel pos s, length pos = n -> (Z.to_nat (hi - vget pos d + 1) <= fuel)%nat ->
    exists pos', for_int M fuel d hi body pos s = Done (pos', fold_left (fun s x => g (vset pos d x) s) (zloop (vget pos d) hi) s) /\
                 agree D pos' pos.
  Proof.
    intros HM. induction fuel as [|fuel IH]; intros pos s Hp Hf; cbn [for_int]; destruct (Z.leb_spec (vget pos d) hi) as [Hle|Hgt].
    - lia.
    - rewrite zloop_empty by lia. exists pos. split; [reflexivity|split; auto].
    - destruct (Hb pos s Hp) as (pos' & E & (L & A)). rewrite E.
      assert (Ed : vget pos' d = vget pos d) by (apply A; right; reflexivity). rewrite Ed.
      destruct (Z.eqb_spec (vget pos d) M); [lia|].
      destruct (IH (vset pos' d (vget pos d + 1)) (g pos s)) as (q & Eq & (Lq & Aq)).
      { rewrite vset_length. congruence. }
      { rewrite vget_vset_same by lia. lia. }
      exists q. split.
      + rewrite Eq. rewrite vget_vset_same by lia. rewrite (zloop_cons (vget pos d) hi) by lia. cbn [fold_left].
        do 2 f_equal.
        assert (Es : g (vset pos d (vget pos d)) s = g pos s).
        { apply Hg; [rewrite vset_length; exact Hp|]. split; [apply vset_length|]. intros i Hi.
          destruct (Nat.eq_dec i d) as [->|]; [apply vget_vset_same; lia|apply vget_vset_other; lia]. }
        rewrite Es. apply fold_left_ext. intros s' x _. apply Hg; [rewrite !vset_length; congruence|].
        split; [rewrite !vset_length; exact L|]. intros i Hi. destruct (Nat.eq_dec i d) as [->|Hne].
        * rewrite !vget_vset_same; rewrite ?vset_length; lia.
        * rewrite !vget_vset_other by lia. apply A, Hi.
      + split; [rewrite Lq, vset_length; exact L|]. intros i Hi. rewrite (Aq i Hi).
        destruct (Nat.eq_dec i d) as [->|Hne]; [contradiction|]. rewrite vget_vset_other by lia. apply A. left. exact Hi.
    - rewrite zloop_empty by lia. exists pos. split; [reflexivity|split; auto].
  Qed.

  Lemma for_over : hi = M -> forall fuel pos s, length pos = n -> vget pos d <= hi -> (Z.to_nat (hi - vget pos d + 1) <= fuel)%nat ->
    for_int M fuel d hi body pos s = Overflow.
  Proof using Hd Hb.
    intros HM. induction fuel as [|fuel IH]; intros pos s Hp Hle Hf; cbn [for_int]; destruct (Z.leb_spec (vget pos d) hi) as [_|Hgt]; try lia.
    destruct (Hb pos s Hp) as (pos' & E & (L & A)). rewrite E.
    assert (Ed : vget pos' d = vget pos d) by (apply A; right; reflexivity). rewrite Ed.
    destruct (Z.eqb_spec (vget pos d) M); [reflexivity|]. apply IH.
    - rewrite vset_length. congruence.
    - rewrite vget_vset_same by lia. lia.
    - rewrite vget_vset_same by lia. lia.
  Qed.
  End DoneBody.

  Lemma for_inner_over fuel pos s : (forall pos s, length pos = n -> body pos s = Overflow) -> length pos = n -> vget pos d <= hi ->
    (1 <= fuel)%nat -> for_int M fuel d hi body pos s = Overflow.
  Proof using Hd.
    intros H Hp Hle Hf. destruct fuel as [|fuel]; [lia|]. cbn [for_int]. destruct (Z.leb_spec (vget pos d) hi); [|lia].
    rewrite H by exact Hp. reflexivity.
  Qed.
End Loops.

Lemma bounded_max hi a b : (exists j, (a <= j < b)%nat /\ vget hi j = M) \/ (forall j, (a <= j < b)%nat -> vget hi j <> M).
Proof.
  induction b as [|b [(j & Hj & E)|H]].
  - right. intros j Hj. lia.
  - left. exists j. split; [lia|exact E].
  - destruct (Nat.le_gt_cases a b) as [Hab|Hab].
    + destruct (Z.eq_dec (vget hi b) M) as [E|E]; [left; exists b; split; [lia|exact E]|].
      right. intros j Hj. destruct (Nat.eq_dec j b) as [->|]; [exact E|apply H; lia].
    + right. intros j Hj. lia.
Qed.

Section ForEach.
  Context {F S : Type}.
  Variable func : vec -> F -> S -> vec * F * S.
  Variable fo : F.
  (** The calls only read the index. *)
  Hypothesis Hread : forall p f s, fst (fst (func p f s)) = p.
  (** What one call does to the rest of the program. *)
  Let call (p : vec) (s : S) : S := snd (func p fo s).
  Variables lo hi : vec.
  Hypothesis Hl : length hi = length lo.
  Let rank := length lo.
  Let r := mkRange lo hi.
  Variable fuel : nat.
  Hypothesis Hfuel : forall i, (i < rank)%nat -> (Z.to_nat (vget hi i - vget lo i + 1) <= fuel)%nat.

  (** *** C order *)
  Lemma c_depends dim : forall p q s, length p = rank -> (dim <= rank)%nat -> agree (fun i => (i < rank - dim)%nat) p q ->
    c_forEach_impl call rank dim r p s = c_forEach_impl call rank dim r q s.
  Proof.
    induction dim as [|dim IH]; intros p q s Lp Hd A.
    - cbn [c_forEach_impl]. f_equal. apply (agree_all rank) in A; auto. intros i Hi. lia.
    - cbn [c_forEach_impl]. apply fold_left_ext. intros s' x _. apply IH; [rewrite vset_length; exact Lp|lia|].
      destruct A as [L A]. split; [rewrite !vset_length; exact L|]. intros i Hi.
      destruct (Nat.eq_dec i (rank - Datatypes.S dim)) as [->|Hne].
      + rewrite !vget_vset_same by lia. reflexivity.
      + rewrite !vget_vset_other by lia. apply A. lia.
  Qed.
  Lemma c_done dim : (dim <= rank)%nat -> (forall i, (rank - dim <= i < rank)%nat -> vget hi i < M) ->
    forall pos s, length pos = rank -> exists pos', c_impl_int M func fuel rank dim r pos fo s = Done (pos', c_forEach_impl call rank dim r pos s) /\
      agree (fun i => (i < rank - dim)%nat) pos' pos.
  Proof.
    induction dim as [|dim IH]; intros Hd Hm pos s Lp.
    - cbn [c_impl_int c_forEach_impl]. pose proof (Hread pos fo s) as HR. unfold call.
      destruct (func pos fo s) as [[p f'] s']. cbn in HR. subst p. exists pos. split; [reflexivity|split; auto].
    - cbn [c_impl_int c_forEach_impl]. cbn zeta. set (d := (rank - Datatypes.S dim)%nat).
      destruct (for_done (fun i => (i < d)%nat) d rank (vget hi d) (fun pos s => c_impl_int M func fuel rank dim r pos fo s)
                  (fun pos s => c_forEach_impl call rank dim r pos s)) with (fuel := fuel) (pos := vset pos d (vget lo d)) (s := s)
        as (pos' & E & (L & A)).
      + lia.
      + lia.
      + intros p q s' L [L2 A]. apply c_depends; [exact L|lia|]. split; [exact L2|]. intros i Hi. apply A. lia.
      + intros p s' L. destruct (IH ltac:(lia) ltac:(intros i Hi; apply Hm; lia) p s' L) as (p' & E & (L2 & A)). exists p'.
        split; [exact E|]. split; [exact L2|]. intros i Hi. apply A. lia.
      + apply Hm. lia.
      + rewrite vset_length. exact Lp.
      + rewrite vget_vset_same by lia. apply Hfuel. lia.
      + exists pos'. split.
        * unfold r at 1. cbn [r_hi r_lo]. etransitivity; [exact E|]. rewrite vget_vset_same by lia. do 2 f_equal.
          apply fold_left_ext. intros s' x _. apply c_depends; [rewrite !vset_length; exact Lp|lia|]. split; [rewrite !vset_length; reflexivity|].
          intros i Hi. destruct (Nat.eq_dec i d) as [->|Hne].
          -- rewrite !vget_vset_same; rewrite ?vset_length; lia.
          -- rewrite !vget_vset_other by lia. reflexivity.
        * split; [rewrite L, vset_length; reflexivity|]. intros i Hi. rewrite (A i Hi). apply vget_vset_other. lia.
  Qed.
  Lemma c_over dim : (dim <= rank)%nat -> (forall i, (i < rank)%nat -> vget lo i <= vget hi i <= M) ->
    (exists i, (rank - dim <= i < rank)%nat /\ vget hi i = M) ->
    forall pos s, length pos = rank -> c_impl_int M func fuel rank dim r pos fo s = Overflow.
  Proof.
    induction dim as [|dim IH]; intros Hd Hb (j & Hj & Ej) pos s Lp; [lia|].
    cbn [c_impl_int]. cbn zeta. set (d := (rank - Datatypes.S dim)%nat). pose proof (Hb d ltac:(lia)) as Bd.
    destruct (bounded_max hi (rank - dim) rank) as [In|Out].
    - apply for_inner_over with (n := rank).
      + lia.
      + intros p s' L. apply IH; auto. lia.
      + rewrite vset_length. exact Lp.
      + rewrite vget_vset_same by lia. unfold r. cbn [r_hi r_lo]. lia.
      + pose proof (Hfuel d ltac:(lia)). lia.
    - assert (j = d) by (destruct (Nat.eq_dec j d); [assumption|exfalso; apply (Out j); [lia|exact Ej]]). subst j.
      apply for_over with (D := fun i => (i < d)%nat) (n := rank) (g := fun pos s => c_forEach_impl call rank dim r pos s).
      + lia.
      + intros p s' L. destruct (c_done dim ltac:(lia)) with (pos := p) (s := s') as (p' & E & (L2 & A)); [|exact L|].
        { intros i Hi. pose proof (Out i Hi). pose proof (Hb i ltac:(lia)). lia. }
        exists p'. split; [exact E|]. split; [exact L2|]. intros i Hi. apply A. lia.
      + exact Ej.
      + rewrite vset_length. exact Lp.
      + rewrite vget_vset_same by lia. unfold r. cbn [r_hi r_lo]. lia.
      + rewrite vget_vset_same by lia. unfold r. cbn [r_hi r_lo]. apply Hfuel. lia.
  Qed.

  (** *** Fortran order *)
  Lemma f_depends k : forall p q s, length p = rank -> (k <= rank)%nat -> agree (fun i => (k <= i)%nat) p q ->
    f_forEach_impl call k r p s = f_forEach_impl call k r q s.
  Proof.
    induction k as [|k IH]; intros p q s Lp Hd A.
    - cbn [f_forEach_impl]. f_equal. apply (agree_all rank) in A; auto. intros i Hi. lia.
    - cbn [f_forEach_impl]. apply fold_left_ext. intros s' x _. apply IH; [rewrite vset_length; exact Lp|lia|].
      destruct A as [L A]. split; [rewrite !vset_length; exact L|]. intros i Hi.
      destruct (Nat.eq_dec i k) as [->|Hne].
      + rewrite !vget_vset_same by lia. reflexivity.
      + rewrite !vget_vset_other by lia. apply A. lia.
  Qed.
  Lemma f_done k : (k <= rank)%nat -> (forall i, (i < k)%nat -> vget hi i < M) ->
    forall pos s, length pos = rank -> exists pos', f_impl_int M func fuel k r pos fo s = Done (pos', f_forEach_impl call k r pos s) /\
      agree (fun i => (k <= i)%nat) pos' pos.
  Proof.
    induction k as [|d IH]; intros Hd Hm pos s Lp.
    - cbn [f_impl_int f_forEach_impl]. pose proof (Hread pos fo s) as HR. unfold call.
      destruct (func pos fo s) as [[p f'] s']. cbn in HR. subst p. exists pos. split; [reflexivity|split; auto].
    - cbn [f_impl_int f_forEach_impl].
      destruct (for_done (fun i => (d < i)%nat) d rank (vget hi d) (fun pos s => f_impl_int M func fuel d r pos fo s)
                  (fun pos s => f_forEach_impl call d r pos s)) with (fuel := fuel) (pos := vset pos d (vget lo d)) (s := s)
        as (pos' & E & (L & A)).
      + lia.
      + lia.
      + intros p q s' L [L2 A]. apply f_depends; [exact L|lia|]. split; [exact L2|]. intros i Hi. apply A. lia.
      + intros p s' L. destruct (IH ltac:(lia) ltac:(intros i Hi; apply Hm; lia) p s' L) as (p' & E & (L2 & A)). exists p'.
        split; [exact E|]. split; [exact L2|]. intros i Hi. apply A. lia.
      + apply Hm. lia.
      + rewrite vset_length. exact Lp.
      + rewrite vget_vset_same by lia. apply Hfuel. lia.
      + exists pos'. split.
        * unfold r at 1. cbn [r_hi r_lo]. etransitivity; [exact E|]. rewrite vget_vset_same by lia. do 2 f_equal.
          apply fold_left_ext. intros s' x _. apply f_depends; [rewrite !vset_length; exact Lp|lia|]. split; [rewrite !vset_length; reflexivity|].
          intros i Hi. destruct (Nat.eq_dec i d) as [->|Hne].
          -- rewrite !vget_vset_same; rewrite ?vset_length; lia.
          -- rewrite !vget_vset_other by lia. reflexivity.
        * split; [rewrite L, vset_length; reflexivity|]. intros i Hi. rewrite (A i) by lia. apply vget_vset_other. lia.
  Qed.
  Lemma f_over k : (k <= rank)%nat -> (forall i, (i < rank)%nat -> vget lo i <= vget hi i <= M) ->
    (exists i, (i < k)%nat /\ vget hi i = M) ->
    forall pos s, length pos = rank -> f_impl_int M func fuel k r pos fo s = Overflow.
  Proof.
    induction k as [|d IH]; intros Hd Hb (j & Hj & Ej) pos s Lp; [lia|].
    cbn [f_impl_int]. pose proof (Hb d ltac:(lia)) as Bd.
    destruct (bounded_max hi 0 d) as [(i & Hi & Ei)|Out].
    - apply for_inner_over with (n := rank).
      + lia.
      + intros p s' L. apply IH; auto; [lia|]. exists i. split; [lia|exact Ei].
      + rewrite vset_length. exact Lp.
      + rewrite vget_vset_same by lia. unfold r. cbn [r_hi r_lo]. lia.
      + pose proof (Hfuel d ltac:(lia)). lia.
    - assert (j = d) by (destruct (Nat.eq_dec j d); [assumption|exfalso; apply (Out j); [lia|exact Ej]]). subst j.
      apply for_over with (D := fun i => (d < i)%nat) (n := rank) (g := fun pos s => f_forEach_impl call d r pos s).
      + lia.
      + intros p s' L. destruct (f_done d ltac:(lia)) with (pos := p) (s := s') as (p' & E & (L2 & A)); [|exact L|].
        { intros i Hi. pose proof (Out i ltac:(lia)). pose proof (Hb i ltac:(lia)). lia. }
        exists p'. split; [exact E|]. split; [exact L2|]. intros i Hi. apply A. lia.
      + exact Ej.
      + rewrite vset_length. exact Lp.
      + rewrite vget_vset_same by lia. unfold r. cbn [r_hi r_lo]. lia.
      + rewrite vget_vset_same by lia. unfold r. cbn [r_hi r_lo]. apply Hfuel. lia.
  Qed.
End ForEach.

Lemma fuel_bound lo hi : exists N, forall i, (i < length lo)%nat -> (Z.to_nat (vget hi i - vget lo i + 1) <= N)%nat.
Proof.
  generalize (length lo) as n. induction n as [|n [N H]]; [exists O; lia|].
  exists (Nat.max N (Z.to_nat (vget hi n - vget lo n + 1))). intros i Hi. destruct (Nat.eq_dec i n) as [->|]; [lia|].
  pose proof (H i ltac:(lia)). lia.
Qed.

Lemma forEach_int (F S : Type) (func : vec -> F -> S -> vec * F * S) lo hi fo s : length hi = length lo ->
  (forall p f s, fst (fst (func p f s)) = p) -> Forall (fun h => h < M) hi ->
  exists l l', enumerates lex_lt lo hi l /\ enumerates colex_lt lo hi l' /\
  exists N, forall fuel, (N <= fuel)%nat -> exists p p',
    c_forEach_int M func fuel (mkRange lo hi) fo s = Done (p, fold_left (fun s p => snd (func p fo s)) l s) /\
    f_forEach_int M func fuel (mkRange lo hi) fo s = Done (p', fold_left (fun s p => snd (func p fo s)) l' s).
Proof.
  intros Hl Hr Hm. destruct (c_forEach_exact (fun p s => snd (func p fo s)) lo hi s Hl) as (l & Le & Lf).
  destruct (f_forEach_exact (fun p s => snd (func p fo s)) lo hi s Hl) as (l' & Le' & Lf').
  exists l, l'. split; [exact Le|]. split; [exact Le'|]. destruct (fuel_bound lo hi) as (N & HN). exists N. intros fuel Hf.
  assert (Hh : forall i, (i < length lo)%nat -> vget hi i < M).
  { intros i Hi. rewrite Forall_forall in Hm. apply Hm. unfold vget. apply nth_In. lia. }
  destruct (c_done func fo Hr lo hi Hl fuel) with (dim := length lo) (pos := lo) (s := s) as (p & E & _); auto.
  { intros i Hi. pose proof (HN i Hi). lia. }
  { intros i Hi. apply Hh. lia. }
  destruct (f_done func fo Hr lo hi Hl fuel) with (k := length lo) (pos := lo) (s := s) as (p' & E' & _); auto.
  { intros i Hi. pose proof (HN i Hi). lia. }
  exists p, p'. split.
  - rewrite <- Lf. exact E.
  - rewrite <- Lf'. exact E'.
Qed.

Lemma forEach_int_over (F S : Type) (func : vec -> F -> S -> vec * F * S) lo hi fo s : box_ok lo hi ->
  (forall p f s, fst (fst (func p f s)) = p) -> Forall (fun h => h <= M) hi -> Exists (fun h => h = M) hi ->
  exists N, forall fuel, (N <= fuel)%nat ->
    c_forEach_int M func fuel (mkRange lo hi) fo s = Overflow /\ f_forEach_int M func fuel (mkRange lo hi) fo s = Overflow.
Proof.
  intros Hok Hr Hm He. destruct (fuel_bound lo hi) as (N & HN). exists N. intros fuel Hf.
  pose proof (box_ok_length _ _ Hok) as Hl. apply Exists_exists in He. destruct He as (h & Hin & ->).
  apply (In_nth _ _ 0) in Hin. destruct Hin as (j & Hj & Ej).
  assert (Hb : forall i, (i < length lo)%nat -> vget lo i <= vget hi i <= M).
  { intros i Hi. split.
    - pose proof (box_ok_in_box_lo _ _ Hok) as HB. apply (proj1 (in_box_forall lo hi lo ltac:(lia) ltac:(lia)) HB i Hi).
    - rewrite Forall_forall in Hm. apply Hm. unfold vget. apply nth_In. lia. }
  assert (HF : forall i, (i < length lo)%nat -> (Z.to_nat (vget hi i - vget lo i + 1) <= fuel)%nat).
  { intros i Hi. pose proof (HN i Hi). lia. }
  split.
  - apply (c_over func fo Hr lo hi Hl fuel HF); auto. cbn [r_lo]. exists j. split; [lia|exact Ej].
  - apply (f_over func fo Hr lo hi Hl fuel HF); auto. cbn [r_lo]. exists j. split; [lia|exact Ej].
Qed.
End Int.

(** A function object that counts its calls, and records the number in the rest of the program. *)
Definition counting (p : vec) (n : nat) (log : list nat) : vec * nat * list nat := (p, S n, log ++ [n]).
Lemma counting_lost : c_forEach_int 2147483647 counting 9 (mkRange [0] [2]) 0%nat [] = Done ([3], [0; 0; 0]%nat).
Proof. reflexivity. Qed.
