(** Proofs about the range iterator and forEach. *)
From Verif Require Import Vec GridSpec RangeModel BoxFacts.
From Coq Require Import Sorted.

Lemma vec_eqb_eq a b : vec_eqb a b = true <-> a = b.
Proof.
  revert b; induction a as [|x a IH]; intros [|y b]; simpl; try (split; congruence).
  rewrite andb_true_iff, IH, Z.eqb_eq. split; [intros [-> ->]|intros H; inversion H]; auto.
Qed.

(** Structural version of the carry loop. *)
Fixpoint inc (lo hi pos : vec) : vec * bool :=
  match lo, hi, pos with
  | l :: lo', h :: hi', x :: p' =>
      let '(q, c) := inc lo' hi' p' in
      if c then (if x + 1 >? h then (l :: q, true) else (x + 1 :: q, false))
      else (x :: q, false)
  | _, _, _ => (pos, true)
  end.

Lemma inc_snoc lo hi p l h x :
  length hi = length lo -> length p = length lo ->
  inc (lo ++ [l]) (hi ++ [h]) (p ++ [x]) =
  if x + 1 >? h then (let '(q, c) := inc lo hi p in (q ++ [l], c)) else (p ++ [x + 1], false).
Proof.
  revert hi p; induction lo as [|l0 lo IH]; intros [|h0 hi] [|x0 p]; simpl; try lia; intros H1 H2.
  - destruct (x + 1 >? h); reflexivity.
  - rewrite IH by lia. destruct (x + 1 >? h); [|reflexivity].
    destruct (inc lo hi p) as [q c]. destruct c; [|reflexivity].
    destruct (x0 + 1 >? h0); reflexivity.
Qed.

Lemma incr_loop_inc d lo hi pos :
  (d <= length lo)%nat -> length hi = length lo -> length pos = length lo ->
  incr_loop d (mkRange lo hi) pos =
  let '(q, c) := inc (firstn d lo) (firstn d hi) (firstn d pos) in (q ++ skipn d pos, c).
Proof.
  revert pos; induction d as [|d IH]; intros pos Hd Hh Hp; [reflexivity|].
  rewrite (firstn_snoc lo d 0), (firstn_snoc hi d 0), (firstn_snoc pos d 0) by lia.
  rewrite inc_snoc by (rewrite !firstn_length; lia).
  cbn [incr_loop r_hi r_lo]. unfold vget.
  destruct (nth d pos 0 + 1 >? nth d hi 0) eqn:E.
  - rewrite IH by (rewrite ?vset_length; lia).
    rewrite vset_firstn_skipn by lia.
    rewrite (firstn_app d), firstn_firstn, Nat.min_id, firstn_length, Nat.min_l by lia.
    rewrite Nat.sub_diag. simpl (firstn 0 _). rewrite app_nil_r.
    destruct (inc (firstn d lo) (firstn d hi) (firstn d pos)) as [q c].
    f_equal. rewrite skipn_app, skipn_all2 by (rewrite firstn_length; lia).
    rewrite firstn_length, Nat.min_l, Nat.sub_diag by lia. simpl (skipn 0 _).
    simpl. now rewrite <- app_assoc.
  - rewrite vset_firstn_skipn by lia. now rewrite <- app_assoc.
Qed.

Lemma iter_incr_inc lo hi p e :
  length hi = length lo -> length p = length lo ->
  iter_incr (mkRange lo hi) (mkIter p e) =
  let '(q, c) := inc lo hi p in mkIter q (c || e).
Proof.
  intros Hh Hp. unfold iter_incr. simpl. rewrite incr_loop_inc by lia.
  rewrite !firstn_all2 by lia. rewrite skipn_all2 by lia.
  destruct (inc lo hi p) as [q c]. now rewrite app_nil_r.
Qed.

(** Positions from [p] to the end of the box, in order. *)
Fixpoint after (lo hi p : vec) : list vec :=
  match lo, hi, p with
  | l :: lo', h :: hi', x :: p' =>
      map (cons x) (after lo' hi' p') ++
      flat_map (fun y => map (cons y) (box lo' hi')) (zloop (x + 1) h)
  | _, _, _ => [[]]
  end.

Lemma after_lo lo hi : box_ok lo hi -> after lo hi lo = box lo hi.
Proof.
  revert hi; induction lo as [|l lo IH]; intros [|h hi]; simpl; try tauto.
  intros [H1 H2]. rewrite IH by auto. rewrite (zloop_cons l h) by lia. reflexivity.
Qed.

Lemma inc_after lo hi p :
  box_ok lo hi -> in_box lo hi p ->
  match inc lo hi p with
  | (q, true) => q = lo /\ after lo hi p = [p]
  | (q, false) => in_box lo hi q /\ after lo hi p = p :: after lo hi q
  end.
Proof.
  revert hi p; induction lo as [|l lo IH]; intros [|h hi] [|x p]; simpl; try tauto.
  intros [Hlh Hok] [Hx Hp]. specialize (IH _ _ Hok Hp).
  destruct (inc lo hi p) as [q c]. destruct c.
  - destruct IH as [-> Ha]. rewrite Ha. simpl.
    rewrite Z.gtb_ltb. destruct (h <? x + 1) eqn:E.
    + apply Z.ltb_lt in E. rewrite zloop_empty by lia. auto.
    + apply Z.ltb_ge in E. rewrite (zloop_cons (x + 1) h) by lia. simpl.
      rewrite after_lo by auto. split; auto. split; [lia|]. now apply box_ok_in_box_lo.
  - destruct IH as [Hq Ha]. rewrite Ha. simpl. auto.
Qed.

Lemma range_loop_after lo hi p n :
  box_ok lo hi -> in_box lo hi p -> (length (after lo hi p) <= n)%nat ->
  range_loop n (mkRange lo hi) (mkIter p false) = Some (after lo hi p).
Proof.
  intros Hok. revert p; induction n as [|n IH]; intros p Hp Hn.
  - pose proof (inc_after _ _ _ Hok Hp) as H. destruct (inc lo hi p) as [q [|]]; destruct H as [_ H];
      rewrite H in Hn; simpl in Hn; lia.
  - pose proof (inc_after _ _ _ Hok Hp) as H. pose proof (in_box_length _ _ _ Hp) as [Hl1 Hl2].
    cbn [range_loop]. unfold iter_eqb at 1. simpl (Bool.eqb _ _). cbn [andb].
    rewrite iter_incr_inc by lia.
    destruct (inc lo hi p) as [q [|]]; destruct H as [Hq Ha]; simpl (_ || _).
    + subst q. assert (E : range_loop n (mkRange lo hi) (mkIter lo true) = Some []).
      { destruct n; simpl; unfold iter_eqb; simpl;
          rewrite (proj2 (vec_eqb_eq lo lo) eq_refl); reflexivity. }
      rewrite E, Ha. reflexivity.
    + rewrite IH; auto. { rewrite Ha. reflexivity. } rewrite Ha in Hn. simpl in Hn. lia.
Qed.

Lemma range_visits_box lo hi n :
  box_ok lo hi -> (Z.to_nat (box_size lo hi) <= n)%nat ->
  range_visits n (mkRange lo hi) = Some (box lo hi).
Proof.
  intros Hok Hn. unfold range_visits, range_begin. simpl. rewrite <- after_lo by auto.
  apply range_loop_after; auto.
  - now apply box_ok_in_box_lo.
  - rewrite after_lo by auto. rewrite <- box_length in Hn by auto. lia.
Qed.

Theorem range_iteration_exact lo hi :
  box_ok lo hi ->
  exists l, (forall n, (Z.to_nat (box_size lo hi) <= n)%nat -> range_visits n (mkRange lo hi) = Some l)
            /\ enumerates lex_lt lo hi l /\ Z.of_nat (length l) = box_size lo hi.
Proof.
  intros H. exists (box lo hi). split; [|split].
  - intros n Hn. now apply range_visits_box.
  - apply box_enumerates.
  - now apply box_length.
Qed.

(** Empty ranges: the loop behaves as if [hi] were raised to [lo]. *)
Lemma inc_max lo hi p :
  length hi = length lo -> in_box lo (vmap2 Z.max lo hi) p ->
  inc lo hi p = inc lo (vmap2 Z.max lo hi) p.
Proof.
  revert hi p; induction lo as [|l lo IH]; intros [|h hi] [|x p]; simpl; try lia; try tauto.
  intros Hh [Hx Hp]. rewrite IH by (auto; lia).
  destruct (inc lo (vmap2 Z.max lo hi) p) as [q [|]]; auto.
  rewrite !Z.gtb_ltb.
  destruct (h <? x + 1) eqn:E1, (Z.max l h <? x + 1) eqn:E2; auto; lia.
Qed.

Lemma vmap2_length f a b : length a = length b -> length (vmap2 f a b) = length a.
Proof. revert b; induction a; intros [|]; simpl; auto; lia. Qed.

Lemma box_ok_max lo hi : length hi = length lo -> box_ok lo (vmap2 Z.max lo hi).
Proof. revert hi; induction lo; intros [|h hi]; simpl; try lia; auto. intros H. split; [lia|auto]. Qed.

Lemma range_loop_max lo hi n p e :
  length hi = length lo -> in_box lo (vmap2 Z.max lo hi) p ->
  range_loop n (mkRange lo hi) (mkIter p e) = range_loop n (mkRange lo (vmap2 Z.max lo hi)) (mkIter p e).
Proof.
  intros Hh. revert p e; induction n as [|n IH]; intros p e Hp; [reflexivity|].
  pose proof (in_box_length _ _ _ Hp) as [Hl1 Hl2].
  cbn [range_loop]. unfold range_end. simpl r_lo.
  destruct (iter_eqb _ _); [reflexivity|].
  rewrite !iter_incr_inc by (auto; lia). rewrite inc_max by auto.
  pose proof (inc_after _ _ _ (box_ok_max _ _ Hh) Hp) as H.
  destruct (inc lo (vmap2 Z.max lo hi) p) as [q c]. rewrite IH; [reflexivity|].
  destruct c; destruct H as [H _]; [subst q|exact H].
  apply box_ok_in_box_lo, box_ok_max; auto.
Qed.

Theorem range_iteration_any lo hi :
  length hi = length lo ->
  exists n, range_visits n (mkRange lo hi) = Some (box lo (vmap2 Z.max lo hi)).
Proof.
  intros H. exists (Z.to_nat (box_size lo (vmap2 Z.max lo hi))).
  unfold range_visits, range_begin. simpl r_lo. rewrite range_loop_max; auto.
  - apply (range_visits_box lo (vmap2 Z.max lo hi)); [now apply box_ok_max|lia].
  - apply box_ok_in_box_lo, box_ok_max; auto.
Qed.

Theorem range_iteration_never_empty lo hi n l :
  length hi = length lo -> range_visits n (mkRange lo hi) = Some l -> l <> [].
Proof.
  intros H Hv. unfold range_visits, range_begin in Hv. destruct n; simpl in Hv;
    unfold iter_eqb in Hv; simpl in Hv; [discriminate|].
  destruct (range_loop _ _ _); inversion Hv; subst. discriminate.
Qed.

(** ** forEach *)
Section ForEach.
  Context {S : Type} (f : vec -> S -> S).

  Lemma fold_left_flat_map {A B} (g : A -> list B) (h : S -> B -> S) l s :
    fold_left h (flat_map g l) s = fold_left (fun s x => fold_left h (g x) s) l s.
  Proof. revert s; induction l; simpl; intros; auto. rewrite fold_left_app. auto. Qed.

  Lemma fold_left_map {A B} (g : A -> B) (h : S -> B -> S) l s :
    fold_left h (map g l) s = fold_left (fun s x => h s (g x)) l s.
  Proof. revert s; induction l; simpl; intros; auto. Qed.

  Lemma fold_left_ext {A} (h h' : S -> A -> S) l s :
    (forall s x, In x l -> h s x = h' s x) -> fold_left h l s = fold_left h' l s.
  Proof. revert s; induction l; simpl; intros s H; auto. rewrite H by auto. apply IHl. auto. Qed.

  Lemma c_forEach_impl_box lo hi dim : forall pos s,
    length hi = length lo -> length pos = length lo -> (dim <= length lo)%nat ->
    c_forEach_impl f (length lo) dim (mkRange lo hi) pos s =
    fold_left (fun s p => f (firstn (length lo - dim) pos ++ p) s)
              (box (skipn (length lo - dim) lo) (skipn (length lo - dim) hi)) s.
  Proof.
    induction dim as [|dim IH]; intros pos s Hh Hp Hd.
    - rewrite Nat.sub_0_r. rewrite !skipn_all2 by lia. simpl. rewrite firstn_all2 by lia.
      now rewrite app_nil_r.
    - cbn [c_forEach_impl r_lo r_hi]. set (d := (length lo - Datatypes.S dim)%nat).
      assert (Hd' : (d < length lo)%nat) by lia.
      rewrite (skipn_cons lo d 0), (skipn_cons hi d 0) by lia. cbn [box].
      rewrite fold_left_flat_map. unfold vget.
      apply fold_left_ext. intros s' x _.
      rewrite IH by (rewrite ?vset_length; lia).
      replace (length lo - dim)%nat with (Datatypes.S d) by lia.
      rewrite fold_left_map. apply fold_left_ext. intros s'' p _.
      rewrite vset_firstn_skipn by lia.
      f_equal.
      replace (firstn (Datatypes.S d) (firstn d pos ++ x :: skipn (Datatypes.S d) pos)) with (firstn d pos ++ [x]).
      + now rewrite <- app_assoc.
      + rewrite firstn_app, firstn_firstn, firstn_length.
        replace (Nat.min (Datatypes.S d) d) with d by lia.
        replace (Nat.min d (length pos)) with d by lia.
        replace (Datatypes.S d - d)%nat with 1%nat by lia. reflexivity.
  Qed.

  Theorem c_forEach_exact lo hi s :
    length hi = length lo ->
    exists l, enumerates lex_lt lo hi l /\ c_forEach f (mkRange lo hi) s = fold_left (fun s p => f p s) l s.
  Proof.
    intros H. exists (box lo hi). split; [apply box_enumerates|].
    unfold c_forEach. simpl. rewrite c_forEach_impl_box by lia.
    now rewrite Nat.sub_diag.
  Qed.

  Lemma f_forEach_impl_box lo hi d : forall pos s,
    length hi = length lo -> length pos = length lo -> (d <= length lo)%nat ->
    f_forEach_impl f d (mkRange lo hi) pos s =
    fold_left (fun s p => f (p ++ skipn d pos) s) (fbox (firstn d lo) (firstn d hi)) s.
  Proof.
    induction d as [|d IH]; intros pos s Hh Hp Hd; [reflexivity|].
    cbn [f_forEach_impl r_lo r_hi].
    rewrite (firstn_snoc lo d 0), (firstn_snoc hi d 0) by lia. rewrite fbox_snoc.
    rewrite fold_left_flat_map. unfold vget. apply fold_left_ext. intros s' x _.
    rewrite IH by (rewrite ?vset_length; lia). rewrite fold_left_map. apply fold_left_ext.
    intros s'' p _. f_equal. rewrite vset_firstn_skipn by lia.
    rewrite skipn_app, skipn_all2 by (rewrite firstn_length; lia).
    rewrite firstn_length, Nat.min_l, Nat.sub_diag by lia. simpl. now rewrite <- app_assoc.
  Qed.

  Theorem f_forEach_exact lo hi s :
    length hi = length lo ->
    exists l, enumerates colex_lt lo hi l /\ f_forEach f (mkRange lo hi) s = fold_left (fun s p => f p s) l s.
  Proof.
    intros H. exists (fbox lo hi). split; [apply fbox_enumerates|].
    unfold f_forEach. simpl. rewrite f_forEach_impl_box by lia.
    rewrite !firstn_all2, skipn_all2 by lia. apply fold_left_ext. intros. now rewrite app_nil_r.
  Qed.
End ForEach.

(** ** inside, grow, project *)
Lemma range_inside_spec lo hi p :
  length hi = length lo -> length p = length lo ->
  range_inside (mkRange lo hi) p = true <-> in_box lo hi p.
Proof.
  unfold range_inside. cbn [r_lo r_hi].
  revert hi p; induction lo as [|l lo IH]; intros [|h hi] [|x p]; simpl; try lia; try tauto.
  intros H1 H2. rewrite andb_true_iff. rewrite <- seq_shift.
  assert (E : forall (g : nat -> bool) l, forallb g (map Datatypes.S l) = forallb (fun i => g (Datatypes.S i)) l).
  { intros g l'. induction l'; simpl; auto. now rewrite IHl'. }
  rewrite E. unfold vget in *. simpl. rewrite IH by lia.
  rewrite negb_true_iff, orb_false_iff. rewrite Z.gtb_ltb, !Z.ltb_ge. tauto.
Qed.

Lemma in_box_forall lo hi p :
  length hi = length lo -> length p = length lo ->
  in_box lo hi p <-> (forall i, (i < length lo)%nat -> vget lo i <= vget p i <= vget hi i).
Proof.
  revert hi p; induction lo as [|l lo IH]; intros [|h hi] [|x p]; simpl; try lia.
  - intros _ _. split; auto. intros _ i Hi. lia.
  - intros H1 H2. rewrite IH by lia. split.
    + intros [H3 H4] [|i] Hi; [exact H3|]. unfold vget; simpl. apply H4. lia.
    + intros H. split; [apply (H 0%nat); lia|]. intros i Hi. apply (H (Datatypes.S i)). lia.
Qed.

Lemma in_box_growv ds lo hi p :
  box_ok lo hi -> length ds = length lo -> Forall (fun d => 0 <= d) ds ->
  in_box (vmap2 Z.sub lo ds) (vmap2 Z.add hi ds) p <->
  exists q, in_box lo hi q /\ within ds p q.
Proof.
  revert hi ds p; induction lo as [|l lo IH]; intros [|h hi] [|d ds] p; simpl; try tauto; try lia.
  - intros _ _ _. destruct p; split; try tauto.
    + intros _. exists []. simpl; auto.
    + intros (q & Hq & Hw). destruct q; simpl in *; tauto.
  - intros [Hlh Hok] Hl Hpos. inversion Hpos as [|? ? Hd Hds]; subst.
    destruct p as [|x p].
    + split; [tauto|]. intros (q & Hq & Hw). destruct q; simpl in *; tauto.
    + rewrite IH by (auto; lia). split.
      * intros [Hx (q & Hq & Hw)]. exists (Z.max l (Z.min h x) :: q). simpl. repeat split; auto; lia.
      * intros (q & Hq & Hw). destruct q as [|y q]; simpl in *; [tauto|].
        destruct Hq as [Hy Hq], Hw as [Hxy Hw]. split; [lia|]. eauto.
Qed.

Lemma in_box_shrinkv ds lo hi p :
  length hi = length lo -> length ds = length lo -> Forall (fun d => 0 <= d) ds -> length p = length lo ->
  in_box (vmap2 Z.sub lo (map Z.opp ds)) (vmap2 Z.add hi (map Z.opp ds)) p <->
  (forall q, within ds p q -> in_box lo hi q).
Proof.
  revert hi ds p; induction lo as [|l lo IH]; intros [|h hi] [|d ds] [|x p]; simpl; try lia.
  - intros _ _ _ _. split; [|tauto]. intros _ [|y q]; simpl; tauto.
  - intros Hh Hd Hpos Hp. inversion Hpos as [|? ? Hd0 Hds]; subst.
    rewrite IH by (auto; lia). split.
    + intros [Hx H] [|y q]; simpl; [tauto|]. intros [Hy Hq]. split; [lia|auto].
    + intros H.
      assert (Hself : forall ds p, Forall (fun d => 0 <= d) ds -> length p = length ds -> within ds p p).
      { clear. induction ds as [|d ds IHds]; intros [|x p] H Hl; simpl in *; try lia; auto.
        inversion H; subst. split; [lia|apply IHds; auto; lia]. }
      assert (Hw : within ds p p) by (apply Hself; auto; lia).
      split.
      * pose proof (H (x - d :: p)) as Ha. pose proof (H (x + d :: p)) as Hb. simpl in Ha, Hb.
        destruct Ha as [Ha _]; [split; [lia|auto]|]. destruct Hb as [Hb _]; [split; [lia|auto]|]. lia.
      * intros q Hq. apply (H (x :: q)). simpl. split; [lia|auto].
Qed.

Lemma grow_growv s lo hi :
  length hi = length lo ->
  range_grow s (mkRange lo hi) = range_growv (map (fun _ => s) lo) (mkRange lo hi).
Proof.
  intros H. unfold range_grow, range_growv. simpl. f_equal.
  - clear H. induction lo as [|l lo IH]; simpl; [reflexivity|]. now rewrite IH.
  - revert hi H. induction lo as [|l lo IH]; intros [|h hi]; simpl; intros H; try lia; [reflexivity|].
    rewrite IH by lia. reflexivity.
Qed.

Lemma array_projectDim_length d a : (d < length a)%nat -> length (array_projectDim d a) = (length a - 1)%nat.
Proof. intros H. unfold array_projectDim. rewrite app_length, firstn_length, skipn_length. lia. Qed.

Lemma array_projectDim_get d a i :
  (d < length a)%nat ->
  vget (array_projectDim d a) i = if (i <? d)%nat then vget a i else vget a (Datatypes.S i).
Proof.
  revert d i; induction a as [|x a IH]; simpl; intros d i H; [lia|].
  destruct d as [|d].
  - reflexivity.
  - unfold array_projectDim in *. cbn [firstn skipn app]. destruct i as [|i]; [reflexivity|].
    unfold vget in *. cbn [nth]. rewrite IH by lia.
    change (Datatypes.S i <? Datatypes.S d)%nat with (i <? d)%nat. reflexivity.
Qed.

Lemma projectDim_spec d lo hi p :
  length hi = length lo -> length p = length lo -> (d < length lo)%nat ->
  in_box (array_projectDim d lo) (array_projectDim d hi) (array_projectDim d p) <->
  (forall i, (i < length lo)%nat -> i <> d -> vget lo i <= vget p i <= vget hi i).
Proof.
  intros H1 H2 H3. rewrite in_box_forall by (rewrite !array_projectDim_length; lia).
  rewrite array_projectDim_length by lia. split.
  - intros H i Hi Hid. destruct (Nat.lt_ge_cases i d) as [Hc|Hc].
    + specialize (H i ltac:(lia)). rewrite !array_projectDim_get in H by lia.
      destruct (Nat.ltb_spec i d); [exact H|lia].
    + destruct i as [|i]; [lia|]. specialize (H i ltac:(lia)). rewrite !array_projectDim_get in H by lia.
      destruct (Nat.ltb_spec i d); [lia|exact H].
  - intros H i Hi. rewrite !array_projectDim_get by lia.
    destruct (Nat.ltb_spec i d); apply H; lia.
Qed.

Lemma project_spec n lo hi p :
  length hi = length lo -> length p = length lo -> (n <= length lo)%nat ->
  in_box (array_project n lo) (array_project n hi) (array_project n p) <->
  (forall i, (i < n)%nat -> vget lo i <= vget p i <= vget hi i).
Proof.
  intros H1 H2 H3. unfold array_project.
  rewrite in_box_forall by (rewrite !firstn_length; lia).
  rewrite firstn_length, Nat.min_l by lia.
  assert (E : forall v i, (i < n)%nat -> vget (firstn n v) i = vget v i).
  { intros v i Hi. unfold vget. clear -Hi. revert i Hi v. induction n; intros i Hi v; [lia|].
    destruct v; [now destruct i|]. destruct i; simpl; auto. apply IHn. lia. }
  split; intros H i Hi.
  - specialize (H i Hi). now rewrite !E in H by lia.
  - rewrite !E by lia. auto.
Qed.

Lemma in_box_grow s lo hi p :
  box_ok lo hi -> 0 <= s ->
  in_box (r_lo (range_grow s (mkRange lo hi))) (r_hi (range_grow s (mkRange lo hi))) p <->
  exists q, in_box lo hi q /\ within (map (fun _ => s) lo) p q.
Proof.
  intros Hok Hs. rewrite grow_growv by now apply box_ok_length.
  apply in_box_growv; auto.
  - now rewrite map_length.
  - apply Forall_forall. intros x Hx. apply in_map_iff in Hx. destruct Hx as (? & <- & _). exact Hs.
Qed.

Lemma range_iteration_any_enumerates lo hi :
  length hi = length lo ->
  exists fuel l, range_visits fuel (mkRange lo hi) = Some l /\
                 enumerates lex_lt lo (vmap2 Z.max lo hi) l.
Proof.
  intros H. destruct (range_iteration_any lo hi H) as [n Hn].
  exists n, (box lo (vmap2 Z.max lo hi)). split; [exact Hn|apply box_enumerates].
Qed.

Lemma enumerates_empty lt lo hi l : (forall p, ~ in_box lo hi p) -> enumerates lt lo hi l -> l = [].
Proof.
  intros He [H _]. destruct l as [|p l]; auto. exfalso. apply (He p). apply H. now left.
Qed.

Lemma forEach_empty {S : Type} (func : vec -> S -> S) lo hi (s : S) :
  length hi = length lo -> (forall p, ~ in_box lo hi p) ->
  c_forEach func (mkRange lo hi) s = s /\ f_forEach func (mkRange lo hi) s = s.
Proof.
  intros H He. split.
  - destruct (c_forEach_exact func lo hi s H) as (l & Hl & ->).
    apply enumerates_empty in Hl; auto. now subst.
  - destruct (f_forEach_exact func lo hi s H) as (l & Hl & ->).
    apply enumerates_empty in Hl; auto. now subst.
Qed.

Lemma empty_range_witness :
  exists lo hi, length hi = length lo /\ (forall p, ~ in_box lo hi p) /\
     exists fuel l, range_visits fuel (mkRange lo hi) = Some l /\ l <> [].
Proof.
  exists [0; 0], [-1; 2]. split; [reflexivity|]. split.
  - intros [|x [|y [|]]]; simpl; try tauto; lia.
  - exists 5%nat, [[0;0]; [0;1]; [0;2]]. split; [reflexivity|discriminate].
Qed.
