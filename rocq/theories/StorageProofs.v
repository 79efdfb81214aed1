(** Proofs about the storage index arithmetic. *)
From Verif Require Import Vec GridSpec StorageSpec StorageModel BoxFacts RangeProofs.
Local Arguments Z.mul : simpl never.
Local Arguments Z.add : simpl never.
Local Arguments Z.sub : simpl never.

Lemma two64_pos : 0 < two64. Proof. reflexivity. Qed.
Local Hint Resolve two64_pos : core.
Global Opaque two64.

Lemma w64_range x : 0 <= w64 x < two64.
Proof. apply Z.mod_pos_bound. auto. Qed.

Lemma w64_small x : 0 <= x < two64 -> w64 x = x.
Proof. apply Z.mod_small. Qed.

Lemma w64_eq x y : (exists k, x = y + k * two64) -> w64 x = w64 y.
Proof. intros [k ->]. unfold w64. apply Z_mod_plus_full. Qed.

Lemma w64_decomp x : exists k, w64 x = x + k * two64.
Proof.
  exists (- (x / two64)). unfold w64. pose proof (Z_div_mod_eq_full x two64). lia.
Qed.

(** Congruence modulo 2^64. *)
Definition cong (x y : Z) : Prop := exists k, x = y + k * two64.

Lemma cong_refl x : cong x x. Proof. exists 0. lia. Qed.
Lemma cong_w64 x : cong (w64 x) x. Proof. apply w64_decomp. Qed.
Lemma cong_trans x y z : cong x y -> cong y z -> cong x z.
Proof. intros [a ->] [b ->]. exists (a + b). lia. Qed.
Lemma cong_sym x y : cong x y -> cong y x.
Proof. intros [a ->]. exists (- a). lia. Qed.
Lemma cong_add a b c d : cong a b -> cong c d -> cong (a + c) (b + d).
Proof. intros [x ->] [y ->]. exists (x + y). lia. Qed.
Lemma cong_sub a b c d : cong a b -> cong c d -> cong (a - c) (b - d).
Proof. intros [x ->] [y ->]. exists (x - y). lia. Qed.
Lemma cong_mul a b c d : cong a b -> cong c d -> cong (a * c) (b * d).
Proof. intros [x ->] [y ->]. exists (b * y + d * x + x * y * two64). ring. Qed.
Lemma cong_mul_l a c d : cong c d -> cong (a * c) (a * d).
Proof. apply cong_mul, cong_refl. Qed.
Lemma w64_cong x y : cong x y -> w64 x = w64 y.
Proof. apply w64_eq. Qed.

(** Exact Horner evaluation. *)
Definition horner (acc : Z) (l : list (Z * Z)) : Z :=
  fold_left (fun a xd => a * snd xd + fst xd) l acc.

Arguments horner : simpl never.

Lemma horner_cons a x d l : horner a ((x, d) :: l) = horner (a * d + x) l.
Proof. reflexivity. Qed.

Lemma horner_cong l : forall a b, cong a b -> cong (horner a l) (horner b l).
Proof.
  induction l as [|[x d] l IH]; intros a b H; [exact H|].
  rewrite !horner_cons. apply IH. apply cong_add; [|apply cong_refl].
  apply cong_mul; [exact H|apply cong_refl].
Qed.

Lemma pos_horner l : forall a b, cong a b ->
  cong (fold_left (fun pos xd => w64 (fst xd + snd xd * pos)) l a) (horner b l).
Proof.
  induction l as [|[x d] l IH]; intros a b H; [exact H|].
  cbn [fold_left fst snd]. rewrite horner_cons. apply IH.
  eapply cong_trans; [apply cong_w64|].
  replace (b * d + x) with (x + d * b) by ring.
  apply cong_add; [apply cong_refl|]. now apply cong_mul_l.
Qed.

Lemma fast_horner l : forall a b, cong a b ->
  cong (fold_left (fun p xd => w64 (p * snd xd - fst xd)) l a)
       (horner b (map (fun xd => (- fst xd, snd xd)) l)).
Proof.
  induction l as [|[x d] l IH]; intros a b H; [exact H|].
  cbn [fold_left fst snd map]. rewrite horner_cons. apply IH.
  eapply cong_trans; [apply cong_w64|].
  apply cong_sub; [|apply cong_refl]. apply cong_mul; [exact H|apply cong_refl].
Qed.

Lemma s64_Some x y : s64 x = Some y -> y = x.
Proof. unfold s64. destruct (_ && _); congruence. Qed.

Lemma c_fast_horner l : forall a p,
  fold_left (fun p xd => match p with
                         | None => None
                         | Some p => match s64 (p * snd xd) with
                                     | None => None
                                     | Some q => s64 (q - fst xd)
                                     end
                         end) l (Some a) = Some p ->
  p = horner a (map (fun xd => (- fst xd, snd xd)) l).
Proof.
  assert (Hn : forall l, fold_left (fun p xd => match p with
                         | None => None
                         | Some p => match s64 (p * snd xd) with
                                     | None => None
                                     | Some q => s64 (q - fst xd)
                                     end
                         end) (l : list (Z * Z)) None = None).
  { induction l0; auto. }
  induction l as [|[x d] l IH]; intros a p H.
  - simpl in H. inversion H. reflexivity.
  - cbn [fold_left fst snd map] in *. rewrite horner_cons.
    destruct (s64 (a * d)) as [q|] eqn:E1; [|now rewrite Hn in H].
    apply s64_Some in E1. subst q.
    destruct (s64 (a * d - x)) as [q|] eqn:E2; [|now rewrite Hn in H].
    apply s64_Some in E2. subst q. apply IH in H. exact H.
Qed.

(** Adding the two Horner sums. *)
Lemma horner_add xs : forall ls ds a b,
  length ls = length xs -> length ds = length xs ->
  horner a (combine xs ds) + horner b (map (fun xd => (- fst xd, snd xd)) (combine ls ds)) =
  horner (a + b) (combine (vmap2 Z.sub xs ls) ds).
Proof.
  induction xs as [|x xs IH]; intros [|l ls] [|d ds] a b; simpl; intros H1 H2; try reflexivity; try lia.
  rewrite !horner_cons. rewrite IH by lia.
  f_equal. lia.
Qed.

(** Horner form of the row-major position. *)
Lemma horner_row lo : forall hi p a,
  in_box lo hi p ->
  horner a (combine (vmap2 Z.sub p lo) (dims_of lo hi)) = a * box_size lo hi + row_major lo hi p.
Proof.
  induction lo as [|l lo IH]; intros [|h hi] [|x p] a; simpl; try tauto; [intros; unfold horner; simpl; lia|].
  intros [Hx Hp]. unfold dims_of. simpl. rewrite horner_cons. fold (dims_of lo hi).
  rewrite IH by auto. ring.
Qed.

Lemma box_size_nonneg lo : forall hi p, in_box lo hi p -> 0 < box_size lo hi.
Proof.
  induction lo as [|l lo IH]; intros [|h hi] [|x p]; simpl; try tauto; try lia.
  intros [Hx Hp]. apply IH in Hp. nia.
Qed.

Lemma row_major_bound lo : forall hi p, in_box lo hi p -> 0 <= row_major lo hi p < box_size lo hi.
Proof.
  induction lo as [|l lo IH]; intros [|h hi] [|x p]; simpl; try tauto; try lia.
  intros [Hx Hp]. pose proof (box_size_nonneg _ _ _ Hp). apply IH in Hp. nia.
Qed.

Lemma row_major_inj lo : forall hi p q,
  in_box lo hi p -> in_box lo hi q -> row_major lo hi p = row_major lo hi q -> p = q.
Proof.
  induction lo as [|l lo IH]; intros [|h hi] [|x p] [|y q]; simpl; try tauto.
  intros [Hx Hp] [Hy Hq] E.
  pose proof (row_major_bound _ _ _ Hp). pose proof (row_major_bound _ _ _ Hq).
  assert (x = y) by nia. subst y. f_equal. eapply IH; eauto. lia.
Qed.

Lemma row_major_surj lo : forall hi k,
  box_ok lo hi -> 0 <= k < box_size lo hi -> exists p, in_box lo hi p /\ row_major lo hi p = k.
Proof.
  induction lo as [|l lo IH]; intros [|h hi] k; simpl; try tauto.
  - intros _ Hk. exists []. split; auto. lia.
  - intros [Hlh Hok] Hk. pose proof (box_size_pos _ _ Hok) as Hs.
    set (s := box_size lo hi) in *.
    pose proof (Z.mod_pos_bound k s Hs). pose proof (Z_div_mod_eq_full k s).
    destruct (IH hi (k mod s) Hok) as (p & Hp & E); [lia|].
    exists (l + k / s :: p). simpl. fold s. split.
    + split; auto. assert (0 <= k / s) by (apply Z.div_pos; lia).
      assert (k / s < h - l + 1) by (apply Z.div_lt_upper_bound; lia). lia.
    + rewrite E. lia.
Qed.

Lemma dims_of_length lo hi : length hi = length lo -> length (dims_of lo hi) = length lo.
Proof. intros H. unfold dims_of. now rewrite vmap2_length. Qed.

(** ** C order *)
Lemma c_pos_cong lo hi idx fast :
  lo <> [] -> in_box lo hi idx -> c_fast lo (dims_of lo hi) = Some fast ->
  cong (fast + c_pos (dims_of lo hi) idx) (row_major lo hi idx).
Proof.
  intros Hne Hb Hf. destruct lo as [|l lo]; [congruence|].
  destruct hi as [|h hi]; [simpl in Hb; tauto|]. destruct idx as [|x idx]; [simpl in Hb; tauto|].
  simpl in Hb. destruct Hb as [Hx Hp]. pose proof (in_box_length _ _ _ Hp) as [Hl1 Hl2].
  unfold c_fast, c_pos, dims_of in *. cbn [vmap2] in *. fold (dims_of lo hi) in *.
  destruct (s64 (- l)) as [a|] eqn:Ea.
  2:{ exfalso. clear -Hf. revert Hf. generalize (combine lo (dims_of lo hi)).
      assert (Hn : forall l, fold_left (fun p xd => match p with
                         | None => None
                         | Some p => match s64 (p * snd xd) with
                                     | None => None
                                     | Some q => s64 (q - fst xd)
                                     end
                         end) (l : list (Z * Z)) None = None) by (induction l; auto).
      intros ll. rewrite Hn. congruence. }
  apply s64_Some in Ea. subst a. apply c_fast_horner in Hf. subst fast.
  eapply cong_trans.
  { apply cong_add; [apply cong_refl|]. apply pos_horner. apply cong_w64. }
  rewrite Z.add_comm. rewrite horner_add by (rewrite ?dims_of_length; lia).
  rewrite horner_row by auto. simpl row_major.
  replace ((x + - l) * box_size lo hi) with ((x - l) * box_size lo hi) by ring.
  apply cong_refl.
Qed.

Lemma c_addr_exact base sz lo hi idx a :
  lo <> [] -> in_box lo hi idx -> 0 <= base -> 0 < sz -> base + sz * box_size lo hi <= two64 ->
  c_addr base sz lo (dims_of lo hi) idx = Some a ->
  a = base + sz * row_major lo hi idx.
Proof.
  intros Hne Hb Hbase Hsz Hfit H. unfold c_addr in H.
  destruct (c_fast lo (dims_of lo hi)) as [fast|] eqn:Ef; [|congruence].
  inversion H; subst a; clear H.
  pose proof (c_pos_cong _ _ _ _ Hne Hb Ef) as Hc.
  pose proof (row_major_bound _ _ _ Hb) as Hr.
  rewrite <- (w64_small (base + sz * row_major lo hi idx)) by nia.
  apply w64_cong. eapply cong_trans.
  { apply cong_add; [apply cong_w64|apply cong_refl]. }
  replace (base + sz * fast + sz * c_pos (dims_of lo hi) idx)
    with (base + sz * (fast + c_pos (dims_of lo hi) idx)) by ring.
  apply cong_add; [apply cong_refl|]. now apply cong_mul_l.
Qed.

Lemma addresses_block_exact (addr : vec -> Z) (pos : vec -> Z) base sz lo hi :
  0 < sz ->
  (forall p, in_box lo hi p -> 0 <= pos p < box_size lo hi) ->
  (forall p q, in_box lo hi p -> in_box lo hi q -> pos p = pos q -> p = q) ->
  (forall k, 0 <= k < box_size lo hi -> exists p, in_box lo hi p /\ pos p = k) ->
  (forall p, in_box lo hi p -> addr p = base + sz * pos p) ->
  addresses_block addr base sz (box_size lo hi) lo hi.
Proof.
  intros Hsz H1 H2 H3 Ha. split; [|split].
  - intros p Hp. exists (pos p). auto.
  - intros p q Hp Hq E. rewrite !Ha in E by auto. apply H2; auto. nia.
  - intros k Hk. destruct (H3 k Hk) as (p & Hp & <-). exists p. auto.
Qed.

Definition the_addr (o : option Z) : Z := match o with Some a => a | None => -1 end.

Theorem c_storage_block base sz lo hi fast :
  lo <> [] -> box_ok lo hi -> 0 <= base -> 0 < sz -> base + sz * box_size lo hi <= two64 ->
  c_fast lo (dims_of lo hi) = Some fast ->
  exists addr, (forall p, c_addr base sz lo (dims_of lo hi) p = Some (addr p)) /\
    addresses_block addr base sz (box_size lo hi) lo hi /\
    (forall p, in_box lo hi p -> addr p = base + sz * row_major lo hi p).
Proof.
  intros Hne Hok Hb Hsz Hfit Hf.
  exists (fun p => w64 (w64 (base + sz * fast) + sz * c_pos (dims_of lo hi) p)).
  assert (E : forall p, c_addr base sz lo (dims_of lo hi) p =
                        Some (w64 (w64 (base + sz * fast) + sz * c_pos (dims_of lo hi) p))).
  { intros p. unfold c_addr. rewrite Hf. reflexivity. }
  assert (Hx : forall p, in_box lo hi p ->
     w64 (w64 (base + sz * fast) + sz * c_pos (dims_of lo hi) p) = base + sz * row_major lo hi p).
  { intros p Hp. eapply c_addr_exact; eauto. }
  split; [exact E|]. split; [|exact Hx].
  apply addresses_block_exact with (pos := row_major lo hi); auto.
  - intros. now apply row_major_bound.
  - intros. eapply row_major_inj; eauto.
  - intros. now apply row_major_surj.
Qed.

(** ** Fortran order *)
Lemma box_size_app lo : forall hi lo' hi', length hi = length lo ->
  box_size (lo ++ lo') (hi ++ hi') = box_size lo hi * box_size lo' hi'.
Proof.
  induction lo as [|l lo IH]; intros [|h hi] lo' hi'; simpl; try lia.
  intros H. rewrite IH by lia. ring.
Qed.

Lemma box_size_rev lo : forall hi, length hi = length lo -> box_size (rev lo) (rev hi) = box_size lo hi.
Proof.
  induction lo as [|l lo IH]; intros [|h hi]; simpl; try lia. intros H.
  rewrite box_size_app by (rewrite !rev_length; lia). rewrite IH by lia. simpl. ring.
Qed.

Lemma row_major_snoc lo : forall hi p l h x,
  length hi = length lo -> length p = length lo ->
  row_major (lo ++ [l]) (hi ++ [h]) (p ++ [x]) = row_major lo hi p * (h - l + 1) + (x - l).
Proof.
  induction lo as [|l0 lo IH]; intros [|h0 hi] [|x0 p] l h x; simpl; try lia.
  intros H1 H2. rewrite IH by lia. rewrite box_size_app by lia. simpl. ring.
Qed.

Lemma col_major_rev lo : forall hi p, length hi = length lo -> length p = length lo ->
  row_major (rev lo) (rev hi) (rev p) = col_major lo hi p.
Proof.
  induction lo as [|l lo IH]; intros [|h hi] [|x p]; simpl; try lia.
  intros H1 H2. rewrite row_major_snoc by (rewrite !rev_length; lia). rewrite IH by lia. ring.
Qed.

Lemma dims_of_rev lo : forall hi, length hi = length lo -> rev (dims_of lo hi) = dims_of (rev lo) (rev hi).
Proof.
  assert (Happ : forall a b a' b', length b = length a ->
     dims_of (a ++ a') (b ++ b') = dims_of a b ++ dims_of a' b').
  { unfold dims_of. induction a; intros [|y b] a' b'; simpl; try lia; auto. intros H. f_equal. apply IHa. lia. }
  induction lo as [|l lo IH]; intros [|h hi]; simpl; try lia; auto. intros H.
  rewrite Happ by (rewrite !rev_length; lia). rewrite <- IH by lia. reflexivity.
Qed.

Lemma f_pos_cong lo hi idx :
  lo <> [] -> in_box lo hi idx ->
  cong (f_fast lo (dims_of lo hi) + f_pos (dims_of lo hi) idx) (col_major lo hi idx).
Proof.
  intros Hne Hb. pose proof (in_box_length _ _ _ Hb) as [Hl1 Hl2].
  rewrite <- col_major_rev by lia.
  unfold f_fast, f_pos. rewrite dims_of_rev by lia.
  assert (Hb' := in_box_rev _ _ _ Hb).
  assert (Hne' : rev lo <> []).
  { intros E. apply (f_equal (@length Z)) in E. rewrite rev_length in E. destruct lo; simpl in *; congruence || lia. }
  generalize dependent (rev lo). generalize (rev hi). generalize (rev idx). clear.
  intros idx hi [|l lo] Hb Hne; [congruence|].
  destruct hi as [|h hi]; [simpl in Hb; tauto|]. destruct idx as [|x idx]; [simpl in Hb; tauto|].
  simpl in Hb. destruct Hb as [Hx Hp]. pose proof (in_box_length _ _ _ Hp) as [Hl1 Hl2].
  unfold dims_of. cbn [vmap2]. fold (dims_of lo hi).
  eapply cong_trans.
  { apply cong_add; [apply fast_horner; apply cong_w64|apply pos_horner; apply cong_w64]. }
  rewrite Z.add_comm. rewrite horner_add by (rewrite ?dims_of_length; lia).
  rewrite horner_row by auto. simpl row_major.
  replace ((x + - l) * box_size lo hi) with ((x - l) * box_size lo hi) by ring.
  apply cong_refl.
Qed.

Lemma col_major_bound lo hi p : in_box lo hi p -> 0 <= col_major lo hi p < box_size lo hi.
Proof.
  intros Hb. pose proof (in_box_length _ _ _ Hb) as [H1 H2].
  rewrite <- col_major_rev by lia. rewrite <- box_size_rev by lia.
  apply row_major_bound. now apply in_box_rev.
Qed.

Lemma col_major_inj lo hi p q :
  in_box lo hi p -> in_box lo hi q -> col_major lo hi p = col_major lo hi q -> p = q.
Proof.
  intros Hp Hq E. pose proof (in_box_length _ _ _ Hp) as [H1 H2]. pose proof (in_box_length _ _ _ Hq) as [H3 H4].
  rewrite <- !col_major_rev in E by lia.
  apply (f_equal (@rev Z)) in E || idtac.
  assert (rev p = rev q).
  { eapply row_major_inj; [apply in_box_rev; eauto|apply in_box_rev; eauto|exact E]. }
  apply (f_equal (@rev Z)) in H. now rewrite !rev_involutive in H.
Qed.

Lemma box_ok_rev lo : forall hi, box_ok lo hi -> box_ok (rev lo) (rev hi).
Proof.
  assert (Happ : forall a b a' b', box_ok a b -> box_ok a' b' -> box_ok (a ++ a') (b ++ b')).
  { induction a; intros [|y b] a' b'; simpl; try tauto. intros [H1 H2] H3. auto. }
  induction lo as [|l lo IH]; intros [|h hi]; simpl; try tauto.
  intros [H1 H2]. apply Happ; auto. simpl. auto.
Qed.

Lemma col_major_surj lo hi k :
  box_ok lo hi -> 0 <= k < box_size lo hi -> exists p, in_box lo hi p /\ col_major lo hi p = k.
Proof.
  intros Hok Hk. pose proof (box_ok_length _ _ Hok).
  rewrite <- box_size_rev in Hk by lia.
  destruct (row_major_surj _ _ k (box_ok_rev _ _ Hok) Hk) as (p & Hp & E).
  assert (Hp' : in_box lo hi (rev p)).
  { apply in_box_rev_iff. now rewrite rev_involutive. }
  exists (rev p). split; auto. rewrite <- col_major_rev.
  - now rewrite rev_involutive.
  - lia.
  - apply in_box_length in Hp'. lia.
Qed.

Lemma f_addr_exact base sz lo hi idx :
  lo <> [] -> in_box lo hi idx -> 0 <= base -> 0 < sz -> base + sz * box_size lo hi <= two64 ->
  f_addr base sz lo (dims_of lo hi) idx = base + sz * col_major lo hi idx.
Proof.
  intros Hne Hb Hbase Hsz Hfit. unfold f_addr.
  pose proof (f_pos_cong _ _ _ Hne Hb) as Hc. pose proof (col_major_bound _ _ _ Hb) as Hr.
  rewrite <- (w64_small (base + sz * col_major lo hi idx)) by nia.
  apply w64_cong. eapply cong_trans.
  { apply cong_add; [apply cong_w64|apply cong_refl]. }
  replace (base + sz * f_fast lo (dims_of lo hi) + sz * f_pos (dims_of lo hi) idx)
    with (base + sz * (f_fast lo (dims_of lo hi) + f_pos (dims_of lo hi) idx)) by ring.
  apply cong_add; [apply cong_refl|]. now apply cong_mul_l.
Qed.

Theorem f_storage_block base sz lo hi :
  lo <> [] -> box_ok lo hi -> 0 <= base -> 0 < sz -> base + sz * box_size lo hi <= two64 ->
  addresses_block (f_addr base sz lo (dims_of lo hi)) base sz (box_size lo hi) lo hi /\
  (forall p, in_box lo hi p -> f_addr base sz lo (dims_of lo hi) p = base + sz * col_major lo hi p).
Proof.
  intros Hne Hok Hb Hsz Hfit.
  assert (Hx : forall p, in_box lo hi p -> f_addr base sz lo (dims_of lo hi) p = base + sz * col_major lo hi p).
  { intros p Hp. now apply f_addr_exact. }
  split; [|exact Hx].
  apply addresses_block_exact with (pos := col_major lo hi); auto.
  - intros. now apply col_major_bound.
  - intros. eapply col_major_inj; eauto.
  - intros. now apply col_major_surj.
Qed.

(** ** Allocation size *)
Lemma alloc_size_cong l : forall a b, cong a b ->
  cong (fold_left (fun s d => w64 (s * d)) l a) (fold_left Z.mul l b).
Proof.
  induction l as [|x l IH]; intros a b H; [exact H|]. cbn [fold_left].
  apply IH. eapply cong_trans; [apply cong_w64|]. apply cong_mul; [exact H|apply cong_refl].
Qed.

Lemma fold_mul l : forall a, fold_left Z.mul l a = a * fold_left Z.mul l 1.
Proof.
  induction l as [|x l IH]; intros a; cbn [fold_left]; [lia|].
  rewrite (IH (a * x)), (IH (1 * x)). ring.
Qed.

Lemma fold_mul_dims lo : forall hi, length hi = length lo -> fold_left Z.mul (dims_of lo hi) 1 = box_size lo hi.
Proof.
  induction lo as [|l lo IH]; intros [|h hi]; unfold dims_of; simpl; try lia.
  intros H. fold (dims_of lo hi). rewrite fold_mul. rewrite IH by lia. destruct (h - l + 1); lia.
Qed.

Lemma fold_w64_range l : forall a, 0 <= a < two64 -> 0 <= fold_left (fun s d => w64 (s * d)) l a < two64.
Proof. induction l as [|x l IH]; intros a H; cbn [fold_left]; auto. apply IH. apply w64_range. Qed.

Lemma one_lt_two64 : 1 < two64. Proof. reflexivity. Qed.

Theorem alloc_size_exact lo hi :
  box_ok lo hi -> box_size lo hi < two64 -> alloc_size (dims_of lo hi) = box_size lo hi.
Proof.
  intros Hok Hs. pose proof (box_size_pos _ _ Hok). pose proof (box_ok_length _ _ Hok).
  rewrite <- (w64_small (box_size lo hi)) by lia.
  rewrite <- (w64_small (alloc_size (dims_of lo hi))).
  - apply w64_cong. rewrite <- fold_mul_dims by lia. apply alloc_size_cong, cong_refl.
  - apply fold_w64_range. pose proof one_lt_two64. lia.
Qed.

(** ** Strides *)
Lemma row_major_next lo : forall hi p q d,
  in_box lo hi p -> in_box lo hi q -> next_in d p q ->
  row_major lo hi q = row_major lo hi p + box_size (skipn (S d) lo) (skipn (S d) hi).
Proof.
  induction lo as [|l lo IH]; intros [|h hi] [|x p] [|y q] d; simpl; try tauto.
  - intros _ _ (_ & H & _). simpl in H. lia.
  - intros [Hx Hp] [Hy Hq] (Hlen & Hd & Hn).
    destruct d as [|d].
    + assert (E : y = x + 1) by exact (Hn 0%nat). subst y.
      assert (p = q).
      { apply nth_ext with (d := 0) (d' := 0); [simpl in Hlen; lia|].
        intros i _. symmetry. exact (Hn (S i)). }
      subst q. cbn [skipn]. ring.
    + assert (E : y = x) by exact (Hn 0%nat). subst y.
      rewrite (IH hi p q d); auto; [ring|].
      split; [simpl in Hlen; lia|]. split; [simpl in Hd; lia|].
      intros i. exact (Hn (S i)).
Qed.

Lemma col_major_next lo : forall hi p q d,
  in_box lo hi p -> in_box lo hi q -> next_in d p q ->
  col_major lo hi q = col_major lo hi p + box_size (firstn d lo) (firstn d hi).
Proof.
  induction lo as [|l lo IH]; intros [|h hi] [|x p] [|y q] d; simpl; try tauto.
  - intros _ _ (_ & H & _). simpl in H. lia.
  - intros [Hx Hp] [Hy Hq] (Hlen & Hd & Hn).
    destruct d as [|d].
    + assert (E : y = x + 1) by exact (Hn 0%nat). subst y.
      assert (p = q).
      { apply nth_ext with (d := 0) (d' := 0); [simpl in Hlen; lia|].
        intros i _. symmetry. exact (Hn (S i)). }
      subst q. simpl. ring.
    + assert (E : y = x) by exact (Hn 0%nat). subst y.
      rewrite (IH hi p q d); auto; [simpl; ring|].
      split; [simpl in Hlen; lia|]. split; [simpl in Hd; lia|].
      intros i. exact (Hn (S i)).
Qed.

Lemma box_ok_skipn n : forall lo hi, box_ok lo hi -> box_ok (skipn n lo) (skipn n hi).
Proof. induction n; intros [|l lo] [|h hi]; simpl; try tauto. intros [_ H]. auto. Qed.
Lemma box_ok_firstn n : forall lo hi, box_ok lo hi -> box_ok (firstn n lo) (firstn n hi).
Proof. induction n; intros [|l lo] [|h hi]; simpl; try tauto. intros [H1 H]. auto. Qed.

Lemma dims_of_skipn n : forall lo hi, length hi = length lo ->
  skipn n (dims_of lo hi) = dims_of (skipn n lo) (skipn n hi).
Proof. unfold dims_of. induction n; intros [|l lo] [|h hi]; simpl; try lia; auto. Qed.
Lemma dims_of_firstn n : forall lo hi, length hi = length lo ->
  firstn n (dims_of lo hi) = dims_of (firstn n lo) (firstn n hi).
Proof. unfold dims_of. induction n; intros [|l lo] [|h hi]; simpl; try lia; auto. intros H. f_equal. auto. Qed.

Lemma box_size_skipn_le n : forall lo hi, box_ok lo hi -> box_size (skipn n lo) (skipn n hi) <= box_size lo hi.
Proof.
  induction n; intros [|l lo] [|h hi] H; simpl in *; try tauto; try lia.
  destruct H as [H1 H2]. pose proof (box_size_pos _ _ H2). specialize (IHn _ _ H2). nia.
Qed.
Lemma box_size_firstn_le n : forall lo hi, box_ok lo hi -> box_size (firstn n lo) (firstn n hi) <= box_size lo hi.
Proof.
  induction n; intros [|l lo] [|h hi] H; simpl in *; try tauto; try lia.
  - destruct H as [H1 H2]. pose proof (box_size_pos _ _ H2). nia.
  - destruct H as [H1 H2]. pose proof (box_size_pos _ _ H2). specialize (IHn _ _ H2). nia.
Qed.

Lemma stride_fold lo hi l :
  box_ok lo hi -> box_size lo hi < two64 -> l = dims_of lo hi ->
  fold_left (fun s x => w64 (s * x)) l 1 = box_size lo hi.
Proof. intros H1 H2 ->. now apply alloc_size_exact. Qed.

Theorem c_stride_exact lo hi d :
  box_ok lo hi -> box_size lo hi < two64 ->
  c_stride (dims_of lo hi) d = box_size (skipn (S d) lo) (skipn (S d) hi).
Proof.
  intros Hok Hs. unfold c_stride. pose proof (box_ok_length _ _ Hok).
  pose proof (box_size_skipn_le (S d) _ _ Hok).
  assert (length (skipn (S d) hi) = length (skipn (S d) lo)) by (rewrite !skipn_length; lia).
  rewrite dims_of_skipn by lia. rewrite dims_of_rev by lia.
  rewrite <- (box_size_rev (skipn (S d) lo)) by lia. eapply stride_fold; [| |reflexivity].
  - apply box_ok_rev, box_ok_skipn; auto.
  - rewrite box_size_rev by lia. lia.
Qed.

Theorem f_stride_exact lo hi d :
  box_ok lo hi -> box_size lo hi < two64 ->
  f_stride (dims_of lo hi) d = box_size (firstn d lo) (firstn d hi).
Proof.
  intros Hok Hs. unfold f_stride. pose proof (box_ok_length _ _ Hok).
  pose proof (box_size_firstn_le d _ _ Hok).
  rewrite dims_of_firstn by lia. eapply stride_fold; [| |reflexivity].
  - now apply box_ok_firstn.
  - lia.
Qed.

Theorem strides_address_neighbours base sz lo hi p q d :
  lo <> [] -> box_ok lo hi -> 0 <= base -> 0 < sz -> base + sz * box_size lo hi <= two64 ->
  box_size lo hi < two64 ->
  in_box lo hi p -> in_box lo hi q -> next_in d p q ->
  (forall a b, c_addr base sz lo (dims_of lo hi) p = Some a -> c_addr base sz lo (dims_of lo hi) q = Some b ->
     b = a + sz * c_stride (dims_of lo hi) d) /\
  f_addr base sz lo (dims_of lo hi) q =
  f_addr base sz lo (dims_of lo hi) p + sz * f_stride (dims_of lo hi) d.
Proof.
  intros Hne Hok Hb Hsz Hfit Hs Hp Hq Hn. split.
  - intros a b Ha Hb'.
    rewrite (c_addr_exact _ _ _ _ _ _ Hne Hp Hb Hsz Hfit Ha).
    rewrite (c_addr_exact _ _ _ _ _ _ Hne Hq Hb Hsz Hfit Hb').
    rewrite c_stride_exact by auto. rewrite (row_major_next _ _ _ _ _ Hp Hq Hn). ring.
  - rewrite !f_addr_exact by auto. rewrite f_stride_exact by auto.
    rewrite (col_major_next _ _ _ _ _ Hp Hq Hn). ring.
Qed.

(** ** When the bias of the C-order storage does not overflow *)
Lemma c_fast_small_loop L R B l : forall j P p,
  0 <= L -> 1 <= P -> 0 <= j ->
  Forall (fun xd => Z.abs (fst xd) <= L /\ 1 <= snd xd) l ->
  P * fold_left Z.mul (map snd l) 1 <= B -> j + Z.of_nat (length l) <= R -> L * R * B < 2 ^ 63 ->
  Z.abs p <= L * j * P ->
  fold_left (fun p xd => match p with
                         | None => None
                         | Some p => match s64 (p * snd xd) with
                                     | None => None
                                     | Some q => s64 (q - fst xd)
                                     end
                         end) l (Some p) <> None.
Proof.
  induction l as [|[x d] l IH]; intros j P p HL HP Hj Hl HB HR HLRB Hp; [discriminate|].
  inversion Hl as [|? ? [Hx Hd] Hl']; subst. cbn [fst snd] in *.
  cbn [fold_left map length fst snd] in *.
  assert (Hprod : forall m a, 1 <= a -> Forall (fun z => 1 <= z) m -> 1 <= fold_left Z.mul m a).
  { induction m as [|z m IHm]; intros a Ha Hm; auto. inversion Hm; subst. cbn [fold_left]. apply IHm; auto. nia. }
  assert (Hl1 : Forall (fun z => 1 <= z) (map snd l)).
  { apply Forall_forall. intros z Hz. apply in_map_iff in Hz. destruct Hz as ([u w] & <- & Hin).
    rewrite Forall_forall in Hl'. apply (Hl' _ Hin). }
  pose proof (Hprod _ 1 ltac:(lia) Hl1) as Hq.
  rewrite fold_mul in HB. set (Q := fold_left Z.mul (map snd l) 1) in *.
  assert (HPd : 1 <= P * d) by nia.
  assert (HPB : P * d <= B) by nia.
  assert (HjR : j + 1 <= R) by lia.
  assert (Hbig : L * (j + 1) * (P * d) <= L * R * B).
  { transitivity (L * R * (P * d)); [|apply Z.mul_le_mono_nonneg_l; [apply Z.mul_nonneg_nonneg; lia|lia]].
    apply Z.mul_le_mono_nonneg_r; [lia|]. apply Z.mul_le_mono_nonneg_l; lia. }
  assert (Hmul : Z.abs (p * d) <= L * j * (P * d)).
  { rewrite Z.abs_mul. rewrite (Z.abs_eq d) by lia. nia. }
  assert (Hnew : Z.abs (p * d - x) <= L * (j + 1) * (P * d)) by nia.
  assert (Hle : L * j * (P * d) <= L * (j + 1) * (P * d)) by nia.
  assert (E1 : s64 (p * d) = Some (p * d)).
  { unfold s64. destruct (- 2 ^ 63 <=? p * d) eqn:A; [|apply Z.leb_gt in A; lia].
    destruct (p * d <? 2 ^ 63) eqn:A2; [reflexivity|apply Z.ltb_ge in A2; lia]. }
  assert (E2 : s64 (p * d - x) = Some (p * d - x)).
  { unfold s64. destruct (- 2 ^ 63 <=? p * d - x) eqn:A; [|apply Z.leb_gt in A; lia].
    destruct (p * d - x <? 2 ^ 63) eqn:A2; [reflexivity|apply Z.ltb_ge in A2; lia]. }
  rewrite E1, E2. apply (IH (j + 1) (P * d)); auto; try lia.
Qed.

Theorem c_fast_small lo hi L :
  box_ok lo hi -> Forall (fun l => Z.abs l <= L) lo ->
  L * Z.of_nat (length lo) * box_size lo hi < 2 ^ 63 -> c_fast lo (dims_of lo hi) <> None.
Proof.
  destruct lo as [|l lo]; [discriminate|]. destruct hi as [|h hi]; [simpl; tauto|].
  intros [Hlh Hok] HL Hb. unfold c_fast, dims_of. cbn [vmap2].
  change (vmap2 (fun l h => h - l + 1) lo hi) with (dims_of lo hi).
  inversion HL as [|? ? Hl HL']; subst.
  pose proof (box_ok_length _ _ Hok) as Hlen. pose proof (box_size_pos _ _ Hok) as Hpos.
  cbn [box_size length] in Hb.
  set (S0 := box_size lo hi) in *.
  assert (HR : 1 <= Z.of_nat (Datatypes.S (length lo))) by lia.
  set (R := Z.of_nat (Datatypes.S (length lo))) in *.
  assert (Hb2 : L * R * S0 < 2 ^ 63).
  { assert (0 <= L * R) by nia. assert (S0 <= (h - l + 1) * S0) by nia. nia. }
  assert (HLsmall : L < 2 ^ 63).
  { assert (1 <= R * S0) by nia. assert (L <= L * (R * S0)) by nia. lia. }
  assert (E : s64 (- l) = Some (- l)).
  { unfold s64. destruct (- 2 ^ 63 <=? - l) eqn:A; [|apply Z.leb_gt in A; lia].
    destruct (- l <? 2 ^ 63) eqn:A2; [reflexivity|apply Z.ltb_ge in A2; lia]. }
  rewrite E.
  assert (Hcomb : combine lo (dims_of lo hi) = combine lo (dims_of lo hi)) by reflexivity.
  assert (Hdl : length (dims_of lo hi) = length lo) by now apply dims_of_length.
  assert (Hsnd : map snd (combine lo (dims_of lo hi)) = dims_of lo hi).
  { clear -Hdl. revert Hdl. generalize (dims_of lo hi). induction lo; intros [|y m]; simpl; intros; try lia; auto.
    f_equal. apply IHlo. lia. }
  apply (c_fast_small_loop L R S0 _ 1 1); try lia.
  - clear -HL' Hok. revert hi Hok. induction HL' as [|l lo Hl HL IH]; intros [|h hi]; simpl; intros Hok; auto; try tauto.
    constructor; [simpl; lia|]. apply IH. tauto.
  - rewrite Hsnd. rewrite fold_mul_dims by lia. fold S0. lia.
  - rewrite combine_length, Hdl, Nat.min_id. unfold R. lia.
Qed.

Theorem c_storage_block_small base sz lo hi L :
  lo <> [] -> box_ok lo hi -> 0 <= base -> 0 < sz -> base + sz * box_size lo hi <= two64 ->
  Forall (fun l => Z.abs l <= L) lo -> L * Z.of_nat (length lo) * box_size lo hi < 2 ^ 63 ->
  exists addr, (forall p, c_addr base sz lo (dims_of lo hi) p = Some (addr p)) /\
    addresses_block addr base sz (box_size lo hi) lo hi /\
    (forall p q, in_box lo hi p -> in_box lo hi q -> next_in (length lo - 1) p q -> addr q = addr p + sz).
Proof.
  intros Hne Hok Hb Hsz Hfit HL HLb.
  pose proof (c_fast_small lo hi L Hok HL HLb) as Hf.
  destruct (c_fast lo (dims_of lo hi)) as [fast|] eqn:E; [|congruence].
  destruct (c_storage_block base sz lo hi fast Hne Hok Hb Hsz Hfit E) as (addr & H1 & H2 & H3).
  exists addr. split; [exact H1|]. split; [exact H2|].
  intros p q Hp Hq Hn. rewrite !H3 by auto. rewrite (row_major_next _ _ _ _ _ Hp Hq Hn).
  assert (Hk : skipn (S (length lo - 1)) lo = []).
  { apply skipn_all2. lia. }
  rewrite Hk. simpl. ring.
Qed.

Theorem f_storage_block_first base sz lo hi :
  lo <> [] -> box_ok lo hi -> 0 <= base -> 0 < sz -> base + sz * box_size lo hi <= two64 ->
  addresses_block (f_addr base sz lo (dims_of lo hi)) base sz (box_size lo hi) lo hi /\
  (forall p q, in_box lo hi p -> in_box lo hi q -> next_in 0 p q ->
     f_addr base sz lo (dims_of lo hi) q = f_addr base sz lo (dims_of lo hi) p + sz).
Proof.
  intros Hne Hok Hb Hsz Hfit. destruct (f_storage_block base sz lo hi Hne Hok Hb Hsz Hfit) as [H1 H2].
  split; [exact H1|]. intros p q Hp Hq Hn. rewrite !H2 by auto.
  rewrite (col_major_next _ _ _ _ _ Hp Hq Hn). simpl. ring.
Qed.

Theorem storage_exact base sz lo hi p :
  lo <> [] -> 0 <= base -> 0 < sz -> base + sz * box_size lo hi <= two64 -> in_box lo hi p ->
  f_addr base sz lo (dims_of lo hi) p = base + sz * col_major lo hi p /\
  (forall a, c_addr base sz lo (dims_of lo hi) p = Some a -> a = base + sz * row_major lo hi p).
Proof.
  intros Hne Hb Hsz Hfit Hp. split.
  - now apply f_addr_exact.
  - intros a Ha. eapply c_addr_exact; eauto.
Qed.

Theorem c_bias_overflow_witness :
  exists lo hi, box_ok lo hi /\ box_size lo hi < two64 /\
    Forall (fun x => - 2 ^ 31 <= x < 2 ^ 31) (lo ++ hi) /\
    forall base sz p, c_addr base sz lo (dims_of lo hi) p = None.
Proof.
  exists [2 ^ 31 - 1; 0; 0], [2 ^ 31 - 1; 2 ^ 17 - 1; 2 ^ 16 - 1].
  split; [simpl; lia|]. split; [vm_compute; reflexivity|]. split.
  - repeat constructor; vm_compute; congruence.
  - intros. unfold c_addr.
    replace (c_fast _ _) with (@None Z) by (vm_compute; reflexivity). reflexivity.
Qed.
