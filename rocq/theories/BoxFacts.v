(** Enumeration of boxes: an explicit list and its characterisation. *)
From Verif Require Import Vec GridSpec RangeModel.
From Coq Require Import Sorted.

Lemma vget_cons_S x v i : vget (x :: v) (S i) = vget v i.
Proof. reflexivity. Qed.

Lemma vset_length v i x : length (vset v i x) = length v.
Proof. revert i; induction v as [|y v IH]; intros [|i]; simpl; auto. Qed.

Lemma vget_vset_same v i x : (i < length v)%nat -> vget (vset v i x) i = x.
Proof.
  revert i; induction v as [|y v IH]; intros [|i]; simpl; intros H; try lia; auto.
  unfold vget; simpl. apply IH. lia.
Qed.

Lemma vget_vset_other v i j x : i <> j -> vget (vset v i x) j = vget v j.
Proof.
  revert i j; induction v as [|y v IH]; intros [|i] [|j] H; simpl; auto; try lia.
  unfold vget; simpl. apply IH. lia.
Qed.

Lemma vset_app_r a b i x :
  vset (a ++ b) (length a + i) x = a ++ vset b i x.
Proof. induction a; simpl; auto. now f_equal. Qed.

Lemma vset_firstn_skipn v i x :
  (i < length v)%nat -> vset v i x = firstn i v ++ x :: skipn (S i) v.
Proof.
  revert i; induction v as [|y v IH]; intros [|i] H; simpl in *; try lia; auto.
  f_equal. apply IH. lia.
Qed.

Lemma firstn_snoc {A} (v : list A) i d : (i < length v)%nat -> firstn (S i) v = firstn i v ++ [nth i v d].
Proof.
  revert i; induction v as [|y v IH]; intros [|i] H; simpl in *; try lia; auto.
  f_equal. apply IH. lia.
Qed.

Lemma skipn_cons {A} (v : list A) i d : (i < length v)%nat -> skipn i v = nth i v d :: skipn (S i) v.
Proof.
  revert i; induction v as [|y v IH]; intros [|i] H; simpl in *; try lia; auto.
  apply IH. lia.
Qed.

(** ** zloop *)
Lemma zloop_In lo hi x : In x (zloop lo hi) <-> lo <= x <= hi.
Proof.
  unfold zloop. rewrite in_map_iff. split.
  - intros (k & <- & Hk). apply in_seq in Hk. lia.
  - intros H. exists (Z.to_nat (x - lo)). split; [lia|]. apply in_seq. lia.
Qed.

Lemma zloop_empty lo hi : hi < lo -> zloop lo hi = [].
Proof. intros H. unfold zloop. replace (Z.to_nat (hi - lo + 1)) with 0%nat by lia. reflexivity. Qed.

Lemma zloop_cons lo hi : lo <= hi -> zloop lo hi = lo :: zloop (lo + 1) hi.
Proof.
  intros H. unfold zloop.
  replace (Z.to_nat (hi - lo + 1)) with (S (Z.to_nat (hi - (lo + 1) + 1))) by lia.
  cbn [seq map]. f_equal; [lia|]. rewrite <- seq_shift, map_map.
  apply map_ext. intros k. lia.
Qed.

Lemma zloop_length lo hi : length (zloop lo hi) = Z.to_nat (hi - lo + 1).
Proof. unfold zloop. now rewrite map_length, seq_length. Qed.

Lemma zloop_sorted lo hi : StronglySorted Z.lt (zloop lo hi).
Proof.
  remember (Z.to_nat (hi - lo + 1)) as n eqn:E. revert lo E.
  induction n as [|n IH]; intros lo E.
  - rewrite zloop_empty by lia. constructor.
  - rewrite zloop_cons by lia. constructor.
    + apply IH. lia.
    + apply Forall_forall. intros x Hx. apply zloop_In in Hx. lia.
Qed.

(** ** The row-major list *)
Fixpoint box (lo hi : vec) : list vec :=
  match lo, hi with
  | [], [] => [[]]
  | l :: lo', h :: hi' => flat_map (fun x => map (cons x) (box lo' hi')) (zloop l h)
  | _, _ => []
  end.

Lemma in_box_length lo hi p : in_box lo hi p -> length p = length lo /\ length hi = length lo.
Proof.
  revert hi p; induction lo as [|l lo IH]; intros [|h hi] [|x p]; simpl; try tauto.
  intros [_ H]. apply IH in H. lia.
Qed.

Lemma box_In lo hi p : In p (box lo hi) <-> in_box lo hi p.
Proof.
  revert hi p; induction lo as [|l lo IH]; intros [|h hi] p; simpl.
  - destruct p; simpl; intuition congruence.
  - split; [tauto|]. now destruct p.
  - split; [tauto|]. now destruct p.
  - rewrite in_flat_map. destruct p as [|x p].
    + split; [|tauto]. intros (y & _ & H). apply in_map_iff in H. destruct H as (q & H & _). congruence.
    + rewrite <- IH, <- (zloop_In l h x). split.
      * intros (y & Hy & H). apply in_map_iff in H. destruct H as (q & H & Hq).
        inversion H; subst. auto.
      * intros [H1 H2]. exists x. split; [exact H1|]. apply in_map_iff. eauto.
Qed.

Lemma lex_lt_length p q : lex_lt p q -> length p = length q.
Proof. induction 1; simpl; lia. Qed.

Lemma lex_lt_irrefl p : ~ lex_lt p p.
Proof.
  intros H. remember p as q eqn:E in H at 2. revert E. induction H; intros E.
  - inversion E; subst. lia.
  - inversion E; subst. auto.
Qed.

Lemma StronglySorted_app {A} (R : A -> A -> Prop) l1 l2 :
  StronglySorted R l1 -> StronglySorted R l2 -> (forall x y, In x l1 -> In y l2 -> R x y) ->
  StronglySorted R (l1 ++ l2).
Proof.
  induction l1 as [|a l1 IH]; simpl; intros H1 H2 H; auto.
  inversion H1; subst. constructor.
  - apply IH; auto.
  - apply Forall_app. split; auto. apply Forall_forall. auto.
Qed.

Lemma StronglySorted_map {A B} (R : A -> A -> Prop) (R' : B -> B -> Prop) (f : A -> B) l :
  (forall x y, In x l -> In y l -> R x y -> R' (f x) (f y)) ->
  StronglySorted R l -> StronglySorted R' (map f l).
Proof.
  induction l as [|a l IH]; simpl; intros H H1; constructor; inversion H1; subst.
  - apply IH; auto.
  - apply Forall_map. eapply Forall_impl; [|apply Forall_forall; intros y Hy; exact Hy].
    simpl. intros y Hy. apply H; auto. rewrite Forall_forall in H4. auto.
Qed.

Lemma StronglySorted_NoDup {A} (R : A -> A -> Prop) l :
  (forall x, ~ R x x) -> StronglySorted R l -> NoDup l.
Proof.
  intros Hi. induction 1; constructor; auto. intros HI.
  rewrite Forall_forall in H0. eapply Hi. eauto.
Qed.

Lemma box_sorted lo hi : StronglySorted lex_lt (box lo hi).
Proof.
  revert hi; induction lo as [|l lo IH]; intros [|h hi]; simpl; try constructor; try constructor.
  pose proof (zloop_sorted l h) as Hs. induction (zloop l h) as [|x xs IHx]; simpl; [constructor|].
  inversion Hs; subst. apply StronglySorted_app.
  - eapply StronglySorted_map; [|apply IH]. intros. now constructor.
  - auto.
  - intros p q Hp Hq. apply in_map_iff in Hp. destruct Hp as (p' & <- & Hp).
    apply in_flat_map in Hq. destruct Hq as (y & Hy & Hq).
    apply in_map_iff in Hq. destruct Hq as (q' & <- & Hq).
    constructor.
    + rewrite Forall_forall in H2. auto.
    + apply box_In, in_box_length in Hp. apply box_In, in_box_length in Hq. lia.
Qed.

Lemma box_NoDup lo hi : NoDup (box lo hi).
Proof. eapply StronglySorted_NoDup; [apply lex_lt_irrefl|apply box_sorted]. Qed.

Lemma box_enumerates lo hi : enumerates lex_lt lo hi (box lo hi).
Proof. split; [|split]; [apply box_In|apply box_sorted|apply box_NoDup]. Qed.

Lemma box_ok_length lo hi : box_ok lo hi -> length hi = length lo.
Proof. revert hi; induction lo; intros [|h hi]; simpl; try tauto. intros [_ H]. f_equal. auto. Qed.

Lemma box_ok_in_box_lo lo hi : box_ok lo hi -> in_box lo hi lo.
Proof. revert hi; induction lo; intros [|h hi]; simpl; try tauto. intros [H1 H]. split; [lia|auto]. Qed.

Lemma box_size_pos lo hi : box_ok lo hi -> 0 < box_size lo hi.
Proof.
  revert hi; induction lo as [|l lo IH]; intros [|h hi]; simpl; try tauto; try lia.
  intros [H1 H]. apply IH in H. nia.
Qed.

Lemma flat_map_const_length {A B} (f : A -> list B) n l :
  (forall x, length (f x) = n) -> length (flat_map f l) = (length l * n)%nat.
Proof. intros H. induction l; simpl; auto. rewrite app_length, H, IHl. reflexivity. Qed.

Lemma box_length lo hi : box_ok lo hi -> Z.of_nat (length (box lo hi)) = box_size lo hi.
Proof.
  revert hi; induction lo as [|l lo IH]; intros [|h hi]; simpl; try tauto.
  intros [H1 H]. specialize (IH _ H).
  rewrite flat_map_const_length with (n := length (box lo hi)) by (intros; now rewrite map_length).
  rewrite zloop_length. rewrite Nat2Z.inj_mul, IH. lia.
Qed.

(** ** The column-major list *)
Definition fbox (lo hi : vec) : list vec := map (@rev Z) (box (rev lo) (rev hi)).

Lemma in_box_app lo hi p lo' hi' p' :
  length lo = length hi -> length lo = length p ->
  in_box (lo ++ lo') (hi ++ hi') (p ++ p') <-> in_box lo hi p /\ in_box lo' hi' p'.
Proof.
  revert hi p; induction lo as [|l lo IH]; intros [|h hi] [|x p]; simpl; try lia; try tauto.
  intros H1 H2. rewrite IH by lia. tauto.
Qed.

Lemma in_box_rev lo hi p : in_box lo hi p -> in_box (rev lo) (rev hi) (rev p).
Proof.
  revert hi p; induction lo as [|l lo IH]; intros [|h hi] [|x p]; simpl; try tauto.
  intros [H1 H2]. pose proof (in_box_length _ _ _ H2).
  apply in_box_app; rewrite ?rev_length; try lia. simpl. auto.
Qed.

Lemma in_box_rev_iff lo hi p : in_box (rev lo) (rev hi) (rev p) <-> in_box lo hi p.
Proof.
  split; intros H.
  - apply in_box_rev in H. now rewrite !rev_involutive in H.
  - now apply in_box_rev.
Qed.

Lemma fbox_In lo hi p : In p (fbox lo hi) <-> in_box lo hi p.
Proof.
  unfold fbox. rewrite in_map_iff. split.
  - intros (q & <- & H). apply box_In in H. apply in_box_rev_iff. now rewrite rev_involutive.
  - intros H. exists (rev p). rewrite rev_involutive. split; auto. now apply box_In, in_box_rev_iff.
Qed.

Lemma fbox_sorted lo hi : StronglySorted colex_lt (fbox lo hi).
Proof.
  unfold fbox. eapply StronglySorted_map; [|apply box_sorted].
  intros x y _ _ H. unfold colex_lt. now rewrite !rev_involutive.
Qed.

Lemma fbox_enumerates lo hi : enumerates colex_lt lo hi (fbox lo hi).
Proof.
  split; [|split]; [apply fbox_In|apply fbox_sorted|].
  eapply StronglySorted_NoDup; [|apply fbox_sorted]. intros x. apply lex_lt_irrefl.
Qed.

Lemma map_flat_map {A B C} (f : A -> list B) (g : B -> C) l :
  map g (flat_map f l) = flat_map (fun x => map g (f x)) l.
Proof. induction l; simpl; auto. rewrite map_app, IHl. reflexivity. Qed.

Lemma fbox_snoc lo hi l h :
  fbox (lo ++ [l]) (hi ++ [h]) = flat_map (fun x => map (fun p => p ++ [x]) (fbox lo hi)) (zloop l h).
Proof.
  unfold fbox. rewrite !rev_app_distr. simpl. rewrite map_flat_map.
  apply flat_map_ext. intros x. rewrite !map_map. apply map_ext. intros p. reflexivity.
Qed.
