(** Concrete array programs and wrapper lemmas for ArrayProps. *)
From Coq Require Import QArith Qround Floats.SpecFloat.
From Verif Require Import Vec ShareModel ArrayModel ArraySpec ArrayProofs.
Open Scope Z_scope.

Lemma array_programs : forall F (fo : fops F) t N p c s,
  holds fo t N c s -> Forall (stmt_ok t N) p ->
  (forall c', run_a fo c p = Some c' -> exists s', spec_run fo N s p s' /\ holds fo t N c' s') /\
  (forall s', spec_run fo N s p s' -> exists c', run_a fo c p = Some c' /\ holds fo t N c' s').
Proof.
  intros F fo t N p c s H Ok. split.
  - intros c'. apply run_forward; assumption.
  - intros s'. apply run_backward with (1 := H); assumption.
Qed.

(** Integer arrays only: the floating point type is unused. *)
Definition zops : fops unit := mkFops unit (fun _ _ _ => tt) (fun _ => tt) (fun _ => tt) (fun _ => 0).

Definition ex_list (x : nat) : list (num unit) :=
  match x with O => [NI 1; NI 2; NI 3] | S O => [NI 4; NI 5; NI 6] | _ => [NI 0; NI 0; NI 0] end.
Definition ex_arrays : ast_ unit := mkAst (fun x => (TI, ex_list x)) (fun _ => None).
Definition ex_arrays_spec : sst (F:=unit) := mkSst (fun x i => nth i (ex_list x) (NI 0)) (fun _ => None).

(** auto e = a + b;  a = b - a;  a *= a[0];  b = -a (stored: e still old);  b = e;  a.fill(a[1]);
    a -= a * a[2] ... *)
Definition ex_array_prog : list (astmt unit) :=
  [ StLet 0 (ABin Plus (AArr 0%nat) (AArr 1%nat));
    StAssign 0 (ABin Minus (AArr 1%nat) (AArr 0%nat));
    StScal Mult 0 (SElem 0 0);
    StAssign 1 (AObj 0%nat);
    StCompound Minus 0 (AScalR Mult (AArr 0%nat) (SElem 0 1));
    StCompound Plus 0 (AArr 0%nat);
    StFill 0 (SElem 0 1);
    StScal Div 0 (SLit (NI 8));
    StAssign 0 (AScalL Mult (SLit (NI 2)) (AArr 0%nat));
    StCompound Mult 2 (AArr 2%nat);
    StCompound Plus 0 (AUn true 2);
    StAssign 0 (ABin Mult (AObj 0%nat) (ABin Minus (AObj 0%nat) (AObj 0%nat)));
    StCompound Minus 0 (AScalL Plus (SLit (NI 18)) (AArr 2%nat));
    StAssign 2 (AArr 0%nat);
    StAssign 0 (ABin Div (ABin Mult (AArr 0%nat) (AArr 2%nat)) (AUn false 2)) ].

Lemma ex_array_ok :
  holds zops TI 3 ex_arrays ex_arrays_spec /\ Forall (stmt_ok TI 3) ex_array_prog /\
  option_map (fun c => (snd (a_arr c 0%nat), snd (a_arr c 1%nat))) (run_a zops ex_arrays ex_array_prog) =
  Some ([NI (-18); NI (-18); NI (-18)], [NI 5; NI 7; NI 9]).
Proof.
  split; [|split].
  - split; [|intros k; exact I]. intros x. split; [reflexivity|]. split; [destruct x as [|[|]]; reflexivity|].
    intros i Hi. destruct i as [|[|[|]]]; [| | |lia]; destruct x as [|[|]]; split; reflexivity.
  - unfold ex_array_prog. repeat constructor.
  - vm_compute. reflexivity.
Qed.

(** Exact rational arithmetic as the floating point type. *)
Definition qtrunc (q : Q) : Z := Z.quot (Qnum q) (Zpos (Qden q)).
Definition qops : fops Q :=
  mkFops Q (fun op x y => match op with Plus => Qred (x + y) | Minus => Qred (x - y) | Mult => Qred (x * y) | Div => Qred (x / y) end)%Q
         (fun x => Qred (- x)) inject_Z qtrunc.

Lemma mixed_types : exists (F : Type) (fo : fops F) c e i v w,
  fst (a_arr c 0%nat) = TF /\ fst (a_arr c 1%nat) = TF /\
  e = AScalR Mult (ABin Plus (AArr 0%nat) (AArr 1%nat)) (SLit (NI 2)) /\
  (exists a b s, nth_error (snd (a_arr c 0%nat)) i = Some a /\ nth_error (snd (a_arr c 1%nat)) i = Some b /\
     scalar_op fo Plus a b = Some s /\ scalar_op fo Mult s (NI 2) = Some v) /\
  (exists o, build c e = Some o /\ obj_get fo o i = Some w) /\ v <> w.
Proof.
  exists Q, qops.
  exists (mkAst (fun x => (TF, match x with O => [NF (3 # 4)] | _ => [NF (1 # 2)] end)) (fun _ => None)).
  eexists. exists 0%nat, (NF (5 # 2)), (NI 2).
  split; [reflexivity|]. split; [reflexivity|]. split; [reflexivity|].
  split; [exists (NF (3 # 4)), (NF (1 # 2)), (NF (5 # 4)); repeat split; vm_compute; reflexivity|].
  split; [|discriminate]. eexists. split; [reflexivity|]. vm_compute. reflexivity.
Qed.

Lemma array_comparisons : forall T (le : T -> T -> Prop) (ne ge gt : T -> T -> bool),
  (forall x y, ne x y = false <-> x = y) ->
  (forall x y, ge x y = true <-> le y x) ->
  (forall x y, gt x y = true <-> le y x /\ x <> y) ->
  (forall x, le x x) -> (forall x y z, le x y -> le y z -> le x z) ->
  (forall x y, le x y -> le y x -> x = y) -> (forall x y, le x y \/ le y x) ->
  let c := mkCmp ne ge gt in
  let eq_ := arr_eq c in let le_ := arr_le c in let lt_ := arr_lt c in
  forall a b, length a = length b ->
  (eq_ a b = true <-> a = b) /\
  (arr_ne c a b = negb (eq_ a b)) /\
  (le_ a b = true <-> Forall2 le a b) /\
  (lt_ a b = true <-> Forall2 (fun x y => le x y /\ x <> y) a b) /\
  le_ a a = true /\
  (le_ a b = true -> le_ b a = true -> eq_ a b = true) /\
  (forall d, length d = length a -> le_ a b = true -> le_ b d = true -> le_ a d = true).
Proof.
  intros T le ne ge gt Hne Hge Hgt Rf Tr An To c eq_ le_ lt_.
  assert (Gt : forall x y, gt x y = false <-> le x y).
  { intros x y. destruct (gt x y) eqn:E.
    - apply Hgt in E. destruct E as [L N]. split; [discriminate|]. intros L'. exfalso. apply N, An; assumption.
    - split; [intros _|reflexivity]. destruct (To x y) as [L|L]; [exact L|].
      destruct (ne x y) eqn:En.
      + exfalso. assert (X : gt x y = true); [|congruence]. apply Hgt. split; [exact L|].
        intros Exy. apply Hne in Exy. congruence.
      + apply Hne in En. subst. apply Rf. }
  assert (Ge : forall x y, ge x y = false <-> (le x y /\ x <> y)).
  { intros x y. destruct (ge x y) eqn:E.
    - apply Hge in E. split; [discriminate|]. intros [L N]. exfalso. apply N, An; assumption.
    - split; [intros _|reflexivity]. split.
      + destruct (To x y) as [L|L]; [exact L|]. apply Hge in L. congruence.
      + intros ->. assert (X := Rf y). apply Hge in X. congruence. }
  assert (Eq : forall a b, length a = length b -> eq_ a b = true <-> a = b).
  { intros a b L. unfold eq_, arr_eq. rewrite scan_false_iff by exact L. rewrite <- Forall2_eq_iff.
    split; apply Forall2_impl'; intros x y; apply Hne. }
  assert (Le : forall a b, length a = length b -> le_ a b = true <-> Forall2 le a b).
  { intros a b L. unfold le_, arr_le. rewrite scan_false_iff by exact L.
    split; apply Forall2_impl'; intros x y; apply Gt. }
  intros a b L.
  split; [apply Eq, L|]. split; [apply scan_true_neg|]. split; [apply Le, L|].
  split.
  { unfold lt_, arr_lt. rewrite scan_false_iff by exact L. split; apply Forall2_impl'; intros x y; apply Ge. }
  split; [apply Le; [reflexivity|]; clear - Rf; induction a; constructor; auto|].
  split.
  - rewrite !Le, Eq by congruence. rewrite <- Forall2_eq_iff. clear - An. intros H. induction H; intros H'; inversion H'; subst; constructor; auto.
  - intros d Ld. rewrite !Le by congruence. clear - Tr. intros H. revert d. induction H; intros d H'; inversion H'; subst; constructor; eauto.
Qed.

(** The built-in comparisons of [int] and of [double]. *)
Definition Z_cmp : comparisons Z := mkCmp (fun x y => negb (x =? y)) Z.geb Z.gtb.
Definition sf_cmp : comparisons spec_float :=
  mkCmp (fun x y => negb (SFeqb x y)) (fun x y => SFleb y x) (fun x y => SFltb y x).

Lemma Z_comparisons :
  arr_lt Z_cmp [1; 2; -3] [2; 5; 0] = true /\ arr_lt Z_cmp [1; 2; -3] [2; 5; -3] = false /\
  arr_le Z_cmp [1; 2; -3] [2; 5; -3] = true /\ arr_le Z_cmp [1; 6; -3] [2; 5; -3] = false /\
  (forall x y, Z.geb x y = true <-> y <= x) /\ (forall x y, Z.gtb x y = true <-> y <= x /\ x <> y) /\
  (forall x y, negb (x =? y) = false <-> x = y).
Proof.
  repeat split; try reflexivity; try (intros; apply Z.geb_le; assumption); try (apply Z.geb_le; assumption).
  - intros. apply Z.gtb_lt in H. lia.
  - intros ->. apply Z.gtb_lt in H. lia.
  - intros [A B]. apply Z.gtb_lt. lia.
  - intros H. apply negb_false_iff, Z.eqb_eq in H. exact H.
  - intros ->. rewrite Z.eqb_refl. reflexivity.
Qed.

Lemma nan_comparisons : exists a b : spec_float,
  SFltb a b = false /\ SFleb a b = false /\
  arr_lt sf_cmp [a] [b] = true /\ arr_le sf_cmp [a] [b] = true /\
  arr_eq sf_cmp [a] [a] = false.
Proof. exists S754_nan, (S754_zero false). repeat split. Qed.

Lemma array_product_sum : forall a : list Z,
  arr_product a = fold_right Z.mul 1 a /\ arr_sum a = fold_right Z.add 0 a /\
  arr_sqr a = fold_right Z.add 0 (map (fun v => v * v) a).
Proof.
  intros a. unfold arr_product, arr_sum, arr_sqr. rewrite arr_product_acc, arr_sum_acc, arr_sqr_acc. repeat split; lia.
Qed.

Lemma cross_product_spec : forall T (mul sub : T -> T -> T) r a b (s : store3),
  r <> a -> r <> b ->
  let s' := cross_product mul sub r a b s in
  let '(a0, a1, a2) := s a in let '(b0, b1, b2) := s b in
  s' r = (sub (mul a1 b2) (mul a2 b1), sub (mul a2 b0) (mul a0 b2), sub (mul a0 b1) (mul a1 b0)) /\
  forall x, x <> r -> s' x = s x.
Proof.
  intros T mul sub r a b s Na Nb s'. subst s'. unfold cross_product, c0, c1, c2, upd.
  rewrite !Nat.eqb_refl. rewrite (proj2 (Nat.eqb_neq a r)), (proj2 (Nat.eqb_neq b r)) by congruence.
  destruct (s a) as [[a0 a1] a2], (s b) as [[b0 b1] b2]. cbn [fst snd]. split; [reflexivity|].
  intros x Nx. rewrite !(proj2 (Nat.eqb_neq x r)) by exact Nx. reflexivity.
Qed.

Lemma cross_product_alias : exists s : store3,
  s 0%nat = (1, 2, 3) /\ s 1%nat = (4, 5, 6) /\
  cross_product Z.mul Z.sub 2 0 1 s 2%nat = (-3, 6, -3) /\
  cross_product Z.mul Z.sub 0 0 1 s 0%nat <> (-3, 6, -3) /\
  cross_product Z.mul Z.sub 1 0 1 s 1%nat <> (-3, 6, -3).
Proof.
  exists (fun x => match x with O => (1, 2, 3) | S O => (4, 5, 6) | _ => (0, 0, 0) end).
  split; [reflexivity|]. split; [reflexivity|]. split; [vm_compute; reflexivity|]. split; vm_compute; discriminate.
Qed.

(** ** The cross product under every aliasing *)
Lemma cross_exact : forall T (mul sub : T -> T -> T) r a b (s : store3),
  let s' := cross_product mul sub r a b s in
  let '(a0, a1, a2) := s a in let '(b0, b1, b2) := s b in
  let r0 := sub (mul a1 b2) (mul a2 b1) in
  let a0' := if Nat.eqb a r then r0 else a0 in let b0' := if Nat.eqb b r then r0 else b0 in
  let r1 := sub (mul a2 b0') (mul a0' b2) in
  let a1' := if Nat.eqb a r then r1 else a1 in let b1' := if Nat.eqb b r then r1 else b1 in
  s' r = (r0, r1, sub (mul a0' b1') (mul a1' b0')) /\ forall x, x <> r -> s' x = s x.
Proof.
  intros T mul sub r a b s. cbn zeta.
  destruct (s a) as [[a0 a1] a2] eqn:Ea. destruct (s b) as [[b0 b1] b2] eqn:Eb.
  unfold cross_product. split.
  - unfold upd. rewrite !Nat.eqb_refl.
    destruct (Nat.eqb_spec a r) as [->|Na]; destruct (Nat.eqb_spec b r) as [->|Nb];
      rewrite ?Nat.eqb_refl; cbn [c0 c1 c2 fst snd]; rewrite ?Ea, ?Eb; try reflexivity.
    all: try (rewrite Eb in Ea; injection Ea as -> -> ->).
    all: unfold c0, c1, c2; cbn [fst snd]; rewrite ?Ea, ?Eb; cbn [fst snd]; reflexivity.
  - intros x Hx. unfold upd. apply Nat.eqb_neq in Hx. rewrite Hx. reflexivity.
Qed.

(** With integers and the result in place of the first operand: right in exactly these cases. *)
Lemma cross_aliased_left : forall a b (s : store3), a <> b ->
  let '(a0, a1, a2) := s a in let '(b0, b1, b2) := s b in
  let p0 := a1 * b2 - a2 * b1 in let p1 := a2 * b0 - a0 * b2 in let p2 := a0 * b1 - a1 * b0 in
  cross_product Z.mul Z.sub a a b s a = (p0, p1, p2) <->
  (p0 = a0 \/ b2 = 0) /\ (p0 - a0) * b1 = (p1 - a1) * b0.
Proof.
  intros a b s Nab. pose proof (cross_exact Z Z.mul Z.sub a a b s) as H. cbn zeta in H.
  destruct (s a) as [[a0 a1] a2] eqn:Ea. destruct (s b) as [[b0 b1] b2] eqn:Eb.
  rewrite Nat.eqb_refl in H. assert (E : Nat.eqb b a = false) by (apply Nat.eqb_neq; auto). rewrite E in H.
  destruct H as [H _]. rewrite H. cbn zeta.
  set (p0 := a1 * b2 - a2 * b1). split.
  - intros Q. injection Q as Q1 Q2. rewrite Q1 in Q2. split; [|nia].
    assert (K : (p0 - a0) * b2 = 0) by nia. apply Z.mul_eq_0 in K. destruct K; [left; lia|right; assumption].
  - intros [K L]. assert (M : a2 * b0 - p0 * b2 = a2 * b0 - a0 * b2) by (destruct K as [-> | ->]; ring).
    rewrite M. f_equal. nia.
Qed.

Lemma cross_aliased_right : forall a b (s : store3), a <> b ->
  let '(a0, a1, a2) := s a in let '(b0, b1, b2) := s b in
  let p0 := a1 * b2 - a2 * b1 in let p1 := a2 * b0 - a0 * b2 in let p2 := a0 * b1 - a1 * b0 in
  cross_product Z.mul Z.sub b a b s b = (p0, p1, p2) <->
  (p0 = b0 \/ a2 = 0) /\ a1 * (p0 - b0) = a0 * (p1 - b1).
Proof.
  intros a b s Nab. pose proof (cross_exact Z Z.mul Z.sub b a b s) as H. cbn zeta in H.
  destruct (s a) as [[a0 a1] a2] eqn:Ea. destruct (s b) as [[b0 b1] b2] eqn:Eb.
  rewrite Nat.eqb_refl in H. assert (E : Nat.eqb a b = false) by (apply Nat.eqb_neq; auto). rewrite E in H.
  destruct H as [H _]. rewrite H. cbn zeta.
  set (p0 := a1 * b2 - a2 * b1). split.
  - intros Q. injection Q as Q1 Q2. rewrite Q1 in Q2. split; [|nia].
    assert (K : (p0 - b0) * a2 = 0) by nia. apply Z.mul_eq_0 in K. destruct K; [left; lia|right; assumption].
  - intros [K L]. assert (M : a2 * p0 - a0 * b2 = a2 * b0 - a0 * b2) by (destruct K as [-> | ->]; ring).
    rewrite M. f_equal. nia.
Qed.

(** The product of an array with itself is stored as zero whichever array it is stored in. *)
Lemma cross_self : forall r a (s : store3), cross_product Z.mul Z.sub r a a s r = (0, 0, 0).
Proof.
  intros r a s. pose proof (cross_exact Z Z.mul Z.sub r a a s) as H. cbn zeta in H.
  destruct (s a) as [[a0 a1] a2]. destruct H as [H _]. rewrite H.
  destruct (Nat.eqb a r); repeat f_equal; ring.
Qed.

Lemma ex_cross_aliased : exists s : store3,
  cross_product Z.mul Z.sub 0 0 1 s 0%nat = (6, -12, 30) /\ s 0%nat = (6, 3, 0) /\ s 1%nat = (0, 5, 2) /\
  cross_product Z.mul Z.sub 1 0 1 s 1%nat <> (6, -12, 30).
Proof.
  exists (fun n => match n with O => (6, 3, 0) | _ => (0, 5, 2) end).
  repeat split; try reflexivity. intros E. vm_compute in E. discriminate E.
Qed.

(** ** Comparison of arrays of doubles, NaN included *)
Lemma sf_none : forall x y, SFcompare x y = None <-> x = S754_nan \/ y = S754_nan.
Proof.
  intros x y. split.
  - destruct x as [s|s| |s m e], y as [s'|s'| |s' m' e']; simpl; auto; try discriminate;
      destruct s; try discriminate; destruct s'; try discriminate.
    all: destruct (Z.compare e e'); discriminate.
  - intros [-> | ->]; [reflexivity|]. destruct x; reflexivity.
Qed.

Lemma sf_opp : forall x y, SFcompare y x = option_map CompOpp (SFcompare x y).
Proof.
  intros x y.
  destruct x as [[]|[]| |[] m e], y as [[]|[]| |[] m' e']; try reflexivity; simpl;
    rewrite (Z.compare_antisym e e'); destruct (Z.compare e e'); simpl; try reflexivity.
  all: change (Pos.compare_cont Eq) with Pos.compare; rewrite (Pos.compare_antisym m m');
    destruct (Pos.compare m m'); reflexivity.
Qed.

Lemma sf_ge : forall x y, SFleb y x = false <-> SFltb x y = true \/ x = S754_nan \/ y = S754_nan.
Proof.
  intros x y. unfold SFleb, SFltb. rewrite (sf_opp x y). pose proof (sf_none x y) as N.
  destruct (SFcompare x y) as [[]|]; simpl; split; intros H; auto; try discriminate.
  all: try (destruct H as [H|H]; [discriminate H|apply N in H; discriminate H]).
  right. apply N. reflexivity.
Qed.
Lemma sf_gt : forall x y, SFltb y x = false <-> SFleb x y = true \/ x = S754_nan \/ y = S754_nan.
Proof.
  intros x y. unfold SFleb, SFltb. rewrite (sf_opp x y). pose proof (sf_none x y) as N.
  destruct (SFcompare x y) as [[]|]; simpl; split; intros H; auto; try discriminate.
  all: try (destruct H as [H|H]; [discriminate H|apply N in H; discriminate H]).
  right. apply N. reflexivity.
Qed.

Lemma sf_self : forall x, SFeqb x x = true <-> x <> S754_nan.
Proof.
  intros x. unfold SFeqb. pose proof (sf_none x x) as N. pose proof (sf_opp x x) as O.
  destruct (SFcompare x x) as [[]|]; simpl in O; try discriminate O; split; auto; try discriminate.
  - intros _ E. pose proof (proj2 N (or_introl E)) as Q. discriminate Q.
  - intros H. destruct (proj1 N eq_refl); contradiction.
Qed.
Lemma Forall2_iff' : forall T (P Q : T -> T -> Prop), (forall x y, P x y <-> Q x y) ->
  forall a b, Forall2 P a b <-> Forall2 Q a b.
Proof. intros T P Q H a b; split; intros F; induction F; constructor; auto; apply H; assumption. Qed.

Lemma double_comparisons : forall a b : list spec_float, length a = length b ->
  (arr_eq sf_cmp a b = true <-> Forall2 (fun x y => SFeqb x y = true) a b) /\
  arr_ne sf_cmp a b = negb (arr_eq sf_cmp a b) /\
  (arr_lt sf_cmp a b = true <-> Forall2 (fun x y => SFltb x y = true \/ x = S754_nan \/ y = S754_nan) a b) /\
  (arr_le sf_cmp a b = true <-> Forall2 (fun x y => SFleb x y = true \/ x = S754_nan \/ y = S754_nan) a b) /\
  (arr_eq sf_cmp a a = true <-> Forall (fun x => x <> S754_nan) a).
Proof.
  intros a b L. unfold arr_eq, arr_ne, arr_lt, arr_le. rewrite scan_true_neg, !scan_false_iff by auto.
  split; [apply Forall2_iff'; intros x y; simpl; apply negb_false_iff|].
  split; [reflexivity|].
  split; [apply Forall2_iff'; intros x y; simpl; apply sf_ge|].
  split; [apply Forall2_iff'; intros x y; simpl; apply sf_gt|].
  clear b L. split; induction a as [|x a IH]; intros F; inversion F; subst; constructor; auto.
  - apply sf_self, negb_false_iff. assumption.
  - apply negb_false_iff, sf_self. assumption.
Qed.
