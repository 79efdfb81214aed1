(** Derivatives of regular expressions, used to compare the tables of the scanner with the
    rules. *)
From Coq Require Import ZArith NArith List Bool Ascii String Lia.
From Verif Require Import ScanModel ScanSpec.
Import ListNotations.
Local Open Scope list_scope.

Definition regex_dec (a b : regex) : {a = b} + {a <> b}.
Proof. repeat decide equality. Defined.
Definition kind_dec (a b : kind) : {a = b} + {a <> b}.
Proof. repeat decide equality. Defined.

Fixpoint nullable (r : regex) : bool :=
  match r with
  | RNone | RSet _ | RBut _ => false
  | REps | RStar _ => true
  | RSeq a b => nullable a && nullable b
  | RAlt a b => nullable a || nullable b
  end.

Definition mk_seq (a b : regex) : regex :=
  match a, b with
  | RNone, _ => RNone
  | _, RNone => RNone
  | REps, _ => b
  | _, _ => RSeq a b
  end.
Fixpoint in_alt (x b : regex) : bool :=
  if regex_dec x b then true
  else match b with RAlt b1 b2 => in_alt x b1 || in_alt x b2 | _ => false end.
Definition mk_alt1 (a b : regex) : regex :=
  match a, b with
  | RNone, _ => b
  | _, RNone => a
  | _, _ => if in_alt a b then b else RAlt a b
  end.
Fixpoint mk_alt (a b : regex) : regex :=
  match a with
  | RAlt a1 a2 => mk_alt a1 (mk_alt a2 b)
  | _ => mk_alt1 a b
  end.

Fixpoint deriv (c : ascii) (r : regex) : regex :=
  match r with
  | RNone | REps => RNone
  | RSet l => if in_set l c then REps else RNone
  | RBut l => if in_set l c then RNone else REps
  | RSeq a b => if nullable a then mk_alt (mk_seq (deriv c a) b) (deriv c b) else mk_seq (deriv c a) b
  | RAlt a b => mk_alt (deriv c a) (deriv c b)
  | RStar a => mk_seq (deriv c a) (RStar a)
  end.

Lemma none_no : forall w, ~ matches RNone w. Proof. intros w H; inversion H. Qed.
Lemma eps_iff : forall w, matches REps w <-> w = [].
Proof. split; intros H; [inversion H; reflexivity | subst; constructor]. Qed.
Lemma seq_iff : forall a b w, matches (RSeq a b) w <-> exists u v, w = u ++ v /\ matches a u /\ matches b v.
Proof. split; [intros H; inversion H; subst; eauto | intros (u & v & -> & H1 & H2); constructor; assumption]. Qed.
Lemma alt_iff : forall a b w, matches (RAlt a b) w <-> matches a w \/ matches b w.
Proof. split; [intros H; inversion H; subst; auto | intros [H | H]; [apply m_alt_l | apply m_alt_r]; assumption]. Qed.

Lemma nullable_iff : forall r, nullable r = true <-> matches r [].
Proof.
  induction r; simpl.
  - split; [discriminate | intros H; inversion H].
  - split; [constructor | reflexivity].
  - split; [discriminate | intros H; inversion H].
  - split; [discriminate | intros H; inversion H].
  - rewrite andb_true_iff, IHr1, IHr2, seq_iff. split.
    + intros [H1 H2]. exists [], []. auto.
    + intros (u & v & E & H1 & H2). symmetry in E. apply app_eq_nil in E. destruct E; subst. auto.
  - rewrite orb_true_iff, IHr1, IHr2, alt_iff. reflexivity.
  - split; [constructor | reflexivity].
Qed.

Lemma mk_seq_iff : forall a b w, matches (mk_seq a b) w <-> matches (RSeq a b) w.
Proof.
  intros a b w.
  assert (N1 : forall b, matches RNone w <-> matches (RSeq RNone b) w).
  { intros b'. rewrite seq_iff. split; [intros H; inversion H | intros (u & v & _ & H & _); inversion H]. }
  assert (N2 : forall a, matches RNone w <-> matches (RSeq a RNone) w).
  { intros b'. rewrite seq_iff. split; [intros H; inversion H | intros (u & v & _ & _ & H); inversion H]. }
  assert (E1 : forall b, matches b w <-> matches (RSeq REps b) w).
  { intros b'. rewrite seq_iff. split.
    - intros H. exists [], w. split; [reflexivity | split; [constructor | assumption]].
    - intros (u & v & -> & H & H2). inversion H; subst. assumption. }
  destruct a; simpl; try apply N1; destruct b; try apply N2; try apply E1; reflexivity.
Qed.
Lemma in_alt_sub : forall b x, in_alt x b = true -> forall w, matches x w -> matches b w.
Proof.
  induction b; intros x H w M; simpl in H;
    try (match type of H with context [regex_dec ?a ?b] => destruct (regex_dec a b) end; [subst; assumption | discriminate]).
  destruct (regex_dec x (RAlt b1 b2)); [subst; assumption |].
  apply orb_true_iff in H. apply alt_iff. destruct H; [left; eapply IHb1 | right; eapply IHb2]; eassumption.
Qed.
Lemma mk_alt1_iff : forall a b w, matches (mk_alt1 a b) w <-> matches a w \/ matches b w.
Proof.
  intros a b w.
  assert (N : matches RNone w <-> False) by (split; [apply none_no | tauto]).
  assert (G : matches (if in_alt a b then b else RAlt a b) w <-> matches a w \/ matches b w).
  { destruct (in_alt a b) eqn:E; [| apply alt_iff].
    split; [auto | intros [H | H]; [eapply in_alt_sub; eassumption | assumption]]. }
  destruct a; simpl; try tauto; destruct b; try tauto; exact G.
Qed.
Lemma mk_alt_iff : forall a b w, matches (mk_alt a b) w <-> matches a w \/ matches b w.
Proof.
  induction a; intros b w; cbn [mk_alt]; try apply mk_alt1_iff.
  rewrite IHa1, IHa2, alt_iff. tauto.
Qed.

Lemma star_cons_iff : forall a c w, matches (RStar a) (c :: w) <-> exists u v, w = u ++ v /\ matches a (c :: u) /\ matches (RStar a) v.
Proof.
  intros a c w. split.
  - intros H. remember (RStar a) as r. remember (c :: w) as s. revert c w Heqs Heqr.
    induction H; intros c0 w0 Es Er; try discriminate.
    injection Er as ->. destruct u as [|x u].
    + simpl in Es. apply IHmatches2; [assumption | reflexivity].
    + simpl in Es. injection Es as -> <-. exists u, v. auto.
  - intros (u & v & -> & H1 & H2). change (c :: u ++ v) with ((c :: u) ++ v). constructor; assumption.
Qed.

Theorem deriv_iff : forall r c w, matches (deriv c r) w <-> matches r (c :: w).
Proof.
  induction r; intros c w; simpl.
  - split; intros H; inversion H.
  - split; intros H; inversion H.
  - destruct (in_set l c) eqn:E; split; intros H; inversion H; subst; try constructor; try assumption; congruence.
  - destruct (in_set l c) eqn:E; split; intros H; inversion H; subst; try constructor; try assumption; congruence.
  - assert (S : matches (mk_seq (deriv c r1) r2) w <-> exists u v, w = u ++ v /\ matches r1 (c :: u) /\ matches r2 v).
    { rewrite mk_seq_iff, seq_iff. split; intros (u & v & E & H1 & H2); exists u, v; (split; [assumption | split; [apply IHr1 |]; assumption]). }
    assert (Q : matches (RSeq r1 r2) (c :: w) <-> (nullable r1 = true /\ matches r2 (c :: w)) \/ exists u v, w = u ++ v /\ matches r1 (c :: u) /\ matches r2 v).
    { rewrite seq_iff. split.
      - intros (u & v & E & H1 & H2). destruct u as [|x u].
        + left. simpl in E. subst. split; [apply nullable_iff; assumption | assumption].
        + right. simpl in E. injection E as <- ->. exists u, v. auto.
      - intros [[H1 H2] | (u & v & -> & H1 & H2)].
        + exists [], (c :: w). split; [reflexivity | split; [apply nullable_iff |]; assumption].
        + exists (c :: u), v. auto. }
    rewrite Q. destruct (nullable r1).
    + rewrite mk_alt_iff, S, IHr2. tauto.
    + rewrite S. split; [auto | intros [[H _] | H]; [discriminate | assumption]].
  - rewrite mk_alt_iff, IHr1, IHr2, alt_iff. reflexivity.
  - rewrite mk_seq_iff, seq_iff, star_cons_iff.
    split; intros (u & v & E & H1 & H2); exists u, v; (split; [assumption | split; [apply IHr |]; assumption]).
Qed.

(** ** All rules at once *)
Definition vec := list (kind * regex).
Definition step_vec (c : ascii) (v : vec) : vec := map (fun x => (fst x, deriv c (snd x))) v.
Definition ders_from (v : vec) (u : list ascii) : vec := fold_left (fun v c => step_vec c v) u v.
Definition ders (u : list ascii) : vec := ders_from rules u.
Fixpoint accept (v : vec) : option kind :=
  match v with
  | [] => None
  | (k, r) :: v' => if nullable r then Some k else accept v'
  end.

Lemma ders_snoc : forall u c, ders (u ++ [c]) = step_vec c (ders u).
Proof. intros u c. unfold ders, ders_from. rewrite fold_left_app. reflexivity. Qed.
Lemma ders_from_app : forall v u w, ders_from v (u ++ w) = ders_from (ders_from v u) w.
Proof. intros. unfold ders_from. apply fold_left_app. Qed.

Lemma ders_from_spec : forall u v, exists f : regex -> regex,
  ders_from v u = map (fun x => (fst x, f (snd x))) v /\ forall r w, matches (f r) w <-> matches r (u ++ w).
Proof.
  induction u as [|c u IH]; intros v.
  - exists (fun r => r). split; [| reflexivity]. simpl. rewrite <- (map_id v) at 1. apply map_ext. intros [k r]; reflexivity.
  - destruct (IH (step_vec c v)) as (f & E & H). exists (fun r => f (deriv c r)). split.
    + change (ders_from v (c :: u)) with (ders_from (step_vec c v) u). rewrite E. unfold step_vec. rewrite map_map. reflexivity.
    + intros r w. rewrite H, deriv_iff. reflexivity.
Qed.

Lemma accept_map : forall (f : regex -> regex) w, (forall r, matches (f r) [] <-> matches r w) ->
  forall v, match accept (map (fun x => (fst x, f (snd x))) v) with
            | Some k => exists b r a, v = b ++ (k, r) :: a /\ matches r w /\ Forall (fun x => ~ matches (snd x) w) b
            | None => Forall (fun x => ~ matches (snd x) w) v
            end.
Proof.
  intros f w H. induction v as [|[k r] v IH]; [constructor |]. simpl.
  destruct (nullable (f r)) eqn:N.
  - exists [], r, v. split; [reflexivity | split; [apply H, nullable_iff; assumption | constructor]].
  - assert (Hn : ~ matches r w) by (intros M; apply H, nullable_iff in M; congruence).
    destruct (accept (map (fun x => (fst x, f (snd x))) v)) as [k'|].
    + destruct IH as (b & r' & a & -> & M & F). exists ((k, r) :: b), r', a. split; [reflexivity | split; [assumption | constructor; assumption]].
    + constructor; assumption.
Qed.
Lemma accept_spec : forall w, match accept (ders w) with Some k => best w k | None => ~ is_lexeme w end.
Proof.
  intros w. destruct (ders_from_spec w rules) as (f & E & H). unfold ders. rewrite E.
  pose proof (accept_map f w (fun r => ltac:(rewrite (H r []), app_nil_r; reflexivity)) rules) as A.
  destruct (accept _); [exact A |].
  intros (k & r & I & M). rewrite Forall_forall in A. apply (A _ I M).
Qed.
Lemma best_lexeme : forall w k, best w k -> is_lexeme w.
Proof. intros w k (b & r & a & E & M & _). exists k, r. split; [rewrite E; apply in_elt | assumption]. Qed.
Lemma accept_some : forall w k, accept (ders w) = Some k -> best w k.
Proof. intros w k E. pose proof (accept_spec w) as H. rewrite E in H. exact H. Qed.
Lemma accept_none : forall w, accept (ders w) = None -> ~ is_lexeme w.
Proof. intros w E. pose proof (accept_spec w) as H. rewrite E in H. exact H. Qed.
Lemma best_accept : forall w k, best w k -> accept (ders w) = Some k.
Proof.
  intros w k B. pose proof (accept_spec w) as H. destruct (accept (ders w)) as [k'|] eqn:E.
  - f_equal. destruct H as (b & r & a & E1 & M1 & F1), B as (b2 & r2 & a2 & E2 & M2 & F2).
    rewrite E1 in E2. clear E E1. revert b2 E2 F2. induction b as [|x b IH]; intros [|y b2] E2 F2; simpl in E2.
    + injection E2 as -> _ _. reflexivity.
    + injection E2 as <- _. inversion F2; subst. exfalso. auto.
    + injection E2 as -> _. inversion F1; subst. exfalso. auto.
    + injection E2 as _ E2. inversion F1; inversion F2; subst. eapply IH; eassumption.
  - exfalso. apply H. eapply best_lexeme; eassumption.
Qed.
Lemma best_det : forall w k1 k2, best w k1 -> best w k2 -> k1 = k2.
Proof. intros w k1 k2 H1 H2. apply best_accept in H1. apply best_accept in H2. congruence. Qed.

(** Dead vectors: nothing, or nothing more, can be matched. *)
Definition is_none (r : regex) : bool := match r with RNone => true | _ => false end.
Definition strip (r : regex) : regex := match r with REps => RNone | _ => r end.
Definition strip_vec (v : vec) : vec := map (fun x => (fst x, strip (snd x))) v.
Definition dead (v : vec) : bool := forallb (fun x => is_none (snd x)) v.

Lemma step_strip : forall c v, step_vec c (strip_vec v) = step_vec c v.
Proof.
  intros c v. unfold step_vec, strip_vec. rewrite map_map. apply map_ext. intros [k r]. simpl. destruct r; reflexivity.
Qed.
Lemma dead_no : forall u v, dead (ders u) = true -> ~ is_lexeme (u ++ v).
Proof.
  intros u v D (k & r & I & M). destruct (ders_from_spec u rules) as (f & E & H). unfold ders in D. rewrite E in D.
  unfold dead in D. rewrite forallb_forall in D. specialize (D (k, f r) ltac:(apply (in_map (fun x => (fst x, f (snd x))) _ _ I))).
  simpl in D. apply H in M. destruct (f r); try discriminate. inversion M.
Qed.
Lemma strip_dead_no : forall u, dead (strip_vec (ders u)) = true -> ~ unfinished u.
Proof.
  intros u D (v & Nv & L). destruct v as [|c v]; [congruence |].
  assert (D2 : dead (ders (u ++ [c])) = true).
  { rewrite ders_snoc, <- step_strip. revert D. generalize (ders u). intros l. unfold dead, step_vec, strip_vec.
    induction l as [|[k r] l IH]; [reflexivity |]. simpl. rewrite !andb_true_iff. intros [H1 H2].
    split; [| apply IH; assumption]. destruct (strip r); try discriminate. reflexivity. }
  change (c :: v) with ([c] ++ v) in L. rewrite app_assoc in L. revert L. apply dead_no. assumption.
Qed.
