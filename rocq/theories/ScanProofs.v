(** The scanner divides the text as the specification says. *)
From Coq Require Import ZArith NArith List Bool Ascii String Lia.
From Verif Require Import ScanModel ScanSpec ScanRegexProofs ScanTableProofs.
Import ListNotations.
Local Open Scope Z_scope.
Local Open Scope list_scope.

(** ** Reading the tables *)
Lemma summary_eqb_eq : forall a b, summary_eqb a b = true -> a = b.
Proof.
  intros [a1 a2] [b1 b2] H. unfold summary_eqb in H. simpl in H. apply andb_true_iff in H. destruct H as [H1 H2].
  apply Z.eqb_eq in H1. destruct (list_eq_dec Z.eq_dec a2 b2); [subst; reflexivity | discriminate].
Qed.
Lemma vec_eqb_eq : forall a b, vec_eqb a b = true -> a = b.
Proof. intros a b H. unfold vec_eqb in H. destruct (vec_dec a b); [assumption | discriminate]. Qed.
Lemma okind_eqb_eq : forall a b, okind_eqb a b = true -> a = b.
Proof.
  intros [a|] [b|] H; simpl in H; try discriminate; try reflexivity. destruct (kind_dec a b); [subst; reflexivity | discriminate].
Qed.
Lemma zmem_In : forall q l, zmem q l = true -> In q l.
Proof. intros q l H. unfold zmem in H. apply existsb_exists in H. destruct H as (x & I & E). apply Z.eqb_eq in E. subst; assumption. Qed.

Definition here (q : Z) : Prop := q = 10 \/ In q inner.
Lemma trans_ok : forall q c, here q -> exists cl, summary (find_trans q c) = encode cl /\ check_class q c cl = true.
Proof.
  intros q c Hq. pose proof table_main as T. rewrite forallb_forall in T.
  assert (I : In q (10 :: inner)) by (destruct Hq; [left; congruence | right; assumption]).
  specialize (T q I). cbn beta in T. rewrite forallb_forall in T. specialize (T c (all_chars_in c)).
  unfold check_trans in T. apply andb_true_iff in T. destruct T as [T1 T2]. apply summary_eqb_eq in T1.
  eexists. split; [symmetry; exact T1 | exact T2].
Qed.
Lemma eof_ok : forall q, In q inner ->
  let e := tbl deck_eof_trans q in
  if e >? 0 then exists cl, summary (e - 1) = encode cl /\
    match cl with
    | Prev a => q <> 15 /\ (exists k, prev_kind a = Some k /\ accept (state_vec q) = Some k)
    | Back a => te_tracked q = true /\ ((a = 35 /\ divide_state q = true) \/ (a = 36 /\ act_tracked q = true))
    | _ => False
    end
  else no_match q = true.
Proof.
  intros q I e. pose proof table_eof as T. rewrite forallb_forall in T. specialize (T q I).
  unfold check_eof in T. fold e in T. destruct (e >? 0); [| exact T].
  apply andb_true_iff in T. destruct T as [T1 T2]. apply summary_eqb_eq in T1.
  exists (decode (summary (e - 1))). split; [symmetry; exact T1 |].
  destruct (decode (summary (e - 1))); try discriminate.
  - rewrite !andb_true_iff, negb_true_iff in T2. destruct T2 as [[H1 H2] H3]. apply Z.eqb_neq in H1. apply okind_eqb_eq in H3.
    destruct (prev_kind a) as [k|]; [| discriminate]. split; [assumption |]. exists k. auto.
  - rewrite !andb_true_iff, orb_true_iff, !andb_true_iff, !Z.eqb_eq in T2. tauto.
Qed.
Lemma finish_ok : forall q, In q inner -> exists k, accept (ders_from (state_vec q) (finish q)) = Some k.
Proof.
  intros q I. pose proof table_finish as T. rewrite forallb_forall in T. specialize (T q I). unfold check_finish in T.
  destruct (accept _) as [k|]; [eauto | discriminate].
Qed.
Lemma static_ok : forall q, In q inner -> te_tracked q = false -> no_match q = false -> exists k, accept (state_vec q) = Some k.
Proof.
  intros q I H1 H2. pose proof table_static as T. rewrite forallb_forall in T. specialize (T q I). unfold check_static in T.
  rewrite H1, H2 in T. simpl in T. destruct (accept _) as [k|]; [eauto | discriminate].
Qed.
Lemma comment_ok : forall q c, q = 8 \/ q = 9 -> summary (find_trans q c) = comment_target q c.
Proof.
  intros q c Hq. pose proof table_comment as T. rewrite forallb_forall in T.
  specialize (T q ltac:(simpl; intuition)). cbn beta in T. rewrite forallb_forall in T. apply summary_eqb_eq. apply T. apply all_chars_in.
Qed.
Definition known (q : Z) : Prop := In q ([0; 8; 9; 10] ++ inner).
Lemma from_ok : forall m p, known (cs m) -> from_state m p = if cs m =? 10 then set_ts m (Some p) else m.
Proof.
  intros m p K. pose proof table_from as T. rewrite forallb_forall in T. specialize (T _ K). unfold from_state.
  destruct (list_eq_dec Z.eq_dec (action_list (tbl deck_from_state_actions (cs m))) _) as [E|]; [| discriminate].
  rewrite E. destruct (cs m =? 10); reflexivity.
Qed.
Lemma to_ok : forall m, known (cs m) -> to_state m = if (cs m =? 10) || (cs m =? 8) then set_ts m None else m.
Proof.
  intros m K. pose proof table_to as T. rewrite forallb_forall in T. specialize (T _ K). unfold to_state.
  destruct (list_eq_dec Z.eq_dec (action_list (tbl deck_to_state_actions (cs m))) _) as [E|]; [| discriminate].
  rewrite E. destruct ((cs m =? 10) || (cs m =? 8)); reflexivity.
Qed.

Lemma take_trans_eq : forall buf t m p, take_trans buf t m p = run_actions buf (acts t) (set_cs m (targ t)) p.
Proof.
  intros buf t m p. unfold take_trans, acts, targ. destruct (tbl deck_trans_actions t =? 0) eqn:E; [| reflexivity].
  apply Z.eqb_eq in E. rewrite E. reflexivity.
Qed.
Lemma take_summary : forall buf t m p q l, summary t = (q, l) -> take_trans buf t m p = run_actions buf l (set_cs m q) p.
Proof. intros buf t m p q l H. unfold summary in H. injection H as <- <-. apply take_trans_eq. Qed.

(** ** Transitions *)
Definition nl_of (b : bool) : Z := if b then 1 else 0.

Lemma run_cont : forall buf m p nl ste a q, (forall x, a = Some x -> ste = true /\ In x [5;6;7;8;9;10;11;12]) ->
  run_actions buf (snd (encode (Cont nl ste a q))) (set_cs m q) p
  = (mkM q (ts m) (if ste then (p + 1)%nat else te m) (match a with Some x => act_of x | None => act m end) (line m + nl_of nl) (toks m), p).
Proof.
  intros buf m p nl ste a q H. destruct a as [x|].
  - destruct (H x eq_refl) as [-> I]. simpl in I.
    destruct nl; simpl; rewrite ?Z.add_0_r;
      repeat (destruct I as [<- | I]; [reflexivity |]); destruct I.
  - destruct nl, ste; simpl; rewrite ?Z.add_0_r; destruct m; reflexivity.
Qed.

Definition text_ok (buf : list ascii) (t e : nat) (w : list ascii) : Prop :=
  exists x z, buf = x ++ w ++ z /\ t = List.length x /\ e = (List.length x + List.length w)%nat.

Lemma sub_app : forall (x w z : list ascii), sub (x ++ w ++ z) (List.length x) (List.length w) = w.
Proof.
  intros x w z. unfold sub. rewrite skipn_app, skipn_all, Nat.sub_diag. simpl.
  rewrite firstn_app, Nat.sub_diag. simpl. rewrite app_nil_r. apply firstn_all.
Qed.
Lemma lexeme_text : forall buf m t w, ts m = Some t -> text_ok buf t (te m) w -> lexeme buf m = w.
Proof.
  intros buf m t w E (x & z & -> & -> & E2). unfold lexeme. rewrite E, E2.
  replace (List.length x + List.length w - List.length x)%nat with (List.length w) by lia. apply sub_app.
Qed.
Lemma inside_text : forall buf m t w, ts m = Some t -> text_ok buf t (te m) w -> inside buf m = middle w.
Proof.
  intros buf m t w E (x & z & -> & -> & E2). unfold inside. rewrite E, E2.
  replace (List.length x + List.length w - List.length x - 2)%nat with (List.length w - 2)%nat by lia.
  unfold middle, sub. rewrite skipn_app. rewrite skipn_all2 by lia. simpl.
  replace (List.length x + 1 - List.length x)%nat with 1%nat by lia.
  destruct w as [|a w]; [reflexivity |]. simpl List.length.
  replace (S (List.length w) - 2)%nat with (pred (List.length w)) by lia. simpl skipn. simpl tl.
  rewrite removelast_firstn_len, firstn_app.
  replace (pred (List.length w) - List.length w)%nat with 0%nat by lia. simpl. apply app_nil_r.
Qed.

Lemma run_now : forall buf m p nl a k t w, now_kind a = Some k -> ts m = Some t -> text_ok buf t (p + 1) w ->
  run_actions buf (snd (encode (Now nl a))) (set_cs m 10) p
  = (mkM 10 (Some t) (p + 1) (act m) (line m + nl_of nl) (toks m ++ token_of k (line m + nl_of nl) w), p).
Proof.
  intros buf m p nl a k t w K E X.
  assert (Hin : inside buf (mkM 10 (Some t) (p + 1) (act m) (line m + nl_of nl) (toks m)) = middle w)
    by (apply (inside_text _ _ t); [reflexivity | exact X]).
  destruct m as [c0 ts0 te0 act0 line0 toks0]. simpl in E, Hin |- *. subst ts0.
  assert (C : In a [13;14;15;16;17;18;19;20;21;22;23;24;25;26;27]).
  { destruct a as [|a|a]; try discriminate. repeat (match goal with z : positive |- _ => destruct z end; try discriminate); simpl; intuition. }
  simpl in C. destruct nl; simpl nl_of in *; rewrite ?Z.add_0_r in *;
  repeat (destruct C as [<- | C]; [simpl in K; injection K as <-;
     simpl; unfold insert, set_te, set_cs, new_line, make_token; simpl;
     first [ reflexivity | unfold inside in *; simpl in Hin |- *; rewrite Hin; reflexivity | rewrite app_nil_r; reflexivity ] |]); destruct C.
Qed.

Lemma run_prev : forall buf m p a k t w, prev_kind a = Some k -> ts m = Some t -> text_ok buf t p w ->
  run_actions buf (snd (encode (Prev a))) (set_cs m 10) p
  = (mkM 10 (Some t) p (act m) (line m) (toks m ++ token_of k (line m) w), (p - 1)%nat).
Proof.
  intros buf m p a k t w K E X.
  assert (Hl : lexeme buf (mkM 10 (Some t) p (act m) (line m) (toks m)) = w)
    by (apply (lexeme_text _ _ t); [reflexivity | exact X]).
  destruct m as [c0 ts0 te0 act0 line0 toks0]. simpl in E, Hl |- *. subst ts0.
  assert (C : In a [29;30;31;32;33;34]).
  { destruct a as [|a|a]; try discriminate. repeat (match goal with z : positive |- _ => destruct z end; try discriminate); simpl; intuition. }
  simpl in C.
  repeat (destruct C as [<- | C]; [simpl in K; injection K as <-;
     simpl; unfold insert, set_te, set_cs, make_token; simpl;
     first [ reflexivity | unfold lexeme in *; simpl in Hl |- *; rewrite Hl; reflexivity ] |]); destruct C.
Qed.

Lemma run_back : forall buf m p a k t w,
  (a = 35 /\ k = Sym DIVIDE) \/ (a = 36 /\ act_kind (act m) = Some k) -> ts m = Some t -> text_ok buf t (te m) w ->
  run_actions buf (snd (encode (Back a))) (set_cs m 10) p
  = (mkM 10 (Some t) (te m) (act m) (line m) (toks m ++ token_of k (line m) w), (te m - 1)%nat).
Proof.
  intros buf m p a k t w K E X.
  assert (Hl : lexeme buf (mkM 10 (Some t) (te m) (act m) (line m) (toks m)) = w)
    by (apply (lexeme_text _ _ t); [reflexivity | exact X]).
  destruct m as [c0 ts0 te0 act0 line0 toks0]. simpl in E, Hl, K |- *. subst ts0.
  destruct K as [[-> ->] | [-> K]]; [reflexivity |].
  assert (C : In act0 [14;15;16;17;18;19;26;27]).
  { destruct act0 as [|b|b]; try discriminate. repeat (match goal with z : positive |- _ => destruct z end; try discriminate); simpl; intuition. }
  simpl in C.
  repeat (destruct C as [<- | C]; [simpl in K; injection K as <-;
     simpl; unfold insert, set_te, set_cs, make_token; simpl;
     first [ reflexivity | unfold lexeme in *; simpl in Hl |- *; rewrite Hl; reflexivity ] |]); destruct C.
Qed.

(** ** The text read since the start of the token *)
Record pend (q : Z) (u : list ascii) (t e : nat) (a : Z) : Prop := {
  p_ne : u <> [];
  p_in : In q inner;
  p_strip : strip_vec (ders u) = strip_vec (state_vec q);
  p_vec : q <> 15 -> ders u = state_vec q;
  p_track : te_tracked q = true -> exists w k, longest u w k /\ e = (t + List.length w)%nat /\ newlines u = newlines w
    /\ (act_tracked q = true -> act_kind a = Some k) /\ (divide_state q = true -> k = Sym DIVIDE);
  p_stuck : no_match q = true -> stuck u }.

Lemma app_len_inv : forall (a b c d : list ascii), a ++ b = c ++ d -> (List.length a <= List.length c)%nat -> exists x, c = a ++ x /\ b = x ++ d.
Proof.
  induction a as [|y a IH]; intros b c d E L; simpl in *.
  - exists c. auto.
  - destruct c as [|z c]; simpl in L; [lia |]. simpl in E. injection E as -> E.
    destruct (IH b c d E ltac:(lia)) as (x & -> & ->). exists x. auto.
Qed.

Lemma longest_self : forall u k, u <> [] -> best u k -> longest u u k.
Proof.
  intros u k N B. split; [assumption | split; [assumption | split]].
  - exists []. rewrite app_nil_r. reflexivity.
  - intros w' r' E L. assert (H := f_equal (@List.length _) E). rewrite app_length in H. lia.
Qed.
Lemma longest_ext : forall u w k x, longest u w k -> (forall v r, x = v ++ r -> v <> [] -> ~ is_lexeme (u ++ v)) -> longest (u ++ x) w k.
Proof.
  intros u w k x (N & B & (r & E) & M) H. split; [assumption | split; [assumption | split]].
  - exists (r ++ x). rewrite E, app_assoc. reflexivity.
  - intros w' r' E' L. destruct (Nat.le_gt_cases (List.length w') (List.length u)) as [Hl|Hl].
    + destruct (app_len_inv w' r' u x (eq_sym E') Hl) as (y & Ey & _). apply (M w' y Ey L).
    + destruct (app_len_inv u x w' r' E' ltac:(lia)) as (y & Ey & Ex). rewrite Ey. apply (H y r' Ex).
      intros ->. rewrite app_nil_r in Ey. subst w'. lia.
Qed.
Lemma longest_det : forall s w1 k1 w2 k2, longest s w1 k1 -> longest s w2 k2 -> w1 = w2 /\ k1 = k2.
Proof.
  intros s w1 k1 w2 k2 (N1 & B1 & (r1 & E1) & M1) (N2 & B2 & (r2 & E2) & M2).
  assert (L : List.length w1 = List.length w2).
  { destruct (Nat.lt_trichotomy (List.length w1) (List.length w2)) as [H | [H | H]]; [| assumption |]; exfalso.
    - apply (M1 w2 r2 E2 H). eapply best_lexeme; eassumption.
    - apply (M2 w1 r1 E1 H). eapply best_lexeme; eassumption. }
  rewrite E1 in E2. destruct (app_len_inv _ _ _ _ E2 ltac:(lia)) as (x & Ex & _).
  assert (x = []) by (apply length_zero_iff_nil; rewrite Ex, app_length in L; lia). subst x. rewrite app_nil_r in Ex. subst w2.
  split; [reflexivity | eapply best_det; eassumption].
Qed.

Lemma newlines_app : forall u v, newlines (u ++ v) = newlines u + newlines v.
Proof. intros u v. unfold newlines. rewrite filter_app, app_length. lia. Qed.
Lemma newlines_one : forall c, newlines [c] = nl_of (is_nl c).
Proof. intros c. unfold newlines, is_nl. simpl. destruct (ascii_dec c newline); reflexivity. Qed.

Definition base (q : Z) (u : list ascii) (t e : nat) (a : Z) : Prop := (q = 10 /\ u = []) \/ pend q u t e a.
Lemma base_strip : forall q u t e a, base q u t e a -> strip_vec (ders u) = strip_vec (state_vec q).
Proof. intros q u t e a [[-> ->] | H]; [reflexivity | apply (p_strip _ _ _ _ _ H)]. Qed.
Lemma base_here : forall q u t e a, base q u t e a -> here q.
Proof. intros q u t e a [[-> ->] | H]; [left; reflexivity | right; apply (p_in _ _ _ _ _ H)]. Qed.
Lemma base_step : forall q u t e a c, base q u t e a -> ders (u ++ [c]) = step_vec c (state_vec q).
Proof. intros q u t e a c H. rewrite ders_snoc, <- step_strip, (base_strip _ _ _ _ _ H), step_strip. reflexivity. Qed.

Lemma not_10_15 : forall q, In q inner -> q <> 10.
Proof. intros q I ->. revert I. vm_compute. intuition discriminate. Qed.

Ltac bools H := repeat rewrite ?andb_true_iff, ?negb_true_iff in H.
Lemma impb_true : forall a b, impb a b = true -> a = true -> b = true.
Proof. intros [] [] H E; try discriminate; reflexivity. Qed.

Lemma step_cont : forall q u t e a c nl ste x q' p,
  base q u t e a -> check_class q c (Cont nl ste x q') = true -> p = (t + List.length u)%nat ->
  (forall y, x = Some y -> ste = true /\ In y [5;6;7;8;9;10;11;12]) /\ nl = is_nl c
  /\ pend q' (u ++ [c]) t (if ste then (p + 1)%nat else e) (match x with Some y => act_of y | None => a end).
Proof.
  intros q u t e a c nl ste x q' p HB C Ep. pose proof (base_step _ _ _ _ _ c HB) as Ev.
  unfold check_class in C. rewrite <- Ev in C.
  rewrite !andb_true_iff in C. destruct C as [[[[[C1 C2] C3] C4] C5] C6].
  apply zmem_In in C1. apply vec_eqb_eq in C2. apply eqb_prop in C4.
  assert (Hx : forall y, x = Some y -> ste = true /\ In y [5;6;7;8;9;10;11;12]).
  { intros y ->. apply andb_true_iff in C5. destruct C5 as [C5 C5']. apply zmem_In in C5'. auto. }
  split; [assumption | split; [assumption |]].
  assert (NE : u ++ [c] <> []) by (destruct u; discriminate).
  assert (NS : ~ is_lexeme (u ++ [c]) -> forall v r, [c] = v ++ r -> v <> [] -> ~ is_lexeme (u ++ v)).
  { intros NL v r E Nv. destruct v as [|z v]; [congruence |]. simpl in E. injection E as <- E.
    symmetry in E. apply app_eq_nil in E. destruct E as [-> ->]. assumption. }
  assert (Hp : (p + 1)%nat = (t + List.length (u ++ [c]))%nat) by (rewrite app_length; simpl; lia).
  constructor; try assumption.
  - intros N. apply Z.eqb_neq in N. rewrite N in C3. simpl in C3. apply vec_eqb_eq in C3. assumption.
  - intros TR. destruct (accept (ders (u ++ [c]))) as [k|] eqn:A.
    + rewrite !andb_true_iff in C6. destruct C6 as [[[D1 D2] D3] D4].
      exists (u ++ [c]), k. apply accept_some in A.
      split; [apply longest_self; assumption |].
      pose proof (impb_true _ _ D2 TR) as ->. split; [assumption |]. split; [reflexivity |]. split.
      * intros AT. pose proof (impb_true _ _ D3 AT) as D. destruct x as [y|]; [| discriminate].
        apply okind_eqb_eq in D. assumption.
      * intros DT. pose proof (impb_true _ _ D4 DT) as D. apply okind_eqb_eq in D. congruence.
    + rewrite !andb_true_iff in C6. destruct C6 as [[[[D0 D1] D2] D3] D4].
      rewrite TR, andb_true_r in D4. pose proof (impb_true _ _ D2 D4) as D2x. clear D2. rename D2x into D2.
      rewrite !andb_true_iff in D2. destruct D2 as [[[D5 D6] D7] D8].
      apply negb_true_iff in D0. rewrite D0. pose proof (impb_true _ _ D1 TR) as D9. apply negb_true_iff in D9.
      destruct HB as [[-> ->] | HP]; [discriminate D6 |].
      destruct (p_track _ _ _ _ _ HP D6) as (w & k & L & Ew & Nw & Ka & Kd).
      exists w, k. apply accept_none in A.
      split; [apply longest_ext; [assumption | exact (NS A)] |].
      split; [assumption |]. split; [rewrite newlines_app, newlines_one, <- C4, D9, Nw; simpl; lia |]. split.
      * intros AT. destruct x as [y|]; [destruct (Hx y eq_refl); congruence |]. apply Ka. exact (impb_true _ _ D7 AT).
      * intros DT. apply Kd. exact (impb_true _ _ D8 DT).
  - intros NM. destruct (accept (ders (u ++ [c]))) as [k|] eqn:A.
    + rewrite !andb_true_iff in C6. destruct C6 as [[[D1 D2] D3] D4]. rewrite NM in D1. discriminate.
    + rewrite !andb_true_iff in C6. destruct C6 as [[[[D0 D1] D2] D3] D4]. apply accept_none in A.
      assert (SU : stuck u).
      { destruct HB as [[-> ->] | HP].
        - intros w r E Nw. symmetry in E. apply app_eq_nil in E. destruct E; congruence.
        - apply (p_stuck _ _ _ _ _ HP). pose proof (impb_true _ _ D3 NM) as D. apply orb_true_iff in D. destruct D as [D | D]; [assumption |].
          apply Z.eqb_eq in D. exfalso. apply (not_10_15 _ (p_in _ _ _ _ _ HP) D). }
      intros w r E Nw. destruct (Nat.le_gt_cases (List.length w) (List.length u)) as [Hl|Hl].
      * destruct (app_len_inv w r u [c] (eq_sym E) Hl) as (y & Ey & _). apply (SU w y Ey Nw).
      * destruct (app_len_inv u [c] w r E ltac:(lia)) as (y & Ey & Ex). rewrite Ey. apply (NS A y r Ex).
        intros ->. rewrite app_nil_r in Ey. subst w. lia.
Qed.

Lemma unfinished_prefix : forall u v, unfinished (u ++ v) -> unfinished u.
Proof.
  intros u v (x & N & L). exists (v ++ x). split; [destruct v; simpl; [assumption | discriminate] |]. rewrite app_assoc. assumption.
Qed.

Lemma step_now : forall q u t e a c nl b s,
  base q u t e a -> check_class q c (Now nl b) = true ->
  nl = is_nl c /\ exists k, now_kind b = Some k /\ k <> OpenComment /\ longest (u ++ c :: s) (u ++ [c]) k /\ ~ unfinished (u ++ [c]).
Proof.
  intros q u t e a c nl b s HB C. unfold check_class in C. rewrite <- (base_step _ _ _ _ _ c HB) in C.
  rewrite !andb_true_iff in C. destruct C as [[[C1 C2] C3] C4]. apply eqb_prop in C4. apply okind_eqb_eq in C2.
  split; [assumption |]. destruct (now_kind b) as [k|] eqn:K; [| discriminate]. exists k.
  pose proof (strip_dead_no _ C3) as U.
  split; [reflexivity |]. split.
  { intros ->. destruct b as [|b|b]; try discriminate; repeat (match goal with z : positive |- _ => destruct z end; try discriminate). }
  split; [| assumption].
  replace (u ++ c :: s) with ((u ++ [c]) ++ s) by (rewrite <- app_assoc; reflexivity).
  apply longest_ext; [apply longest_self; [destruct u; discriminate | apply accept_some; assumption] |].
  intros v r _ Nv L. apply U. exists v. auto.
Qed.
Lemma step_opens : forall q u t e a c s,
  base q u t e a -> check_class q c Opens = true ->
  is_nl c = false /\ longest (u ++ c :: s) (u ++ [c]) OpenComment /\ ~ unfinished (u ++ [c]).
Proof.
  intros q u t e a c s HB C. unfold check_class in C. rewrite <- (base_step _ _ _ _ _ c HB) in C.
  rewrite !andb_true_iff, negb_true_iff in C. destruct C as [[C2 C3] C4]. apply okind_eqb_eq in C2.
  pose proof (strip_dead_no _ C3) as U.
  split; [assumption |]. split; [| assumption].
  replace (u ++ c :: s) with ((u ++ [c]) ++ s) by (rewrite <- app_assoc; reflexivity).
  apply longest_ext; [apply longest_self; [destruct u; discriminate | apply accept_some; assumption] |].
  intros v r _ Nv L. apply U. exists v. auto.
Qed.

Lemma dead_ext : forall u c s, dead (ders (u ++ [c])) = true ->
  (forall v r, c :: s = v ++ r -> v <> [] -> ~ is_lexeme (u ++ v)) /\ ~ unfinished (u ++ [c]).
Proof.
  intros u c s D. split.
  - intros v r E Nv. destruct v as [|z v]; [congruence |]. simpl in E. injection E as <- E.
    change (c :: v) with ([c] ++ v). rewrite app_assoc. apply dead_no. assumption.
  - intros (v & _ & L). revert L. apply dead_no. assumption.
Qed.

Lemma step_prev : forall q u t e a c b s,
  base q u t e a -> check_class q c (Prev b) = true ->
  u <> [] /\ (exists k, prev_kind b = Some k /\ longest (u ++ c :: s) u k) /\ ~ unfinished (u ++ [c]).
Proof.
  intros q u t e a c b s HB C. unfold check_class in C. rewrite <- (base_step _ _ _ _ _ c HB) in C.
  rewrite !andb_true_iff, !negb_true_iff in C. destruct C as [[[[C1 C2] C3] C4] C5].
  apply Z.eqb_neq in C2. apply Z.eqb_neq in C3. apply okind_eqb_eq in C5.
  destruct HB as [[-> _] | HP]; [congruence |].
  destruct (dead_ext u c s C1) as [D1 D2].
  split; [apply (p_ne _ _ _ _ _ HP) |]. split; [| assumption].
  destruct (prev_kind b) as [k|]; [| discriminate]. exists k. split; [reflexivity |].
  apply longest_ext; [| assumption]. apply longest_self; [apply (p_ne _ _ _ _ _ HP) |].
  apply accept_some. rewrite (p_vec _ _ _ _ _ HP C2). assumption.
Qed.
Lemma step_back : forall q u t e a c b s,
  base q u t e a -> check_class q c (Back b) = true ->
  (exists w k, longest u w k /\ longest (u ++ c :: s) w k /\ e = (t + List.length w)%nat /\ newlines u = newlines w
     /\ ((b = 35 /\ k = Sym DIVIDE) \/ (b = 36 /\ act_kind a = Some k))) /\ ~ unfinished (u ++ [c]).
Proof.
  intros q u t e a c b s HB C. unfold check_class in C. rewrite <- (base_step _ _ _ _ _ c HB) in C.
  rewrite !andb_true_iff, orb_true_iff, !andb_true_iff, !Z.eqb_eq in C. destruct C as [[C1 C2] C3].
  destruct HB as [[-> _] | HP]; [discriminate |].
  destruct (dead_ext u c s C1) as [D1 D2]. split; [| assumption].
  destruct (p_track _ _ _ _ _ HP C2) as (w & k & L & E & N & Ka & Kd). exists w, k.
  split; [assumption |]. split; [apply longest_ext; assumption |]. split; [assumption |]. split; [assumption |].
  destruct C3 as [[-> C3] | [-> C3]]; [left | right]; auto.
Qed.
Lemma step_err : forall q u t e a c s,
  base q u t e a -> check_class q c Err = true -> stuck (u ++ c :: s) /\ ~ unfinished (u ++ [c]).
Proof.
  intros q u t e a c s HB C. unfold check_class in C. rewrite <- (base_step _ _ _ _ _ c HB) in C.
  rewrite !andb_true_iff, orb_true_iff, Z.eqb_eq in C. destruct C as [C1 C2].
  destruct (dead_ext u c s C1) as [D1 D2]. split; [| assumption].
  assert (SU : stuck u).
  { destruct HB as [[-> ->] | HP].
    - intros w r E Nw. symmetry in E. apply app_eq_nil in E. destruct E; congruence.
    - apply (p_stuck _ _ _ _ _ HP). destruct C2 as [C2 | C2]; [assumption |]. exfalso. apply (not_10_15 _ (p_in _ _ _ _ _ HP) C2). }
  intros w r E Nw. destruct (Nat.le_gt_cases (List.length w) (List.length u)) as [Hl|Hl].
  - destruct (app_len_inv w r u (c :: s) (eq_sym E) Hl) as (y & Ey & _). apply (SU w y Ey Nw).
  - destruct (app_len_inv u (c :: s) w r E ltac:(lia)) as (y & Ey & Ex). rewrite Ey. apply (D1 y r Ex).
    intros ->. rewrite app_nil_r in Ey. subst w. lia.
Qed.

Lemma pend_unfinished : forall q u t e a, pend q u t e a -> unfinished u.
Proof.
  intros q u t e a HP. exists (finish q).
  assert (Nf : exists c f, finish q = c :: f).
  { pose proof (p_in _ _ _ _ _ HP) as I. assert (F : forallb (fun q => match finish q with [] => false | _ => true end) inner = true) by (vm_compute; reflexivity).
    rewrite forallb_forall in F. specialize (F q I). destruct (finish q) as [|c f]; [discriminate | eauto]. }
  destruct Nf as (c & f & Ef). split; [rewrite Ef; discriminate |].
  destruct (finish_ok q (p_in _ _ _ _ _ HP)) as (k & A).
  apply (best_lexeme _ k). apply accept_some. unfold ders. rewrite ders_from_app. rewrite Ef in *.
  change (ders_from (ders_from rules u) (c :: f)) with (ders_from (step_vec c (ders u)) f).
  change (ders_from (state_vec q) (c :: f)) with (ders_from (step_vec c (state_vec q)) f) in A.
  rewrite <- step_strip, (p_strip _ _ _ _ _ HP), step_strip. assumption.
Qed.

(** ** Runs *)
Definition ok (B : nat) (s : list ascii) : Prop :=
  forall u r, s = u ++ r -> List.length u = B -> ~ unfinished u.

Inductive run (B : nat) : list ascii -> Z -> list token -> list token * bool -> Prop :=
| run_end L T : run B [] L T (T, false)
| run_lexeme w r k L T X :
    longest (w ++ r) w k -> k <> OpenComment -> ok B (w ++ r) ->
    run B r (L + newlines w) (T ++ token_of k (L + newlines w) w) X -> run B (w ++ r) L T X
| run_comment w b r L T X :
    longest (w ++ b ++ close ++ r) w OpenComment -> no_close b -> ok B (w ++ b ++ close ++ r) ->
    run B r (L + newlines (w ++ b ++ close)) T X -> run B (w ++ b ++ close ++ r) L T X
| run_unclosed w b L T :
    longest (w ++ b) w OpenComment -> no_close b -> ok B (w ++ b) -> run B (w ++ b) L T (T, false)
| run_unfinished s L T : s <> [] -> stuck s -> unfinished s -> ok B s -> run B s L T (T, false)
| run_illegal s L T : s <> [] -> stuck s -> ~ unfinished s -> ok B s -> run B s L T (T, true).

Lemma ok_prefix : forall B u s, ~ unfinished u -> (List.length u <= B)%nat -> ok B (u ++ s).
Proof.
  intros B u s U L v r E Lv Uv. destruct (app_len_inv u s v r E ltac:(lia)) as (x & -> & _).
  apply U. eapply unfinished_prefix; eassumption.
Qed.
Lemma ok_short : forall B s, (List.length s < B)%nat -> ok B s.
Proof. intros B s L u r E Lu. assert (H := f_equal (@List.length _) E). rewrite app_length in H. lia. Qed.

Lemma no_close_snoc : forall b c, no_close b -> (c = "/"%char -> forall b0, b <> b0 ++ ["*"%char]) -> no_close (b ++ [c]).
Proof.
  intros b c N H x y E. destruct y as [|z y] using rev_ind.
  - rewrite app_nil_r in E. unfold close in E. change ["*"; "/"]%char with (["*"] ++ ["/"])%char in E. rewrite app_assoc in E.
    apply app_inj_tail in E. destruct E as [E1 E2]. apply (H E2 x E1).
  - rewrite !app_assoc in E. apply app_inj_tail in E. destruct E as [E1 E2]. rewrite <- app_assoc in E1. apply (N x y E1).
Qed.
Lemma no_close_nil : no_close [].
Proof. intros x y E. destruct x; discriminate. Qed.
Lemma no_close_prefix : forall a b, no_close (a ++ b) -> no_close a.
Proof. intros a b N x y ->. apply (N x (y ++ b)). rewrite <- !app_assoc. reflexivity. Qed.

(** ** The generated loop *)
Inductive conf := AtStart | Inside (u : list ascii) | InComment (w b : list ascii).
Definition ctext (c : conf) : list ascii := match c with AtStart => [] | Inside u => u | InComment w b => w ++ b end.

Definition cinv (B : nat) (buf : list ascii) (p : nat) (m : mach) (L : Z) (c : conf) (y : list ascii) : Prop :=
  match c with
  | AtStart => exists x, buf = x ++ y /\ p = List.length x /\ cs m = 10 /\ ts m = None /\ line m = L
  | Inside u => exists x, buf = x ++ u ++ y /\ p = (List.length x + List.length u)%nat /\ ts m = Some (List.length x)
                /\ pend (cs m) u (List.length x) (te m) (act m) /\ line m = L + newlines u
  | InComment w b => exists x, buf = x ++ y /\ p = List.length x /\ ts m = None /\ line m = L + newlines (w ++ b)
                /\ ((cs m = 9 /\ exists b0, b = b0 ++ ["*"%char]) \/ (cs m = 8 /\ forall b0, b <> b0 ++ ["*"%char]))
                /\ no_close b /\ (forall s, longest (w ++ s) w OpenComment) /\ ~ unfinished w /\ (List.length w <= B)%nat
  end.

Definition csize (c : conf) : nat := match c with Inside u => List.length u | _ => 0%nat end.
Definition lab (y : list ascii) : label := match y with [] => TestEof | _ => Resume end.

Section Loop.
  Variable B : nat.
  Variable buf : list ascii.
  Variable eof : bool.
  Hypothesis HB : (List.length buf <= B)%nat.
  Hypothesis HE : eof = true -> (List.length buf < B)%nat.
  Let pe : nat := List.length buf.

  Definition adm (Y : list ascii) : Prop := eof = true -> Y = [].
  Definition result (L : Z) (m : mach) (S : list ascii) (m' : mach) : Prop :=
    (cs m' = 0 /\ forall Y, adm Y -> run B (S ++ Y) L (toks m) (toks m', true))
    \/ (cs m' <> 0 /\ eof = false /\ exists c' L', cinv B buf pe m' L' c' []
          /\ (forall Y X, run B (ctext c' ++ Y) L' (toks m') X -> run B (S ++ Y) L (toks m) X)
          /\ (forall Y, reaches (S ++ Y) (ctext c' ++ Y)))
    \/ (cs m' <> 0 /\ eof = true /\ run B S L (toks m) (toks m', false)).

  Lemma known_inner : forall q, In q inner -> known q.
  Proof. intros q I. unfold known. apply in_or_app. right. assumption. Qed.
  Lemma inner_ne : forall q, In q inner -> q <> 0 /\ q <> 8 /\ q <> 9 /\ q <> 10.
  Proof.
    intros q I. assert (F : forallb (fun q => negb (zmem q [0;8;9;10])) inner = true) by (vm_compute; reflexivity).
    rewrite forallb_forall in F. specialize (F q I). repeat split; intros ->; discriminate.
  Qed.

  Lemma again_step : forall n m p x y, known (cs m) -> cs m <> 0 -> buf = x ++ y -> (p + 1)%nat = List.length x ->
    exec buf (S n) pe eof Again m p
    = exec buf n pe eof (lab y) (if (cs m =? 10) || (cs m =? 8) then set_ts m None else m) (List.length x).
  Proof.
    intros n m p x y K N E Ep. cbn [exec]. rewrite (to_ok _ K).
    assert (C : cs (if (cs m =? 10) || (cs m =? 8) then set_ts m None else m) = cs m) by (destruct ((cs m =? 10) || (cs m =? 8)); reflexivity).
    rewrite C. apply Z.eqb_neq in N. rewrite N. rewrite Ep. unfold pe. rewrite E, app_length.
    destruct y as [|a y]; simpl.
    - rewrite Nat.add_0_r, Nat.eqb_refl. reflexivity.
    - replace (Nat.eqb (List.length x) (List.length x + S (List.length y))) with false by (symmetry; apply Nat.eqb_neq; lia). reflexivity.
  Qed.

  (** The machine after a token. *)
  Lemma emitted : forall n t e a ln tk p x y, buf = x ++ y -> (p + 1)%nat = List.length x ->
    exec buf (S n) pe eof Again (mkM 10 t e a ln tk) p = exec buf n pe eof (lab y) (mkM 10 None e a ln tk) (List.length x).
  Proof.
    intros n t e a ln tk p x y E Ep. rewrite (again_step _ _ _ x y); [reflexivity | | discriminate | assumption | assumption].
    unfold known. simpl. tauto.
  Qed.

  Lemma nth_mid : forall (x : list ascii) c z, nth (List.length x) (x ++ c :: z) zero = c.
  Proof. intros x c z. rewrite app_nth2 by lia. rewrite Nat.sub_diag. reflexivity. Qed.

  (** The composition of a step and the rest. *)
  Lemma result_step : forall L m S m' L1 m1 S1,
    result L1 m1 S1 m' ->
    (forall Y X, adm Y -> run B (S1 ++ Y) L1 (toks m1) X -> run B (S ++ Y) L (toks m) X) ->
    (forall Y s, adm Y -> reaches (S1 ++ Y) s -> reaches (S ++ Y) s) ->
    result L m S m'.
  Proof.
    intros L m S m' L1 m1 S1 R H1 H2. destruct R as [[E R] | [(E & F & c' & L' & I & R1 & R2) | (E & F & R)]].
    - left. split; [assumption |]. intros Y A. apply H1; [assumption |]. apply R. assumption.
    - assert (A : forall Y, adm Y) by (intros Y E'; congruence).
      right; left. split; [assumption | split; [assumption |]]. exists c', L'. split; [assumption | split].
      + intros Y X HX. apply H1; [apply A |]. apply R1. assumption.
      + intros Y. apply H2; [apply A |]. apply R2.
    - right; right. split; [assumption | split; [assumption |]]. rewrite <- (app_nil_r S).
      apply H1; [intros _; reflexivity |]. rewrite app_nil_r. assumption.
  Qed.

  Lemma result_lexeme : forall L m w y k e a m',
    result (L + newlines w) (mkM 10 None e a (L + newlines w) (toks m ++ token_of k (L + newlines w) w)) y m' ->
    k <> OpenComment ->
    (forall Y, adm Y -> longest (w ++ y ++ Y) w k) -> (forall Y, adm Y -> ok B (w ++ y ++ Y)) ->
    result L m (w ++ y) m'.
  Proof.
    intros L m w y k e a m' R NK HL HO. eapply result_step; [exact R | |].
    - intros Y X A HX. rewrite <- app_assoc. eapply run_lexeme; [apply HL; assumption | assumption | apply HO; assumption | exact HX].
    - intros Y s A HX. rewrite <- app_assoc. eapply reach_lexeme; [apply HL; assumption | assumption | exact HX].
  Qed.

  Definition goes (L : Z) (m : mach) (S : list ascii) (l : label) (m0 : mach) (p : nat) : Prop :=
    exists n0 m', result L m S m' /\ forall n, (n0 <= n)%nat -> exec buf n pe eof l m0 p = Some m'.

  Lemma goes_fuel : forall L m S l m0 p l' m1 p', (forall n, exec buf (Datatypes.S n) pe eof l m0 p = exec buf n pe eof l' m1 p') ->
    goes L m S l' m1 p' -> goes L m S l m0 p.
  Proof.
    intros L m S l m0 p l' m1 p' H (n0 & m' & R & Hn). exists (Datatypes.S n0), m'. split; [assumption |].
    intros n Ln. destruct n as [|n]; [lia |]. rewrite H. apply Hn. lia.
  Qed.

  Lemma prev_not_open : forall a, prev_kind a <> Some OpenComment.
  Proof. intros a E. destruct a as [|a|a]; try discriminate; repeat (match goal with z : positive |- _ => destruct z end; try discriminate). Qed.
  Lemma act_not_open : forall a, act_kind a <> Some OpenComment.
  Proof. intros a E. destruct a as [|a|a]; try discriminate; repeat (match goal with z : positive |- _ => destruct z end; try discriminate). Qed.

  Lemma adm_nil : eof = true -> forall Y, adm Y -> Y = [].
  Proof. intros E Y A. apply A. assumption. Qed.

  Lemma exec_ok : forall N c y m p L, cinv B buf p m L c y ->
    ((csize c + List.length y) * (List.length buf + 1) + List.length y < N)%nat ->
    goes L m (ctext c ++ y) (lab y) m p.
  Proof.
    induction N as [|N IH]; intros c y m p L I M; [lia |].
    assert (LY : (List.length y <= List.length buf)%nat).
    { destruct c; destruct I as (x & Eb & _); rewrite Eb, ?app_length; lia. }
    (* going on after a token [w], with [y'] left *)
    assert (EMIT : forall w y' t e a k x, buf = x ++ y' -> x <> [] -> (List.length y' < csize c + List.length y)%nat ->
       k <> OpenComment ->
       (forall Y, adm Y -> longest (w ++ y' ++ Y) w k) -> (forall Y, adm Y -> ok B (w ++ y' ++ Y)) ->
       goes L m (w ++ y') Again (mkM 10 t e a (L + newlines w) (toks m ++ token_of k (L + newlines w) w)) (List.length x - 1)).
    { intros w y' t e a k x Eb Nx Hl NK HL HO.
      assert (Hb : (List.length y' <= List.length buf)%nat) by (rewrite Eb, app_length; lia).
      destruct (IH AtStart y' (mkM 10 None e a (L + newlines w) (toks m ++ token_of k (L + newlines w) w)) (List.length x) (L + newlines w)) as (n1 & m' & R & Hn).
      - exists x. repeat split; assumption.
      - simpl. nia.
      - exists (S n1), m'. split; [eapply result_lexeme; eassumption |]. intros n Ln.
        destruct n as [|n]; [lia |]. rewrite (emitted n t e a _ _ _ x y' Eb).
        + apply Hn. lia.
        + destruct x; [congruence | simpl; lia]. }
    assert (BASE : forall u, (c = AtStart /\ u = [] \/ c = Inside u) -> exists x,
        buf = x ++ u ++ y /\ p = (List.length x + List.length u)%nat
        /\ base (cs m) u (List.length x) (te m) (act m) /\ line m = L + newlines u
        /\ from_state m p = set_ts m (Some (List.length x)) /\ csize c = List.length u /\ ctext c = u).
    { intros u [[-> ->] | ->].
      - destruct I as (x & Eb & Ep & Ec & Et & El). exists x. rewrite El. simpl. repeat split; try assumption; try lia.
        + left. auto.
        + unfold newlines; simpl. lia.
        + rewrite from_ok by (rewrite Ec; unfold known; simpl; tauto). rewrite Ec, Ep. reflexivity.
      - destruct I as (x & Eb & Ep & Et & Pd & El). exists x. repeat split; try assumption.
        + right; assumption.
        + rewrite from_ok by (apply known_inner; apply (p_in _ _ _ _ _ Pd)).
          destruct (inner_ne _ (p_in _ _ _ _ _ Pd)) as (_ & _ & _ & N10). apply Z.eqb_neq in N10. rewrite N10.
          unfold set_ts. rewrite <- Et. destruct m; reflexivity. }
    destruct y as [|ch y].
    - (* the end of the buffer *)
      destruct (Bool.bool_dec eof true) as [EO | EO].
      + assert (LB : (List.length buf < B)%nat) by (apply HE; assumption).
        assert (AN := adm_nil EO).
        destruct c as [|u|w b].
        * destruct I as (x & Eb & Ep & Ec & Et & El).
          exists 1%nat, m. split.
          -- right; right. rewrite Ec. split; [discriminate | split; [assumption |]]. simpl. constructor.
          -- intros n Ln. destruct n as [|n]; [lia |]. simpl. rewrite Ec, EO. reflexivity.
        * destruct I as (x & Eb & Ep & Et & Pd & El). rewrite app_nil_r in Eb.
          pose proof (p_in _ _ _ _ _ Pd) as Iq. pose proof (p_ne _ _ _ _ _ Pd) as Nu.
          assert (Lu : (List.length u < B)%nat) by (rewrite Eb, app_length in LB; lia).
          pose proof (eof_ok _ Iq) as EK. simpl in EK. destruct (tbl deck_eof_trans (cs m) >? 0) eqn:Eg.
          -- destruct EK as (cl & Es & EK).
             assert (ST : forall q l, summary (tbl deck_eof_trans (cs m) - 1) = (q, l) -> forall m1 p1, run_actions buf l (set_cs m q) p = (m1, p1) ->
                forall n, exec buf (S n) pe eof TestEof m p = exec buf n pe eof Again m1 p1).
             { intros q l Es' m1 p1 Er n. simpl. rewrite EO, Eg. simpl. rewrite (take_summary _ _ _ _ _ _ Es'), Er. reflexivity. }
             destruct cl; try contradiction.
             ++ destruct EK as (N15 & k & K1 & K2).
                assert (LG : longest u u k).
                { apply longest_self; [assumption |]. apply accept_some. rewrite (p_vec _ _ _ _ _ Pd N15). assumption. }
                eapply goes_fuel; [eapply ST; [exact Es | apply (run_prev buf m p a k (List.length x) u K1 Et)] |].
                { exists x, []. rewrite app_nil_r. auto. }
                simpl ctext. rewrite El, Ep. rewrite <- app_length. apply EMIT.
                ** rewrite app_nil_r. assumption.
                ** destruct x; [assumption | discriminate].
                ** simpl. destruct u; [congruence | simpl; lia].
                ** intros ->. apply (prev_not_open _ K1).
                ** intros Y A. rewrite (AN Y A), !app_nil_r. assumption.
                ** intros Y A. rewrite (AN Y A), !app_nil_r. apply ok_short. assumption.
             ++ destruct EK as (TT & K). destruct (p_track _ _ _ _ _ Pd TT) as (w & k & LG & Ee & Nw & Ka & Kd).
                destruct LG as (W1 & W2 & (r & Er) & W4). pose proof (conj W1 (conj W2 (conj (ex_intro _ r Er) W4)) : longest u w k) as LG.
                assert (K' : (a = 35 /\ k = Sym DIVIDE) \/ (a = 36 /\ act_kind (act m) = Some k)).
                { destruct K as [[-> K] | [-> K]]; [left | right]; auto. }
                eapply goes_fuel; [eapply ST; [exact Es | apply (run_back buf m p a k (List.length x) w K' Et)] |].
                { exists x, r. rewrite Eb, Er. auto. }
                simpl ctext. rewrite app_nil_r. rewrite El, Ee, Nw, <- app_length.
                assert (Lr : (List.length w + List.length r = List.length u)%nat) by (rewrite Er, app_length; reflexivity).
                pattern u at 1. rewrite Er. apply EMIT.
                ** rewrite Eb, Er, app_assoc. reflexivity.
                ** destruct x; [assumption | discriminate].
                ** simpl. destruct w; [congruence | simpl in *; lia].
                ** intros ->. destruct K' as [[_ K'] | [_ K']]; [discriminate | apply (act_not_open _ K')].
                ** intros Y A. rewrite (AN Y A), !app_nil_r. rewrite <- Er. assumption.
                ** intros Y A. rewrite (AN Y A), !app_nil_r. rewrite <- Er. apply ok_short. assumption.
          -- destruct (inner_ne _ Iq) as (N0 & _).
             exists 1%nat, m. split.
             ++ right; right. split; [assumption | split; [assumption |]]. simpl. rewrite app_nil_r.
                apply run_unfinished; [assumption | apply (p_stuck _ _ _ _ _ Pd EK) | eapply pend_unfinished; eassumption | apply ok_short; assumption].
             ++ intros n Ln. destruct n as [|n]; [lia |]. simpl. rewrite Eg, andb_false_r. reflexivity.
        * destruct I as (x & Eb & Ep & Et & El & Hc & Nc & HL & HU & Lw).
          assert (Z : cs m <> 0 /\ (tbl deck_eof_trans (cs m) >? 0) = false).
          { destruct Hc as [[-> _] | [-> _]]; split; (discriminate || reflexivity). }
          destruct Z as [Z1 Z2].
          exists 1%nat, m. split.
          -- right; right. split; [assumption | split; [assumption |]]. simpl. rewrite app_nil_r.
             apply run_unclosed; [apply HL | assumption | apply ok_prefix; assumption].
          -- intros n Ln. destruct n as [|n]; [lia |]. simpl. rewrite Z2, andb_false_r. reflexivity.
      + apply not_true_is_false in EO.
        assert (P : p = pe).
        { unfold pe. destruct c; destruct I as (x & Q1 & Q2 & _); rewrite Q2, Q1, ?app_nil_r, ?app_length; reflexivity. }
        exists 1%nat, m. split.
        * right; left. split; [| split; [assumption |]].
          -- destruct c.
             ++ destruct I as (x & Eb & Ep & Ec & _). rewrite Ec. discriminate.
             ++ destruct I as (x & Eb & Ep & Et & Pd & El). apply (inner_ne _ (p_in _ _ _ _ _ Pd)).
             ++ destruct I as (x & Eb & Ep & Et & El & Hc & _). destruct Hc as [[-> _] | [-> _]]; discriminate.
          -- exists c, L. rewrite P in I. split; [assumption |]. rewrite app_nil_r. split; [auto | intros; constructor].
        * intros n Ln. destruct n as [|n]; [lia |]. simpl. rewrite EO. reflexivity.
    - (* a character *)
      assert (CASE : (exists u, (c = AtStart /\ u = [] \/ c = Inside u)) \/ exists w b, c = InComment w b).
      { destruct c; [left; exists []; auto | left; eauto | right; eauto]. }
      destruct CASE as [(u & Hu) | (w & b & ->)].
      + destruct (BASE u Hu) as (x & Eb & Ep & Hb & El & Ef & Es & Et). clear BASE. rewrite Et.
        assert (Ec : nth p buf zero = ch).
        { rewrite Ep, Eb, app_assoc, <- app_length. apply nth_mid. }
        assert (Lpe : (List.length u + 1 <= B)%nat) by (rewrite Eb, !app_length in HB; simpl in HB; lia).
        assert (OKP : forall Y, ~ unfinished (u ++ [ch]) -> ok B (u ++ ch :: Y)).
        { intros Y NU. replace (u ++ ch :: Y) with ((u ++ [ch]) ++ Y) by (rewrite <- app_assoc; reflexivity).
          apply ok_prefix; [assumption | rewrite app_length; simpl; lia]. }
        assert (E1 : forall z, u ++ ch :: z = (u ++ [ch]) ++ z) by (intros z; rewrite <- app_assoc; reflexivity).
        destruct (trans_ok (cs m) ch (base_here _ _ _ _ _ Hb)) as (cl & Sm & Ck).
        set (mt := set_ts m (Some (List.length x))).
        assert (ST : forall q l, summary (find_trans (cs m) ch) = (q, l) -> forall m1 p1, run_actions buf l (set_cs mt q) p = (m1, p1) ->
                forall n, exec buf (S n) pe eof (lab (ch :: y)) m p = exec buf n pe eof Again m1 p1).
        { intros q l Es' m1 p1 Er n. simpl. rewrite Ef. fold mt. change (cs mt) with (cs m). rewrite Ec.
          rewrite (take_summary _ _ _ _ _ _ Es'), Er. reflexivity. }
        destruct cl.
        * (* read on *)
          destruct (step_cont _ _ _ _ _ ch nl te a q p Hb Ck Ep) as (Hx & Enl & Pd).
          eapply goes_fuel; [eapply ST; [exact Sm | apply run_cont; assumption] |].
          pose proof (p_in _ _ _ _ _ Pd) as Iq. destruct (inner_ne _ Iq) as (N0 & N8 & N9 & N10).
          eapply goes_fuel.
          { intros n. rewrite (again_step n _ _ (x ++ u ++ [ch]) y); [| apply known_inner; assumption | assumption | | ].
            - apply Z.eqb_neq in N8. apply Z.eqb_neq in N10. simpl. rewrite N8, N10. simpl. reflexivity.
            - rewrite Eb, E1, <- !app_assoc. reflexivity.
            - rewrite !app_length. simpl. lia. }
          match goal with |- goes _ _ _ _ ?mm _ => set (m1 := mm) end.
          destruct (IH (Inside (u ++ [ch])) y m1 (List.length (x ++ u ++ [ch])) L) as (n0 & m' & R & Hn).
          -- exists x. rewrite E1 in Eb. split; [assumption |]. split; [rewrite !app_length; lia |]. split; [reflexivity |]. split; [exact Pd |].
             unfold m1. simpl. rewrite newlines_app, newlines_one, El, Enl. lia.
          -- simpl. rewrite app_length. simpl in *. nia.
          -- exists n0, m'. split; [| assumption]. simpl ctext in R. rewrite E1. exact R.
        * (* a token that ends here *)
          destruct (step_now _ _ _ _ _ ch nl a (y ++ []) Hb Ck) as (Enl & k & K1 & K2 & _ & K4).
          eapply goes_fuel; [eapply ST; [exact Sm | apply (run_now buf mt p nl a k (List.length x) (u ++ [ch]) K1 eq_refl)] |].
          { exists x, y. rewrite <- E1. split; [assumption |]. split; [reflexivity |]. rewrite app_length. simpl. lia. }
          change (line mt) with (line m). rewrite El, Enl, <- Z.add_assoc, <- newlines_one, <- newlines_app.
          replace p with (List.length (x ++ u ++ [ch]) - 1)%nat by (rewrite !app_length; simpl; lia).
          rewrite E1. apply EMIT.
          -- rewrite Eb, E1, <- !app_assoc. reflexivity.
          -- destruct x; [destruct u; discriminate | discriminate].
          -- simpl. lia.
          -- assumption.
          -- intros Y _. rewrite <- E1. apply (step_now _ _ _ _ _ ch nl a (y ++ Y) Hb) in Ck. destruct Ck as (_ & k' & K1' & _ & K3 & _).
             rewrite K1 in K1'. injection K1' as <-. assumption.
          -- intros Y _. rewrite <- E1. apply OKP. assumption.
        * (* a comment starts *)
          destruct (step_opens _ _ _ _ _ ch [] Hb Ck) as (Enl & _ & K4).
          eapply goes_fuel; [eapply ST; [exact Sm | reflexivity] |].
          eapply goes_fuel.
          { intros n. rewrite (again_step n _ _ (x ++ u ++ [ch]) y); [| unfold known; simpl; tauto | discriminate | | ].
            - simpl. reflexivity.
            - rewrite Eb, E1, <- !app_assoc. reflexivity.
            - rewrite !app_length. simpl. lia. }
          match goal with |- goes _ _ _ _ ?mm _ => set (m1 := mm) end.
          destruct (IH (InComment (u ++ [ch]) []) y m1 (List.length (x ++ u ++ [ch])) L) as (n0 & m' & R & Hn).
          -- exists (x ++ u ++ [ch]). rewrite Eb, E1, <- !app_assoc. split; [reflexivity |]. split; [reflexivity |]. split; [reflexivity |].
             split; [unfold m1; simpl; rewrite ?app_nil_r, newlines_app, newlines_one, El, Enl; simpl; lia |].
             split; [right; split; [reflexivity | intros b0 E0; destruct b0; discriminate] |].
             split; [apply no_close_nil |]. split; [| split; [assumption | rewrite app_length; simpl; lia]].
             intros s. rewrite <- E1. apply (step_opens _ _ _ _ _ ch s Hb Ck).
          -- simpl. simpl in *. nia.
          -- exists n0, m'. split; [| assumption]. simpl ctext in R. rewrite app_nil_r, <- E1 in R. exact R.
        * (* a token that ended before this character *)
          destruct (step_prev _ _ _ _ _ ch a [] Hb Ck) as (Nu & (k & K1 & _) & K4).
          eapply goes_fuel; [eapply ST; [exact Sm | apply (run_prev buf mt p a k (List.length x) u K1 eq_refl)] |].
          { exists x, (ch :: y). auto. }
          change (line mt) with (line m). rewrite El, Ep, <- app_length. apply EMIT.
          -- rewrite Eb, <- !app_assoc. reflexivity.
          -- destruct x; [assumption | discriminate].
          -- rewrite Es. destruct u; [congruence | simpl; lia].
          -- intros ->. apply (prev_not_open _ K1).
          -- intros Y _. destruct (step_prev _ _ _ _ _ ch a (y ++ Y) Hb Ck) as (_ & (k' & K1' & K3) & _).
             rewrite K1 in K1'. injection K1' as <-. assumption.
          -- intros Y _. apply (OKP (y ++ Y)). assumption.
        * (* a token that ended at [te] *)
          destruct (step_back _ _ _ _ _ ch a [] Hb Ck) as ((w & k & K1 & K2 & K3 & K5 & K6) & K4).
          destruct K1 as (W1 & W2 & (r & Er) & W4). pose proof (conj W1 (conj W2 (conj (ex_intro _ r Er) W4)) : longest u w k) as LG.
          eapply goes_fuel; [eapply ST; [exact Sm | apply (run_back buf mt p a k (List.length x) w K6 eq_refl)] |].
          { exists x, (r ++ ch :: y). change (ScanModel.te mt) with (ScanModel.te m). rewrite Eb, Er, <- !app_assoc. auto. }
          change (ScanModel.te mt) with (ScanModel.te m). change (line mt) with (line m). rewrite El, K5, K3, <- app_length.
          assert (Lr : (List.length w + List.length r = List.length u)%nat) by (rewrite Er, app_length; reflexivity).
          replace (u ++ ch :: y) with (w ++ r ++ ch :: y) by (rewrite Er, <- app_assoc; reflexivity).
          apply EMIT.
          -- rewrite Eb, Er, <- !app_assoc. reflexivity.
          -- destruct x; [assumption | discriminate].
          -- rewrite Es, app_length. simpl. destruct w; [congruence | simpl in *; lia].
          -- intros ->. destruct K6 as [[_ K6] | [_ K6]]; [discriminate | apply (act_not_open _ K6)].
          -- intros Y _. destruct (step_back _ _ _ _ _ ch a (y ++ Y) Hb Ck) as ((w' & k' & K1' & K2' & _) & _).
             destruct (longest_det _ _ _ _ _ LG K1') as [<- <-].
             rewrite Er, <- app_assoc in K2'. rewrite <- app_assoc. exact K2'.
          -- intros Y _. specialize (OKP (y ++ Y) K4). rewrite Er, <- app_assoc in OKP. rewrite <- app_assoc. exact OKP.
        * (* no token *)
          destruct (step_err _ _ _ _ _ ch [] Hb Ck) as (_ & K4).
          exists 2%nat, (set_cs mt 0). split.
          -- left. split; [reflexivity |]. intros Y _. rewrite <- app_assoc. simpl. destruct (step_err _ _ _ _ _ ch (y ++ Y) Hb Ck) as (K1 & _).
             apply run_illegal; [destruct u; discriminate | assumption | | apply OKP; assumption].
             rewrite E1. intros U. apply K4. eapply unfinished_prefix; eassumption.
          -- intros n Ln. destruct n as [|[|n]]; [lia | lia |].
             rewrite (ST 0 [] Sm (set_cs mt 0) p eq_refl). cbn [exec]. rewrite to_ok by (unfold known; simpl; tauto). reflexivity.
      + (* in a comment *)
        destruct I as (x & Eb & Ep & Ets & El & Hc & Nc & HL & HU & Lw).
        assert (Ec : nth p buf zero = ch) by (rewrite Ep, Eb; apply nth_mid).
        assert (Q : cs m = 8 \/ cs m = 9) by tauto.
        pose proof (comment_ok (cs m) ch Q) as Sm.
        assert (Ef : from_state m p = m).
        { rewrite from_ok by (unfold known; destruct Q as [Q | Q]; rewrite Q; simpl; tauto). destruct Q as [Q | Q]; rewrite Q; reflexivity. }
        assert (ST : forall q l, summary (find_trans (cs m) ch) = (q, l) -> forall m1 p1, run_actions buf l (set_cs m q) p = (m1, p1) ->
                forall n, exec buf (S n) pe eof (lab (ch :: y)) m p = exec buf n pe eof Again m1 p1).
        { intros q l Es' m1 p1 Er n. simpl. rewrite Ef. rewrite Ec.
          rewrite (take_summary _ _ _ _ _ _ Es'), Er. reflexivity. }
        assert (E1 : (w ++ b) ++ ch :: y = (w ++ (b ++ [ch])) ++ y) by (rewrite <- !app_assoc; reflexivity).
        assert (ON : forall (q : Z) (nl : bool), comment_target (cs m) ch = (q, if nl then [0] else []) -> nl = is_nl ch ->
             ((q = 9 /\ ch = "*"%char) \/ (q = 8 /\ ch <> "*"%char)) -> (ch = "/"%char -> forall b0, b <> b0 ++ ["*"%char]) ->
             goes L m ((w ++ b) ++ ch :: y) (lab (ch :: y)) m p).
        { intros q nl Ect Enl Hq Hs. rewrite <- Sm in Ect.
          eapply goes_fuel; [eapply ST; [exact Ect |] |].
          { instantiate (2 := mkM q None (ScanModel.te m) (act m) (line m + nl_of nl) (toks m)). destruct m as [c0 t0 e0 a0 l0 k0]. simpl in Ets. subst t0.
            destruct nl; simpl; rewrite ?Z.add_0_r; reflexivity. }
          assert (K89 : q = 8 \/ q = 9) by tauto.
          eapply goes_fuel.
          { intros n. rewrite (again_step n _ _ (x ++ [ch]) y).
            - instantiate (2 := mkM q None (ScanModel.te m) (act m) (line m + nl_of nl) (toks m)). simpl.
              destruct ((q =? 10) || (q =? 8)); reflexivity.
            - unfold known; simpl; destruct K89 as [-> | ->]; tauto.
            - simpl. destruct K89 as [-> | ->]; discriminate.
            - rewrite Eb, <- !app_assoc. reflexivity.
            - rewrite !app_length. simpl. lia. }
          match goal with |- goes _ _ _ _ ?mm _ => set (m1 := mm) end.
          destruct (IH (InComment w (b ++ [ch])) y m1 (List.length (x ++ [ch])) L) as (n0 & m' & R & Hn).
          - exists (x ++ [ch]). rewrite Eb, <- !app_assoc. split; [reflexivity |]. split; [reflexivity |]. split; [reflexivity |].
            split; [unfold m1; simpl; rewrite El, app_assoc, (newlines_app (w ++ b)), newlines_one, Enl; lia |].
            split.
            { unfold m1; simpl. destruct Hq as [[-> ->] | [-> Hq]]; [left; split; [reflexivity | exists b; reflexivity] | right; split; [reflexivity |]].
              intros b0 E0. apply app_inj_tail in E0. destruct E0; congruence. }
            split; [apply no_close_snoc; assumption |]. split; [assumption | split; assumption].
          - simpl. simpl in *. nia.
          - exists n0, m'. split; [| assumption]. simpl ctext in R. rewrite E1. exact R. }
        unfold comment_target in Sm, ON. unfold ctext.
        destruct (ascii_dec ch newline) as [->|N1].
        { apply (ON 8 true); [reflexivity | reflexivity | right; split; [reflexivity | discriminate] | discriminate]. }
        assert (NL : is_nl ch = false) by (unfold is_nl; destruct (ascii_dec ch newline); [contradiction | reflexivity]).
        destruct (ascii_dec ch "*") as [->|N2].
        { apply (ON 9 false); [reflexivity | reflexivity | left; split; reflexivity | discriminate]. }
        destruct ((cs m =? 9) && (if ascii_dec ch "/" then true else false)) eqn:CL.
        * (* the comment ends *)
          clear ON. apply andb_true_iff in CL. destruct CL as [C9 CS]. apply Z.eqb_eq in C9.
          destruct (ascii_dec ch "/") as [->|]; [| discriminate].
          destruct Hc as [[_ (b0 & ->)] | [C8 _]]; [| congruence].
          eapply goes_fuel; [eapply ST; [exact Sm | reflexivity] |].
          destruct (IH AtStart y (mkM 10 None (ScanModel.te m) (act m) (line m) (toks m)) (List.length (x ++ ["/"%char])) (line m)) as (n0 & m' & R & Hn).
          -- exists (x ++ ["/"%char]). rewrite Eb, <- !app_assoc. repeat split; reflexivity.
          -- simpl. simpl in *. nia.
          -- exists (S n0), m'. split.
             ++ eapply result_step; [exact R | |]; simpl ctext; simpl toks; intros Y X A HX;
                  replace (((w ++ b0 ++ ["*"%char]) ++ "/"%char :: y) ++ Y) with (w ++ b0 ++ close ++ y ++ Y) by (unfold close; rewrite <- !app_assoc; reflexivity).
                ** apply run_comment; [apply HL | eapply no_close_prefix; exact Nc | apply ok_prefix; assumption |].
                   replace (L + newlines (w ++ b0 ++ close)) with (line m); [exact HX |].
                   rewrite El. unfold close. rewrite !newlines_app. reflexivity.
                ** apply reach_comment; [apply HL | eapply no_close_prefix; exact Nc | exact HX].
             ++ intros n Ln. destruct n as [|n]; [lia |]. unfold set_cs. cbn [ts ScanModel.te act line toks cs].
                rewrite (emitted n (ts m) _ _ _ _ _ (x ++ ["/"%char]) y).
                ** apply Hn. lia.
                ** rewrite Eb, <- !app_assoc. reflexivity.
                ** rewrite app_length. simpl. lia.
        * apply (ON 8 false); [reflexivity | symmetry; assumption | right; split; [reflexivity | assumption] |].
          intros -> b0 ->. destruct (ascii_dec "/" "/") as [_|X]; [| congruence]. rewrite andb_true_r in CL. apply Z.eqb_neq in CL.
          destruct Hc as [[C9 _] | [_ Hb]]; [congruence | apply (Hb b0 eq_refl)].
  Qed.
End Loop.
