(** When diagnostics write, and how the manager drives them. *)
From Coq Require Import ZArith List Bool String Ascii Lia Arith.
From Verif Require Import DiagModel DiagSpec.
Import ListNotations.
Local Open Scope Z_scope.

(** ** Intervals *)
Lemma skipped : forall master c, single c && negb master = true <-> ~ active master c.
Proof. intros master c. unfold active. destruct (single c), master; cbn; split; intros H; try discriminate; try tauto; try (intros X; specialize (X eq_refl); discriminate). Qed.
Lemma skipped_not : forall master c, single c && negb master = false <-> active master c.
Proof. intros master c. unfold active. destruct (single c), master; cbn; split; intros H; try discriminate; try tauto. specialize (H eq_refl). discriminate. Qed.
Definition writes (es : list event) : nat := List.length (filter (fun e => match e with Write => true | _ => false end) es).
Lemma wrote_app : forall a b, wrote (a ++ b) = wrote a || wrote b.
Proof. intros. unfold wrote. apply existsb_app. Qed.
Lemma wrote_opening : forall (b : bool) f, wrote (if b then [Open f] else []) = false.
Proof. intros [] f; reflexivity. Qed.
Lemma wrote_output : forall p r c n, wrote (output p r c n) = true.
Proof. intros p r [f [] s] n; reflexivity. Qed.
Lemma interval_step : forall parallel master rank c i n, i <> 0 ->
  exists es, execute_interval parallel master rank c i n = Some es /\
    (wrote es = true <-> active master c /\ (n < 0 \/ (i | n))).
Proof.
  intros parallel master rank c i n Hi. unfold execute_interval.
  destruct (single c && negb master) eqn:S.
  - apply skipped in S. exists []. split; [reflexivity|]. cbn. split; [discriminate|tauto].
  - apply skipped_not in S. destruct (Z.ltb_spec n 0) as [L|L].
    + eexists. split; [reflexivity|]. rewrite wrote_app, wrote_opening, wrote_output. cbn. split; auto.
    + destruct (Z.eqb_spec i 0); [contradiction|]. destruct (Z.eqb_spec (Z.rem n i) 0) as [R|R].
      * eexists. split; [reflexivity|]. rewrite wrote_app, wrote_opening, wrote_output. cbn. split; auto. intros _. split; [exact S|]. right. apply Z.rem_divide; auto.
      * eexists. split; [reflexivity|]. rewrite wrote_opening. split; [discriminate|]. intros [_ [X|X]]; [lia|]. apply Z.rem_divide in X; auto.
Qed.
Lemma multiples_S : forall i n, 0 < i -> multiples_below i (S n) = multiples_below i n ++ (if Z.of_nat n mod i =? 0 then [Z.of_nat n] else []).
Proof.
  intros i n Hi. unfold multiples_below. pose proof (Z.div_mod (Z.of_nat n) i ltac:(lia)) as D. pose proof (Z.mod_pos_bound (Z.of_nat n) i Hi) as B.
  assert (Q : 0 <= Z.of_nat n / i) by (apply Z.div_pos; lia). remember (Z.of_nat n / i) as k. remember (Z.of_nat n mod i) as r.
  assert (E1 : (Z.of_nat (S n) + i - 1) / i = k + 1) by (symmetry; apply Z.div_unique with r; [lia|rewrite Nat2Z.inj_succ; nia]).
  rewrite E1. destruct (Z.eqb_spec r 0) as [R|R].
  - assert (E2 : (Z.of_nat n + i - 1) / i = k) by (symmetry; apply Z.div_unique with (i - 1); [lia|nia]).
    rewrite E2, Z2Nat.inj_add by lia. rewrite seq_app, map_app. f_equal. change (Z.to_nat 1) with 1%nat; cbn [seq map Nat.add]. f_equal. change (0 + Z.to_nat k)%nat with (Z.to_nat k). rewrite Z2Nat.id by lia. lia.
  - assert (E2 : (Z.of_nat n + i - 1) / i = k + 1) by (symmetry; apply Z.div_unique with (r - 1); [lia|nia]).
    rewrite E2, app_nil_r. reflexivity.
Qed.
Lemma interval_run : forall parallel master rank c i n, 0 < i -> active master c ->
  filter (fun t => match execute_interval parallel master rank c i t with Some es => wrote es | None => false end) (map Z.of_nat (seq 0 n)) = multiples_below i n.
Proof.
  intros parallel master rank c i n Hi Ha. induction n as [|n IH].
  - unfold multiples_below. cbn [seq map filter]. replace ((Z.of_nat 0 + i - 1) / i) with 0; [reflexivity|]. apply Z.div_unique with (i - 1); lia.
  - rewrite seq_S, map_app, filter_app, IH, multiples_S by exact Hi. f_equal. cbn [Nat.add map filter].
    destruct (interval_step parallel master rank c i (Z.of_nat n) ltac:(lia)) as [es [-> W]].
    destruct (Z.eqb_spec (Z.of_nat n mod i) 0) as [R|R].
    + assert (X : wrote es = true). { apply W. split; [exact Ha|]. right. apply Z.mod_divide; lia. } rewrite X. reflexivity.
    + destruct (wrote es); [|reflexivity]. exfalso. destruct W as [W _]. destruct (W eq_refl) as [_ [X|X]]; [lia|]. apply Z.mod_divide in X; lia.
Qed.

(** ** Files *)
Lemma file_app : forall a b o, file o (a ++ b) = match file o a with Some o' => file o' b | None => None end.
Proof. induction a as [|[f| |] a IH]; intros b o; cbn; [reflexivity|..]; destruct o; auto. Qed.
Lemma interval_file : forall parallel master rank c i n es, append c = false -> execute_interval parallel master rank c i n = Some es -> file false es = Some false.
Proof.
  intros parallel master rank c i n es Ha H. unfold execute_interval, output in H. rewrite Ha in H. rewrite !andb_false_r in H.
  destruct (single c && negb master); [inversion H; reflexivity|]. destruct (n <? 0); [inversion H; reflexivity|]. destruct (i =? 0); [discriminate|]. destruct (Z.rem n i =? 0); inversion H; reflexivity.
Qed.
Lemma delta_file : forall parallel master rank T c (s : schedule T) t, append c = false -> file false (fst (execute_delta parallel master rank c s t)) = Some false.
Proof.
  intros parallel master rank T c s t Ha. unfold execute_delta, output. rewrite Ha. rewrite !andb_false_r.
  destruct (single c && negb master); [reflexivity|]. destruct (tleb T (next s) t); reflexivity.
Qed.
Lemma interval_append_open : forall parallel master rank c i n, append c = true -> i <> 0 -> 0 < n ->
  exists es, execute_interval parallel master rank c i n = Some es /\ file true es = Some true.
Proof.
  intros parallel master rank c i n Ha Hi Hn. unfold execute_interval, output. rewrite Ha. destruct (Z.eqb_spec 0 n); [lia|]. cbn [andb].
  destruct (single c && negb master); [exists []; auto|]. destruct (Z.ltb_spec n 0); [lia|]. destruct (Z.eqb_spec i 0); [contradiction|]. destruct (Z.rem n i =? 0); eexists; split; reflexivity.
Qed.
Lemma interval_append_run : forall parallel master rank c i n, append c = true -> active master c -> 0 < i ->
  exists es, all_events (map (execute_interval parallel master rank c i) (map Z.of_nat (seq 0 (S n)))) = Some es /\ file false es = Some true.
Proof.
  intros parallel master rank c i n Ha Hact Hi.
  assert (G : forall m k, (0 < k)%nat -> exists es, all_events (map (execute_interval parallel master rank c i) (map Z.of_nat (seq k m))) = Some es /\ file true es = Some true).
  { induction m as [|m IH]; intros k Hk; [exists []; auto|]. cbn [seq map all_events]. destruct (interval_append_open parallel master rank c i (Z.of_nat k) Ha ltac:(lia) ltac:(lia)) as [es [-> F]].
    destruct (IH (S k) ltac:(lia)) as [r [-> F']]. exists (es ++ r). split; [reflexivity|]. rewrite file_app, F. exact F'. }
  cbn [seq map all_events]. destruct (G n 1%nat ltac:(lia)) as [r [-> F']]. unfold execute_interval at 1, output. apply skipped_not in Hact. rewrite Hact, Ha. cbn [Z.of_nat Z.ltb Z.eqb andb Z.compare]. destruct (Z.eqb_spec i 0); [lia|]. rewrite Z.rem_0_l by assumption. cbn.
  eexists. split; [reflexivity|]. cbn. exact F'.
Qed.
Lemma delta_append_run : forall parallel master rank T c (s : schedule T) times, append c = true -> active master c ->
  teqb T (tzero T) (tzero T) = true -> (forall t, In t times -> teqb T (tzero T) t = false) ->
  file false (List.concat (executed parallel master rank c s (tzero T :: times))) = Some true.
Proof.
  intros parallel master rank T c s times Ha Hact Z0 Hp. apply skipped_not in Hact.
  assert (G : forall times s, (forall t, In t times -> teqb T (tzero T) t = false) -> file true (List.concat (executed parallel master rank c s times)) = Some true).
  { clear - Ha Hact. induction times as [|t times IH]; intros s Hp; [reflexivity|]. cbn [executed]. unfold execute_delta, output. rewrite Ha, Hact, (Hp t (or_introl eq_refl)). cbn [andb].
    destruct (tleb T (next s) t); cbn [app List.concat file]; apply IH; intros u Hu; apply Hp; right; exact Hu. }
  cbn [executed]. unfold execute_delta at 1, output. rewrite Ha, Hact, Z0. cbn [andb]. destruct (tleb T (next s) (tzero T)); cbn [app List.concat file]; apply G; exact Hp.
Qed.

(** ** Schedules, any arithmetic *)
Section Any.
  Variables (parallel master : bool) (rank : Z) (T : clock) (c : config) (delta delay : time T).
  Hypothesis Act : active master c.
  Definition state (k : nat) : schedule T := mkSchedule delta (due delay delta k) (Z.of_nat k).
  Lemma state_0 : scheduled delta delay = state 0. Proof. reflexivity. Qed.
  Definition opening (t : time T) : list event := if teqb T (tzero T) t && append c then [Open (fname c)] else [].
  Lemma delta_eq : forall k t, execute_delta parallel master rank c (state k) t =
    if tleb T (due delay delta k) t then (opening t ++ output parallel rank c (Z.of_nat k), state (S k)) else (opening t, state k).
  Proof. intros k t. unfold execute_delta, opening. pose proof Act as A. apply skipped_not in A. rewrite A. cbn [next state count period]. destruct (tleb T (due delay delta k) t); [|reflexivity]. f_equal. unfold state. cbn [due]. f_equal. lia. Qed.
  (** The outputs, step by step. *)
  Fixpoint plan (k : nat) (times : list (time T)) : list (option nat) :=
    match times with
    | [] => []
    | t :: times' => if tleb T (due delay delta k) t then Some k :: plan (S k) times' else None :: plan k times'
    end.
  Lemma plan_length : forall times k, List.length (plan k times) = List.length times.
  Proof. induction times as [|t times IH]; intros k; cbn; [reflexivity|]. destruct (tleb T (due delay delta k) t); cbn; rewrite IH; reflexivity. Qed.
  Lemma plan_numbers : forall times k, numbers (plan k times) = seq k (List.length (numbers (plan k times))).
  Proof. induction times as [|t times IH]; intros k; cbn; [reflexivity|]. destruct (tleb T (due delay delta k) t); cbn; [f_equal|]; apply IH. Qed.
  Lemma plan_events : forall times k i t, nth_error times i = Some t ->
    exists o, nth_error (plan k times) i = Some o /\
      match o with
      | Some j => j = (k + outputs_before (plan k times) i)%nat /\ tleb T (due delay delta j) t = true
      | None => tleb T (due delay delta (k + outputs_before (plan k times) i)) t = false
      end /\
      nth_error (executed parallel master rank c (state k) times) i =
        Some (opening t ++ match o with Some j => output parallel rank c (Z.of_nat j) | None => [] end).
  Proof.
    induction times as [|u times IH]; intros k i t H; [destruct i; discriminate|].
    cbn [executed plan]. rewrite delta_eq. destruct (tleb T (due delay delta k) u) eqn:L.
    - destruct i as [|i]; cbn [nth_error] in *.
      + inversion H; subst u. exists (Some k). unfold outputs_before. cbn. rewrite Nat.add_0_r. auto.
      + destruct (IH (S k) i t H) as [o [O1 [O2 O3]]]. exists o. split; [exact O1|]. split; [|exact O3]. assert (Q : outputs_before (Some k :: plan (S k) times) (S i) = S (outputs_before (plan (S k) times) i)) by reflexivity. rewrite Q. replace (k + S (outputs_before (plan (S k) times) i))%nat with (S k + outputs_before (plan (S k) times) i)%nat by lia. exact O2.
    - destruct i as [|i]; cbn [nth_error] in *.
      + inversion H; subst u. exists None. unfold outputs_before. cbn. rewrite Nat.add_0_r, app_nil_r. auto.
      + destruct (IH k i t H) as [o [O1 [O2 O3]]]. exists o. split; [exact O1|]. split; [|exact O3]. exact O2.
  Qed.
  Lemma delta_any : forall times, exists ns, List.length ns = List.length times /\ numbers ns = seq 0 (List.length (numbers ns)) /\
    forall i t, nth_error times i = Some t -> exists o es, nth_error ns i = Some o /\ nth_error (executed parallel master rank c (scheduled delta delay) times) i = Some es /\
      match o with
      | Some k => k = outputs_before ns i /\ tleb T (due delay delta k) t = true /\ wrote es = true /\ (append c = false -> es = [Open (parsed_file_name parallel (fname c) rank (Z.of_nat k)); Write; Close])
      | None => tleb T (due delay delta (outputs_before ns i)) t = false /\ wrote es = false
      end.
  Proof.
    intros times. exists (plan 0 times). split; [apply plan_length|]. split; [apply plan_numbers|]. intros i t H. destruct (plan_events times 0 i t H) as [o [O1 [O2 O3]]]. rewrite state_0.
    exists o. eexists. split; [exact O1|]. split; [exact O3|]. destruct o as [k|].
    - destruct O2 as [O2 O4]. split; [exact O2|]. split; [exact O4|]. split; [rewrite wrote_app, wrote_output; apply orb_true_r|]. intros Ha. unfold opening, output. rewrite Ha, andb_false_r. reflexivity.
    - split; [exact O2|]. rewrite app_nil_r. apply wrote_opening.
  Qed.

  (** Rounded arithmetic: output [k] comes between [due k] and [due (k + 1)]. *)
  Lemma plan_rounded : rounded T -> forall times k, (forall t, nth_error times 0 = Some t -> tleb T t (due delay delta (S k)) = true) -> steps_within delta times ->
    forall i t j, nth_error times i = Some t -> nth_error (plan k times) i = Some (Some j) -> tleb T t (due delay delta (S j)) = true.
  Proof.
    intros W. induction times as [|u times IH]; intros k H0 Hs i t j Ht Hj; [destruct i; discriminate|].
    assert (Hs' : steps_within delta times) by (intros a x y Hx Hy; apply (Hs (S a) x y); assumption).
    specialize (H0 u eq_refl). cbn [plan] in Hj. destruct (tleb T (due delay delta k) u) eqn:L.
    - destruct i as [|i]; cbn [nth_error] in *; [inversion Ht; inversion Hj; subst; exact H0|]. apply (IH (S k)) with (i := i); auto.
      intros v Hv. apply (w_trans T W) with (tadd T u delta); [apply (Hs 0%nat u v); auto|]. cbn [due]. apply (w_mono T W). exact H0.
    - destruct i as [|i]; cbn [nth_error] in *; [discriminate|]. apply (IH k) with (i := i); auto. intros v Hv. apply (w_trans T W) with (tadd T u delta); [apply (Hs 0%nat u v); auto|]. cbn [due]. apply (w_mono T W).
      destruct (w_total T W u (due delay delta k)); congruence.
  Qed.
End Any.
Arguments plan {T}. Arguments state {T}.

(** ** Schedules, exact arithmetic *)
Section Exact.
  Variables (T : clock) (X : exact T).
  Lemma x_rounded : rounded T.
  Proof. split; apply X. Qed.
  Lemma lt_le : forall a b, tltb T a b = true -> tleb T a b = true.
  Proof. intros a b H. rewrite (x_lt T X) in H. destruct (x_total T X a b) as [E|E]; [exact E|]. rewrite E in H. discriminate. Qed.
  Lemma lt_not_le : forall a b, tltb T a b = true <-> tleb T b a = false.
  Proof. intros a b. rewrite (x_lt T X). destruct (tleb T b a); cbn; split; congruence. Qed.
  Lemma le_lt_trans : forall a b c, tleb T a b = true -> tltb T b c = true -> tltb T a c = true.
  Proof. intros a b c H1 H2. apply lt_not_le. apply lt_not_le in H2. destruct (tleb T c a) eqn:E; [|reflexivity]. rewrite (x_trans T X _ _ _ E H1) in H2. discriminate. Qed.
  Lemma lt_le_trans : forall a b c, tltb T a b = true -> tleb T b c = true -> tltb T a c = true.
  Proof. intros a b c H1 H2. apply lt_not_le. apply lt_not_le in H1. destruct (tleb T c a) eqn:E; [|reflexivity]. rewrite (x_trans T X _ _ _ H2 E) in H1. discriminate. Qed.
  Lemma add_cancel : forall a b, tadd T (tadd T a b) (tsub T (tzero T) b) = a.
  Proof. intros a b. rewrite <- (x_assoc T X), (x_comm T X b), (x_sub T X), (x_comm T X), (x_zero T X). reflexivity. Qed.
  Lemma mono_inv : forall a b c, tleb T (tadd T a c) (tadd T b c) = true -> tleb T a b = true.
  Proof. intros a b c H. apply (x_mono T X) with (c := tsub T (tzero T) c) in H. rewrite !add_cancel in H. exact H. Qed.
  Lemma mono_lt : forall a b c, tltb T a b = true -> tltb T (tadd T a c) (tadd T b c) = true.
  Proof. intros a b c H. apply lt_not_le. apply lt_not_le in H. destruct (tleb T (tadd T b c) (tadd T a c)) eqn:E; [|reflexivity]. rewrite (mono_inv _ _ _ E) in H. discriminate. Qed.
  Lemma add_pos : forall a d, tltb T (tzero T) d = true -> tltb T a (tadd T a d) = true.
  Proof. intros a d H. apply mono_lt with (c := a) in H. rewrite (x_zero T X), (x_comm T X d) in H. exact H. Qed.
  Lemma sub_pos : forall a b, tltb T (tzero T) (tsub T a b) = true <-> tltb T b a = true.
  Proof.
    intros a b. split; intros H.
    - apply mono_lt with (c := b) in H. rewrite (x_zero T X), (x_sub T X) in H. exact H.
    - apply lt_not_le. apply lt_not_le in H. destruct (tleb T (tsub T a b) (tzero T)) eqn:E; [|reflexivity]. apply (x_mono T X) with (c := b) in E. rewrite (x_zero T X), (x_sub T X) in E. congruence.
  Qed.

  Variables (delta delay : time T).
  Hypothesis Pos : tltb T (tzero T) delta = true.
  Lemma due_lt : forall k, tltb T (due delay delta k) (due delay delta (S k)) = true.
  Proof. intros k. cbn. apply add_pos. exact Pos. Qed.
  Lemma due_le : forall k n, tleb T (due delay delta k) (due delay delta (k + n)) = true.
  Proof. intros k n. induction n as [|n IH]; [rewrite Nat.add_0_r; apply X|]. rewrite Nat.add_succ_r. apply (x_trans T X) with (due delay delta (k + n)); [exact IH|]. apply lt_le. apply due_lt. Qed.
  Notation plan := (plan delta delay).
  (** Everything before a step is earlier than the next output. *)
  Lemma plan_exact : forall times k, (forall t, nth_error times 0 = Some t -> tltb T t (due delay delta (S k)) = true) -> steps_within delta times ->
    (forall i t j, nth_error times i = Some t -> nth_error (plan k times) i = Some (Some j) -> tltb T t (due delay delta (S j)) = true) /\
    (forall i t j, nth_error times i = Some t -> (k <= j)%nat -> nth_error (plan k times) i = Some (Some j) <->
       (tleb T (due delay delta j) t = true /\ forall l u, (l < i)%nat -> nth_error times l = Some u -> tltb T u (due delay delta j) = true)).
  Proof.
    induction times as [|u times IH]; intros k H0 Hs; [split; intros [|i] t j H; discriminate|].
    assert (Hs' : steps_within delta times) by (intros a x y Hx Hy; apply (Hs (S a) x y); assumption).
    specialize (H0 u eq_refl). cbn [DiagProofs.plan]. destruct (tleb T (due delay delta k) u) eqn:L.
    - destruct (IH (S k)) as [I1 I2]; [|exact Hs'|].
      { intros v Hv. apply le_lt_trans with (tadd T u delta); [apply (Hs 0%nat u v); auto|]. cbn [due]. apply mono_lt. exact H0. }
      split.
      + intros [|i] t j Ht Hj; cbn [nth_error] in *; [inversion Ht; inversion Hj; subst; exact H0|]. apply (I1 i); auto.
      + intros [|i] t j Ht Hk; cbn [nth_error] in *.
        * inversion Ht; subst u. split.
          -- intros E. inversion E; subst j. split; [exact L|]. intros l v Hl. lia.
          -- intros [E _]. destruct (Nat.eq_dec j k) as [->|N]; [reflexivity|]. exfalso. replace j with (S k + (j - S k))%nat in E by lia. apply lt_not_le in H0. rewrite (x_trans T X _ _ _ (due_le (S k) (j - S k)) E) in H0. discriminate.
        * destruct (Nat.eq_dec j k) as [->|N].
          -- split.
             ++ intros E. exfalso. pose proof (plan_numbers T delta delay times (S k)) as Q. assert (In k (numbers (plan (S k) times))) as I.
                { unfold numbers. apply in_flat_map. exists (Some k). split; [eapply nth_error_In; exact E|left; reflexivity]. }
                rewrite Q in I. apply in_seq in I. lia.
             ++ intros [_ E]. specialize (E 0%nat u ltac:(lia) eq_refl). apply lt_not_le in E. congruence.
          -- rewrite (I2 i t j Ht ltac:(lia)). split; intros [E1 E2]; (split; [exact E1|]).
             ++ intros [|l] v Hl Hv; cbn [nth_error] in Hv; [inversion Hv; subst v|apply (E2 l); [lia|exact Hv]]. apply lt_le_trans with (due delay delta (S k)); [exact H0|]. replace j with (S k + (j - S k))%nat by lia. apply due_le.
             ++ intros l v Hl Hv. apply (E2 (S l)); [lia|exact Hv].
    - apply lt_not_le in L. destruct (IH k) as [I1 I2]; [|exact Hs'|].
      { intros v Hv. apply le_lt_trans with (tadd T u delta); [apply (Hs 0%nat u v); auto|]. cbn [due]. apply mono_lt. exact L. }
      split.
      + intros [|i] t j Ht Hj; cbn [nth_error] in *; [discriminate|]. apply (I1 i); auto.
      + intros [|i] t j Ht Hk; cbn [nth_error] in *.
        * inversion Ht; subst u. split; [discriminate|]. intros [E _]. exfalso. replace j with (k + (j - k))%nat in E by lia. apply lt_not_le in L. rewrite (x_trans T X _ _ _ (due_le k (j - k)) E) in L. discriminate.
        * rewrite (I2 i t j Ht Hk). split; intros [E1 E2]; (split; [exact E1|]).
          -- intros [|l] v Hl Hv; cbn [nth_error] in Hv; [inversion Hv; subst v|apply (E2 l); [lia|exact Hv]]. apply lt_le_trans with (due delay delta k); [exact L|]. replace j with (k + (j - k))%nat by lia. apply due_le.
          -- intros l v Hl Hv. apply (E2 (S l)); [lia|exact Hv].
  Qed.
End Exact.
