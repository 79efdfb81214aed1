(** The rounds of the scanner, the division of the text and its uniqueness. *)
From Coq Require Import ZArith NArith List Bool Ascii String Lia.
From Verif Require Import ScanModel ScanSpec ScanRegexProofs ScanTableProofs ScanProofs.
Import ListNotations.
Local Open Scope Z_scope.
Local Open Scope list_scope.

Lemma exec_mono : forall buf pe eof n l m p r, exec buf n pe eof l m p = Some r -> forall n', (n <= n')%nat -> exec buf n' pe eof l m p = Some r.
Proof.
  intros buf pe eof. induction n as [|n IH]; intros l m p r E n' L; [discriminate |].
  destruct n' as [|n']; [lia |]. apply le_S_n in L. cbn [exec] in *. destruct l.
  - destruct (take_trans buf _ _ p) as [m1 p1]. apply IH; assumption.
  - destruct (cs (to_state m) =? 0); [assumption |]. destruct (negb _); apply IH; assumption.
  - destruct (eof && _); [| assumption]. destruct (take_trans buf _ m p) as [m1 p1]. apply IH; assumption.
Qed.

Definition kept_of (c : conf) : list ascii := match c with Inside u => u | _ => [] end.
Definition rinv (B : nat) (kept : list ascii) (m : mach) (L : Z) (c : conf) : Prop :=
  kept = kept_of c /\ cinv B kept (List.length kept) m L c [] /\ (List.length kept <= B)%nat.

Lemma rinv_start : forall B kept m L c chunk, rinv B kept m L c -> cinv B (kept ++ chunk) (List.length kept) m L c chunk.
Proof.
  intros B kept m L c chunk (Ek & I & _). destruct c; simpl in Ek; subst kept; unfold cinv in *.
  - destruct I as (x & Eb & Ep & I). rewrite app_nil_r in Eb. subst x. exists []. split; [reflexivity |]. split; [reflexivity | exact I].
  - destruct I as (x & Eb & Ep & I). rewrite app_nil_r in Eb.
    assert (x = []) by (apply length_zero_iff_nil; apply (f_equal (@List.length _)) in Eb; rewrite app_length in Eb; lia). subst x.
    exists []. split; [reflexivity |]. split; [reflexivity | exact I].
  - destruct I as (x & Eb & Ep & I). rewrite app_nil_r in Eb. subst x. exists []. split; [reflexivity |]. split; [reflexivity | exact I].
Qed.

Lemma rinv_cs : forall B kept m L c, rinv B kept m L c -> cs m <> 0.
Proof.
  intros B kept m L c (_ & I & _). destruct c.
  - destruct I as (x & Eb & Ep & Ec & _). rewrite Ec. discriminate.
  - destruct I as (x & Eb & Ep & Et & Pd & El). apply (inner_ne _ (p_in _ _ _ _ _ Pd)).
  - destruct I as (x & Eb & Ep & Et & El & Hc & _). destruct Hc as [[-> _] | [-> _]]; discriminate.
Qed.

Definition shifted (m' : mach) (buf : list ascii) : list ascii * mach :=
  match ts m' with
  | None => ([], m')
  | Some t => (skipn t buf, mkM (cs m') (Some 0%nat) (te m' - t) (act m') (line m') (toks m'))
  end.
Lemma rinv_end : forall B buf m L c, (List.length buf <= B)%nat -> cinv B buf (List.length buf) m L c [] ->
  rinv B (fst (shifted m buf)) (snd (shifted m buf)) L c /\ toks (snd (shifted m buf)) = toks m.
Proof.
  intros B buf m L c LB I. unfold rinv, shifted. destruct c; unfold cinv in I.
  - destruct I as (x & Eb & Ep & Ec & Et & El). rewrite Et. simpl. split; [| reflexivity]. split; [reflexivity |]. split; [| lia].
    exists []. repeat split; assumption.
  - destruct I as (x & Eb & Ep & Et & Pd & El). rewrite Et. simpl. split; [| reflexivity].
    assert (Ek : skipn (List.length x) buf = u) by (rewrite Eb, app_nil_r, skipn_app, skipn_all, Nat.sub_diag; reflexivity).
    rewrite Ek. split; [reflexivity |]. split; [| rewrite Eb, !app_length in LB; lia].
    exists []. simpl. split; [rewrite app_nil_r; reflexivity |]. split; [reflexivity |]. split; [reflexivity |]. split; [| assumption].
    destruct Pd as [P1 P2 P3 P4 P5 P6]. constructor; try assumption.
    intros T. destruct (P5 T) as (w & k & H1 & H2 & H3). exists w, k. split; [assumption |]. split; [lia | assumption].
  - destruct I as (x & Eb & Ep & Et & El & Hc & I). rewrite Et. simpl. split; [| reflexivity]. split; [reflexivity |]. split; [| lia].
    exists []. split; [reflexivity |]. split; [reflexivity |]. split; [assumption |]. split; [assumption |]. split; assumption.
Qed.

(** One round. *)
Lemma round_ok : forall B kept input m L c, rinv B kept m L c ->
  let chunk := firstn (B - List.length kept) input in
  let eof := (List.length chunk <? B - List.length kept)%nat in
  exists n0 m', result B (kept ++ chunk) eof L m (ctext c ++ chunk) m'
    /\ (forall n, (n0 <= n)%nat -> round B n kept input m = Some (m', kept ++ chunk, skipn (B - List.length kept) input, eof)).
Proof.
  intros B kept input m L c I chunk eof. pose proof (rinv_start _ _ _ _ _ chunk I) as CI.
  assert (LC : (List.length chunk <= B - List.length kept)%nat) by (unfold chunk; rewrite firstn_length; lia).
  pose proof (proj2 (proj2 I)) as LK.
  destruct (exec_ok B (kept ++ chunk) eof) with (N := S ((csize c + List.length chunk) * (List.length (kept ++ chunk) + 1) + List.length chunk)%nat)
    (c := c) (y := chunk) (m := m) (p := List.length kept) (L := L) as (n0 & m' & R & Hn).
  - rewrite app_length. lia.
  - intros E. apply Nat.ltb_lt in E. rewrite app_length. lia.
  - assumption.
  - lia.
  - exists n0, m'. split; [assumption |]. intros n Ln. unfold round. fold chunk. fold eof.
    pose proof (rinv_cs _ _ _ _ _ I) as Nc. apply Z.eqb_neq in Nc. rewrite Nc. specialize (Hn n Ln). rewrite app_length in Hn.
    assert (E : (if Nat.eqb (List.length kept) (List.length kept + List.length chunk) then exec (kept ++ chunk) n (List.length kept + List.length chunk) eof TestEof m (List.length kept)
       else exec (kept ++ chunk) n (List.length kept + List.length chunk) eof Resume m (List.length kept)) = Some m').
    { rewrite <- Hn. destruct chunk as [|a chunk']; simpl.
      - rewrite Nat.add_0_r, Nat.eqb_refl. reflexivity.
      - replace (Nat.eqb (List.length kept) (List.length kept + S (List.length chunk'))) with false by (symmetry; apply Nat.eqb_neq; lia). reflexivity. }
    rewrite E. reflexivity.
Qed.

Lemma round_mono : forall B n kept input m r, round B n kept input m = Some r -> forall n', (n <= n')%nat -> round B n' kept input m = Some r.
Proof.
  intros B n kept input m r E n' L. unfold round in *.
  destruct (Nat.eqb _ _).
  - destruct (exec _ n _ _ TestEof _ _) eqn:X; [| discriminate]. rewrite (exec_mono _ _ _ _ _ _ _ _ X n' L). assumption.
  - destruct (cs m =? 0); [assumption |]. destruct (exec _ n _ _ Resume _ _) eqn:X; [| discriminate]. rewrite (exec_mono _ _ _ _ _ _ _ _ X n' L). assumption.
Qed.

Lemma scan_loop_eq : forall B n kept input m, scan_loop B (S n) kept input m =
  match round B n kept input m with
  | None => None
  | Some (m', buf, input', eof) =>
      if cs m' =? 0 then Some (toks m', true)
      else if eof then Some (toks (snd (shifted m' buf)), false)
           else scan_loop B n (fst (shifted m' buf)) input' (snd (shifted m' buf))
  end.
Proof.
  intros. cbn [scan_loop]. destruct (round B n kept input m) as [[[[m' buf] input'] eof]|]; [| reflexivity].
  destruct (cs m' =? 0); [reflexivity |]. unfold shifted. destruct (ts m'); reflexivity.
Qed.

Lemma scan_mono : forall B n kept input m r, scan_loop B n kept input m = Some r -> forall n', (n <= n')%nat -> scan_loop B n' kept input m = Some r.
Proof.
  intros B. induction n as [|n IH]; intros kept input m r E n' L; [discriminate |].
  destruct n' as [|n']; [lia |]. apply le_S_n in L. rewrite scan_loop_eq in *.
  destruct (round B n kept input m) as [[[[m' buf] input'] eof]|] eqn:R; [| discriminate].
  rewrite (round_mono _ _ _ _ _ _ R n' L). destruct (cs m' =? 0); [assumption |]. destruct eof; [assumption |]. apply IH; assumption.
Qed.

(** What a scan that ends has done. *)
Lemma scan_run : forall B n kept input m L c X, rinv B kept m L c -> scan_loop B n kept input m = Some X ->
  run B (ctext c ++ input) L (toks m) X.
Proof.
  intros B. induction n as [|n IH]; intros kept input m L c X I E; [discriminate |].
  rewrite scan_loop_eq in E. destruct (round_ok B kept input m L c I) as (n0 & m' & R & Hn).
  set (space := (B - List.length kept)%nat) in *.
  destruct (round B n kept input m) as [r|] eqn:Rd; [| discriminate].
  assert (Er : r = (m', kept ++ firstn space input, skipn space input, (List.length (firstn space input) <? space)%nat)).
  { pose proof (round_mono _ _ _ _ _ _ Rd (Nat.max n n0) ltac:(lia)) as E1. rewrite Hn in E1 by lia. congruence. }
  subst r. clear Rd Hn.
  pose proof (proj2 (proj2 I)) as LK.
  assert (LB : (List.length (kept ++ firstn space input) <= B)%nat) by (rewrite app_length, firstn_length; unfold space; lia).
  assert (TX : ctext c ++ input = (ctext c ++ firstn space input) ++ skipn space input) by (rewrite <- app_assoc, firstn_skipn; reflexivity).
  destruct R as [[Ec R] | [(Ec & Ee & c' & L' & CI & R1 & R2) | (Ec & Ee & R)]].
  - rewrite Ec in E. simpl in E. injection E as <-. rewrite TX. apply R.
    intros Eo. apply Nat.ltb_lt in Eo. rewrite firstn_length in Eo. apply skipn_all2. lia.
  - apply Z.eqb_neq in Ec. rewrite Ec, Ee in E. rewrite TX. apply R1.
    destruct (rinv_end B _ m' L' c' LB CI) as [I' Et]. rewrite <- Et. eapply IH; eassumption.
  - apply Z.eqb_neq in Ec. rewrite Ec, Ee in E. rewrite TX.
    assert (Es : skipn space input = []) by (apply Nat.ltb_lt in Ee; rewrite firstn_length in Ee; apply skipn_all2; lia).
    rewrite Es, app_nil_r. injection E as <-.
    assert (Et : toks (snd (shifted m' (kept ++ firstn space input))) = toks m') by (unfold shifted; destruct (ts m'); reflexivity).
    rewrite Et. assumption.
Qed.

Lemma reaches_trans : forall a b c, reaches a b -> reaches b c -> reaches a c.
Proof.
  intros a b c H. induction H; intros H2; [assumption | |].
  - eapply reach_lexeme; eauto.
  - eapply reach_comment; eauto.
Qed.

(** Text that fits is scanned to the end. *)
Lemma scan_ends : forall B N kept input m L c, (0 < B)%nat -> rinv B kept m L c -> (List.length kept < B)%nat ->
  fits B (ctext c ++ input) -> (List.length input < N)%nat -> exists n X, scan_loop B n kept input m = Some X.
Proof.
  intros B. induction N as [|N IH]; intros kept input m L c HB I LK F LI; [lia |].
  destruct (round_ok B kept input m L c I) as (n0 & m' & R & Hn).
  set (space := (B - List.length kept)%nat) in *.
  assert (LB : (List.length (kept ++ firstn space input) <= B)%nat) by (rewrite app_length, firstn_length; unfold space; lia).
  assert (TX : ctext c ++ input = (ctext c ++ firstn space input) ++ skipn space input) by (rewrite <- app_assoc, firstn_skipn; reflexivity).
  destruct R as [[Ec R] | [(Ec & Ee & c' & L' & CI & R1 & R2) | (Ec & Ee & R)]].
  - exists (S n0), (toks m', true). rewrite scan_loop_eq, Hn by lia. rewrite Ec. reflexivity.
  - destruct (rinv_end B _ m' L' c' LB CI) as [I' Et].
    assert (RC : reaches (ctext c ++ input) (ctext c' ++ skipn space input)) by (rewrite TX; apply R2).
    assert (F' : fits B (ctext c' ++ skipn space input)).
    { intros r u r' Hr. apply F. eapply reaches_trans; eassumption. }
    assert (LK' : (List.length (fst (shifted m' (kept ++ firstn space input))) < B)%nat).
    { destruct I' as (Ek & CI' & LK'). rewrite Ek in *. destruct c' as [|u|w b]; simpl in *; try lia.
      destruct CI' as (x & _ & _ & _ & Pd & _).
      destruct (Nat.eq_dec (List.length u) B) as [E|E]; [| lia]. exfalso.
      apply (F' (u ++ skipn space input) u (skipn space input) (reach_here _) eq_refl E). eapply pend_unfinished; eassumption. }
    assert (LI' : (List.length (skipn space input) < N)%nat).
    { rewrite skipn_length. apply Nat.ltb_ge in Ee. rewrite firstn_length in Ee. unfold space in *. lia. }
    destruct (IH _ _ _ _ _ HB I' LK' F' LI') as (n & X & E).
    exists (S (Nat.max n n0)), X. rewrite scan_loop_eq, Hn by lia. apply Z.eqb_neq in Ec. rewrite Ec, Ee.
    eapply scan_mono; [exact E | lia].
  - exists (S n0), (toks (snd (shifted m' (kept ++ firstn space input))), false). rewrite scan_loop_eq, Hn by lia. apply Z.eqb_neq in Ec. rewrite Ec, Ee. reflexivity.
Qed.

Lemma rinv_init : forall B, rinv B [] deck_start 1 AtStart.
Proof. intros B. split; [reflexivity |]. split; [| simpl; lia]. exists []. repeat split. Qed.

(** ** Runs and segments *)
Lemma close_first : forall b1 r1 b2 r2, b1 ++ close ++ r1 = b2 ++ r2 -> no_close b2 -> (List.length b1 < List.length b2)%nat ->
  b2 = b1 ++ ["*"%char] /\ r2 = "/"%char :: r1.
Proof.
  intros b1 r1 b2 r2 E N L. destruct (app_len_inv _ _ _ _ E ltac:(lia)) as (x & -> & Ex).
  destruct x as [|a [|a2 x]]; simpl in Ex.
  - rewrite app_nil_r in L. lia.
  - injection Ex as <- <-. auto.
  - injection Ex as <- <- Ex. exfalso. apply (N b1 x). reflexivity.
Qed.
Lemma comment_det : forall b1 r1 b2 r2, b1 ++ close ++ r1 = b2 ++ close ++ r2 -> no_close b1 -> no_close b2 -> b1 = b2 /\ r1 = r2.
Proof.
  intros b1 r1 b2 r2 E N1 N2. destruct (Nat.lt_trichotomy (List.length b1) (List.length b2)) as [H | [H | H]].
  - destruct (close_first _ _ _ _ E N2 H) as [_ X]. discriminate.
  - destruct (app_len_inv _ _ _ _ E ltac:(lia)) as (x & Ex & Ey).
    assert (x = []) by (apply length_zero_iff_nil; rewrite Ex, app_length in H; lia). subst x. rewrite app_nil_r in Ex. subst b2.
    split; [reflexivity |]. simpl in Ey. injection Ey as ->. reflexivity.
  - destruct (close_first _ _ _ _ (eq_sym E) N1 H) as [_ X]. discriminate.
Qed.
Lemma unclosed_closed : forall b1 b2 r2, b1 = b2 ++ close ++ r2 -> no_close b1 -> False.
Proof. intros b1 b2 r2 E N. apply (N _ _ E). Qed.

Lemma stuck_longest : forall s w k, stuck s -> longest s w k -> False.
Proof. intros s w k S (N & B & (r & E) & _). apply (S w r E N). eapply best_lexeme; eassumption. Qed.

Lemma longest_cut : forall w1 r1 k1 w2 r2 k2, w1 ++ r1 = w2 ++ r2 -> longest (w1 ++ r1) w1 k1 -> longest (w2 ++ r2) w2 k2 -> w1 = w2 /\ r1 = r2 /\ k1 = k2.
Proof.
  intros w1 r1 k1 w2 r2 k2 E L1 L2. rewrite <- E in L2. destruct (longest_det _ _ _ _ _ L1 L2) as [-> ->].
  apply app_inv_head in E. auto.
Qed.

Lemma segments_det : forall s l1 o1, segments s l1 o1 -> forall l2 o2, segments s l2 o2 -> l1 = l2 /\ o1 = o2.
Proof.
  intros s l1 o1 H. induction H as [| w r k l o HL NK HS IH | w b r l o HL NC HS IH | w b HL NC | s NE ST UN | s NE ST UN]; intros l2 o2 H2.
  - inversion H2 as [| w2 r2 k2 l2' o2' HL2 NK2 HS2 Es El Eo | w2 b2 r2 l2' o2' HL2 NC2 HS2 Es El Eo | w2 b2 HL2 NC2 Es El Eo | s2 NE2 | s2 NE2]; subst; auto; try congruence.
    + apply app_eq_nil in Es. destruct Es as [-> _]. destruct HL2 as [X _]. congruence.
    + apply app_eq_nil in Es. destruct Es as [-> _]. destruct HL2 as [X _]. congruence.
    + apply app_eq_nil in Es. destruct Es as [-> _]. destruct HL2 as [X _]. congruence.
  - inversion H2 as [Es El Eo | w2 r2 k2 l2' o2' HL2 NK2 HS2 Es El Eo | w2 b2 r2 l2' o2' HL2 NC2 HS2 Es El Eo | w2 b2 HL2 NC2 Es El Eo | s2 NE2 ST2 UN2 Es El Eo | s2 NE2 ST2 UN2 Es El Eo]; subst.
    + symmetry in Es. apply app_eq_nil in Es. destruct Es as [-> _]. destruct HL as [X _]. congruence.
    + destruct (longest_cut _ _ _ _ _ _ Es HL2 HL) as (-> & -> & ->). destruct (IH _ _ HS2) as [-> ->]. auto.
    + destruct (longest_cut _ _ _ _ _ _ Es HL2 HL) as (_ & _ & X). congruence.
    + destruct (longest_cut _ _ _ _ _ _ Es HL2 HL) as (_ & _ & X). congruence.
    + exfalso. eapply stuck_longest; eassumption.
    + exfalso. eapply stuck_longest; eassumption.
  - inversion H2 as [Es El Eo | w2 r2 k2 l2' o2' HL2 NK2 HS2 Es El Eo | w2 b2 r2 l2' o2' HL2 NC2 HS2 Es El Eo | w2 b2 HL2 NC2 Es El Eo | s2 NE2 ST2 UN2 Es El Eo | s2 NE2 ST2 UN2 Es El Eo]; subst.
    + symmetry in Es. apply app_eq_nil in Es. destruct Es as [-> _]. destruct HL as [X _]. congruence.
    + destruct (longest_cut _ _ _ _ _ _ Es HL2 HL) as (_ & _ & X). congruence.
    + destruct (longest_cut _ _ _ _ _ _ Es HL2 HL) as (-> & X & _).
      destruct (comment_det _ _ _ _ X NC2 NC) as [-> ->]. destruct (IH _ _ HS2) as [-> ->]. auto.
    + destruct (longest_cut _ _ _ _ _ _ Es HL2 HL) as (_ & X & _). exfalso. exact (unclosed_closed _ _ _ X NC2).
    + exfalso. eapply stuck_longest; eassumption.
    + exfalso. eapply stuck_longest; eassumption.
  - inversion H2 as [Es El Eo | w2 r2 k2 l2' o2' HL2 NK2 HS2 Es El Eo | w2 b2 r2 l2' o2' HL2 NC2 HS2 Es El Eo | w2 b2 HL2 NC2 Es El Eo | s2 NE2 ST2 UN2 Es El Eo | s2 NE2 ST2 UN2 Es El Eo]; subst.
    + symmetry in Es. apply app_eq_nil in Es. destruct Es as [-> _]. destruct HL as [X _]. congruence.
    + destruct (longest_cut _ _ _ _ _ _ Es HL2 HL) as (_ & _ & X). congruence.
    + destruct (longest_cut _ _ _ _ _ _ Es HL2 HL) as (_ & X & _). exfalso. symmetry in X. exact (unclosed_closed _ _ _ X NC).
    + rewrite Es. auto.
    + exfalso. eapply stuck_longest; eassumption.
    + exfalso. eapply stuck_longest; eassumption.
  - inversion H2 as [Es El Eo | w2 r2 k2 l2' o2' HL2 NK2 HS2 Es El Eo | w2 b2 r2 l2' o2' HL2 NC2 HS2 Es El Eo | w2 b2 HL2 NC2 Es El Eo | s2 NE2 ST2 UN2 Es El Eo | s2 NE2 ST2 UN2 Es El Eo]; subst;
      try congruence; try (exfalso; eapply stuck_longest; eassumption); try contradiction; auto.
  - inversion H2 as [Es El Eo | w2 r2 k2 l2' o2' HL2 NK2 HS2 Es El Eo | w2 b2 r2 l2' o2' HL2 NC2 HS2 Es El Eo | w2 b2 HL2 NC2 Es El Eo | s2 NE2 ST2 UN2 Es El Eo | s2 NE2 ST2 UN2 Es El Eo]; subst;
      try congruence; try (exfalso; eapply stuck_longest; eassumption); try contradiction; auto.
Qed.

Lemma run_spec : forall B s L T X, (0 < B)%nat -> run B s L T X ->
  (exists l o, segments s l o /\ X = (T ++ tokens_of L l, reported o)) /\ fits B s.
Proof.
  intros B s L T X HB H. induction H as [L T | w r k L T X HL NK HO HR IH | w b r L T X HL NC HO HR IH | w b L T HL NC HO | s L T NE ST UN HO | s L T NE ST UN HO].
  - split.
    + exists [], Complete. split; [constructor | simpl; rewrite app_nil_r; reflexivity].
    + intros r u r' Hr E Lu. assert (L0 : (0 < List.length r)%nat) by (rewrite E, app_length; lia).
      inversion Hr as [s0 | w r0 k r1 HL NK HR Es | w b r0 r1 HL NC HR Es].
      * replace r with (@nil ascii) in L0. simpl in L0. lia.
      * apply app_eq_nil in Es. destruct Es as [-> _]. destruct HL as [X _]. congruence.
      * apply app_eq_nil in Es. destruct Es as [-> _]. destruct HL as [X _]. congruence.
  - destruct IH as [(l & o & S & ->) F]. split.
    + exists (Lexeme k w :: l), o. split; [constructor; assumption |]. simpl. rewrite <- app_assoc. reflexivity.
    + intros r1 u r' Hr E Lu. inversion Hr as [s0 | w2 r0 k2 r2 HL2 NK2 HR2 Es | w2 b2 r0 r2 HL2 NC2 HR2 Es]; subst.
      * apply (HO u r'); auto.
      * destruct (longest_cut _ _ _ _ _ _ Es HL2 HL) as (-> & -> & ->). apply (F _ u r' HR2); auto.
      * destruct (longest_cut _ _ _ _ _ _ Es HL2 HL) as (_ & _ & X). congruence.
  - destruct IH as [(l & o & S & ->) F]. split.
    + exists (Comment w b :: l), o. split; [constructor; assumption | reflexivity].
    + intros r1 u r' Hr E Lu. inversion Hr as [s0 | w2 r0 k2 r2 HL2 NK2 HR2 Es | w2 b2 r0 r2 HL2 NC2 HR2 Es]; subst.
      * apply (HO u r'); auto.
      * destruct (longest_cut _ _ _ _ _ _ Es HL2 HL) as (_ & _ & X). congruence.
      * destruct (longest_cut _ _ _ _ _ _ Es HL2 HL) as (-> & X & _).
        destruct (comment_det _ _ _ _ X NC2 NC) as [-> ->]. apply (F _ u r' HR2); auto.
  - split.
    + exists [], (Unclosed (w ++ b)). split; [constructor; assumption | simpl; rewrite app_nil_r; reflexivity].
    + intros r1 u r' Hr E Lu. inversion Hr as [s0 | w2 r0 k2 r2 HL2 NK2 HR2 Es | w2 b2 r0 r2 HL2 NC2 HR2 Es]; subst.
      * apply (HO u r'); auto.
      * destruct (longest_cut _ _ _ _ _ _ Es HL2 HL) as (_ & _ & X). congruence.
      * destruct (longest_cut _ _ _ _ _ _ Es HL2 HL) as (_ & X & _). exfalso. symmetry in X. exact (unclosed_closed _ _ _ X NC).
  - split.
    + exists [], (Unfinished s). split; [constructor; assumption | simpl; rewrite app_nil_r; reflexivity].
    + intros r1 u r' Hr E Lu. inversion Hr as [s0 | w2 r0 k2 r2 HL2 NK2 HR2 Es | w2 b2 r0 r2 HL2 NC2 HR2 Es]; subst;
        [apply (HO u r'); auto | exfalso; eapply stuck_longest; eassumption | exfalso; eapply stuck_longest; eassumption].
  - split.
    + exists [], (Illegal s). split; [constructor; assumption | simpl; rewrite app_nil_r; reflexivity].
    + intros r1 u r' Hr E Lu. inversion Hr as [s0 | w2 r0 k2 r2 HL2 NK2 HR2 Es | w2 b2 r0 r2 HL2 NC2 HR2 Es]; subst;
        [apply (HO u r'); auto | exfalso; eapply stuck_longest; eassumption | exfalso; eapply stuck_longest; eassumption].
Qed.

(** ** The theorems *)
Lemma do_scan_sound : forall B fuel s toks flag, (0 < B)%nat -> do_scan B fuel s = Some (toks, flag) ->
  exists l o, segments s l o /\ toks = tokens_of 1 l /\ flag = reported o.
Proof.
  intros B fuel s tk flag HB E. unfold do_scan in E.
  pose proof (scan_run _ _ _ _ _ _ _ _ (rinv_init B) E) as R. simpl in R.
  destruct (run_spec _ _ _ _ _ HB R) as [(l & o & S & X) _]. simpl in X. injection X as -> ->. exists l, o. auto.
Qed.
Lemma do_scan_fits : forall B s, (0 < B)%nat -> (exists fuel r, do_scan B fuel s = Some r) <-> fits B s.
Proof.
  intros B s HB. split.
  - intros (fuel & r & E). unfold do_scan in E. pose proof (scan_run _ _ _ _ _ _ _ _ (rinv_init B) E) as R. simpl in R.
    apply (run_spec _ _ _ _ _ HB R).
  - intros F. unfold do_scan. eapply (scan_ends B (S (List.length s)) [] s deck_start 1 AtStart); [assumption | apply rinv_init | simpl; lia | assumption | lia].
Qed.
Lemma do_scan_mono : forall B fuel s r, do_scan B fuel s = Some r -> forall fuel', (fuel <= fuel')%nat -> do_scan B fuel' s = Some r.
Proof. intros B fuel s r E fuel' L. unfold do_scan in *. eapply scan_mono; eassumption. Qed.

Lemma reaches_shorter : forall a b, reaches a b -> (List.length b <= List.length a)%nat.
Proof. intros a b H. induction H; repeat rewrite app_length; lia. Qed.
(** Every text has a division. *)
Lemma segments_total : forall s, exists l o, segments s l o.
Proof.
  intros s. assert (F : fits (S (List.length s)) s).
  { intros r u r' Hr -> Lu. apply reaches_shorter in Hr. rewrite app_length in Hr. lia. }
  apply (do_scan_fits _ s (Nat.lt_0_succ _)) in F. destruct F as (n & [t f] & E).
  destruct (do_scan_sound _ _ _ _ _ (Nat.lt_0_succ _) E) as (l & o & S & _). eauto.
Qed.
Lemma segments_text : forall s l o, segments s l o -> s = List.concat (map segment_text l) ++ remainder o.
Proof.
  intros s l o H. induction H; simpl; try reflexivity.
  - rewrite IHsegments at 1. rewrite app_assoc. reflexivity.
  - rewrite IHsegments at 1. rewrite <- !app_assoc. reflexivity.
Qed.
