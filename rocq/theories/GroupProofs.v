(** Proofs for the opening of HDF files by a part of the processes. *)
From Coq Require Import List Bool Arith Lia.
From Verif Require Import GroupModel GroupSpec.
Import ListNotations.

Lemma comm_eqb_eq a b : comm_eqb a b = true <-> a = b.
Proof.
  destruct a, b; cbn; split; try congruence; intros H.
  - apply andb_true_iff in H as [H1 H2]. apply Nat.eqb_eq in H1.
    destruct list_eq_dec; [congruence|discriminate].
  - injection H as -> ->. rewrite Nat.eqb_refl. destruct list_eq_dec; [reflexivity|congruence].
Qed.

Lemma filter_all {X} (f : X -> bool) l : (forall x, In x l -> f x = true) -> filter f l = l.
Proof.
  induction l as [|x l IH]; intros H; [reflexivity|]. cbn. rewrite (H x) by (now left). f_equal. apply IH. intros; apply H; now right.
Qed.

Section Proofs.
  Variable kd : kind.
  Variables n R : nat.
  Variable calls : nat -> nat -> option bool.
  Hypothesis npos : 0 < n.
  Hypothesis uni : all_or_none n R calls.

  Notation A := (participants n calls).
  Notation act := (is_active calls).

  Definition called (p r : nat) : bool := match calls p r with Some _ => true | None => false end.
  Lemma called_uni p q r : r < R -> p < n -> q < n -> called p r = called q r.
  Proof.
    intros Hr Hp Hq. unfold called. pose proof (uni r p q Hr Hp Hq). pose proof (uni r q p Hr Hq Hp).
    destruct (calls p r), (calls q r); try reflexivity; exfalso; [specialize (H0 eq_refl)|specialize (H eq_refl)]; discriminate.
  Qed.

  (** Rounds with calls before round [r]. *)
  Fixpoint cnt (r : nat) : nat := match r with O => 0 | S r' => (if called 0 r' then 1 else 0) + cnt r' end.
  Lemma cnt_mono r r' : r <= r' -> cnt r <= cnt r'.
  Proof. induction 1; [lia|]. cbn. lia. Qed.

  (** The streams between, and within, the rounds. *)
  Fixpoint str_at (p r : nat) : stream :=
    match r with
    | O => new_stream
    | S r' =>
        let s1 := set_active (calls p r') (str_at p r') in
        let s2 := if modified s1 then with_group (Sub (cnt r') (A r')) s1 else no_group s1 in
        if active s2 then prepare kd s2 else s2
    end.
  Definition s1 p r := set_active (calls p r) (str_at p r).
  Definition s2 p r := if modified (s1 p r) then with_group (Sub (cnt r) (A r)) (s1 p r) else no_group (s1 p r).
  Lemma str_at_S p r : str_at p (S r) = if active (s2 p r) then prepare kd (s2 p r) else s2 p r.
  Proof. reflexivity. Qed.

  Lemma prepare_active s : active (prepare kd s) = active s. Proof. destruct kd; reflexivity. Qed.
  Lemma prepare_modified s : modified (prepare kd s) = modified s. Proof. destruct kd; reflexivity. Qed.
  Lemma prepare_com s : com (prepare kd s) = com s. Proof. destruct kd; reflexivity. Qed.
  Lemma prepare_com_set s : com_set (prepare kd s) = com_set s. Proof. destruct kd; reflexivity. Qed.

  Lemma s2_modified_of p r : modified (str_at p r) = false -> modified (s2 p r) = false.
  Proof.
    intros H. unfold s2. destruct (modified (s1 p r)) eqn:E; [reflexivity|].
    unfold no_group. destruct (com_set _); exact E.
  Qed.
  Lemma modified_at p r : modified (str_at p r) = false.
  Proof.
    induction r as [|r IH]; [reflexivity|]. rewrite str_at_S.
    destruct (active (s2 p r)); rewrite ?prepare_modified; now apply s2_modified_of.
  Qed.
  Lemma s1_modified p r : modified (s1 p r) = called p r.
  Proof. unfold s1, called, set_active. destruct (calls p r); [reflexivity|apply modified_at]. Qed.
  Lemma s2_active_s1 p r : active (s2 p r) = active (s1 p r).
  Proof. unfold s2. destruct (modified _); [reflexivity|]. unfold no_group. destruct (com_set _); reflexivity. Qed.
  Lemma s1_active p r : active (s1 p r) = act p r.
  Proof.
    induction r as [|r IH].
    - unfold s1, set_active. cbn. destruct (calls p 0); reflexivity.
    - unfold s1, set_active. cbn [is_active]. destruct (calls p (S r)); [reflexivity|].
      rewrite str_at_S, s2_active_s1. rewrite IH. destruct (act p r) eqn:E; rewrite ?prepare_active, s2_active_s1; now rewrite IH.
  Qed.
  Lemma s2_active p r : active (s2 p r) = act p r.
  Proof. now rewrite s2_active_s1, s1_active. Qed.

  Lemma in_A p r : In p (A r) <-> p < n /\ act p r = true.
  Proof. unfold participants. rewrite filter_In, in_seq. cbn. intuition lia. Qed.

  (** The communicators fit. *)
  Definition good : Prop :=
    forall r, r < R -> exists c, ranks_of n c = A r /\ forall p, p < n -> act p r = true -> file_comm kd (s2 p r) = Some c.

  Definition proc_ok (g : nat) (p : nat) (x : proc) : Prop :=
    match ph x with
    | Start => round x <= R /\ str x = str_at p (round x) /\ cnt (round x) = g
    | AtGroup => round x < R /\ called p (round x) = true /\ str x = s1 p (round x) /\ cnt (round x) = g
    | AtFile c => round x < R /\ act p (round x) = true /\ str x = prepare kd (s2 p (round x)) /\ c = file_comm kd (s2 p (round x))
                  /\ cnt (S (round x)) = g
    end.
  Definition files (f : nat) : list (list nat) :=
    filter (fun l => match l with [] => false | _ => true end) (map A (seq 0 f)).
  Definition inv (s : state) : Prop :=
    (forall p, p < n -> proc_ok (created s) p (procs s p)) /\ (forall p, n <= p -> ph (procs s p) = Start) /\
    exists f, f <= R /\ map (ranks_of n) (opened s) = files f /\
              forall p r, p < n -> r < R -> act p r = true -> (r < round (procs s p) <-> r < f).

  Lemma go_file_ok p r : p < n -> r < R -> proc_ok (cnt (S r)) p (go_file kd r (s2 p r)).
  Proof.
    intros Hp Hr. unfold go_file, proc_ok. rewrite s2_active. destruct (act p r) eqn:E; cbn [ph round str].
    - intuition.
    - split; [lia|]. split; [|reflexivity]. rewrite str_at_S, s2_active, E. reflexivity.
  Qed.
  Lemma round_go_file p r : (act p r = true -> round (go_file kd r (s2 p r)) = r) /\ (act p r = false -> round (go_file kd r (s2 p r)) = S r).
  Proof. unfold go_file. rewrite s2_active. split; intros ->; reflexivity. Qed.

  Lemma inv_start : inv start.
  Proof.
    split.
    - intros p Hp. cbn. intuition lia.
    - split; [intros; reflexivity|]. exists 0. cbn. repeat split; intros; try lia; reflexivity.
  Qed.

  (** Going from round [r] to [go_file] does not pass a file. *)
  Lemma passes_same p r r0 f :
    (forall q, q < R -> act p q = true -> (q < r <-> q < f)) -> r0 < R -> act p r0 = true ->
    (r0 < round (go_file kd r (s2 p r)) <-> r0 < f).
  Proof.
    intros H H0 E. destruct (round_go_file p r) as [T F]. destruct (act p r) eqn:Er.
    - rewrite T by reflexivity. now apply H.
    - rewrite F by reflexivity. destruct (Nat.eq_dec r0 r) as [->|]; [congruence|].
      rewrite <- (H r0 H0 E). lia.
  Qed.

  Lemma group_round s p : inv s -> p < n -> at_group (procs s p) = true ->
    round (procs s p) < R /\ called p (round (procs s p)) = true /\ str (procs s p) = s1 p (round (procs s p)) /\ cnt (round (procs s p)) = created s.
  Proof.
    intros (H & _) Hp E. specialize (H p Hp). unfold proc_ok, at_group in *. destruct (ph (procs s p)); try discriminate. exact H.
  Qed.

  (** Two rounds with calls and the same number of such rounds before are one. *)
  Lemma cnt_same r r' : cnt r = cnt r' -> called 0 r = true -> called 0 r' = true -> r = r'.
  Proof.
    intros H C C'. destruct (Nat.lt_trichotomy r r') as [L|[L|L]]; [|exact L|]; exfalso.
    - pose proof (cnt_mono (S r) r' L) as M. cbn in M. rewrite C in M. lia.
    - pose proof (cnt_mono (S r') r L) as M. cbn in M. rewrite C' in M. lia.
  Qed.

  (** Active sets only change in rounds with calls. *)
  Lemma A_step r : S r < R -> called 0 (S r) = false -> A (S r) = A r.
  Proof.
    intros Hr C. unfold participants. apply filter_ext_in. intros p Hp. apply in_seq in Hp.
    cbn. rewrite (called_uni 0 p (S r)) in C by lia. unfold called in C. destruct (calls p (S r)); [discriminate|reflexivity].
  Qed.
  Lemma A_same r r' : r <= r' -> r' < R -> cnt (S r) = cnt (S r') -> A r' = A r.
  Proof.
    induction 1 as [|r' L IH]; [reflexivity|]. intros Hr C.
    assert (E : called 0 (S r') = false).
    { destruct (called 0 (S r')) eqn:E; [|reflexivity]. exfalso. pose proof (cnt_mono (S r) (S r') ltac:(lia)).
      cbn [cnt] in C. cbn [cnt] in H. rewrite E in C. cbn in C. lia. }
    rewrite (A_step r' Hr E). apply IH; [lia|]. rewrite C. cbn. rewrite E. reflexivity.
  Qed.

  (** Where a process is, from its round and the number of groups made. *)
  Lemma passed_group s p r : inv s -> p < n -> r < round (procs s p) -> round (procs s p) <= R -> cnt (S r) <= created s.
  Proof.
    intros (H & _) Hp L Le. specialize (H p Hp). unfold proc_ok in H.
    pose proof (cnt_mono (S r) (round (procs s p)) L). destruct (ph (procs s p)); [lia|lia|].
    destruct H as (_ & _ & _ & _ & H). cbn [cnt] in H. lia.
  Qed.
  Lemma round_le s p : inv s -> p < n -> round (procs s p) <= R.
  Proof. intros (H & _) Hp. specialize (H p Hp). unfold proc_ok in H. destruct (ph _); intuition lia. Qed.

  Lemma files_skip f r : f <= r -> (forall r', f <= r' -> r' < r -> A r' = []) -> files r = files f.
  Proof.
    intros L. induction L as [|r L IH]; [reflexivity|]. intros E. unfold files in *.
    rewrite seq_S, map_app, filter_app. cbn [map plus filter]. rewrite (E r) by lia. rewrite app_nil_r.
    apply IH. intros; apply E; lia.
  Qed.

  Lemma step_inv (G : good) s e s' : inv s -> step kd n R calls s e = Some s' -> inv s'.
  Proof.
    intros I E. pose proof I as [Hp [Hn [f (Hf & Ho & Ha)]]]. destruct e as [p| |c]; cbn [step] in E.
    - destruct (ph (procs s p)) eqn:Eph; try discriminate.
      destruct ((p <? n) && (round (procs s p) <? R))%nat eqn:Eb; [|discriminate].
      apply andb_true_iff in Eb as [Lp Lr]. apply Nat.ltb_lt in Lp, Lr.
      assert (K := Hp p Lp). unfold proc_ok in K. rewrite Eph in K. destruct K as (_ & Ks & Kc).
      rewrite Ks in E. fold (s1 p (round (procs s p))) in E.
      injection E as <-. set (r := round (procs s p)) in *. split; [|split].
      + intros q Hq. cbn [procs created]. destruct (Nat.eqb_spec q p) as [->|Nq]; [|now apply Hp].
        destruct (modified (s1 p r)) eqn:Em.
        * unfold proc_ok. cbn [ph round str]. rewrite s1_modified in Em. intuition.
        * assert (E2 : no_group (s1 p r) = s2 p r) by (unfold s2; now rewrite Em). rewrite E2.
          assert (Ec : cnt (S r) = created s).
          { cbn [cnt]. rewrite s1_modified, (called_uni p 0 r) in Em by lia. rewrite Em. exact Kc. }
          rewrite <- Ec. now apply go_file_ok.
      + intros q Hq. cbn [procs]. destruct (Nat.eqb_spec q p) as [->|Nq]; [lia|now apply Hn].
      + exists f. cbn [procs opened]. split; [exact Hf|]. split; [exact Ho|]. intros q r0 Hq Hr0 Eq.
        destruct (Nat.eqb_spec q p) as [->|Nq]; [|now apply Ha].
        destruct (modified (s1 p r)) eqn:Em; [cbn [round]; now apply Ha|].
        assert (E2 : no_group (s1 p r) = s2 p r) by (unfold s2; now rewrite Em). rewrite E2.
        apply passes_same; auto. intros q0 Lq0 Eq0. unfold r. now apply Ha.
    - destruct (forallb _ (seq 0 n)) eqn:Eb; [|discriminate]. rewrite forallb_forall in Eb.
      assert (AG : forall p, p < n -> at_group (procs s p) = true) by (intros p L; apply Eb; apply in_seq; lia). clear Eb.
      set (r := round (procs s 0)).
      destruct (group_round s 0 I npos (AG 0 npos)) as (R0 & C0 & _ & K0). fold r in R0, C0, K0.
      assert (SR : forall p, p < n -> round (procs s p) = r).
      { intros p L. destruct (group_round s p I L (AG p L)) as (Rp & Cp & _ & Kp).
        apply cnt_same; [congruence| |exact C0]. now rewrite (called_uni 0 p) by lia. }
      assert (EA : active_ranks n s = A r).
      { unfold active_ranks, participants. apply filter_ext_in. intros p L. apply in_seq in L.
        destruct (group_round s p I ltac:(lia) (AG p ltac:(lia))) as (_ & _ & Sp & _).
        rewrite Sp, (SR p) by lia. apply s1_active. }
      assert (E2 : forall p, p < n -> with_group (Sub (created s) (active_ranks n s)) (str (procs s p)) = s2 p r).
      { intros p L. destruct (group_round s p I L (AG p L)) as (Rp & Cp & Sp & Kp).
        rewrite Sp, (SR p L) in *. unfold s2. rewrite s1_modified, Cp, EA, K0. reflexivity. }
      injection E as <-. split; [|split].
      + intros p L. cbn [procs created]. rewrite (proj2 (Nat.ltb_lt p n) L), (E2 p L), (SR p L).
        replace (S (created s)) with (cnt (S r)) by (cbn [cnt]; rewrite C0; cbn; lia). now apply go_file_ok.
      + intros p L. cbn [procs]. rewrite (proj2 (Nat.ltb_ge p n) L). now apply Hn.
      + exists f. cbn [procs opened]. split; [exact Hf|]. split; [exact Ho|]. intros p r0 L Lr Ea.
        rewrite (proj2 (Nat.ltb_lt p n) L), (E2 p L), (SR p L). apply passes_same; auto. intros q Lq Eq. rewrite <- (SR p L). now apply Ha.
    - destruct (ranks_of n c) as [|p0 l0] eqn:Er; [discriminate|]. remember (p0 :: l0) as l eqn:El.
      destruct (forallb (fun p => at_file c (procs s p)) l) eqn:Eb; [|discriminate]. rewrite forallb_forall in Eb.
      assert (AF : forall p, In p l -> ph (procs s p) = AtFile (Some c)).
      { intros p L. specialize (Eb p L). unfold at_file in Eb. destruct (ph (procs s p)) as [| |[d|]]; try discriminate.
        apply comm_eqb_eq in Eb. now subst. }
      assert (Ln : forall p, In p l -> p < n).
      { intros p L. destruct (Nat.lt_ge_cases p n) as [Y|Y]; [exact Y|]. specialize (AF p L). rewrite (Hn p Y) in AF. discriminate. }
      assert (Lt : forall p, In p l -> act p (round (procs s p)) = true /\ round (procs s p) < R /\ A (round (procs s p)) = l
                   /\ str (procs s p) = prepare kd (s2 p (round (procs s p))) /\ cnt (S (round (procs s p))) = created s).
      { intros p L. specialize (Hp p (Ln p L)). unfold proc_ok in Hp. rewrite (AF p L) in Hp.
        destruct Hp as (Rp & Ap & Sp & Cp & Kp). destruct (G _ Rp) as (c' & Rc & Gc).
        rewrite (Gc p (Ln p L) Ap) in Cp. injection Cp as <-. intuition congruence. }
      assert (In0 : In p0 l) by (rewrite El; now left).
      set (r := round (procs s p0)).
      destruct (Lt p0 In0) as (A0 & R0 & L0 & _ & C0). fold r in A0, R0, L0, C0.
      assert (NF : ~ r < f) by (intros X; apply (Ha p0 r (Ln _ In0) R0 A0) in X; unfold r in X; lia).
      assert (SR : forall p, In p l -> round (procs s p) = r).
      { intros p L. destruct (Lt p L) as (Ap & Rp & Lp & _ & _).
        assert (Ap0 : act p r = true) by (rewrite <- L0 in L; now apply in_A in L).
        assert (A0p : act p0 (round (procs s p)) = true) by (rewrite <- Lp in In0; now apply in_A in In0).
        pose proof (Ha p r (Ln _ L) R0 Ap0). pose proof (Ha p0 (round (procs s p)) (Ln _ In0) Rp A0p) as Y. fold r in Y.
        pose proof (Ha p (round (procs s p)) (Ln _ L) Rp Ap). lia. }
      assert (Em : forall r', f <= r' -> r' < r -> A r' = []).
      { intros r' F1 F2. destruct (A r') as [|q lq] eqn:EA; [reflexivity|]. exfalso.
        assert (Q : q < n /\ act q r' = true) by (apply in_A; rewrite EA; now left). destruct Q as [Qn Qa].
        pose proof (proj1 (Ha q r' Qn ltac:(lia) Qa)) as Hq.
        destruct (Nat.eq_dec (cnt (S r')) (cnt (S r))) as [C|C].
        - pose proof (A_same r' r ltac:(lia) R0 C) as X.
          assert (act p0 r' = true) by (rewrite <- L0, X in In0; now apply in_A in In0).
          pose proof (Ha p0 r' (Ln _ In0) ltac:(lia) H) as Y. fold r in Y. lia.
        - pose proof (cnt_mono (S r') (S r) ltac:(lia)) as M.
          assert (round (procs s q) <= r') by lia. specialize (Hp q Qn). unfold proc_ok in Hp.
          pose proof (cnt_mono (round (procs s q)) r' H) as M2. pose proof (cnt_mono (S (round (procs s q))) (S r') ltac:(lia)) as M3.
          pose proof (cnt_mono r' (S r') ltac:(lia)) as M4.
          destruct (ph (procs s q)); lia. }
      injection E as <-. split; [|split].
      + intros p L. cbn [procs created]. destruct (existsb (Nat.eqb p) l) eqn:Ex.
        * apply existsb_exists in Ex as (q & Lq & Eq). apply Nat.eqb_eq in Eq. subst q.
          destruct (Lt p Lq) as (Ap & Rp & Lp & Sp & Cp). unfold proc_ok. cbn [ph round str]. split; [lia|]. split; [|exact Cp].
          rewrite str_at_S, s2_active, Ap. exact Sp.
        * now apply Hp.
      + intros p L. cbn [procs]. destruct (existsb (Nat.eqb p) l); [reflexivity|now apply Hn].
      + exists (S r). cbn [opened procs]. split; [lia|]. split.
        * rewrite map_app, Ho, <- (files_skip f r) by (lia || exact Em). unfold files. rewrite seq_S, map_app, filter_app. f_equal.
          cbn [map plus filter]. rewrite Er, L0, El. reflexivity.
        * intros p r0 L Lr Ea. destruct (existsb (Nat.eqb p) l) eqn:Ex.
          -- apply existsb_exists in Ex as (q & Lq & Eq). apply Nat.eqb_eq in Eq. subst q. cbn [round]. rewrite (SR p Lq). reflexivity.
          -- rewrite (Ha p r0 L Lr Ea). split; [lia|]. intros F1. destruct (Nat.lt_ge_cases r0 f) as [Y|Y]; [exact Y|]. exfalso.
             destruct (Nat.eq_dec r0 r) as [->|].
             ++ assert (In p l) by (rewrite <- L0; apply in_A; now split).
                assert (existsb (Nat.eqb p) l = true) by (apply existsb_exists; exists p; split; [assumption|apply Nat.eqb_refl]). congruence.
             ++ assert (In p (A r0)) by (apply in_A; now split). rewrite Em in H by lia. destruct H.
  Qed.

  Lemma run_inv (G : good) es : forall s s', inv s -> run kd n R calls s es = Some s' -> inv s'.
  Proof.
    induction es as [|e es IH]; intros s s' I E; cbn in E; [congruence|].
    destruct (step kd n R calls s e) eqn:Es; [|discriminate]. eapply IH; [|exact E]. eapply step_inv; eauto.
  Qed.

  (** Some event is possible unless all processes are at their ends. *)
  Lemma min_round (s : state) : exists p, p < n /\ forall q, q < n -> round (procs s p) <= round (procs s q).
  Proof.
    assert (K : forall m, 0 < m -> exists p, p < m /\ forall q, q < m -> round (procs s p) <= round (procs s q)).
    { induction m as [|m IH]; [lia|]. intros _. destruct (Nat.eq_dec m 0) as [->|N0].
      - exists 0. split; [lia|]. intros q L. replace q with 0 by lia. lia.
      - destruct (IH ltac:(lia)) as (p & Lp & Hp).
        destruct (Nat.le_gt_cases (round (procs s p)) (round (procs s m))) as [L|L].
        + exists p. split; [lia|]. intros q Lq. destruct (Nat.eq_dec q m) as [->|]; [exact L|]. apply Hp; lia.
        + exists m. split; [lia|]. intros q Lq. destruct (Nat.eq_dec q m) as [->|]; [lia|]. specialize (Hp q ltac:(lia)). lia. }
    now apply K.
  Qed.

  Lemma progress (G : good) s : inv s -> ~ finished n R s -> exists e s', step kd n R calls s e = Some s'.
  Proof.
    intros I NF. pose proof I as [Hp [Hn [f (Hf & Ho & Ha)]]].
    destruct (min_round s) as (p & Lp & Mp). set (r := round (procs s p)) in *.
    assert (Lr : r < R).
    { destruct (Nat.lt_ge_cases r R) as [L|L]; [exact L|]. exfalso. apply NF. intros q Lq.
      pose proof (round_le s q I Lq). specialize (Mp q Lq). lia. }
    (* a process that can go on by itself *)
    destruct (existsb (fun q => match ph (procs s q) with Start => (round (procs s q) <? R)%nat | _ => false end) (seq 0 n)) eqn:Ex.
    { apply existsb_exists in Ex as (q & Lq & Eq). apply in_seq in Lq. destruct (ph (procs s q)) eqn:Ep; try discriminate.
      exists (Step q). cbn [step]. rewrite Ep, Eq, (proj2 (Nat.ltb_lt q n)) by lia. cbn [andb]. eauto. }
    assert (NS : forall q, q < n -> ph (procs s q) = Start -> round (procs s q) = R).
    { intros q Lq Ep. pose proof (round_le s q I Lq). destruct (Nat.eq_dec (round (procs s q)) R) as [|Ne]; [assumption|]. exfalso.
      assert (T : existsb (fun q => match ph (procs s q) with Start => (round (procs s q) <? R)%nat | _ => false end) (seq 0 n) = true).
      { apply existsb_exists. exists q. split; [apply in_seq; lia|]. rewrite Ep. apply Nat.ltb_lt. lia. }
      congruence. }
    clear Ex.
    (* someone in the lowest round waits for a file *)
    destruct (existsb (fun q => match ph (procs s q) with AtFile _ => (round (procs s q) =? r)%nat | _ => false end) (seq 0 n)) eqn:Ex.
    - apply existsb_exists in Ex as (q & Lq & Eq). apply in_seq in Lq. destruct (ph (procs s q)) as [| |c] eqn:Ep; try discriminate.
      apply Nat.eqb_eq in Eq. assert (Hq := Hp q ltac:(lia)). unfold proc_ok in Hq. rewrite Ep in Hq. rewrite Eq in Hq.
      destruct Hq as (_ & Aq & Sq & Cq & Kq). destruct (G r Lr) as (c' & Rc & Gc). rewrite (Gc q) in Cq by (lia || assumption). subst c.
      assert (NFr : ~ r < f) by (intros X; apply (Ha q r ltac:(lia) Lr Aq) in X; lia).
      exists (File c'). cbn [step]. rewrite Rc. destruct (A r) as [|p0 l0] eqn:EA.
      { assert (In q (A r)) by (apply in_A; split; [lia|assumption]). rewrite EA in H. destruct H. }
      rewrite <- EA. rewrite (proj2 (forallb_forall _ _)); [eauto|]. intros x Lx. apply in_A in Lx as [Lx Ax].
      unfold at_file. assert (Hx := Hp x Lx). unfold proc_ok in Hx.
      assert (Rx : round (procs s x) = r).
      { pose proof (Mp x Lx). pose proof (Ha x r Lx Lr Ax). lia. }
      destruct (ph (procs s x)) as [| |cx] eqn:Ex.
      + pose proof (NS x Lx Ex). lia.
      + exfalso. rewrite Rx in Hx. destruct Hx as (_ & Cx & _ & Kx). cbn [cnt] in Kq.
        rewrite (called_uni x 0 r) in Cx by lia. rewrite Cx in Kq. lia.
      + rewrite Rx in Hx. destruct Hx as (_ & _ & _ & -> & _). rewrite (Gc x Lx Ax). now apply comm_eqb_eq.
    - (* all in the lowest round wait for the group, and so does everybody *)
      exists Group. cbn [step]. rewrite (proj2 (forallb_forall _ _)); [eauto|]. intros x Lx. apply in_seq in Lx.
      assert (Pg : at_group (procs s p) = true).
      { unfold at_group. destruct (ph (procs s p)) eqn:Ep; [pose proof (NS p Lp Ep); unfold r in Lr; lia|reflexivity|].
        exfalso. assert (T : existsb (fun q => match ph (procs s q) with AtFile _ => (round (procs s q) =? r)%nat | _ => false end) (seq 0 n) = true).
        { apply existsb_exists. exists p. split; [apply in_seq; lia|]. rewrite Ep. apply Nat.eqb_refl. }
        congruence. }
      destruct (group_round s p I Lp Pg) as (_ & Cp & _ & Kp). fold r in Cp, Kp.
      pose proof (Mp x ltac:(lia)) as Mx. assert (Hx := Hp x ltac:(lia)). unfold proc_ok in Hx. unfold at_group.
      rewrite (called_uni p 0 r) in Cp by lia.
      assert (K1 : cnt (S r) = S (cnt r)) by (cbn [cnt]; rewrite Cp; reflexivity).
      destruct (ph (procs s x)) eqn:Ex'; [|reflexivity|]; exfalso.
      + pose proof (NS x ltac:(lia) Ex') as Rx. pose proof (cnt_mono (S r) (round (procs s x)) ltac:(lia)). lia.
      + pose proof (cnt_mono (S r) (S (round (procs s x))) ltac:(lia)). lia.
  Qed.

  (** Every event brings a process nearer to its end. *)
  Definition rank_of (x : proc) : nat := 3 * round x + match ph x with Start => 0 | AtGroup => 1 | AtFile _ => 2 end.
  Fixpoint total (m : nat) (s : state) : nat := match m with O => 0 | S m' => rank_of (procs s m') + total m' s end.
  Lemma total_le s s' m : (forall p, p < m -> rank_of (procs s p) <= rank_of (procs s' p)) -> total m s <= total m s'.
  Proof. induction m as [|m IH]; intros H; [reflexivity|]. cbn [total]. specialize (IH ltac:(intros; apply H; lia)). specialize (H m ltac:(lia)). lia. Qed.
  Lemma total_lt s s' m q : q < m -> (forall p, p < m -> rank_of (procs s p) <= rank_of (procs s' p)) ->
    rank_of (procs s q) < rank_of (procs s' q) -> total m s < total m s'.
  Proof.
    induction m as [|m IH]; intros L H Lt; [lia|]. cbn [total]. destruct (Nat.eq_dec q m) as [->|N].
    - pose proof (total_le s s' m ltac:(intros; apply H; lia)). lia.
    - specialize (IH ltac:(lia) ltac:(intros; apply H; lia) Lt). specialize (H m ltac:(lia)). lia.
  Qed.
  Lemma rank_go_file r s : 3 * r + 2 <= rank_of (go_file kd r s).
  Proof. unfold go_file, rank_of. destruct (active s); cbn [round ph]; lia. Qed.
  Lemma step_total s e s' : inv s -> step kd n R calls s e = Some s' -> total n s < total n s'.
  Proof.
    intros [Hp [Hn _]] E. destruct e as [p| |c]; cbn [step] in E.
    - destruct (ph (procs s p)) eqn:Eph; try discriminate.
      destruct ((p <? n) && (round (procs s p) <? R))%nat eqn:Eb; [|discriminate].
      apply andb_true_iff in Eb as [Lp _]. apply Nat.ltb_lt in Lp. injection E as <-.
      assert (K : rank_of (procs s p) < rank_of (if modified (set_active (calls p (round (procs s p))) (str (procs s p)))
                  then mkProc (round (procs s p)) AtGroup (set_active (calls p (round (procs s p))) (str (procs s p)))
                  else go_file kd (round (procs s p)) (no_group (set_active (calls p (round (procs s p))) (str (procs s p)))))).
      { unfold rank_of at 1. rewrite Eph. destruct (modified _).
        - unfold rank_of. cbn [round ph]. lia.
        - eapply Nat.lt_le_trans; [|apply rank_go_file]. lia. }
      apply (total_lt _ _ n p Lp).
      + intros q Lq. cbn [procs]. destruct (Nat.eqb_spec q p) as [->|]; [lia|reflexivity].
      + cbn [procs]. now rewrite Nat.eqb_refl.
    - destruct (forallb _ (seq 0 n)) eqn:Eb; [|discriminate]. rewrite forallb_forall in Eb. injection E as <-.
      assert (K : forall p, p < n -> rank_of (procs s p) = 3 * round (procs s p) + 1).
      { intros p Lp. specialize (Eb p ltac:(apply in_seq; lia)). unfold at_group in Eb. unfold rank_of. destruct (ph (procs s p)); try discriminate. reflexivity. }
      apply (total_lt _ _ n 0 npos).
      + intros p Lp. cbn [procs]. rewrite (proj2 (Nat.ltb_lt p n) Lp), (K p Lp). pose proof (rank_go_file (round (procs s p)) (with_group (Sub (created s) (active_ranks n s)) (str (procs s p)))). lia.
      + cbn [procs]. rewrite (proj2 (Nat.ltb_lt 0 n) npos), (K 0 npos). pose proof (rank_go_file (round (procs s 0)) (with_group (Sub (created s) (active_ranks n s)) (str (procs s 0)))). lia.
    - destruct (ranks_of n c) as [|p0 l0] eqn:Er; [discriminate|]. remember (p0 :: l0) as l eqn:El.
      destruct (forallb (fun p => at_file c (procs s p)) l) eqn:Eb; [|discriminate]. rewrite forallb_forall in Eb. injection E as <-.
      assert (K : forall p, In p l -> rank_of (procs s p) = 3 * round (procs s p) + 2).
      { intros p L. specialize (Eb p L). unfold at_file in Eb. unfold rank_of. destruct (ph (procs s p)); try discriminate. reflexivity. }
      assert (P0 : p0 < n).
      { destruct (Nat.lt_ge_cases p0 n) as [Y|Y]; [exact Y|]. specialize (Eb p0 ltac:(rewrite El; now left)). unfold at_file in Eb. rewrite (Hn p0 Y) in Eb. discriminate. }
      apply (total_lt _ _ n p0 P0).
      + intros p Lp. cbn [procs]. destruct (existsb (Nat.eqb p) l) eqn:Ex; [|lia].
        apply existsb_exists in Ex as (q & Lq & Eq). apply Nat.eqb_eq in Eq. subst q. rewrite (K p Lq). unfold rank_of. cbn [round ph]. lia.
      + cbn [procs]. rewrite (K p0) by (rewrite El; now left). rewrite El. cbn [existsb]. rewrite Nat.eqb_refl. cbn [orb]. unfold rank_of. cbn [round ph]. lia.
  Qed.
  Lemma total_bound s : inv s -> total n s <= 3 * n * R.
  Proof.
    intros I. assert (K : forall m, m <= n -> total m s <= 3 * m * R).
    { induction m as [|m IH]; intros L; [cbn; lia|]. cbn [total]. specialize (IH ltac:(lia)).
      assert (rank_of (procs s m) <= 3 * R).
      { destruct I as [Hp _]. specialize (Hp m ltac:(lia)). unfold proc_ok in Hp. unfold rank_of. destruct (ph (procs s m)); lia. }
      nia. }
    now apply K.
  Qed.
  Lemma run_total (G : good) es : forall s s', inv s -> run kd n R calls s es = Some s' -> length es + total n s <= total n s'.
  Proof.
    induction es as [|e es IH]; intros s s' I E; cbn in E; [injection E as <-; cbn; lia|].
    destruct (step kd n R calls s e) as [s0|] eqn:Es; [|discriminate]. pose proof (step_total s e s0 I Es).
    pose proof (IH s0 s' (step_inv G s e s0 I Es) E). cbn [length]. lia.
  Qed.

  Lemma good_works : good -> opens_work kd n R calls.
  Proof.
    intros G es s E. pose proof (run_inv G es _ _ inv_start E) as I. split; [|split].
    - pose proof (run_total G es _ _ inv_start E). pose proof (total_bound s I). lia.
    - intros F. pose proof I as [Hp [Hn [f (Hf & Ho & Ha)]]]. rewrite Ho. unfold expected.
      change (filter _ (map A (seq 0 R))) with (files R). symmetry. apply files_skip; [exact Hf|].
      intros r L1 L2. destruct (A r) as [|p l] eqn:EA; [reflexivity|]. exfalso.
      assert (Q : p < n /\ act p r = true) by (apply in_A; rewrite EA; now left). destruct Q as [Q1 Q2].
      pose proof (Ha p r Q1 L2 Q2). rewrite (F p Q1) in H. lia.
    - now apply progress.
  Qed.
End Proofs.

(** ** Input streams *)
Section InputStreams.
  Variables n R : nat.
  Variable calls : nat -> nat -> option bool.
  Hypothesis npos : 0 < n.
  Hypothesis uni : all_or_none n R calls.
  (** The first open without a call takes place on all processes or on none. *)
  Hypothesis first : forall r, r < R -> no_call n calls r -> (forall r', r' < r -> ~ no_call n calls r') ->
    participants n calls r = seq 0 n \/ participants n calls r = [].

  Notation A := (participants n calls).
  Notation S2 := (s2 Input n calls).
  Notation SA := (str_at Input n calls).

  Lemma com_set_s2 p r : com_set (S2 p r) = if called calls p r then com_set (SA p r) else true.
  Proof.
    unfold s2. rewrite s1_modified. unfold s1, called, set_active. destruct (calls p r); [reflexivity|].
    unfold no_group. destruct (com_set (SA p r)) eqn:E; [exact E|reflexivity].
  Qed.
  Lemma str_at_next p r : com (SA p (S r)) = com (S2 p r) /\ com_set (SA p (S r)) = com_set (S2 p r).
  Proof. rewrite str_at_S. destruct (active _); now cbn. Qed.
  Lemma no_call_uni p r : r < R -> p < n -> called calls p r = false -> no_call n calls r.
  Proof.
    intros Hr Hp E q Hq. apply (uni r p q Hr Hp Hq). unfold called in E. destruct (calls p r); [discriminate|reflexivity].
  Qed.
  Lemma com_set_false p r : r <= R -> p < n -> com_set (SA p r) = false -> forall r', r' < r -> ~ no_call n calls r'.
  Proof.
    induction r as [|r IH]; intros Hr Hp E r' L; [lia|]. rewrite (proj2 (str_at_next p r)), com_set_s2 in E.
    destruct (called calls p r) eqn:C; [|discriminate]. destruct (Nat.eq_dec r' r) as [->|N].
    - intros X. unfold called in C. rewrite (X p Hp) in C. discriminate.
    - apply IH; try lia; assumption.
  Qed.

  Lemma input_com r : r < R -> exists c, (ranks_of n c = A r \/ A r = []) /\ forall p, p < n -> com (S2 p r) = Some c.
  Proof.
    induction r as [|r IH]; intros Hr.
    - destruct (called calls 0 0) eqn:C.
      + exists (Sub (cnt calls 0) (A 0)). split; [now left|]. intros p Hp. unfold s2. rewrite s1_modified.
        rewrite (called_uni n R calls uni p 0 0), C by lia. reflexivity.
      + exists World. split.
        * destruct (first 0 Hr (no_call_uni 0 0 Hr npos C) ltac:(lia)); [left|right]; auto.
        * intros p Hp. unfold s2. rewrite s1_modified. rewrite (called_uni n R calls uni p 0 0), C by lia.
          unfold no_group, s1, set_active. assert (calls p 0 = None) as -> by (apply (no_call_uni 0 0 Hr npos C p Hp)). reflexivity.
    - destruct (called calls 0 (S r)) eqn:C.
      + exists (Sub (cnt calls (S r)) (A (S r))). split; [now left|]. intros p Hp. unfold s2. rewrite s1_modified.
        rewrite (called_uni n R calls uni p 0 (S r)), C by lia. reflexivity.
      + assert (N := no_call_uni 0 (S r) Hr npos C).
        assert (EQ : forall p, p < n -> S2 p (S r) = no_group (SA p (S r))).
        { intros p Hp. unfold s2. rewrite s1_modified. rewrite (called_uni n R calls uni p 0 (S r)), C by lia.
          unfold s1, set_active. now rewrite (N p Hp). }
        assert (CS : forall p, p < n -> com_set (SA p (S r)) = com_set (SA 0 (S r))).
        { clear IH EQ. intros p Hp. assert (K : forall m, m <= R -> com_set (SA p m) = com_set (SA 0 m)).
          { induction m as [|m IHm]; intros L; [reflexivity|]. rewrite !(proj2 (str_at_next _ m)), !com_set_s2.
            rewrite (called_uni n R calls uni p 0 m) by lia. destruct (called calls 0 m); [apply IHm; lia|reflexivity]. }
          apply K. lia. }
        destruct (com_set (SA 0 (S r))) eqn:E.
        * destruct (IH ltac:(lia)) as (c & Hc & Hp). exists c. split.
          -- rewrite (A_step n R calls npos uni r Hr C). exact Hc.
          -- intros p L. rewrite (EQ p L). unfold no_group. rewrite (CS p L), (proj1 (str_at_next p r)). now apply Hp.
        * exists World. split.
          -- destruct (first (S r) Hr N (com_set_false 0 (S r) ltac:(lia) npos E)); [left|right]; auto.
          -- intros p L. rewrite (EQ p L). unfold no_group. now rewrite (CS p L).
  Qed.

  Lemma input_works : opens_work Input n R calls.
  Proof.
    apply good_works; [exact npos|exact uni|]. intros r Hr. destruct (input_com r Hr) as (c & Hc & Hp).
    destruct Hc as [Hc|Hc].
    - exists c. split; [exact Hc|]. intros p L _. apply (Hp p L).
    - exists (Sub 0 []). split; [now rewrite Hc|]. intros p L X. exfalso.
      assert (In p (A r)) as Y by (apply (proj2 (in_A n calls npos p r)); now split). rewrite Hc in Y. destruct Y.
  Qed.
End InputStreams.

(** ** Output streams *)
Section OutputStreams.
  Variables n R : nat.
  Variable calls : nat -> nat -> option bool.
  Hypothesis npos : 0 < n.
  Hypothesis uni : all_or_none n R calls.
  (** All opens take place on the same processes. *)
  Hypothesis same : forall r, r < R -> participants n calls r = participants n calls 0.

  Notation A := (participants n calls).
  Notation S2 := (s2 Output n calls).
  Notation SA := (str_at Output n calls).

  Lemma plist_s2 p r : plist (S2 p r) = plist (SA p r).
  Proof.
    unfold s2. rewrite s1_modified. unfold s1, called, set_active. destruct (calls p r); [reflexivity|].
    unfold no_group. destruct (com_set (SA p r)); reflexivity.
  Qed.
  Lemma plist_next p r c : plist (SA p r) = Some c -> plist (SA p (S r)) = Some c.
  Proof.
    intros E. rewrite str_at_S. destruct (active (S2 p r)); cbn; rewrite plist_s2, E; reflexivity.
  Qed.
  Lemma first_com : 0 < R -> exists c, ranks_of n c = A 0 /\ forall p, p < n -> com (S2 p 0) = Some c.
  Proof.
    intros HR. destruct (called calls 0 0) eqn:C.
    - exists (Sub 0 (A 0)). split; [reflexivity|]. intros p Hp. unfold s2. rewrite s1_modified.
      rewrite (called_uni n R calls uni p 0 0), C by lia. reflexivity.
    - assert (N : forall p, p < n -> calls p 0 = None).
      { intros p Hp. apply (uni 0 0 p); try lia. unfold called in C. destruct (calls 0 0); [discriminate|reflexivity]. }
      exists World. split.
      + cbn. unfold participants. symmetry. apply filter_all. intros p L. apply in_seq in L.
        cbn. now rewrite N by lia.
      + intros p Hp. unfold s2. rewrite s1_modified. rewrite (called_uni n R calls uni p 0 0), C by lia.
        unfold no_group, s1, set_active. rewrite (N p Hp). reflexivity.
  Qed.
  Lemma output_plist p r c : r < R -> p < n -> is_active calls p 0 = true -> com (S2 p 0) = Some c -> file_comm Output (S2 p r) = Some c.
  Proof.
    intros Hr Hp Ha Hc. assert (K : forall m, plist (SA p (S m)) = Some c).
    { induction m as [|m IHm]; [|now apply plist_next]. rewrite str_at_S, s2_active, Ha. cbn. rewrite plist_s2. cbn. exact Hc. }
    destruct r as [|r].
    - cbn. rewrite plist_s2. cbn. exact Hc.
    - cbn [file_comm]. rewrite plist_s2, K. reflexivity.
  Qed.

  Lemma output_works : opens_work Output n R calls.
  Proof.
    apply good_works; [exact npos|exact uni|]. intros r Hr. destruct (first_com ltac:(lia)) as (c & Hc & Hp).
    exists c. split; [now rewrite same|]. intros p L Ha.
    apply output_plist; auto. assert (In p (A r)) as Y by (apply (proj2 (in_A n calls npos p r)); now split). rewrite same in Y by assumption. now apply in_A in Y.
  Qed.
End OutputStreams.
