(** Every schedule of the message passing model computes the result of running all processes in
    lock step. *)
From Verif Require Import Vec NetModel.

Lemma pid_eqb_eq a b : pid_eqb a b = true <-> a = b.
Proof.
  revert b. induction a as [|x a IH]; intros [|y b]; simpl; try (split; [discriminate|discriminate]).
  - tauto.
  - rewrite andb_true_iff, Z.eqb_eq, IH. split; [intros [-> ->]; reflexivity|injection 1; auto].
Qed.
Lemma pid_eqb_refl a : pid_eqb a a = true. Proof. apply pid_eqb_eq. reflexivity. Qed.
Lemma pid_eqb_neq a b : a <> b -> pid_eqb a b = false.
Proof. intros H. destruct (pid_eqb a b) eqn:E; [apply pid_eqb_eq in E; contradiction|reflexivity]. Qed.
Lemma pid_dec (a b : vec) : {a = b} + {a <> b}.
Proof. apply list_eq_dec, Z.eq_dec. Qed.

Section Proofs.
  Context {M B : Type}.
  Variable ncalls : nat.
  Variables dst src : nat -> vec -> vec.
  Variable fill : nat -> vec -> M -> option B.
  Variable store : nat -> vec -> M -> B -> option M.

  Variable procs : list vec.
  (** Memories and messages of the lock step execution. *)
  Variable mem : nat -> vec -> M.
  Variable msg : nat -> vec -> B.

  Definition lockstep : Prop := forall k p, (k < ncalls)%nat -> In p procs ->
    In (dst k p) procs /\ In (src k p) procs /\ src k (dst k p) = p /\ dst k (src k p) = p /\
    fill k p (mem k p) = Some (msg k p) /\
    store k p (mem k p) (msg k (src k p)) = Some (mem (S k) p).

  Hypothesis LS : lockstep.

  Notation net := (@net M B).
  Notation net_step := (net_step ncalls dst src fill store).
  Notation net_run := (net_run ncalls dst src fill store).

  Definition sentc (x : @proc M B) : nat := pr_calls x + (if pr_sent x then 1 else 0).
  Definition recvc (x : @proc M B) : nat := pr_calls x + (match pr_got x with Some _ => 1 | None => 0 end).

  Definition pending (s d : vec) (r n : nat) : list B :=
    map (fun j => msg j s) (filter (fun j => pid_eqb (dst j s) d) (seq r n)).

  Record inv (st : net) : Prop := {
    inv_proc : forall p, In p procs -> let x := n_proc st p in
      (pr_calls x <= ncalls)%nat /\ pr_mem x = mem (pr_calls x) p /\
      (pr_calls x = ncalls -> pr_sent x = false /\ pr_got x = None) /\
      (forall b, pr_got x = Some b -> b = msg (pr_calls x) (src (pr_calls x) p));
    inv_chan : forall s d, In s procs -> In d procs ->
      n_chan st s d = pending s d (recvc (n_proc st d)) (sentc (n_proc st s) - recvc (n_proc st d));
    inv_order : forall d j, In d procs -> (j < recvc (n_proc st d))%nat ->
      (j < sentc (n_proc st (src j d)))%nat
  }.

  Lemma inv_init m0 : (forall p, m0 p = mem 0 p) -> inv (net_init m0).
  Proof.
    intros H. constructor; cbn [net_init n_proc n_chan pr_calls pr_sent pr_got pr_mem].
    - intros p Hp. cbn zeta. cbn [pr_calls pr_sent pr_got pr_mem]. repeat split; try lia; [apply H|discriminate].
    - intros s d _ _. reflexivity.
    - intros d j _ Hj. unfold recvc in Hj. cbn [pr_calls pr_got] in Hj. lia.
  Qed.

  Lemma set_proc_same f p (x : @proc M B) : set_proc f p x p = x.
  Proof. unfold set_proc. rewrite pid_eqb_refl. reflexivity. Qed.
  Lemma set_proc_other f p (x : @proc M B) q : q <> p -> set_proc f p x q = f q.
  Proof. intros H. unfold set_proc. rewrite pid_eqb_neq by exact H. reflexivity. Qed.
  Lemma set_chan_same f p q (l : list B) : set_chan f p q l p q = l.
  Proof. unfold set_chan. rewrite !pid_eqb_refl. reflexivity. Qed.
  Lemma set_chan_other f p q (l : list B) a b : a <> p \/ b <> q -> set_chan f p q l a b = f a b.
  Proof.
    intros H. unfold set_chan. destruct (pid_eqb a p) eqn:E1; [|reflexivity].
    destruct (pid_eqb b q) eqn:E2; [|reflexivity]. apply pid_eqb_eq in E1. apply pid_eqb_eq in E2. destruct H; contradiction.
  Qed.

  Lemma sentc_le st p : inv st -> In p procs -> (sentc (n_proc st p) <= ncalls)%nat /\ (recvc (n_proc st p) <= ncalls)%nat.
  Proof.
    intros I Hp. destruct (inv_proc _ I p Hp) as (A & _ & C & _). unfold sentc, recvc.
    destruct (Nat.eq_dec (pr_calls (n_proc st p)) ncalls) as [E|E].
    - destruct (C E) as [-> ->]. lia.
    - destruct (pr_sent _), (pr_got _); lia.
  Qed.

  (** Sending. *)
  Lemma pending_snoc_in s d r n : dst (r + n) s = d -> pending s d r (S n) = pending s d r n ++ [msg (r + n) s].
  Proof.
    intros H. unfold pending. rewrite seq_S, filter_app, map_app. cbn [filter]. rewrite H, pid_eqb_refl. reflexivity.
  Qed.
  Lemma pending_snoc_out s d r n : dst (r + n) s <> d -> pending s d r (S n) = pending s d r n.
  Proof.
    intros H. unfold pending. rewrite seq_S, filter_app, map_app. cbn [filter]. rewrite (pid_eqb_neq _ _ H).
    cbn [map]. rewrite app_nil_r. reflexivity.
  Qed.
  Lemma pending_cons_in s d r n : dst r s = d -> pending s d r (S n) = msg r s :: pending s d (S r) n.
  Proof. intros H. unfold pending. cbn [seq filter]. rewrite H, pid_eqb_refl. reflexivity. Qed.
  Lemma pending_cons_out s d r n : dst r s <> d -> pending s d r (S n) = pending s d (S r) n.
  Proof. intros H. unfold pending. cbn [seq filter]. rewrite (pid_eqb_neq _ _ H). reflexivity. Qed.

  Lemma step_inv st e : inv st -> In (event_proc e) procs ->
    match net_step e st with
    | Bad => False
    | Blocked => True
    | Next st' => inv st'
    end.
  Proof.
    intros I Hp. destruct e as [p|p|p]; cbn [event_proc] in Hp; cbn [NetModel.net_step];
      destruct (inv_proc _ I p Hp) as (P1 & P2 & P3 & P4); set (x := n_proc st p) in *.
    - (* Send *)
      destruct (Nat.ltb_spec (pr_calls x) ncalls) as [Hk|Hk]; cbn [andb]; [|exact Logic.I].
      destruct (pr_sent x) eqn:Es; cbn [negb]; [exact Logic.I|].
      set (k := pr_calls x) in *. destruct (LS k p Hk Hp) as (D1 & D2 & D3 & D4 & D5 & D6).
      rewrite P2, D5. set (q := dst k p) in *. set (x' := mkProc k true (pr_got x) (mem k p)).
      assert (Sx : sentc x = k) by (unfold sentc; rewrite Es; lia).
      assert (Sx' : sentc x' = S k) by (unfold sentc, x'; cbn [pr_calls pr_sent]; lia).
      assert (Rx' : recvc x' = recvc x) by (unfold recvc, x'; cbn [pr_calls pr_got]; reflexivity).
      assert (Rs : forall a, recvc (set_proc (n_proc st) p x' a) = recvc (n_proc st a)).
      { intros a. destruct (pid_dec a p) as [->|N]; [rewrite set_proc_same; exact Rx'|rewrite set_proc_other by exact N; reflexivity]. }
      constructor; cbn [n_proc n_chan].
      + intros a Ha. destruct (pid_dec a p) as [->|N].
        * rewrite set_proc_same. unfold x'. cbn [pr_calls pr_sent pr_got pr_mem]. fold k.
          repeat split; try lia; try assumption; try (intros; lia).
        * rewrite set_proc_other by exact N. apply (inv_proc _ I a Ha).
      + intros s d Hs Hd. rewrite Rs. destruct (pid_dec s p) as [->|Ns].
        * rewrite set_proc_same, Sx'. pose proof (inv_chan _ I p d Hp Hd) as C. fold x in C. rewrite Sx in C.
          destruct (pid_dec d q) as [->|Nd].
          -- rewrite set_chan_same, C.
             assert (Hr : (recvc (n_proc st q) <= k)%nat).
             { destruct (le_lt_dec (recvc (n_proc st q)) k) as [|G]; [assumption|].
               pose proof (inv_order _ I q k Hd G) as O. rewrite D3 in O. fold x in O. lia. }
             replace (S k - recvc (n_proc st q))%nat with (S (k - recvc (n_proc st q))) by lia.
             rewrite pending_snoc_in; replace (recvc (n_proc st q) + (k - recvc (n_proc st q)))%nat with k by lia; reflexivity.
          -- rewrite set_chan_other by (right; exact Nd). rewrite C.
             destruct (le_lt_dec (recvc (n_proc st d)) k) as [Hr|Hr].
             ++ replace (S k - recvc (n_proc st d))%nat with (S (k - recvc (n_proc st d))) by lia.
                rewrite pending_snoc_out; [reflexivity|].
                replace (recvc (n_proc st d) + (k - recvc (n_proc st d)))%nat with k by lia.
                fold q. congruence.
             ++ replace (S k - recvc (n_proc st d))%nat with 0%nat by lia.
                replace (k - recvc (n_proc st d))%nat with 0%nat by lia. reflexivity.
        * rewrite set_proc_other by exact Ns. rewrite set_chan_other by (left; exact Ns). apply (inv_chan _ I s d Hs Hd).
      + intros d j Hd Hj. rewrite Rs in Hj. pose proof (inv_order _ I d j Hd Hj) as O.
        destruct (pid_dec (src j d) p) as [E|N].
        * rewrite E in O |- *. fold x in O. rewrite set_proc_same. lia.
        * rewrite set_proc_other by exact N. exact O.
    - (* Recv *)
      destruct (Nat.ltb_spec (pr_calls x) ncalls) as [Hk|Hk]; [|exact Logic.I].
      destruct (pr_got x) eqn:Eg; [exact Logic.I|].
      set (k := pr_calls x) in *. destruct (LS k p Hk Hp) as (D1 & D2 & D3 & D4 & D5 & D6).
      set (q := src k p) in *.
      assert (Rx : recvc x = k) by (unfold recvc; rewrite Eg; lia).
      pose proof (inv_chan _ I q p D2 Hp) as C. fold x in C. rewrite Rx in C.
      destruct (n_chan st q p) as [|b l] eqn:Ec; [exact Logic.I|].
      assert (Hs : (k < sentc (n_proc st q))%nat).
      { destruct (le_lt_dec (sentc (n_proc st q)) k); [|assumption]. replace (sentc (n_proc st q) - k)%nat with 0%nat in C by lia.
        discriminate C. }
      replace (sentc (n_proc st q) - k)%nat with (S (sentc (n_proc st q) - S k)) in C by lia.
      rewrite (pending_cons_in q p k) in C by (exact D4). injection C as Cb Cl.
      set (x' := mkProc k (pr_sent x) (Some b) (pr_mem x)).
      assert (Sx' : sentc x' = sentc x) by (unfold sentc, x'; cbn [pr_calls pr_sent]; reflexivity).
      assert (Rx' : recvc x' = S k) by (unfold recvc, x'; cbn [pr_calls pr_got]; lia).
      assert (Ss : forall a, sentc (set_proc (n_proc st) p x' a) = sentc (n_proc st a)).
      { intros a. destruct (pid_dec a p) as [->|N]; [rewrite set_proc_same; exact Sx'|rewrite set_proc_other by exact N; reflexivity]. }
      constructor; cbn [n_proc n_chan].
      + intros a Ha. destruct (pid_dec a p) as [->|N].
        * rewrite set_proc_same. unfold x'. cbn [pr_calls pr_sent pr_got pr_mem]. fold k q.
          split; [lia|]. split; [exact P2|]. split; [lia|]. intros b' E'. congruence.
        * rewrite set_proc_other by exact N. apply (inv_proc _ I a Ha).
      + intros s d Hsi Hd. rewrite Ss. destruct (pid_dec d p) as [->|Nd].
        * rewrite set_proc_same, Rx'. destruct (pid_dec s q) as [->|Ns].
          -- rewrite set_chan_same. exact Cl.
          -- rewrite set_chan_other by (left; exact Ns). rewrite (inv_chan _ I s p Hsi Hp). fold x. rewrite Rx.
             destruct (le_lt_dec (sentc (n_proc st s)) k) as [Hle|Hlt].
             ++ replace (sentc (n_proc st s) - k)%nat with 0%nat by lia.
                replace (sentc (n_proc st s) - S k)%nat with 0%nat by lia. reflexivity.
             ++ replace (sentc (n_proc st s) - k)%nat with (S (sentc (n_proc st s) - S k)) by lia.
                apply pending_cons_out. intros E. apply Ns. destruct (LS k s Hk Hsi) as (_ & _ & S3 & _).
                rewrite E in S3. symmetry. exact S3.
        * rewrite set_proc_other by exact Nd. rewrite set_chan_other by (right; exact Nd). apply (inv_chan _ I s d Hsi Hd).
      + intros d j Hd Hj. rewrite Ss. destruct (pid_dec d p) as [->|Nd].
        * rewrite set_proc_same, Rx' in Hj. destruct (Nat.eq_dec j k) as [->|Nj]; [exact Hs|].
          apply (inv_order _ I p j Hp). fold x. lia.
        * rewrite set_proc_other in Hj by exact Nd. apply (inv_order _ I d j Hd Hj).
    - (* Finish *)
      destruct (pr_sent x) eqn:Es; [|exact Logic.I]. destruct (pr_got x) as [b|] eqn:Eg; [|exact Logic.I].
      set (k := pr_calls x) in *.
      assert (Hk : (k < ncalls)%nat).
      { destruct (Nat.eq_dec k ncalls) as [E|E]; [destruct (P3 E); discriminate|lia]. }
      destruct (LS k p Hk Hp) as (D1 & D2 & D3 & D4 & D5 & D6).
      rewrite P2, (P4 b eq_refl), D6. set (x' := mkProc (S k) false None (mem (S k) p)).
      assert (Sx' : sentc x' = sentc x) by (unfold sentc, x'; cbn [pr_calls pr_sent]; rewrite Es; fold k; lia).
      assert (Rx' : recvc x' = recvc x) by (unfold recvc, x'; cbn [pr_calls pr_got]; rewrite Eg; fold k; lia).
      assert (Ss : forall a, sentc (set_proc (n_proc st) p x' a) = sentc (n_proc st a)).
      { intros a. destruct (pid_dec a p) as [->|N]; [rewrite set_proc_same; exact Sx'|rewrite set_proc_other by exact N; reflexivity]. }
      assert (Rs : forall a, recvc (set_proc (n_proc st) p x' a) = recvc (n_proc st a)).
      { intros a. destruct (pid_dec a p) as [->|N]; [rewrite set_proc_same; exact Rx'|rewrite set_proc_other by exact N; reflexivity]. }
      constructor; cbn [n_proc n_chan].
      + intros a Ha. destruct (pid_dec a p) as [->|N].
        * rewrite set_proc_same. unfold x'. cbn [pr_calls pr_sent pr_got pr_mem].
          repeat split; try lia. discriminate.
        * rewrite set_proc_other by exact N. apply (inv_proc _ I a Ha).
      + intros s d Hs Hd. rewrite Ss, Rs. apply (inv_chan _ I s d Hs Hd).
      + intros d j Hd Hj. rewrite Rs in Hj. rewrite Ss. apply (inv_order _ I d j Hd Hj).
  Qed.

  Lemma run_inv es : forall st, inv st -> Forall (fun e => In (event_proc e) procs) es ->
    match net_run es st with
    | Bad => False
    | Blocked => True
    | Next st' => inv st'
    end.
  Proof.
    induction es as [|e es IH]; intros st I He; cbn [NetModel.net_run]; [exact I|].
    inversion He as [|? ? Hh Ht]; subst. pose proof (step_inv st e I Hh) as S1.
    destruct (net_step e st) as [| |st']; [exact Logic.I|destruct S1|exact (IH st' S1 Ht)].
  Qed.

  (** Progress. *)
  Lemma min_calls (f : vec -> nat) : procs <> [] -> exists p, In p procs /\ forall q, In q procs -> (f p <= f q)%nat.
  Proof.
    clear LS. induction procs as [|a l IH]; intros H; [congruence|]. destruct l as [|b l].
    - exists a. split; [left; reflexivity|]. intros q [<-|[]]. lia.
    - destruct IH as (p & Hp & Hm); [discriminate|]. destruct (le_lt_dec (f a) (f p)) as [G|G].
      + exists a. split; [left; reflexivity|]. intros q [<-|Hq]; [lia|]. specialize (Hm q Hq). lia.
      + exists p. split; [right; exact Hp|]. intros q [<-|Hq]; [lia|]. apply Hm, Hq.
  Qed.

  Definition all_done (st : net) : Prop := forall p, In p procs -> pr_calls (n_proc st p) = ncalls.

  Lemma progress st : inv st -> ~ all_done st ->
    exists e st', In (event_proc e) procs /\ net_step e st = Next st'.
  Proof.
    intros I Nd.
    assert (Hne : procs <> []).
    { intros E. apply Nd. intros p Hp. rewrite E in Hp. destruct Hp. }
    destruct (min_calls (fun p => pr_calls (n_proc st p)) Hne) as (p & Hp & Hmin).
    destruct (inv_proc _ I p Hp) as (P1 & P2 & P3 & P4). set (x := n_proc st p) in *. set (k := pr_calls x) in *.
    assert (Hk : (k < ncalls)%nat).
    { destruct (Nat.eq_dec k ncalls) as [E|E]; [|lia]. exfalso. apply Nd. intros q Hq.
      specialize (Hmin q Hq). destruct (inv_proc _ I q Hq) as (Q1 & _). lia. }
    assert (SendOK : forall q, In q procs -> pr_calls (n_proc st q) = k -> pr_sent (n_proc st q) = false ->
              exists st', net_step (Send q) st = Next st').
    { intros q Hq Ek Es. cbn [NetModel.net_step]. destruct (inv_proc _ I q Hq) as (_ & Q2 & _).
      rewrite Ek, Es. destruct (Nat.ltb_spec k ncalls); [|lia]. cbn [andb negb]. rewrite Q2, Ek.
      destruct (LS k q Hk Hq) as (_ & _ & _ & _ & -> & _). eexists. reflexivity. }
    destruct (pr_sent x) eqn:Es.
    - destruct (pr_got x) as [b|] eqn:Eg.
      + exists (Finish p). cbn [NetModel.net_step event_proc]. fold x. rewrite Es, Eg.
        destruct (LS k p Hk Hp) as (_ & _ & _ & _ & _ & D6). fold k. rewrite P2, (P4 b eq_refl), D6.
        eexists. split; [exact Hp|reflexivity].
      + destruct (LS k p Hk Hp) as (_ & D2 & _ & D4 & _). set (q := src k p) in *.
        pose proof (Hmin q D2) as Hq. cbn beta in Hq. fold x k in Hq.
        destruct (le_lt_dec (sentc (n_proc st q)) k) as [Hs|Hs].
        * assert (Eq : pr_calls (n_proc st q) = k /\ pr_sent (n_proc st q) = false).
          { unfold sentc in Hs. destruct (pr_sent (n_proc st q)); split; auto; lia. }
          destruct Eq as [E1 E2]. destruct (SendOK q D2 E1 E2) as [st' E]. exists (Send q), st'. split; assumption.
        * exists (Recv p). cbn [NetModel.net_step event_proc]. fold x k. rewrite Eg.
          destruct (Nat.ltb_spec k ncalls); [|lia]. fold q. rewrite (inv_chan _ I q p D2 Hp). fold x.
          assert (Rx : recvc x = k) by (unfold recvc; rewrite Eg; fold k; lia). rewrite Rx.
          replace (sentc (n_proc st q) - k)%nat with (S (sentc (n_proc st q) - S k)) by lia.
          rewrite (pending_cons_in q p k) by exact D4. eexists. split; [exact Hp|reflexivity].
    - destruct (SendOK p Hp eq_refl Es) as [st' E]. exists (Send p), st'. split; assumption.
  Qed.

  (** Progress when a message is only handed over while its receiver waits for it (no buffering):
      either some process can finish its call, or there is a process that can send to a process that
      can then receive at once. *)
  Lemma progress_unbuffered st : inv st -> ~ all_done st ->
    (forall s d, In s procs -> In d procs -> n_chan st s d = []) ->
    exists p st1, In p procs /\
      (net_step (Finish p) st = Next st1 \/
       (exists st2, net_step (Send p) st = Next st1 /\ In (dst (pr_calls (n_proc st p)) p) procs /\
                    net_step (Recv (dst (pr_calls (n_proc st p)) p)) st1 = Next st2 /\
                    forall s d, In s procs -> In d procs -> n_chan st2 s d = [])).
  Proof.
    intros I Nd Emp.
    assert (Hne : procs <> []).
    { intros E. apply Nd. intros p Hp. rewrite E in Hp. destruct Hp. }
    destruct (min_calls (fun p => pr_calls (n_proc st p)) Hne) as (p & Hp & Hmin).
    destruct (inv_proc _ I p Hp) as (P1 & P2 & P3 & P4). set (k := pr_calls (n_proc st p)) in *.
    assert (Hk : (k < ncalls)%nat).
    { destruct (Nat.eq_dec k ncalls) as [E|E]; [|lia]. exfalso. apply Nd. intros q Hq.
      specialize (Hmin q Hq). destruct (inv_proc _ I q Hq) as (Q1 & _). lia. }
    assert (Tr : forall a, In a procs -> pr_calls (n_proc st a) = k -> pr_sent (n_proc st a) = false ->
              pr_calls (n_proc st (dst k a)) = k -> pr_got (n_proc st (dst k a)) = None ->
              exists st1 st2, net_step (Send a) st = Next st1 /\ net_step (Recv (dst k a)) st1 = Next st2 /\
                forall s d, In s procs -> In d procs -> n_chan st2 s d = []).
    { intros a Ha Ea Es Ed Eg. destruct (LS k a Hk Ha) as (D1 & _ & D3 & _ & D5 & _).
      destruct (inv_proc _ I a Ha) as (_ & A2 & _). set (d := dst k a) in *.
      cbn [NetModel.net_step]. rewrite Ea, Es. destruct (Nat.ltb_spec k ncalls) as [_|]; [|lia]. cbn [andb negb].
      rewrite A2, Ea, D5. fold d. rewrite (Emp a d Ha D1). cbn [app]. eexists. eexists. split; [reflexivity|].
      cbn [n_proc n_chan].
      assert (Ec : pr_calls (set_proc (n_proc st) a (mkProc k true (pr_got (n_proc st a)) (mem k a)) d) = k).
      { destruct (pid_dec d a) as [E|N]; [rewrite E, set_proc_same; reflexivity|rewrite set_proc_other by exact N; exact Ed]. }
      assert (Eg' : pr_got (set_proc (n_proc st) a (mkProc k true (pr_got (n_proc st a)) (mem k a)) d) = None).
      { destruct (pid_dec d a) as [E|N]; [rewrite E, set_proc_same; rewrite E in Eg; exact Eg|rewrite set_proc_other by exact N; exact Eg]. }
      rewrite Ec, Eg'. destruct (Nat.ltb_spec k ncalls) as [_|]; [|lia]. rewrite D3, set_chan_same. split; [reflexivity|].
      cbn [n_chan]. intros s d' Hs Hd'. destruct (pid_dec s a) as [->|Ns].
      - destruct (pid_dec d' d) as [->|Nd']; [apply set_chan_same|].
        rewrite !set_chan_other by (right; exact Nd'). apply Emp; assumption.
      - rewrite !set_chan_other by (left; exact Ns). apply Emp; assumption. }
    destruct (pr_got (n_proc st p)) as [b|] eqn:Eg.
    - destruct (pr_sent (n_proc st p)) eqn:Es.
      + exists p. cbn [NetModel.net_step]. rewrite Es, Eg.
        destruct (LS k p Hk Hp) as (_ & _ & _ & _ & _ & D6). fold k. rewrite P2, (P4 b eq_refl), D6.
        eexists. split; [exact Hp|]. left. reflexivity.
      + (* the receiver of p waits *)
        destruct (LS k p Hk Hp) as (D1 & _ & D3 & _). set (d := dst k p) in *.
        pose proof (Hmin d D1) as Hd. cbn beta in Hd. fold k in Hd.
        assert (Hr : (recvc (n_proc st d) <= k)%nat).
        { destruct (le_lt_dec (recvc (n_proc st d)) k) as [|G]; [assumption|].
          pose proof (inv_order _ I d k D1 G) as O. rewrite D3 in O. unfold sentc in O. rewrite Es in O. fold k in O. lia. }
        assert (E2 : pr_calls (n_proc st d) = k /\ pr_got (n_proc st d) = None).
        { unfold recvc in Hr. destruct (pr_got (n_proc st d)); split; auto; lia. }
        destruct E2 as [E2 E3]. destruct (Tr p Hp eq_refl Es E2 E3) as (st1 & st2 & T1 & T2 & T3).
        exists p, st1. split; [exact Hp|]. right. exists st2. fold k d. auto.
    - (* p waits for its source *)
      destruct (LS k p Hk Hp) as (_ & D2 & _ & D4 & _). set (q := src k p) in *.
      pose proof (Hmin q D2) as Hq. cbn beta in Hq. fold k in Hq.
      assert (Rp : recvc (n_proc st p) = k) by (unfold recvc; rewrite Eg; fold k; lia).
      assert (Hs : (sentc (n_proc st q) <= k)%nat).
      { destruct (le_lt_dec (sentc (n_proc st q)) k) as [|G]; [assumption|].
        pose proof (inv_chan _ I q p D2 Hp) as C. rewrite Rp, (Emp q p D2 Hp) in C.
        replace (sentc (n_proc st q) - k)%nat with (S (sentc (n_proc st q) - S k)) in C by lia.
        rewrite (pending_cons_in q p k) in C by exact D4. discriminate C. }
      assert (E2 : pr_calls (n_proc st q) = k /\ pr_sent (n_proc st q) = false).
      { unfold sentc in Hs. destruct (pr_sent (n_proc st q)); split; auto; lia. }
      destruct E2 as [E1 E2].
      destruct (Tr q D2 E1 E2) as (st1 & st2 & T1 & T2 & T3); [rewrite D4; reflexivity|rewrite D4; exact Eg|].
      exists q, st1. split; [exact D2|]. right. exists st2. rewrite E1. repeat split; auto. rewrite D4. exact Hp.
  Qed.

  (** Length of runs. *)
  Definition work (x : @proc M B) : nat := 3 * pr_calls x + (if pr_sent x then 1 else 0) + (match pr_got x with Some _ => 1 | None => 0 end).
  Definition total (st : net) : nat := fold_right (fun p n => (work (n_proc st p) + n)%nat) 0%nat procs.

  Lemma total_update st st' p : NoDup procs -> In p procs ->
    (forall q, q <> p -> n_proc st' q = n_proc st q) -> work (n_proc st' p) = S (work (n_proc st p)) ->
    total st' = S (total st).
  Proof.
    clear LS. intros Nd Hp Ho Hw. unfold total. induction procs as [|a l IH]; [destruct Hp|].
    inversion Nd; subst. cbn [fold_right]. destruct Hp as [<-|Hp].
    - rewrite Hw. assert (E : fold_right (fun p n => (work (n_proc st' p) + n)%nat) 0%nat l =
                              fold_right (fun p n => (work (n_proc st p) + n)%nat) 0%nat l).
      { clear IH Nd. induction l as [|b l IHl]; [reflexivity|]. cbn [fold_right]. rewrite Ho by (intros ->; apply H1; left; reflexivity).
        rewrite IHl; [reflexivity|intros K; apply H1; right; exact K|inversion H2; assumption]. }
      rewrite E. lia.
    - rewrite IH by assumption. rewrite Ho by (intros ->; contradiction). lia.
  Qed.

  Lemma step_total st e st' : NoDup procs -> In (event_proc e) procs -> net_step e st = Next st' -> total st' = S (total st).
  Proof.
    intros Nd Hp E. apply (total_update _ _ (event_proc e)); [exact Nd|exact Hp| |].
    - intros q Nq. destruct e as [p|p|p]; cbn [event_proc NetModel.net_step] in *.
      + destruct (_ && _); [|discriminate]. destruct (fill _ _ _); [|discriminate]. injection E as <-.
        cbn [n_proc]. apply set_proc_other, Nq.
      + destruct (_ <? _)%nat; [|discriminate]. destruct (pr_got _); [discriminate|]. destruct (n_chan _ _ _); [discriminate|].
        injection E as <-. cbn [n_proc]. apply set_proc_other, Nq.
      + destruct (pr_sent _); [|discriminate]. destruct (pr_got _); [|discriminate]. destruct (store _ _ _ _); [|discriminate].
        injection E as <-. cbn [n_proc]. apply set_proc_other, Nq.
    - destruct e as [p|p|p]; cbn [event_proc NetModel.net_step] in *.
      + destruct (_ <? _)%nat eqn:E1; cbn [andb] in E; [|discriminate]. destruct (pr_sent (n_proc st p)) eqn:E2; cbn [negb] in E; [discriminate|].
        destruct (fill _ _ _); [|discriminate]. injection E as <-.
        cbn [n_proc]. rewrite set_proc_same. unfold work. cbn [pr_calls pr_sent pr_got]. rewrite E2. lia.
      + destruct (_ <? _)%nat; [|discriminate]. destruct (pr_got (n_proc st p)) eqn:E2; [discriminate|]. destruct (n_chan _ _ _); [discriminate|].
        injection E as <-. cbn [n_proc]. rewrite set_proc_same. unfold work. cbn [pr_calls pr_sent pr_got]. rewrite E2. lia.
      + destruct (pr_sent (n_proc st p)) eqn:E1; [|discriminate]. destruct (pr_got (n_proc st p)) eqn:E2; [|discriminate].
        destruct (store _ _ _ _); [|discriminate].
        injection E as <-. cbn [n_proc]. rewrite set_proc_same. unfold work. cbn [pr_calls pr_sent pr_got]. rewrite E1, E2. lia.
  Qed.

  Lemma run_total es : forall st st', NoDup procs -> Forall (fun e => In (event_proc e) procs) es ->
    net_run es st = Next st' -> total st' = (total st + length es)%nat.
  Proof.
    induction es as [|e es IH]; intros st st' Nd He E; cbn [NetModel.net_run] in E.
    - injection E as <-. simpl. lia.
    - inversion He as [|? ? Hh Ht]; subst. destruct (net_step e st) as [| |s1] eqn:E1; try discriminate.
      rewrite (IH _ _ Nd Ht E), (step_total _ _ _ Nd Hh E1). simpl. lia.
  Qed.

  Lemma total_bound st : inv st -> (total st <= 3 * ncalls * length procs)%nat.
  Proof.
    intros I. unfold total. assert (H : forall p, In p procs -> (work (n_proc st p) <= 3 * ncalls)%nat).
    { intros p Hp. destruct (inv_proc _ I p Hp) as (A & _ & C & _). unfold work.
      destruct (Nat.eq_dec (pr_calls (n_proc st p)) ncalls) as [E|E].
      - destruct (C E) as [-> ->]. lia.
      - destruct (pr_sent _), (pr_got _); lia. }
    clear I LS. induction procs as [|a l IH]; cbn [fold_right length]; [lia|].
    pose proof (H a (or_introl eq_refl)). specialize (IH (fun p Hp => H p (or_intror Hp))). nia.
  Qed.

  (** Summary. *)
  Theorem schedule_independent m0 : (forall p, m0 p = mem 0 p) -> NoDup procs ->
    forall es, Forall (fun e => In (event_proc e) procs) es ->
    match net_run es (net_init m0) with
    | Bad => False
    | Blocked => True
    | Next st =>
        (length es <= 3 * ncalls * length procs)%nat /\
        (all_done st -> forall p, In p procs -> pr_mem (n_proc st p) = mem ncalls p) /\
        (~ all_done st -> exists e st', In (event_proc e) procs /\ net_step e st = Next st')
    end.
  Proof.
    intros H0 Nd es He. pose proof (run_inv es _ (inv_init m0 H0) He) as I.
    destruct (net_run es (net_init m0)) as [| |st] eqn:E; auto.
    split; [|split].
    - pose proof (run_total es _ _ Nd He E) as T. pose proof (total_bound st I). lia.
    - intros D p Hp. destruct (inv_proc _ I p Hp) as (_ & -> & _). rewrite (D p Hp). reflexivity.
    - apply progress, I.
  Qed.
End Proofs.
