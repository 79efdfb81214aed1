(** Proofs about streams that are not active in all processes. *)
From Coq Require Import List Arith Bool Lia.
Import ListNotations.
From Verif Require Import ActiveModel ActiveSpec.

Section Proofs.
  Variable n : nat.
  Notation those := (those n).
  Notation processes := (processes n).

  Lemma in_proc p : In p processes <-> p < n.
  Proof. unfold ActiveModel.processes. rewrite in_seq. lia. Qed.
  Lemma in_those a p : In p (those a) <-> p < n /\ a p = true.
  Proof. unfold ActiveSpec.those. rewrite filter_In, in_seq. intuition lia. Qed.
  Lemma filter_ext_in {A} (f g : A -> bool) l : (forall x, In x l -> f x = g x) -> filter f l = filter g l.
  Proof. induction l as [|x l IH]; intros H; simpl; auto. rewrite H by now left. rewrite IH; auto. intros; apply H; now right. Qed.
  Lemma those_ext a b : (forall p, p < n -> a p = b p) -> those a = those b.
  Proof. intros H. apply filter_ext_in. intros p Hp. apply H. now apply in_proc. Qed.
  Lemma existsb_in p l : existsb (Nat.eqb p) l = true <-> In p l.
  Proof. rewrite existsb_exists. split; [intros (x & Hx & E); apply Nat.eqb_eq in E; now subst|intros H; exists p; now rewrite Nat.eqb_refl]. Qed.
  Lemma existsb_notin p l : existsb (Nat.eqb p) l = false <-> ~ In p l.
  Proof. rewrite <- existsb_in. destruct (existsb _ l); intuition congruence. Qed.
  Lemma all_active a : (forall p, p < n -> a p = true) -> those a = seq 0 n.
  Proof.
    intros H. unfold ActiveSpec.those. rewrite (filter_ext_in a (fun _ => true)).
    - induction (seq 0 n) as [|x l IH]; simpl; congruence.
    - intros p Hp. apply H. now apply in_proc.
  Qed.
  Lemma all_active_inv a p : those a = seq 0 n -> p < n -> a p = true.
  Proof. intros H Hp. apply (in_those a p). rewrite H. now apply in_proc. Qed.

  (** *** The group *)
  Lemma sum_pos (f : nat -> nat) l : 0 < fold_right plus 0 (map f l) <-> exists p, In p l /\ 0 < f p.
  Proof.
    induction l as [|x l IH]; simpl; [split; [lia|intros (p & [] & _)]|]. split.
    - intros H. destruct (f x) eqn:E; [|exists x; split; [now left|lia]]. destruct IH as [I _]. destruct I as (p & Hp & Q); [lia|]. exists p. auto.
    - intros (p & [->|Hp] & Q); [lia|]. assert (0 < fold_right plus 0 (map f l)) by (apply IH; eauto). lia.
  Qed.
  Lemma members_those st : members n st = those (fun p => a_active (st p)).
  Proof.
    apply filter_ext_in. intros i Hi. apply in_proc in Hi. destruct (Nat.ltb_spec 0 (reduced n st i)) as [H|H].
    - apply sum_pos in H. destruct H as (p & Hp & Q). unfold contribution in Q. destruct (a_active (st p)) eqn:E; [|lia].
      destruct (Nat.eqb_spec i p); [subst; auto|lia].
    - destruct (a_active (st i)) eqn:E; auto. exfalso. assert (0 < reduced n st i); [|lia]. apply sum_pos. exists i.
      split; [now apply in_proc|]. unfold contribution. rewrite E, Nat.eqb_refl. lia.
  Qed.

  Lemma forallb_proc f : forallb f processes = true <-> forall p, p < n -> f p = true.
  Proof. rewrite forallb_forall. split; intros H p Hp; apply H; now apply in_proc. Qed.
  Lemma forallb_proc_false f p : p < n -> f p = false -> forallb f processes = false.
  Proof. intros Hp E. destruct (forallb f processes) eqn:H; auto. rewrite forallb_proc in H. rewrite H in E by auto. discriminate. Qed.

  Lemma meets_none a u : those a = [] -> meets n a u = true.
  Proof.
    intros H. apply forallb_proc. intros p Hp. destruct (a p) eqn:E; auto.
    assert (In p (those a)) by (apply in_those; auto). rewrite H in *. contradiction.
  Qed.
  Lemma meets_one a u c : (forall p, p < n -> a p = true -> u p = Some c) -> c_members c = those a -> meets n a u = true.
  Proof.
    intros Hu Hc. apply forallb_proc. intros p Hp. destruct (a p) eqn:E; auto. rewrite (Hu p Hp E). rewrite Hc.
    apply forallb_forall. intros q Hq. apply in_those in Hq. rewrite (Hu q) by tauto. destruct Hq as [_ ->]. simpl. apply Nat.eqb_refl.
  Qed.
  Lemma meets_false a u p c q : p < n -> a p = true -> u p = Some c -> In q (c_members c) ->
    (a q = false \/ same_comm (u q) c = false) -> meets n a u = false.
  Proof.
    intros Hp Ha Hu Hq Hb. unfold meets. apply (forallb_proc_false _ p Hp). rewrite Ha, Hu.
    destruct (forallb _ (c_members c)) eqn:E; auto. rewrite forallb_forall in E. apply E in Hq. apply andb_true_iff in Hq.
    destruct Hq as [H1 H2]. destruct Hb; congruence.
  Qed.

  (** *** All processes call [setActive], or none *)
  Record U (c : cluster) (a : nat -> bool) (md : bool) : Prop := {
    U_active : forall p, p < n -> a_active (streams c p) = a p;
    U_mod : forall p, p < n -> a_modified (streams c p) = md }.

  Definition after (c : cluster) (md : bool) : cluster :=
    if md then
      let g := mkComm (next_name c) (those (fun p => a_active (streams c p))) in
      mkCluster (fun p => let s := streams c p in mkStream (a_active s) false (if existsb (Nat.eqb p) (c_members g) then Some g else None) (a_set s) (a_list s) (a_file s)) (S (next_name c))
    else mkCluster (fun p => let s := streams c p in if a_set s then s else mkStream (a_active s) (a_modified s) (Some (world n)) true (a_list s) (a_file s)) (next_name c).

  Lemma make_group_U c a md : U c a md -> n <> 0 -> make_group n c = Some (after c md).
  Proof.
    intros [Ha Hm] Hn. unfold make_group, after. destruct md.
    - rewrite (forallb_proc_false _ 0) by (try lia; rewrite Hm by lia; reflexivity).
      rewrite (proj2 (forallb_proc _)) by (intros p Hp; auto). rewrite members_those. reflexivity.
    - rewrite (proj2 (forallb_proc _)) by (intros p Hp; rewrite Hm by auto; reflexivity). reflexivity.
  Qed.
  Lemma after_U c a md : U c a md -> U (after c md) a false.
  Proof.
    intros [Ha Hm]. unfold after. destruct md; split; intros p Hp; cbn [streams a_active a_modified]; auto;
      destruct (a_set (streams c p)); simpl; auto.
  Qed.
  Lemma after_rest c md p : a_list (streams (after c md) p) = a_list (streams c p) /\ a_file (streams (after c md) p) = a_file (streams c p).
  Proof. unfold after. destruct md; cbn [streams]; auto. destruct (a_set _); auto. Qed.
  Lemma after_next c md : next_name c <= next_name (after c md).
  Proof. unfold after. destruct md; simpl; lia. Qed.

  Lemma choose_U c a md f : U c a md -> everyone n f ->
    U (mkCluster (fun p => match f p with Some b => set_active b (streams c p) | None => streams c p end) (next_name c)) (fun p => chosen f p (a p)) true.
  Proof.
    intros [Ha Hm] Hf. split; intros p Hp; cbn [streams]; unfold chosen; specialize (Hf p Hp); destruct (f p) as [b|] eqn:E; try tauto; reflexivity.
  Qed.

  Lemma active_list_U c a md : U c a md -> active_list n c = those a.
  Proof. intros [Ha _]. apply filter_ext_in. intros p Hp. apply Ha. now apply in_proc. Qed.

  (** *** Opening *)
  Section Kind.
  Variable k : kind.
  Definition opened (c : cluster) : cluster :=
    mkCluster (fun p => let s := streams c p in
                        if a_active s then mkStream true (a_modified s) (a_comm s) (a_set s) (match k with Writer => used k s | Reader => None end) (used k s)
                        else match k with Reader => mkStream false (a_modified s) (a_comm s) (a_set s) (a_list s) None | Writer => s end) (next_name c).
  Lemma opened_U c a : U c a false -> U (opened c) a false.
  Proof.
    intros [Ha Hm]. unfold opened. split; intros p Hp; cbn [streams]; specialize (Ha p Hp); specialize (Hm p Hp);
      destruct (a_active (streams c p)) eqn:E; destruct k; simpl; congruence.
  Qed.

  Lemma open_ok c a md g : U c a md -> n <> 0 ->
    (those a <> [] -> c_members g = those a /\ forall p, p < n -> a p = true -> used k (streams (after c md) p) = Some g) ->
    open_all k n c = Some (opened (after c md), together n a).
  Proof.
    intros HU Hn Hg. unfold open_all. rewrite (make_group_U c a md HU Hn). pose proof (after_U c a md HU) as HU'.
    assert (HM : meets n (fun p => a_active (streams (after c md) p)) (fun p => used k (streams (after c md) p)) = true).
    { assert (HE : those (fun p => a_active (streams (after c md) p)) = those a) by (apply those_ext; apply HU').
      destruct (those a) as [|x l] eqn:E.
      - apply meets_none. exact HE.
      - destruct Hg as [G1 G2]; [congruence|]. apply (meets_one _ _ g); [|congruence].
        intros p Hp Hp'. apply G2; auto. rewrite <- (U_active _ _ _ HU' p Hp). exact Hp'. }
    rewrite HM. unfold together. rewrite (active_list_U _ _ _ HU'). f_equal. f_equal. f_equal. apply map_ext_in. intros p Hp.
    destruct Hg as [G1 G2]; [intros E; rewrite E in Hp; contradiction|]. apply in_those in Hp. rewrite G2 by tauto. congruence.
  Qed.
  Lemma open_none c a md : U c a md -> n <> 0 ->
    meets n (fun p => a_active (streams (after c md) p)) (fun p => used k (streams (after c md) p)) = false -> open_all k n c = None.
  Proof. intros HU Hn H. unfold open_all. now rewrite (make_group_U c a md HU Hn), H. Qed.

  Lemma crun_app l1 : forall l2 c, crun k n (l1 ++ l2) c =
    match crun k n l1 c with None => None | Some (c', e) => match crun k n l2 c' with None => None | Some (c'', e') => Some (c'', e ++ e') end end.
  Proof.
    induction l1 as [|o l1 IH]; intros l2 c; cbn [crun app].
    - destruct (crun k n l2 c) as [[c' e]|]; reflexivity.
    - destruct (cstep k n o c) as [[c1 e1]|]; [|reflexivity]. rewrite IH. destruct (crun k n l1 c1) as [[c2 e2]|]; [|reflexivity].
      destruct (crun k n l2 c2) as [[c3 e3]|]; [|reflexivity]. now rewrite app_assoc.
  Qed.

  (** *** Whatever happened before *)
  Lemma always_active l : forall c a c' e, (forall p, p < n -> a_active (streams c p) = a p) -> crun k n l c = Some (c', e) ->
    forall p, p < n -> a_active (streams c' p) = activity l a p.
  Proof.
    induction l as [|o l IH]; intros c a c' e Ha; cbn [crun].
    - intros [= <- <-]. exact Ha.
    - destruct (cstep k n o c) as [[c1 e1]|] eqn:E1; [|discriminate].
      destruct (crun k n l c1) as [[c2 e2]|] eqn:E2; [|discriminate]. intros [= <- <-]. destruct o as [f| |]; cbn [cstep activity] in *.
      + injection E1 as <- <-. eapply IH; [|exact E2]. intros p Hp. cbn [streams]. unfold chosen. rewrite <- Ha by auto. destruct (f p); reflexivity.
      + unfold open_all in E1. destruct (make_group n c) as [c0|] eqn:Eg; [|discriminate].
        assert (Ha0 : forall p, p < n -> a_active (streams c0 p) = a p).
        { unfold make_group in Eg. destruct (forallb _ processes); [|destruct (forallb _ processes); [|discriminate]]; injection Eg as <-; intros p Hp; cbn [streams].
          - destruct (a_set _); simpl; auto.
          - simpl. auto. }
        destruct (meets n _ _); [|discriminate]. injection E1 as <- <-. eapply IH; [|exact E2].
        intros p Hp. cbn [streams]. rewrite <- Ha0 by auto. destruct (a_active (streams c0 p)) eqn:Ep; auto. destruct k; auto.
      + assert (c1 = c) as ->; [|eapply IH; eauto]. revert E1. unfold transfer_all.
        destruct k; [destruct (forallb _ processes)|destruct (meets n _ _)]; try discriminate; now intros [= <- <-].
  Qed.

  Lemma open_unmodified c c' e : open_all k n c = Some (c', e) -> forall p, p < n -> a_modified (streams c' p) = false.
  Proof.
    unfold open_all. destruct (make_group n c) as [c0|] eqn:Eg; [|discriminate].
    assert (H0 : forall p, p < n -> a_modified (streams c0 p) = false).
    { unfold make_group in Eg. destruct (forallb (fun p => negb _) processes) eqn:Ef.
      - injection Eg as <-. rewrite forallb_proc in Ef. intros p Hp. specialize (Ef p Hp). apply negb_true_iff in Ef. cbn [streams]. destruct (a_set _); auto.
      - clear Ef. destruct (forallb _ processes) in Eg; [|discriminate Eg]. injection Eg as <-. reflexivity. }
    destruct (meets n _ _); [|discriminate]. intros [= <- <-] p Hp. cbn [streams]. specialize (H0 p Hp).
    destruct (a_active _); simpl; auto. destruct k; auto.
  Qed.

  Lemma not_everyone l f p q : p < n -> q < n -> f p <> None -> f q = None ->
    crun k n (l ++ [OpenAll; Choose f; OpenAll]) (cstart) = None.
  Proof.
    intros Hp Hq Fp Fq. rewrite crun_app. destruct (crun k n l cstart) as [[c e]|]; [|reflexivity]. cbn [crun cstep].
    destruct (open_all k n c) as [[c1 e1]|] eqn:E; [|reflexivity]. pose proof (open_unmodified _ _ _ E) as Hm.
    unfold open_all at 1, make_group; cbn [streams].
    rewrite (forallb_proc_false _ p Hp) by (destruct (f p); [reflexivity|tauto]).
    rewrite (forallb_proc_false _ q Hq) by (rewrite Fq; auto). reflexivity.
  Qed.
  End Kind.

  Lemma inactive_read l p : p < n -> activity l everywhere p = false -> crun Reader n (l ++ [OpenAll; TransferAll]) cstart = None.
  Proof.
    intros Hp Ha. change (l ++ [OpenAll; TransferAll]) with (l ++ [OpenAll] ++ [TransferAll]). rewrite app_assoc, crun_app.
    destruct (crun Reader n (l ++ [OpenAll]) cstart) as [[c e]|] eqn:E; [|reflexivity].
    cbn [crun cstep]. unfold transfer_all. 
    rewrite crun_app in E. destruct (crun Reader n l cstart) as [[c0 e0]|] eqn:E0; [|discriminate].
    assert (Hc0 : a_active (streams c0 p) = false).
    { rewrite (always_active Reader l cstart everywhere c0 e0); auto. }
    cbn [crun cstep] in E. unfold open_all in E. destruct (make_group n c0) as [c1|] eqn:Eg; [|discriminate].
    assert (Hc1 : a_active (streams c1 p) = false).
    { unfold make_group in Eg. destruct (forallb _ processes); [|destruct (forallb _ processes); [|discriminate]]; injection Eg as <-; cbn [streams].
      - destruct (a_set _); simpl; auto.
      - simpl. auto. }
    destruct (meets n _ _); [|discriminate]. injection E as <- _.
    rewrite (forallb_proc_false _ p Hp); auto. cbn [streams]. rewrite Hc1. reflexivity.
  Qed.

  (** *** Writers *)
  Section Writers.
  Variable s : list nat.
  Hypothesis Hn : n <> 0.

  Record W (c : cluster) (a : nat -> bool) (md : bool) (o : option (list nat)) (ib : bool) : Prop := {
    W_U : U c a md;
    W_pos : 0 < next_name c;
    W_new : ib = false -> (forall p, p < n -> a_list (streams c p) = None) /\
                          (md = false -> those a = [] \/ (those a = seq 0 n /\ forall p, p < n -> a_set (streams c p) = false));
    W_old : ib = true -> s <> [] /\ exists g, c_members g = s /\ c_name g < next_name c /\
                          forall p, p < n -> a_list (streams c p) = if existsb (Nat.eqb p) s then Some g else None;
    W_file : forall l, o = Some l -> l <> [] -> exists g, c_members g = l /\ forall p, In p l -> a_file (streams c p) = Some g }.

  Lemma W_start : W cstart everywhere false None false.
  Proof.
    split; [split; reflexivity|simpl; lia| |discriminate|discriminate]. intros _. split; [reflexivity|]. intros _. right. split; [|reflexivity].
    now apply all_active.
  Qed.

  Lemma W_choose c a md o ib f : W c a md o ib -> everyone n f ->
    W (mkCluster (fun p => match f p with Some b => set_active b (streams c p) | None => streams c p end) (next_name c)) (fun p => chosen f p (a p)) true o ib.
  Proof.
    intros [HU Hpos Hnew Hold Hfile] Hf. split.
    - eapply choose_U; eauto.
    - exact Hpos.
    - intros E. destruct (Hnew E) as [H1 _]. split; [|discriminate]. intros p Hp. cbn [streams]. destruct (f p); simpl; auto.
    - intros E. destruct (Hold E) as (H0 & g & H1 & H2 & H3). split; auto. exists g. split; auto. split; auto.
      intros p Hp. cbn [streams]. rewrite <- H3 by auto. destruct (f p); reflexivity.
    - intros l E El. destruct (Hfile l E El) as (g & H1 & H2). exists g. split; auto. intros p Hp. cbn [streams]. rewrite <- (H2 p Hp). destruct (f p); reflexivity.
  Qed.

  Lemma W_open_empty c a md o ib : W c a md o ib -> those a = [] ->
    exists c', open_all Writer n c = Some (c', together n a) /\ W c' a false (Some (those a)) ib.
  Proof.
    intros [HU Hpos Hnew Hold Hfile] He. exists (opened Writer (after c md)). split.
    - apply (open_ok Writer c a md (world n) HU Hn). intros H. congruence.
    - assert (Hin : forall p, p < n -> a_active (streams (after c md) p) = false).
      { intros p Hp. rewrite (U_active _ _ _ (after_U c a md HU) p Hp). destruct (a p) eqn:E; auto.
        assert (In p (those a)) by (apply in_those; auto). rewrite He in *. contradiction. }
      assert (Hl : forall p, p < n -> a_list (streams (opened Writer (after c md)) p) = a_list (streams c p)).
      { intros p Hp. unfold opened. cbn [streams]. rewrite Hin by auto. apply after_rest. }
      split.
      + apply opened_U. eapply after_U; eauto.
      + unfold opened; cbn [next_name]. pose proof (after_next c md). lia.
      + intros E. destruct (Hnew E) as [H1 _]. split; auto. intros p Hp. rewrite Hl by auto. auto.
      + intros E. destruct (Hold E) as (H0 & g & H1 & H2 & H3). split; auto. exists g. split; auto. split.
        * unfold opened. simpl. pose proof (after_next c md). lia.
        * intros p Hp. rewrite Hl by auto. auto.
      + intros l [= <-]. congruence.
  Qed.

  Lemma W_used c a md o ib : W c a md o ib -> those a = s -> s <> [] ->
    exists g, c_members g = s /\ c_name g < next_name (after c md) /\
    forall p, p < n -> a p = true -> used Writer (streams (after c md) p) = Some g.
  Proof.
    intros [HU Hpos Hnew Hold Hfile] Hs Hs0. unfold used. destruct ib.
    - destruct (Hold eq_refl) as (_ & g & H1 & H2 & H3). exists g. split; auto. pose proof (after_next c md). split; [lia|].
      intros p Hp Ha. destruct (after_rest c md p) as [-> _]. rewrite H3 by auto.
      rewrite (proj2 (existsb_in p s)); [reflexivity|]. rewrite <- Hs. now apply in_those.
    - destruct (Hnew eq_refl) as [H1 H2]. destruct md.
      + exists (mkComm (next_name c) (those (fun p => a_active (streams c p)))).
        assert (E : those (fun p => a_active (streams c p)) = those a) by (apply those_ext; apply HU).
        split; [simpl; congruence|]. unfold after; cbn [streams next_name c_name c_members]. split; [lia|].
        intros p Hp Ha. cbn [a_list a_comm]. rewrite H1 by auto. rewrite E, (proj2 (existsb_in p (those a))); [reflexivity|now apply in_those].
      + destruct (H2 eq_refl) as [H|[H3 H4]]; [congruence|]. exists (world n). split; [simpl; unfold ActiveModel.processes; congruence|].
        unfold after; cbn [streams next_name world c_name]. split; [lia|].
        intros p Hp Ha. rewrite H4 by auto. simpl. now rewrite H1.
  Qed.

  Lemma W_open c a md o ib : W c a md o ib -> those a = s -> s <> [] ->
    exists c', open_all Writer n c = Some (c', together n a) /\ W c' a false (Some (those a)) true.
  Proof.
    intros HW Hs Hs0. destruct (W_used c a md o ib HW Hs Hs0) as (g & G1 & G2 & G4).
    pose proof HW as [HU Hpos Hnew Hold Hfile]. pose proof (after_U c a md HU) as HU'.
    exists (opened Writer (after c md)). split.
    - apply (open_ok Writer c a md g HU Hn). intros _. split; auto. congruence.
    - split.
      + now apply opened_U.
      + unfold opened; cbn [next_name]. pose proof (after_next c md). lia.
      + discriminate.
      + intros _. split; auto. exists g. split; auto. split.
        * exact G2.
        * intros p Hp. unfold opened; cbn [streams]. rewrite (U_active _ _ _ HU' p Hp). destruct (a p) eqn:Ea.
          -- cbn [a_list]. rewrite G4 by auto. rewrite (proj2 (existsb_in p s)); [reflexivity|]. rewrite <- Hs. now apply in_those.
          -- destruct (after_rest c md p) as [-> _].
             assert (Hni : existsb (Nat.eqb p) s = false).
             { apply existsb_notin. rewrite <- Hs. rewrite in_those. intuition congruence. }
             rewrite Hni. destruct ib.
             ++ destruct (Hold eq_refl) as (_ & g' & _ & _ & H3). rewrite H3 by auto. now rewrite Hni.
             ++ destruct (Hnew eq_refl) as [H1 _]. auto.
      + intros l [= <-] _. exists g. split; [congruence|]. intros p Hp. apply in_those in Hp. destruct Hp as [Hp Ha]. unfold opened; cbn [streams].
        rewrite (U_active _ _ _ HU' p Hp), Ha. cbn [a_file]. auto.
  Qed.

  Lemma W_transfer c a md o ib : W c a md o ib -> those a = [] \/ o = Some (those a) ->
    transfer_all Writer n c = Some (c, Moved (those a) (existsb (Nat.eqb 0) (those a))).
  Proof.
    intros [HU Hpos Hnew Hold Hfile] Ho. unfold transfer_all. rewrite (active_list_U _ _ _ HU).
    assert (HE : those (fun p => a_active (streams c p)) = those a) by (apply those_ext; apply HU).
    destruct (list_eq_dec Nat.eq_dec (those a) []) as [E|E].
    - rewrite meets_none; [reflexivity|congruence].
    - destruct Ho as [Ho|Ho]; [congruence|]. destruct (Hfile _ Ho E) as (g & G1 & G2).
      rewrite (meets_one _ _ g); [reflexivity| |congruence]. intros p Hp Ha. apply G2. apply in_those. split; auto.
      rewrite <- (U_active _ _ _ HU p Hp). exact Ha.
  Qed.

  Lemma W_run l : forall c a md o ib, W c a md o ib -> orderly Writer n l a o -> steady n s l a ->
    exists c' md' o' ib', crun Writer n l c = Some (c', expected Writer n l a) /\ W c' (activity l a) md' o' ib' /\ (ib = true -> ib' = true).
  Proof.
    induction l as [|op l IH]; intros c a md o ib HW Ho Hs; cbn [crun orderly steady expected activity] in *.
    - exists c, md, o, ib. auto.
    - destruct op as [f| |]; cbn [cstep].
      + destruct Ho as [Hf Ho]. destruct (IH _ _ _ _ _ (W_choose _ _ _ _ _ f HW Hf) Ho Hs) as (c' & md' & o' & ib' & R & HW' & Hib).
        rewrite R. exists c', md', o', ib'. auto.
      + destruct Hs as [Hs Hs'].
        assert (HX : exists c1 ib1, open_all Writer n c = Some (c1, together n a) /\ W c1 a false (Some (those a)) ib1 /\ (ib = true -> ib1 = true)).
        { destruct (list_eq_dec Nat.eq_dec (those a) []) as [E|E].
          - destruct (W_open_empty _ _ _ _ _ HW E) as (c1 & R1 & H1). exists c1, ib. auto.
          - destruct Hs as [Hs|Hs]; [|congruence]. destruct (W_open _ _ _ _ _ HW Hs) as (c1 & R1 & H1); [congruence|]. exists c1, true. auto. }
        destruct HX as (c1 & ib1 & R1 & H1 & Hib1). rewrite R1.
        destruct (IH _ _ _ _ _ H1 Ho Hs') as (c' & md' & o' & ib' & R & HW' & Hib).
        rewrite R. exists c', md', o', ib'. auto.
      + destruct Ho as [Ho Ho']. rewrite (W_transfer _ _ _ _ _ HW Ho). destruct (IH _ _ _ _ _ HW Ho' Hs) as (c' & md' & o' & ib' & R & HW' & Hib).
        rewrite R. exists c', md', o', ib'. auto.
  Qed.

  Lemma W_opened l2 l1 : forall c a md o ib, W c a md o ib -> orderly Writer n (l1 ++ OpenAll :: l2) a o -> steady n s (l1 ++ OpenAll :: l2) a ->
    those (activity l1 a) = s -> s <> [] ->
    exists c' e md' o' a1, crun Writer n (l1 ++ OpenAll :: l2) c = Some (c', e) /\ W c' a1 md' o' true.
  Proof.
    induction l1 as [|op l1 IH]; intros c a md o ib HW Ho Hs Ha H0; cbn [app crun orderly steady activity] in *.
    - destruct Hs as [_ Hs]. destruct (W_open _ _ _ _ _ HW Ha H0) as (c1 & R1 & H1). cbn [cstep]. rewrite R1.
      destruct (W_run l2 _ _ _ _ _ H1 Ho Hs) as (c' & md' & o' & ib' & R & HW' & Hib). rewrite R. specialize (Hib eq_refl). subst ib'. do 5 eexists. split; eauto.
    - destruct op as [f| |]; cbn [cstep].
      + destruct Ho as [Hf Ho]. destruct (IH _ _ _ _ _ (W_choose _ _ _ _ _ f HW Hf) Ho Hs Ha H0) as (c' & e & md' & o' & a1 & R & HW').
        rewrite R. do 5 eexists. split; eauto.
      + destruct Hs as [Hs Hs'].
        assert (HX : exists c1 ib1, open_all Writer n c = Some (c1, together n a) /\ W c1 a false (Some (those a)) ib1).
        { destruct (list_eq_dec Nat.eq_dec (those a) []) as [E|E].
          - destruct (W_open_empty _ _ _ _ _ HW E) as (c1 & R1 & H1). exists c1, ib. auto.
          - destruct Hs as [Hs|Hs]; [|congruence]. destruct (W_open _ _ _ _ _ HW Hs) as (c1 & R1 & H1); [congruence|]. exists c1, true. auto. }
        destruct HX as (c1 & ib1 & R1 & H1). rewrite R1.
        destruct (IH _ _ _ _ _ H1 Ho Hs' Ha H0) as (c' & e & md' & o' & a1 & R & HW'). rewrite R. do 5 eexists. split; eauto.
      + destruct Ho as [Ho Ho']. rewrite (W_transfer _ _ _ _ _ HW Ho). destruct (IH _ _ _ _ _ HW Ho' Hs Ha H0) as (c' & e & md' & o' & a1 & R & HW').
        rewrite R. do 5 eexists. split; eauto.
  Qed.

  Lemma differ a b : those a <> those b -> exists p, p < n /\ a p <> b p.
  Proof.
    intros H. destruct (forallb (fun p => eqb (a p) (b p)) processes) eqn:E.
    - exfalso. apply H. apply those_ext. intros p Hp. rewrite forallb_proc in E. now apply eqb_prop, E.
    - clear H. assert (forall l, forallb (fun p => eqb (a p) (b p)) l = false -> exists p, In p l /\ a p <> b p) as HH.
      { intros l. induction l as [|x l IH]; simpl; [discriminate|]. intros F. destruct (eqb (a x) (b x)) eqn:Ex.
        - destruct (IH F) as (p & Hp & Q). exists p. auto.
        - exists x. split; auto. intros Q. rewrite Q, eqb_reflx in Ex. discriminate. }
      destruct (HH _ E) as (p & Hp & Q). exists p. split; auto. now apply in_proc.
  Qed.

  (** The processes change after the file has been opened once. *)
  Lemma W_change l1 l2 a' : orderly Writer n (l1 ++ OpenAll :: l2) everywhere None -> steady n s (l1 ++ OpenAll :: l2) everywhere ->
    those (activity l1 everywhere) = s -> those a' <> s -> (exists p, In p s /\ In p (those a')) ->
    crun Writer n ((l1 ++ OpenAll :: l2) ++ [Choose (fun p => Some (a' p)); OpenAll]) cstart = None.
  Proof.
    intros Ho Hs Ha Hd (p & Hp & Hp'). assert (H0 : s <> []) by (intros E; rewrite E in Hp; contradiction).
    destruct (W_opened l2 l1 _ _ _ _ _ W_start Ho Hs Ha H0) as (c & e & md & o & a1 & R & HW).
    rewrite crun_app, R. cbn [crun cstep].
    set (f := fun p => Some (a' p)).
    assert (Hf : everyone n f) by (intros q Hq; discriminate).
    pose proof (W_choose _ _ _ _ _ f HW Hf) as HW'. set (c1 := mkCluster _ _) in *.
    assert (Hc1 : U c1 a' true).
    { destruct HW' as [[HA HM] _ _ _ _]. split; auto. }
    rewrite (open_none Writer c1 a' true Hc1 Hn); [reflexivity|].
    destruct HW' as [_ _ _ Hold _]. destruct (Hold eq_refl) as (_ & g & G1 & G2 & G3). pose proof (after_U _ _ _ Hc1) as HU2.
    assert (Hu : forall q, used Writer (streams (after c1 true) q) = match a_list (streams c1 q) with Some x => Some x | None => a_comm (streams (after c1 true) q) end).
    { intros q. unfold used. destruct (after_rest c1 true q) as [-> _]. reflexivity. }
    apply in_those in Hp'. destruct Hp' as [Hpn Hpa].
    assert (Hup : used Writer (streams (after c1 true) p) = Some g).
    { rewrite Hu, G3 by auto. now rewrite (proj2 (existsb_in p s) Hp). }
    rewrite <- Ha in Hd. destruct (differ _ _ Hd) as (q & Hq & Qd).
    assert (Hq1 : activity l1 everywhere q = true <-> In q s) by (rewrite <- Ha, in_those; tauto).
    destruct (a' q) eqn:Eq.
    - (* q opens with a communicator of its own *)
      assert (Hqs : ~ In q s) by (rewrite <- Hq1; congruence).
      set (h := mkComm (next_name c1) (those (fun p => a_active (streams c1 p)))).
      apply (meets_false _ _ q h p Hq).
      + rewrite (U_active _ _ _ HU2 q Hq). exact Eq.
      + rewrite Hu, G3 by auto. rewrite (proj2 (existsb_notin q s) Hqs). unfold after; cbn [streams a_comm].
        rewrite (proj2 (existsb_in q _)); [reflexivity|]. simpl. apply in_those. auto.
      + simpl. apply in_those. auto.
      + right. rewrite Hup. unfold same_comm. apply Nat.eqb_neq. unfold h; cbn [c_name]. lia.
    - apply (meets_false _ _ p g q Hpn).
      + rewrite (U_active _ _ _ HU2 p Hpn). exact Hpa.
      + exact Hup.
      + rewrite G1. apply Hq1. destruct (activity l1 everywhere q); congruence.
      + left. rewrite (U_active _ _ _ HU2 q Hq). exact Eq.
  Qed.
  End Writers.

  (** *** Readers *)
  Section Readers.
  Variable w : bool.
  Hypothesis Hn : n <> 0.

  Record R (c : cluster) (a : nat -> bool) (md : bool) (o : option (list nat)) (b : bool) : Prop := {
    R_U : U c a md;
    R_set : forall p, p < n -> a_set (streams c p) = b;
    R_strict : w = false -> b = false;
    R_comm : md = false -> b = true -> those a <> [] -> exists g, c_members g = those a /\ forall p, p < n -> a p = true -> a_comm (streams c p) = Some g;
    R_file : forall l, o = Some l -> forall p, In p l -> a_file (streams c p) <> None }.

  Lemma R_start : R cstart everywhere false None false.
  Proof. split; try discriminate; auto. split; reflexivity. Qed.

  Lemma R_choose c a md o b f : R c a md o b -> everyone n f ->
    R (mkCluster (fun p => match f p with Some b => set_active b (streams c p) | None => streams c p end) (next_name c)) (fun p => chosen f p (a p)) true o b.
  Proof.
    intros [HU Hset Hst Hcomm Hfile] Hf. split; auto; try discriminate.
    - eapply choose_U; eauto.
    - intros p Hp. cbn [streams]. rewrite <- (Hset p Hp). destruct (f p); reflexivity.
    - intros l E p Hp. cbn [streams]. pose proof (Hfile l E p Hp). destruct (f p); simpl; auto.
  Qed.

  Lemma R_open c a md o b : R c a md o b -> md = true \/ (w = true /\ (b = true \/ those a = seq 0 n \/ those a = [])) ->
    exists c', open_all Reader n c = Some (c', together n a) /\ R c' a false (Some (those a)) (if md then b else true).
  Proof.
    intros [HU Hset Hst Hcomm Hfile] Hor. pose proof (after_U c a md HU) as HU'.
    assert (HX : exists g, (those a <> [] -> c_members g = those a /\ forall p, p < n -> a p = true -> a_comm (streams (after c md) p) = Some g)).
    { destruct md.
      - assert (E : those (fun p => a_active (streams c p)) = those a) by (apply those_ext; apply HU).
        exists (mkComm (next_name c) (those (fun p => a_active (streams c p)))). intros _. split; [exact E|].
        intros p Hp Ha. unfold after; cbn [streams a_comm c_members]. rewrite E. rewrite (proj2 (existsb_in p _)); [reflexivity|now apply in_those].
      - destruct Hor as [?|[Hw Hall]]; [discriminate|]. destruct b.
        + destruct (list_eq_dec Nat.eq_dec (those a) []) as [E|E]; [exists (world n); congruence|].
          destruct (Hcomm eq_refl eq_refl E) as (g & G1 & G2). exists g. intros _. split; auto. intros p Hp Ha. unfold after; cbn [streams].
          rewrite Hset by auto. auto.
        + exists (world n). intros Hne. destruct Hall as [?|[Hall|?]]; [discriminate| |contradiction]. split; [symmetry; exact Hall|].
          intros p Hp _. unfold after; cbn [streams]. rewrite Hset by auto. reflexivity. }
    assert (G3 : forall p, p < n -> a_set (streams (after c md) p) = if md then b else true).
    { intros p Hp. unfold after. destruct md; cbn [streams a_set]; rewrite ?Hset by auto; auto. destruct b; auto. }
    destruct HX as (g & Hg). exists (opened Reader (after c md)). split.
    - apply (open_ok Reader c a md g HU Hn). exact Hg.
    - split.
      + now apply opened_U.
      + intros p Hp. unfold opened; cbn [streams]. rewrite <- (G3 p Hp). destruct (a_active _); reflexivity.
      + intros Ew. destruct md; auto. destruct Hor as [?|[? _]]; congruence.
      + intros _ _ Hne. destruct (Hg Hne) as [G1 G2]. exists g. split; auto. intros p Hp Ha. unfold opened; cbn [streams].
        rewrite (U_active _ _ _ HU' p Hp), Ha. cbn [a_comm]. auto.
      + intros l [= <-] p Hp. assert (Hne : those a <> []) by (intros E; rewrite E in Hp; contradiction). destruct (Hg Hne) as [G1 G2].
        apply in_those in Hp. destruct Hp as [Hp Ha]. unfold opened; cbn [streams].
        rewrite (U_active _ _ _ HU' p Hp), Ha. cbn [a_file]. unfold used. rewrite G2 by auto. discriminate.
  Qed.

  Lemma R_transfer c a md o b : R c a md o b -> those a = seq 0 n -> o = Some (those a) ->
    transfer_all Reader n c = Some (c, Moved (those a) false).
  Proof.
    intros [HU Hset Hst Hcomm Hfile] Ha Ho. unfold transfer_all. rewrite (proj2 (forallb_proc _)).
    - now rewrite Ha.
    - intros p Hp. pose proof (Hfile _ Ho p) as H. rewrite Ha in H. specialize (H (proj2 (in_proc p) Hp)). destruct (a_file (streams c p)); congruence.
  Qed.

  Lemma R_run l : forall c a md o b, R c a md o b -> orderly Reader n l a o -> announced n w l md b a ->
    exists c' md' o' b', crun Reader n l c = Some (c', expected Reader n l a) /\ R c' (activity l a) md' o' b'.
  Proof.
    induction l as [|op l IH]; intros c a md o b HR Ho Hs; cbn [crun orderly announced expected activity] in *.
    - exists c, md, o, b. auto.
    - destruct op as [f| |]; cbn [cstep].
      + destruct Ho as [Hf Ho]. destruct (IH _ _ _ _ _ (R_choose _ _ _ _ _ f HR Hf) Ho Hs) as (c' & md' & o' & b' & E & HR').
        rewrite E. exists c', md', o', b'. auto.
      + destruct Hs as [Hs Hs']. destruct (R_open _ _ _ _ _ HR Hs) as (c1 & E1 & H1). rewrite E1.
        destruct (IH _ _ _ _ _ H1 Ho Hs') as (c' & md' & o' & b' & E & HR'). rewrite E. exists c', md', o', b'. auto.
      + destruct Ho as [[Ho1 Ho2] Ho']. rewrite (R_transfer _ _ _ _ _ HR Ho1 Ho2). destruct (IH _ _ _ _ _ HR Ho' Hs) as (c' & md' & o' & b' & E & HR').
        rewrite E. exists c', md', o', b'. auto.
  Qed.
  End Readers.

  Lemma R_again l a' p q : n <> 0 -> orderly Reader n l everywhere None -> announced n false l false false everywhere ->
    p < n -> a' p = true -> q < n -> a' q = false ->
    crun Reader n (l ++ [Choose (fun p => Some (a' p)); OpenAll; OpenAll]) cstart = None.
  Proof.
    intros Hn Ho Hs Hp Pa Hq Qa. destruct (R_run false Hn l _ _ _ _ _ (R_start false) Ho Hs) as (c & md & o & b & E & HR).
    rewrite crun_app, E. cbn [crun cstep]. set (f := fun p => Some (a' p)).
    assert (Hf : everyone n f) by (intros x Hx; discriminate).
    pose proof (R_choose _ _ _ _ _ _ f HR Hf) as HR1. set (c1 := mkCluster _ _) in *.
    destruct (R_open false Hn _ _ _ _ _ HR1 (or_introl eq_refl)) as (c2 & E2 & HR2). rewrite E2.
    destruct HR2 as [HU Hset Hst _ _]. rewrite (open_none Reader c2 _ false HU Hn); [reflexivity|].
    assert (Hc : forall x, x < n -> a_comm (streams (after c2 false) x) = Some (world n)).
    { intros x Hx. unfold after; cbn [streams]. rewrite Hset, Hst by auto. reflexivity. }
    pose proof (after_U _ _ _ HU) as HU'.
    apply (meets_false _ _ p (world n) q Hp).
    - rewrite (U_active _ _ _ HU' p Hp). exact Pa.
    - now apply Hc.
    - simpl. now apply in_proc.
    - left. rewrite (U_active _ _ _ HU' q Hq). exact Qa.
  Qed.
End Proofs.
