(** Proofs about what MPI subdivisions own. *)
From Coq Require Import List Arith Bool Lia Permutation.
Import ListNotations.
From Verif Require Import OwnModel OwnSpec.

Lemma res_eq_spec x y : reflect (x = y) (res_eq x y).
Proof.
  destruct x as [n|n], y as [m|m]; simpl; try (constructor; congruence);
    destruct (Nat.eqb_spec n m); constructor; congruence.
Qed.
Lemma existsb_res r l : existsb (res_eq r) l = true <-> In r l.
Proof.
  rewrite existsb_exists. split.
  - intros (x & Hx & E). destruct (res_eq_spec r x); [subst; auto|discriminate].
  - intros H. exists r. split; auto. destruct (res_eq_spec r r); auto.
Qed.
Lemma alive_In x l : alive x l = true <-> In x l.
Proof.
  unfold alive. rewrite existsb_exists. split.
  - intros (y & Hy & E). apply Nat.eqb_eq in E. subst; auto.
  - intros H. exists x. split; auto. apply Nat.eqb_refl.
Qed.
Lemma alive_not x l : alive x l = false <-> ~ In x l.
Proof. rewrite <- alive_In. destruct (alive x l); intuition congruence. Qed.
Lemma drop_In y x l : In y (drop x l) <-> In y l /\ y <> x.
Proof. unfold drop. rewrite filter_In, negb_true_iff, Nat.eqb_neq. tauto. Qed.
Lemma drop_NoDup x l : NoDup l -> NoDup (drop x l).
Proof. apply NoDup_filter. Qed.
Lemma drop_not x l : ~ In x l -> drop x l = l.
Proof.
  intros H. unfold drop. induction l as [|y l IH]; auto. simpl in *.
  rewrite (proj2 (Nat.eqb_neq y x)) by (intros ->; tauto). simpl. f_equal. apply IH. tauto.
Qed.

Definition num (r : res) : nat := match r with Array n | Comm n => n end.
Definition opt (k : nat -> res) (p : option nat) : list res := match p with None => [] | Some n => [k n] end.
Fixpoint own2 (ss rs : list (option nat)) : list res :=
  match ss, rs with s :: ss', r :: rs' => opt Array s ++ opt Array r ++ own2 ss' rs' | _, _ => [] end.
Definition owned (o : subdiv) : list res := own2 (o_send o) (o_recv o) ++ opt Comm (o_comm o).

Lemma release_perm r rest heap : Permutation (r :: rest) heap -> NoDup heap ->
  exists h, release r heap = Some h /\ Permutation rest h /\ NoDup h.
Proof.
  intros HP HN. unfold release. rewrite (proj2 (existsb_res r heap)) by (eapply Permutation_in; [exact HP|now left]).
  eexists. split; [reflexivity|]. split; [|now apply NoDup_filter].
  assert (HN' : NoDup (r :: rest)) by (eapply Permutation_NoDup; [apply Permutation_sym; exact HP|exact HN]).
  inversion HN' as [|? ? Hr Hd]; subst.
  apply NoDup_Permutation; auto; [now apply NoDup_filter|].
  intros x. rewrite filter_In, negb_true_iff. split.
  - intros Hx. split; [eapply Permutation_in; [exact HP|now right]|].
    destruct (res_eq_spec r x); [subst; tauto|reflexivity].
  - intros [Hx E]. eapply Permutation_in in Hx; [|apply Permutation_sym; exact HP]. destruct Hx as [->|Hx]; auto.
    destruct (res_eq_spec x x); [discriminate|tauto].
Qed.

Lemma release_opt_perm k p rest heap : Permutation (opt k p ++ rest) heap -> NoDup heap ->
  exists h, release_opt k p heap = Some h /\ Permutation rest h /\ NoDup h.
Proof.
  destruct p as [n|]; simpl; intros HP HN; [now apply release_perm|]. exists heap. auto.
Qed.

Lemma release_all_perm ss : forall rs rest heap, Permutation (own2 ss rs ++ rest) heap -> NoDup heap ->
  exists h, release_all ss rs heap = Some h /\ Permutation rest h /\ NoDup h.
Proof.
  induction ss as [|s ss IH]; intros [|r rs] rest heap HP HN; cbn [own2 release_all app] in *; try (exists heap; auto; fail).
  rewrite <- !app_assoc in HP.
  destruct (release_opt_perm _ _ _ _ HP HN) as (h1 & -> & P1 & N1).
  destruct (release_opt_perm _ _ _ _ P1 N1) as (h2 & -> & P2 & N2). now apply IH.
Qed.

Lemma release_incl r heap h : release r heap = Some h -> incl h heap.
Proof. unfold release. destruct (existsb _ _); [|discriminate]. intros [= <-] x Hx. apply filter_In in Hx. tauto. Qed.
Lemma release_opt_incl k p heap h : release_opt k p heap = Some h -> incl h heap.
Proof. destruct p; simpl; [apply release_incl|intros [= <-]; apply incl_refl]. Qed.
Lemma release_all_incl ss : forall rs heap h, release_all ss rs heap = Some h -> incl h heap.
Proof.
  induction ss as [|s ss IH]; intros [|r rs] heap h; cbn [release_all]; try (intros [= <-]; apply incl_refl).
  destruct (release_opt Array s heap) as [h1|] eqn:E1; [|discriminate].
  destruct (release_opt Array r h1) as [h2|] eqn:E2; [|discriminate]. intros E.
  eapply incl_tran; [eapply IH; exact E|]. eapply incl_tran; [eapply release_opt_incl; exact E2|eapply release_opt_incl; exact E1].
Qed.

Lemma alloc_spec k : forall heap n ss rs heap' n', alloc k heap n = (ss, rs, heap', n') ->
  NoDup heap -> (forall r, In r heap -> num r < n) ->
  Permutation (own2 ss rs ++ heap) heap' /\ NoDup heap' /\ (forall r, In r heap' -> num r < n') /\
  length ss = k /\ length rs = k /\ length (own2 ss rs) = 2 * k.
Proof.
  induction k as [|k IH]; intros heap n ss rs heap' n'; cbn [alloc].
  - intros [= <- <- <- <-] HN Hn. simpl. repeat split; auto.
  - destruct (alloc k (Array (S n) :: Array n :: heap) (S (S n))) as [[[ss1 rs1] h1] n1] eqn:E.
    intros [= <- <- <- <-] HN Hn.
    destruct (IH _ _ _ _ _ _ E) as (P & N & B & L1 & L2 & L3).
    + constructor; [|constructor; auto].
      * intros [X|X]; [injection X; lia|]. apply Hn in X. simpl in X. lia.
      * intros X. apply Hn in X. simpl in X. lia.
    + intros r [<-|[<-|Hr]]; simpl; auto. apply Hn in Hr. lia.
    + split.
      { cbn [own2 opt app]. eapply Permutation_trans; [|exact P].
        eapply Permutation_trans; [apply perm_swap|]. 
        apply Permutation_trans with ((Array (S n) :: Array n :: []) ++ (own2 ss1 rs1 ++ heap)); [reflexivity|].
        apply Permutation_trans with ((own2 ss1 rs1 ++ (Array (S n) :: Array n :: [])) ++ heap).
        - rewrite app_assoc. apply Permutation_app_tail. apply Permutation_app_comm.
        - now rewrite <- app_assoc. }
      split; [exact N|]. split; [exact B|]. cbn [length own2 opt app]. lia.
Qed.

Section Proofs.
  Variable rank : nat.
  Notation fresh_sub := (fresh_sub rank).
  Notation ostep := (ostep rank).
  Notation orun := (orun rank).
  Notation share := (share rank).

  Definition complete (o : subdiv) : Prop :=
    length (owned o) = share /\ o_bounds o = true /\ (exists c, o_comm o = Some c) /\
    forall d, d < rank -> exists n m, nth d (o_send o) None = Some n /\ nth d (o_recv o) None = Some m /\
                                     In (Array n) (owned o) /\ In (Array m) (owned o).

  Record I (s : ost) (w : world) (lost : list res) : Prop := {
    I_live : o_live s = w_live w;
    I_ready : incl (w_ready w) (w_live w);
    I_nd : NoDup (w_ready w);
    I_fresh : forall x, In x (w_live w) -> ~ In x (w_ready w) -> o_obj s x = fresh_sub;
    I_full : forall x, In x (w_ready w) -> complete (o_obj s x);
    I_heap : Permutation (flat_map (fun x => owned (o_obj s x)) (w_ready w) ++ lost) (o_heap s);
    I_hnd : NoDup (o_heap s);
    I_num : forall r, In r (o_heap s) -> num r < o_next s }.

  Lemma own2_nth ss : forall rs d, length ss = length rs -> d < length ss ->
    length (own2 ss rs) = 2 * length ss ->
    exists n m, nth d ss None = Some n /\ nth d rs None = Some m /\ In (Array n) (own2 ss rs) /\ In (Array m) (own2 ss rs).
  Proof.
    assert (Hle : forall l rs, length (own2 l rs) <= 2 * length l).
    { intros l. induction l as [|s ss0 IH]; intros [|r rs]; cbn [own2 length]; try lia.
      rewrite !app_length. specialize (IH rs). destruct s, r; simpl; lia. }
    induction ss as [|s ss IH]; intros [|r rs] d E Hd L; cbn [length] in *; try lia.
    cbn [own2] in *. rewrite !app_length in L. pose proof (Hle ss rs).
    destruct s as [n|], r as [m|]; simpl in L; try lia.
    destruct d as [|d].
    - exists n, m. simpl. repeat split; auto.
    - destruct (IH rs d) as (n' & m' & E1 & E2 & E3 & E4); [lia|lia|lia|]. exists n', m'. simpl. repeat split; auto.
  Qed.

  Lemma owned_fresh : owned fresh_sub = [].
  Proof.
    unfold owned, OwnModel.fresh_sub; simpl. rewrite app_nil_r. induction rank as [|n IH]; auto.
  Qed.

  Lemma flat_map_ext_in {A B} (f g : A -> list B) l : (forall x, In x l -> f x = g x) -> flat_map f l = flat_map g l.
  Proof. induction l as [|x l IH]; intros H; simpl; auto. rewrite H by now left. f_equal. apply IH. intros; apply H; now right. Qed.

  Lemma oset_same f x o : oset f x o x = o.
  Proof. unfold oset. now rewrite Nat.eqb_refl. Qed.
  Lemma oset_other f x o y : y <> x -> oset f x o y = f y.
  Proof. intros H. unfold oset. now rewrite (proj2 (Nat.eqb_neq y x) H). Qed.

  (** Objects [x] is taken out of those that are ready. *)
  Lemma ready_split (f : nat -> list res) x l : NoDup l -> In x l ->
    Permutation (flat_map f l) (f x ++ flat_map f (drop x l)).
  Proof.
    induction l as [|y l IH]; intros HN Hx0; [destruct Hx0|]; inversion HN as [|? ? Hy Hd]; subst; destruct Hx0 as [->|Hx]; simpl.
    - rewrite Nat.eqb_refl. simpl. fold (drop x l). now rewrite drop_not.
    - assert (x <> y) by (intros ->; tauto). rewrite (proj2 (Nat.eqb_neq y x)) by auto. simpl.
      eapply Permutation_trans; [apply Permutation_app_head; apply IH; auto|].
      rewrite !app_assoc. apply Permutation_app_tail. apply Permutation_app_comm.
  Qed.

  Lemma I_init : I (oinit rank) nobody [].
  Proof. constructor; simpl; try tauto; try constructor; intros x []. Qed.

  Definition loss (p : oop) (w : world) (s : ost) : list res :=
    match p with
    | AssignFrom x y => if overwrites p w then owned (o_obj s x) else []
    | Init x => if overwrites p w then owned (o_obj s x) else []
    | _ => []
    end.

  Lemma alive_ready x l : existsb (Nat.eqb x) l = alive x l.
  Proof. reflexivity. Qed.

  Lemma step_ok p s w lost : I s w lost -> permitted rank p w -> cautious p w ->
    exists s', ostep p s = Some s' /\ I s' (becomes p w) (loss p w s ++ lost).
  Proof.
    intros HI. pose proof HI as [Hl Hr Hn Hf Hc Hh Hd Hm].
    destruct p as [x|x y|x y|x|x d|x]; cbn [permitted cautious OwnModel.ostep becomes loss overwrites]; rewrite ?alive_ready.
    - intros Hx _. rewrite Hl, (proj2 (alive_not x _) Hx). eexists. split; [reflexivity|].
      constructor; cbn [o_live o_obj o_heap o_next w_live w_ready]; auto.
      + intros z Hz. right. auto.
      + intros z [<-|Hz] Hz'; [now rewrite oset_same|]. rewrite oset_other by (intros ->; tauto). auto.
      + intros z Hz. rewrite oset_other by (intros ->; apply Hx; auto). auto.
      + rewrite (flat_map_ext_in _ (fun z => owned (o_obj s z))); [exact Hh|].
        intros z Hz. rewrite oset_other; auto. intros ->. apply Hx; auto.
    - intros [Hx Hy] Hry. rewrite Hl, (proj2 (alive_not x _) Hx), (proj2 (alive_In y _) Hy). simpl orb. cbv iota.
      rewrite (proj2 (alive_not y _) Hry). eexists. split; [reflexivity|].
      constructor; cbn [o_live o_obj o_heap o_next w_live w_ready]; auto.
      + intros z Hz. right. auto.
      + intros z [<-|Hz] Hz'; [rewrite oset_same; auto|]. rewrite oset_other by (intros ->; tauto). auto.
      + intros z Hz. rewrite oset_other by (intros ->; apply Hx; auto). auto.
      + rewrite (flat_map_ext_in _ (fun z => owned (o_obj s z))); [exact Hh|].
        intros z Hz. rewrite oset_other; auto. intros ->. apply Hx; auto.
    - intros [Hx Hy] Hry. rewrite Hl, (proj2 (alive_In x _) Hx), (proj2 (alive_In y _) Hy). simpl andb. cbv iota.
      eexists. split; [reflexivity|]. destruct (Nat.eqb_spec x y) as [<-|Hxy].
      + cbn [negb andb app].
        assert (E : forall z, oset (o_obj s) x (o_obj s x) z = o_obj s z).
        { intros z. unfold oset. destruct (Nat.eqb_spec z x); subst; auto. }
        constructor; cbn [o_live o_obj o_heap o_next]; auto; try (intros z; rewrite E; auto).
        rewrite (flat_map_ext_in _ (fun z => owned (o_obj s z))); [exact Hh|]. intros z _. now rewrite E.
      + destruct Hry as [Hry|Hry]; [tauto|]. rewrite (proj2 (alive_not y _) Hry). cbn [negb andb].
        constructor; cbn [o_live o_obj o_heap o_next w_live w_ready]; auto.
        * intros z Hz. apply drop_In in Hz. apply Hr. tauto.
        * now apply drop_NoDup.
        * intros z Hz Hz'. rewrite drop_In in Hz'. destruct (Nat.eq_dec z x) as [->|Hzx]; [rewrite oset_same; auto|].
          rewrite oset_other by auto. apply Hf; auto.
        * intros z Hz. apply drop_In in Hz. rewrite oset_other by tauto. apply Hc. tauto.
        * rewrite (flat_map_ext_in _ (fun z => owned (o_obj s z))) by (intros z Hz; apply drop_In in Hz; rewrite oset_other by tauto; auto).
          destruct (alive x (w_ready w)) eqn:Ex.
          -- apply alive_In in Ex. eapply Permutation_trans; [|exact Hh]. rewrite app_assoc. apply Permutation_app_tail.
             eapply Permutation_trans; [apply Permutation_app_comm|]. apply Permutation_sym. now apply (ready_split (fun z => owned (o_obj s z))).
          -- apply alive_not in Ex. rewrite drop_not by auto. exact Hh.
    - intros Hx _. unfold o_initialise. rewrite Hl, (proj2 (alive_In x _) Hx).
      destruct (alloc rank (Comm (o_next s) :: o_heap s) (S (o_next s))) as [[[ss rs] heap] n] eqn:Ea.
      destruct (alloc_spec _ _ _ _ _ _ _ Ea) as (P & N & B & L1 & L2 & L3).
      { constructor; auto. intros X. apply Hm in X. simpl in X. lia. }
      { intros r [<-|X]; [simpl; lia|]. apply Hm in X. lia. }
      eexists. split; [reflexivity|].
      constructor; cbn [o_live o_obj o_heap o_next w_live w_ready]; auto.
      + intros z [<-|Hz]; auto. apply drop_In in Hz. apply Hr. tauto.
      + constructor; [|now apply drop_NoDup]. rewrite drop_In. tauto.
      + intros z Hz Hz'. simpl in Hz'. rewrite drop_In in Hz'. rewrite oset_other by (intros ->; tauto). apply Hf; auto.
        intros X. apply Hz'. destruct (Nat.eq_dec z x) as [->|]; [now left|right; now split].
      + intros z [<-|Hz].
        * rewrite oset_same. split; [|split; [reflexivity|split; [eexists; reflexivity|]]].
          -- unfold owned; simpl. rewrite app_length, L3. unfold share. simpl. lia.
          -- intros d Hd'. destruct (own2_nth ss rs d) as (a & b & E1 & E2 & E3 & E4); [lia|lia|lia|].
             exists a, b. unfold owned; simpl. rewrite !in_app_iff. auto.
        * apply drop_In in Hz. rewrite oset_other by tauto. apply Hc. tauto.
      + cbn [flat_map]. rewrite oset_same.
        rewrite (flat_map_ext_in _ (fun z => owned (o_obj s z))) by (intros z Hz; apply drop_In in Hz; rewrite oset_other by tauto; auto).
        eapply Permutation_trans; [|exact P]. unfold owned at 1; cbn [o_send o_recv o_comm opt].
        rewrite <- !app_assoc. apply Permutation_app_head. cbn [app]. apply perm_skip.
        eapply Permutation_trans; [|exact Hh].
        destruct (alive x (w_ready w)) eqn:Ex.
        * apply alive_In in Ex. rewrite app_assoc. apply Permutation_app_tail.
          eapply Permutation_trans; [apply Permutation_app_comm|]. apply Permutation_sym. now apply (ready_split (fun z => owned (o_obj s z))).
        * apply alive_not in Ex. rewrite drop_not by auto. reflexivity.
    - intros [Hx Hdim] _. unfold o_exchange. rewrite Hl, (proj2 (alive_In x _) (Hr x Hx)).
      destruct (Hc x Hx) as (_ & -> & (c & Ec) & Hbuf). destruct (Hbuf d Hdim) as (n & m & -> & -> & I1 & I2).
      rewrite Ec. cbn [option_map usable].
      assert (Hin : forall r, In r (owned (o_obj s x)) -> In r (o_heap s)).
      { intros r X. eapply Permutation_in; [exact Hh|]. apply in_app_iff. left. apply in_flat_map. eauto. }
      rewrite !(proj2 (existsb_res _ _)); [|apply Hin; auto..].
      + exists s. auto.
      + unfold owned. rewrite Ec. apply in_app_iff. right. now left.
    - intros Hx _. unfold o_destroy. rewrite Hl, (proj2 (alive_In x _) Hx).
      assert (HP : Permutation (owned (o_obj s x) ++ flat_map (fun z => owned (o_obj s z)) (drop x (w_ready w)) ++ lost) (o_heap s)).
      { destruct (in_dec Nat.eq_dec x (w_ready w)) as [Ex|Ex].
        - eapply Permutation_trans; [|exact Hh]. rewrite app_assoc. apply Permutation_app_tail. apply Permutation_sym.
          now apply (ready_split (fun z => owned (o_obj s z))).
        - rewrite (Hf x Hx Ex), owned_fresh, drop_not by auto. exact Hh. }
      unfold owned at 1 in HP. rewrite <- app_assoc in HP.
      destruct (release_all_perm _ _ _ _ HP Hd) as (h1 & -> & P1 & N1).
      destruct (release_opt_perm _ _ _ _ P1 N1) as (h2 & E2 & P2 & N2). rewrite E2.
      eexists. split; [reflexivity|].
      constructor; cbn [o_live o_obj o_heap o_next w_live w_ready]; auto.
      + intros z Hz. apply drop_In in Hz. apply drop_In. split; [apply Hr|]; tauto.
      + now apply drop_NoDup.
      + intros z Hz Hz'. apply drop_In in Hz. rewrite drop_In in Hz'. apply Hf; tauto.
      + intros z Hz. apply drop_In in Hz. apply Hc. tauto.
      + intros r X. apply Hm. eapply Permutation_in; [exact HP|]. apply in_app_iff. right. apply in_app_iff. right.
        eapply Permutation_in; [apply Permutation_sym; exact P2|exact X].
  Qed.

  Lemma loss_length p s w lost : I s w lost ->
    length (loss p w s) = share * (if overwrites p w then 1 else 0).
  Proof.
    intros HI. assert (G : forall x, In x (w_ready w) -> length (owned (o_obj s x)) = share).
    { intros x Hx. apply (I_full _ _ _ HI x Hx). }
    destruct p; cbn [loss]; try (simpl; lia); destruct (overwrites _ w) eqn:E; try (simpl; lia); rewrite G; try lia;
      cbn [overwrites] in E; rewrite alive_ready in E; try (apply andb_true_iff in E; destruct E as [_ E]); now apply alive_In in E.
  Qed.

  Lemma run_ok ps : forall s w lost, I s w lost -> cautious_run rank ps w ->
    exists s' lost', orun ps s = Some s' /\ I s' (end_world ps w) lost' /\ length lost' = length lost + share * losses ps w.
  Proof.
    induction ps as [|p ps IH]; intros s w lost HI Hc; cbn [OwnModel.orun cautious_run end_world losses] in *.
    - exists s, lost. split; [reflexivity|]. split; [exact HI|]. lia.
    - destruct Hc as (H1 & H2 & H3). destruct (step_ok p s w lost HI H1 H2) as (s1 & -> & HI1).
      destruct (IH s1 _ _ HI1 H3) as (s2 & l2 & E & HI2 & L). exists s2, l2. split; auto. split; auto.
      rewrite L, app_length, (loss_length p s w lost HI). rewrite Nat.mul_add_distr_l; lia.
  Qed.

  Lemma heap_length s w lost : I s w lost -> length (o_heap s) = share * length (w_ready w) + length lost.
  Proof.
    intros HI. rewrite <- (Permutation_length (I_heap _ _ _ HI)), app_length. f_equal.
    assert (G : forall x, In x (w_ready w) -> length (owned (o_obj s x)) = share) by (intros x Hx; apply (I_full _ _ _ HI x Hx)).
    revert G. generalize (w_ready w). induction l as [|x l IH]; intros G; simpl; [lia|]. rewrite app_length, G by now left.
    rewrite IH by (intros; apply G; now right). lia.
  Qed.

  Lemma held ps : cautious_run rank ps nobody ->
    exists s, orun ps (oinit rank) = Some s /\ o_live s = w_live (end_world ps nobody) /\
              length (o_heap s) = share * (length (w_ready (end_world ps nobody)) + losses ps nobody).
  Proof.
    intros H. destruct (run_ok ps _ _ _ I_init H) as (s & lost & E & HI & L). exists s. split; [exact E|].
    split; [apply HI|]. rewrite (heap_length _ _ _ HI), L. simpl length. lia.
  Qed.

  Lemma all_released ps : cautious_run rank ps nobody -> losses ps nobody = 0 -> w_live (end_world ps nobody) = [] ->
    exists s, orun ps (oinit rank) = Some s /\ o_heap s = [].
  Proof.
    intros H E0 Ew. destruct (run_ok ps _ _ _ I_init H) as (s & lost & E & HI & L). exists s. split; [exact E|].
    apply length_zero_iff_nil. rewrite (heap_length _ _ _ HI), L, E0.
    pose proof (I_ready _ _ _ HI) as Hr. rewrite Ew in Hr. apply incl_l_nil in Hr. rewrite Hr. simpl. lia.
  Qed.

  (** *** Copies of initialised subdivisions *)
  Lemma orun_app ps1 : forall ps2 s, orun (ps1 ++ ps2) s = match orun ps1 s with None => None | Some s' => orun ps2 s' end.
  Proof. induction ps1 as [|p ps1 IH]; intros ps2 s; cbn [OwnModel.orun app]; auto. destruct (ostep p s); auto. Qed.

  Lemma twins s x y rest : x <> y -> In x (o_live s) -> In y (o_live s) -> o_obj s x = o_obj s y ->
    Permutation (owned (o_obj s y) ++ rest) (o_heap s) -> NoDup (o_heap s) -> (exists c, o_comm (o_obj s y) = Some c) ->
    (forall d, orun [Destruct x; Exchange y d] s = None) /\ orun [Destruct x; Destruct y] s = None.
  Proof.
    intros Hxy Hx Hy Eo HP HN (c & Ec). cbn [OwnModel.orun OwnModel.ostep]. unfold o_destroy at 1 2.
    rewrite (proj2 (alive_In x _) Hx), Eo.
    pose proof HP as HP'. unfold owned in HP'. rewrite <- app_assoc in HP'.
    destruct (release_all_perm _ _ _ _ HP' HN) as (h1 & -> & P1 & N1).
    destruct (release_opt_perm _ _ _ _ P1 N1) as (h2 & -> & P2 & N2).
    assert (Hgone : ~ In (Comm c) h2).
    { intros X. eapply Permutation_in in X; [|apply Permutation_sym; exact P2].
      assert (ND : NoDup (owned (o_obj s y) ++ rest)) by (eapply Permutation_NoDup; [apply Permutation_sym; exact HP|exact HN]).
      assert (Y : In (Comm c) (owned (o_obj s y))) by (unfold owned; rewrite Ec; apply in_app_iff; right; now left).
      revert ND X Y. generalize (owned (o_obj s y)). intros l ND X Y. induction l as [|z l IH]; [destruct Y|].
      inversion ND as [|? ? Nz Nd]; subst. destruct Y as [->|Y]; [|auto]. apply Nz. apply in_app_iff. auto. }
    split.
    - intros d. unfold o_exchange; cbn [o_obj o_heap o_live]. rewrite Ec. cbn [option_map usable].
      destruct (existsb (res_eq (Comm c)) h2) eqn:E; [apply existsb_res in E; tauto|]. now rewrite !andb_false_r.
    - unfold o_destroy; cbn [o_obj o_heap o_live]. destruct (alive y _); auto.
      destruct (release_all (o_send (o_obj s y)) (o_recv (o_obj s y)) h2) as [h3|] eqn:E3; auto.
      rewrite Ec. cbn [release_opt]. unfold release. destruct (existsb (res_eq (Comm c)) h3) eqn:E; auto.
      apply existsb_res in E. apply release_all_incl in E3. apply E3 in E. tauto.
  Qed.

  Lemma copied ps x y : cautious_run rank ps nobody -> In y (w_ready (end_world ps nobody)) -> ~ In x (w_live (end_world ps nobody)) ->
    (forall d, orun (ps ++ [CopyOf x y; Destruct x; Exchange y d]) (oinit rank) = None) /\
    orun (ps ++ [CopyOf x y; Destruct x; Destruct y]) (oinit rank) = None.
  Proof.
    intros H Hy Hx. destruct (run_ok ps _ _ _ I_init H) as (s & lost & E & HI & _).
    set (w := end_world ps nobody) in *. pose proof HI as [Hl Hr Hn Hf Hc Hh Hd Hm].
    assert (Hyl : In y (w_live w)) by auto.
    assert (Hne : x <> y) by (intros ->; tauto).
    set (s1 := mkOst (x :: o_live s) (oset (o_obj s) x (o_obj s y)) (o_heap s) (o_next s)).
    assert (E1 : ostep (CopyOf x y) s = Some s1).
    { cbn [OwnModel.ostep]. rewrite Hl, (proj2 (alive_not x _) Hx), (proj2 (alive_In y _) Hyl). simpl. unfold s1. now rewrite Hl. }
    destruct (twins s1 x y (flat_map (fun z => owned (o_obj s z)) (drop y (w_ready w)) ++ lost)) as [T1 T2]; auto.
    - now left.
    - right. now rewrite Hl.
    - unfold s1; simpl. now rewrite oset_same, oset_other by auto.
    - unfold s1; cbn [o_obj o_heap]. rewrite oset_other by auto. eapply Permutation_trans; [|exact Hh]. rewrite app_assoc.
      apply Permutation_app_tail. apply Permutation_sym. now apply (ready_split (fun z => owned (o_obj s z))).
    - unfold s1; cbn [o_obj]. rewrite oset_other by auto. apply (Hc y Hy).
    - split; [intros d|]; rewrite orun_app, E; cbn [OwnModel.orun]; rewrite E1; [apply T1|apply T2].
  Qed.

  Lemma assigned ps x y : cautious_run rank ps nobody -> In y (w_ready (end_world ps nobody)) -> In x (w_live (end_world ps nobody)) -> x <> y ->
    (forall d, orun (ps ++ [AssignFrom x y; Destruct x; Exchange y d]) (oinit rank) = None) /\
    orun (ps ++ [AssignFrom x y; Destruct x; Destruct y]) (oinit rank) = None.
  Proof.
    intros H Hy Hx Hne. destruct (run_ok ps _ _ _ I_init H) as (s & lost & E & HI & _).
    set (w := end_world ps nobody) in *. pose proof HI as [Hl Hr Hn Hf Hc Hh Hd Hm].
    assert (Hyl : In y (w_live w)) by auto.
    set (s1 := mkOst (o_live s) (oset (o_obj s) x (o_obj s y)) (o_heap s) (o_next s)).
    assert (E1 : ostep (AssignFrom x y) s = Some s1).
    { cbn [OwnModel.ostep]. rewrite Hl, (proj2 (alive_In x _) Hx), (proj2 (alive_In y _) Hyl). simpl. unfold s1. now rewrite Hl. }
    destruct (twins s1 x y (flat_map (fun z => owned (o_obj s z)) (drop y (w_ready w)) ++ lost)) as [T1 T2]; auto.
    - unfold s1; simpl. now rewrite Hl.
    - unfold s1; simpl. now rewrite Hl.
    - unfold s1; simpl. now rewrite oset_same, oset_other by auto.
    - unfold s1; cbn [o_obj o_heap]. rewrite oset_other by auto. eapply Permutation_trans; [|exact Hh]. rewrite app_assoc.
      apply Permutation_app_tail. apply Permutation_sym. now apply (ready_split (fun z => owned (o_obj s z))).
    - unfold s1; cbn [o_obj]. rewrite oset_other by auto. apply (Hc y Hy).
    - split; [intros d|]; rewrite orun_app, E; cbn [OwnModel.orun]; rewrite E1; [apply T1|apply T2].
  Qed.

  (** *** What is not permitted is undefined *)
  Lemma alloc_length k : forall heap n ss rs heap' n', alloc k heap n = (ss, rs, heap', n') -> length ss = k.
  Proof.
    induction k as [|k IH]; intros heap n ss rs heap' n'; cbn [alloc]; [now intros [= <- <- <- <-]|].
    destruct (alloc k (Array (S n) :: Array n :: heap) (S (S n))) as [[[ss1 rs1] h1] n1] eqn:E.
    intros [= <- <- <- <-]. simpl. f_equal. eapply IH; exact E.
  Qed.
  Definition J (s : ost) : Prop := forall x, length (o_send (o_obj s x)) = rank.
  Lemma J_init : J (oinit rank).
  Proof. intros x. simpl. apply repeat_length. Qed.
  Lemma J_set s x o l h n : J s -> length (o_send o) = rank -> J (mkOst l (oset (o_obj s) x o) h n).
  Proof. intros H Ho z. cbn [o_obj]. unfold oset. destruct (Nat.eqb z x); auto. Qed.
  Lemma J_step p s s' : J s -> ostep p s = Some s' -> J s'.
  Proof.
    intros HJ. destruct p as [x|x y|x y|x|x d|x]; cbn [OwnModel.ostep].
    - destruct (alive x (o_live s)); [discriminate|]. intros [= <-]. apply J_set; auto. simpl. apply repeat_length.
    - destruct (_ || _); [discriminate|]. intros [= <-]. apply J_set; auto.
    - destruct (_ && _); [|discriminate]. intros [= <-]. apply J_set; auto.
    - unfold o_initialise. destruct (alive x (o_live s)); [|discriminate].
      destruct (alloc rank _ _) as [[[ss rs] heap] n] eqn:Ea. intros [= <-]. apply J_set; auto.
      simpl. eapply alloc_length; exact Ea.
    - unfold o_exchange. destruct (_ && _); [|discriminate]. now intros [= <-].
    - unfold o_destroy. destruct (alive x (o_live s)); [|discriminate].
      destruct (release_all _ _ _) as [h1|]; [|discriminate]. destruct (release_opt _ _ _) as [h2|]; [|discriminate].
      intros [= <-]. exact HJ.
  Qed.
  Lemma J_run ps : forall s s', J s -> orun ps s = Some s' -> J s'.
  Proof.
    induction ps as [|p ps IH]; intros s s' HJ; cbn [OwnModel.orun]; [now intros [= <-]|].
    destruct (ostep p s) as [s1|] eqn:E; [|discriminate]. apply IH. eapply J_step; eassumption.
  Qed.

  Lemma not_permitted p s w lost : I s w lost -> J s -> ~ permitted rank p w -> ostep p s = None.
  Proof.
    intros [Hl Hr Hn Hf Hc Hh Hd Hm] HJ. destruct p as [x|x y|x y|x|x d|x]; cbn [permitted OwnModel.ostep]; intros N.
    - rewrite Hl. destruct (alive x (w_live w)) eqn:E; auto. apply alive_not in E. tauto.
    - rewrite Hl. destruct (alive x (w_live w)) eqn:E; auto. destruct (alive y (w_live w)) eqn:E'; auto.
      apply alive_not in E. apply alive_In in E'. tauto.
    - rewrite Hl. destruct (alive x (w_live w)) eqn:E; auto. destruct (alive y (w_live w)) eqn:E'; auto.
      apply alive_In in E, E'. tauto.
    - unfold o_initialise. rewrite Hl. destruct (alive x (w_live w)) eqn:E; auto. apply alive_In in E. tauto.
    - unfold o_exchange. rewrite Hl. destruct (alive x (w_live w)) eqn:E; auto. apply alive_In in E.
      destruct (in_dec Nat.eq_dec x (w_ready w)) as [R|R].
      + rewrite (nth_overflow (o_send (o_obj s x))); [|rewrite HJ; assert (~ d < rank) by tauto; lia]. simpl. now rewrite !andb_false_r.
      + rewrite (Hf x E R). simpl. reflexivity.
    - unfold o_destroy. rewrite Hl. destruct (alive x (w_live w)) eqn:E; auto. apply alive_In in E. tauto.
  Qed.

  Lemma misuse ps p : cautious_run rank ps nobody -> ~ permitted rank p (end_world ps nobody) ->
    orun (ps ++ [p]) (oinit rank) = None.
  Proof.
    intros H N. destruct (run_ok ps _ _ _ I_init H) as (s & lost & E & HI & _).
    rewrite orun_app, E. cbn [OwnModel.orun]. now rewrite (not_permitted p s _ _ HI (J_run _ _ _ J_init E) N).
  Qed.
End Proofs.
