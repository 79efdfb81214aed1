(** The dependency map made at the end of a deck. *)
From Coq Require Import ZArith List Bool String Ascii Lia Arith Relations.
From Verif Require Import ScanModel ParseModel ExprModel ExprSyntax ExprBuildModel ExprSpec ExprProofs ExprRefProofs DepModel DepSpec DepMapProofs DepProofs
  DepUpdateProofs DepCycleProofs DeckModel DeckSyntax DeckMeaning DeckSpec DeckInvProofs.
Import ListNotations.
Local Open Scope nat_scope.

Lemma NoDup_app_intro : forall {X} (l1 l2 : list X), NoDup l1 -> NoDup l2 -> (forall x, In x l1 -> In x l2 -> False) -> NoDup (l1 ++ l2).
Proof.
  induction l1 as [|x l1 IH]; intros l2 H1 H2 H3; cbn; [exact H2|]. inversion H1; subst. constructor.
  - intros Hx. apply in_app_or in Hx. destruct Hx as [Hx|Hx]; [contradiction|]. eapply H3; [left; reflexivity|exact Hx].
  - apply IH; [assumption|assumption|]. intros y Hy. apply H3. right. exact Hy.
Qed.

Lemma clos_impl : forall {X} (R S : X -> X -> Prop), (forall a b, R a b -> S a b) -> forall a b, clos_trans X R a b -> clos_trans X S a b.
Proof. intros X R S H a b Hab. induction Hab as [a b Hr|a b c _ IH1 _ IH2]; [apply t_step; auto|eapply t_trans; eauto]. Qed.

(** ** The variables of the tree of blocks *)
Section Tree.
  Variable bs : list bvar.
  Variable nv : nat.
  Hypothesis H : wf_blocks bs nv.

  Inductive desc (b : nat) : nat -> Prop :=
  | desc_self : desc b b
  | desc_up c blk p : nth_error bs c = Some blk -> b_parent blk = Some p -> desc b p -> desc b c.
  Lemma desc_le : forall b c, desc b c -> b <= c.
  Proof. intros b c Hd. induction Hd as [|c blk p Hc Hp _ IH]; [lia|]. pose proof (wb_parent _ _ H c blk Hc) as P. rewrite Hp in P. lia. Qed.
  Lemma desc_trans : forall a b c, desc a b -> desc b c -> desc a c.
  Proof. intros a b c H1 H2. induction H2 as [|c blk p Hc Hp _ IH]; [exact H1|]. eapply desc_up; eauto. Qed.
  Lemma desc_linear : forall a b c, desc a c -> desc b c -> desc a b \/ desc b a.
  Proof.
    intros a b c H1. revert b. induction H1 as [|c blk p Hc Hp Hd IH]; intros b H2; [auto|].
    inversion H2; subst; [left; eapply desc_up; eauto|]. apply IH. congruence.
  Qed.
  Lemma desc_children : forall b i j ib jb c, nth_error bs i = Some ib -> b_parent ib = Some b -> nth_error bs j = Some jb -> b_parent jb = Some b -> desc i c -> desc j c -> i = j.
  Proof.
    assert (G : forall b i j ib jb, nth_error bs i = Some ib -> b_parent ib = Some b -> nth_error bs j = Some jb -> b_parent jb = Some b -> desc i j -> i = j).
    { intros b i j ib jb Ei Pi Ej Pj Hd. inversion Hd as [|? blk p E P D]; subst; [reflexivity|]. exfalso. assert (p = b) by congruence. subst p.
      apply desc_le in D. pose proof (wb_parent _ _ H i ib Ei) as W. rewrite Pi in W. lia. }
    intros b i j ib jb c Ei Pi Ej Pj Hi Hj. destruct (desc_linear i j c Hi Hj) as [D|D]; [eauto|symmetry; eauto].
  Qed.

  Lemma tree_in : forall n b x, In x (tree_vars (bvars_of n bs b)) -> exists c blk m, desc b c /\ nth_error bs c = Some blk /\ In (m, x) (b_vars blk).
  Proof.
    induction n as [|n IH]; intros b x Hx; cbn [bvars_of] in Hx; destruct (nth_error bs b) as [blk|] eqn:Eb; cbn in Hx; try contradiction.
    - rewrite app_nil_r in Hx. apply in_map_iff in Hx. destruct Hx as [[m y] [<- Hm]]. exists b, blk, m. split; [constructor|auto].
    - apply in_app_or in Hx. destruct Hx as [Hx|Hx].
      + apply in_map_iff in Hx. destruct Hx as [[m y] [<- Hm]]. exists b, blk, m. split; [constructor|auto].
      + apply in_flat_map in Hx. destruct Hx as [t [Ht Hx]]. apply in_map_iff in Ht. destruct Ht as [[m c] [<- Hc]]. cbn in Hx. apply IH in Hx. destruct Hx as [e [eb [m' [D [E I]]]]].
        exists e, eb, m'. split; [|auto]. destruct (wb_child _ _ H b blk m c Eb Hc) as [cb [C1 [C2 C3]]]. eapply desc_trans; [|exact D]. eapply desc_up; [exact C1|exact C2|constructor].
  Qed.
  Lemma tree_has : forall n b c, desc b c -> List.length bs <= n + b -> forall blk m x, nth_error bs c = Some blk -> In (m, x) (b_vars blk) -> In x (tree_vars (bvars_of n bs b)).
  Proof.
    induction n as [|n IH]; intros b c D Hn blk m x Hc Hx.
    - exfalso. apply desc_le in D. apply nth_lt in Hc. lia.
    - cbn [bvars_of]. assert (Hb : exists bb, nth_error bs b = Some bb).
      { apply desc_le in D. apply nth_lt in Hc. destruct (nth_error bs b) eqn:E; [eauto|]. apply nth_error_None in E. lia. }
      destruct Hb as [bb Hb]. rewrite Hb. cbn. apply in_or_app. destruct (Nat.eq_dec b c) as [->|Hne].
      + left. rewrite Hb in Hc. inversion Hc; subst. apply in_map_iff. exists (m, x). auto.
      + right. assert (G : exists i ib, nth_error bs i = Some ib /\ b_parent ib = Some b /\ desc i c).
        { clear - D Hne. induction D as [|c cb p E P D' IH]; [congruence|]. destruct (Nat.eq_dec b p) as [->|Hp].
          - exists c, cb. split; [exact E|]. split; [exact P|constructor].
          - destruct (IH Hp) as [i [ib [I1 [I2 I3]]]]. exists i, ib. split; [exact I1|]. split; [exact I2|]. eapply desc_up; eauto. }
        destruct G as [i [ib [I1 [I2 I3]]]]. pose proof (wb_parent _ _ H i ib I1) as W. rewrite I2 in W. destruct W as [W1 [pb [W2 W3]]]. rewrite Hb in W2. inversion W2; subst pb.
        apply in_flat_map. exists (bvars_of n bs i). split; [apply in_map_iff; exists (b_name ib, i); auto|]. eapply IH; eauto. lia.
  Qed.
  Lemma desc_root : forall c, c < List.length bs -> desc 0 c.
  Proof.
    induction c as [c IH] using lt_wf_ind. intros Hc. destruct (nth_error bs c) as [blk|] eqn:E; [|apply nth_error_None in E; lia].
    pose proof (wb_parent _ _ H c blk E) as P. destruct (b_parent blk) as [p|] eqn:Ep; [|subst; constructor]. eapply desc_up; eauto. apply IH; lia.
  Qed.
  Lemma tree_all : forall x, In x (tree_vars (bvars_of (List.length bs) bs 0)) <-> exists c blk m, nth_error bs c = Some blk /\ In (m, x) (b_vars blk).
  Proof.
    intros x. split.
    - intros Hx. apply tree_in in Hx. destruct Hx as [c [blk [m [_ Hx]]]]. eauto.
    - intros [c [blk [m [E I]]]]. eapply tree_has; eauto; [|lia]. apply desc_root. eapply nth_lt; eauto.
  Qed.
  Lemma tree_nodup : forall n b, NoDup (tree_vars (bvars_of n bs b)).
  Proof.
    assert (V : forall b blk, nth_error bs b = Some blk -> NoDup (map snd (b_vars blk))).
    { intros b blk Hb. destruct (wb_names _ _ H b blk Hb) as [_ N]. assert (O : forall m m' x, In (m, x) (b_vars blk) -> In (m', x) (b_vars blk) -> m = m').
      { intros m m' x H1 H2. destruct (wb_once _ _ H b blk m b blk m' x Hb H1 Hb H2). auto. }
      clear Hb. induction (b_vars blk) as [|[m x] l IH]; [constructor|]. cbn in *. inversion N; subst. constructor.
      - intros Hx. apply in_map_iff in Hx. destruct Hx as [[m' y] [E I]]. cbn in E. subst y. assert (m = m') by (eapply O; eauto). subst m'. apply H2. apply in_map_iff. exists (m, x). auto.
      - apply IH; [assumption|]. intros; eapply O; eauto. }
    induction n as [|n IH]; intros b; cbn [bvars_of]; destruct (nth_error bs b) as [blk|] eqn:Eb; cbn; try constructor.
    - rewrite app_nil_r. eapply V; eauto.
    - assert (Hch : forall l, incl l (b_children blk) -> NoDup (map fst l) -> NoDup (flat_map tree_vars (map (fun c => bvars_of n bs (snd c)) l))).
      { induction l as [|[m c] l IHl]; intros Hi Hn; cbn; [constructor|]. cbn in Hn. inversion Hn as [|? ? N1 N2]; subst.
        apply NoDup_app_intro; [apply IH|apply IHl; [intros y Hy; apply Hi; right; exact Hy|exact N2]|].
        intros x Hx Hy. apply in_flat_map in Hy. destruct Hy as [t [Ht Hy]]. apply in_map_iff in Ht. destruct Ht as [[m' c'] [<- Hc']]. cbn in Hy.
        apply tree_in in Hx. apply tree_in in Hy. destruct Hx as [e [eb [me [De [Ee Ie]]]]], Hy as [f [fb [mf [Df [Ef If]]]]].
        destruct (wb_once _ _ H e eb me f fb mf x Ee Ie Ef If) as [<- <-].
        destruct (wb_child _ _ H b blk m c Eb (Hi _ (or_introl eq_refl))) as [cb [C1 [C2 C3]]]. destruct (wb_child _ _ H b blk m' c' Eb (Hi _ (or_intror Hc'))) as [cb' [C1' [C2' C3']]].
        assert (c = c') by (eapply desc_children; eauto). subst c'. apply N1. apply in_map_iff. exists (m', c). split; [cbn; congruence|exact Hc']. }
      apply NoDup_app_intro; [eapply V; eauto|apply Hch; [apply incl_refl|apply (wb_names _ _ H b blk Eb)]|].
      intros x Hx Hy. apply in_map_iff in Hx. destruct Hx as [[m y] [E I]]. cbn in E. subst y. apply in_flat_map in Hy. destruct Hy as [t [Ht Hy]]. apply in_map_iff in Ht. destruct Ht as [[m' c'] [<- Hc']]. cbn in Hy.
      apply tree_in in Hy. destruct Hy as [f [fb [mf [Df [Ef If]]]]]. destruct (wb_once _ _ H b blk m f fb mf x Eb I Ef If) as [<- _].
      destruct (wb_child _ _ H b blk m' c' Eb Hc') as [cb [C1 [C2 C3]]]. apply desc_le in Df. pose proof (wb_parent _ _ H c' cb C1) as W. rewrite C2 in W. lia.
  Qed.
End Tree.

Section Finish.
  Variable A : arith.
  Variable reg : string -> option fsig.
  Variable funs : fsig -> list (value A) -> result (value A).
  Notation deck := (deck A).

  Lemma only_refs : forall (P Q : ty -> nat -> Prop) (e : expr A) x, only A P Q e -> In x (refs e) -> exists t, P t x.
  Proof.
    intros P Q. apply (expr_ind' A (fun e => forall x, only A P Q e -> In x (refs e) -> exists t, P t x)); cbn; try contradiction; auto.
    - intros t y x Hp [->|[]]. eauto.
    - intros o t l IH x Ho Hx. change (only A P Q (EBin o t l)) in Ho. apply only_bin in Ho. apply in_flat_map in Hx. destruct Hx as [pe [H1 H2]]. rewrite Forall_forall in IH, Ho. eauto.
    - intros f l IH x Ho Hx. change (only A P Q (EFun f l)) in Ho. apply only_fun in Ho. apply in_flat_map in Hx. destruct Hx as [pe [H1 H2]]. rewrite Forall_forall in IH, Ho. eauto.
  Qed.

  Section One.
    Variable d : deck.
    Hypothesis W : wf A d.
    Let n := List.length (d_vars d).
    Let d1 := with_dummy A d.
    Let st := store_of A funs d1.
    Let tree := bvars_of (List.length (d_blocks d)) (d_blocks d) 0.
    Let V := defined st tree.

    Lemma d1_vars : forall x, nth_error (d_vars d1) x =
      if Nat.eqb x n then Some (expr_var A (EExt TInt (List.length (d_mem d))) true true (d_nextid d)) else nth_error (d_vars d) x.
    Proof. intros x. apply nth_snoc. Qed.
    Lemma d1_old : forall x v, nth_error (d_vars d) x = Some v -> nth_error (d_vars d1) x = Some v.
    Proof. intros x v E. rewrite d1_vars. apply nth_lt in E as L. fold n in L. destruct (Nat.eqb_spec x n); [lia|exact E]. Qed.
    Lemma d1_id : forall x, (0 <= s_id st x)%Z.
    Proof.
      intros x. change (s_id st x) with (match nth_error (d_vars d1) x with Some v => v_id v | None => (d_nextid d1 + Z.of_nat x)%Z end). rewrite d1_vars.
      destruct (wf_v A d W) as [_ I _ N]. destruct (Nat.eqb x n); [exact N|]. destruct (nth_error (d_vars d) x) as [v|] eqn:E; [apply (I x v E)|].
      change (d_nextid d1) with (d_nextid d + 1)%Z. lia.
    Qed.
    Lemma d1_inj : forall x y, s_id st x = s_id st y -> x = y.
    Proof.
      intros x y. change (s_id st x) with (match nth_error (d_vars d1) x with Some v => v_id v | None => (d_nextid d1 + Z.of_nat x)%Z end).
      change (s_id st y) with (match nth_error (d_vars d1) y with Some v => v_id v | None => (d_nextid d1 + Z.of_nat y)%Z end). rewrite !d1_vars.
      change (d_nextid d1) with (d_nextid d + 1)%Z. destruct (wf_v A d W) as [_ I D N].
      destruct (Nat.eqb_spec x n) as [->|Hx], (Nat.eqb_spec y n) as [->|Hy]; auto.
      - destruct (nth_error (d_vars d) y) as [v|] eqn:E; intros Q; cbn in Q; [specialize (I y v E); lia|lia].
      - destruct (nth_error (d_vars d) x) as [v|] eqn:E; intros Q; cbn in Q; [specialize (I x v E); lia|lia].
      - destruct (nth_error (d_vars d) x) as [v|] eqn:E, (nth_error (d_vars d) y) as [w|] eqn:F; intros Q; [eapply D; eauto|specialize (I x v E); lia|specialize (I y w F); lia|lia].
    Qed.
    Lemma d1_dummy : exprs_of A d1 n = EExt TInt (List.length (d_mem d)).
    Proof. unfold exprs_of. rewrite (var_at_nth A d1 n (expr_var A (EExt TInt (List.length (d_mem d))) true true (d_nextid d))); [reflexivity|]. rewrite d1_vars, Nat.eqb_refl. reflexivity. Qed.
    Lemma tree_declared : forall x, In x (tree_vars tree) <-> declared A d x.
    Proof.
      intros x. unfold tree. rewrite (tree_all (d_blocks d) n (wf_b A d W)). unfold declared, declares. split.
      - intros [c [blk [m [E I]]]]. eauto.
      - intros [c [m [blk [E I]]]]. eauto.
    Qed.
    Lemma declared_lt : forall x, declared A d x -> exists v, nth_error (d_vars d) x = Some v.
    Proof.
      intros x [b [m [blk [E I]]]]. pose proof (wb_entry _ _ (wf_b A d W) b blk m x E I) as L. destruct (nth_error (d_vars d) x) as [v|] eqn:Ev; [eauto|]. apply nth_error_None in Ev. lia.
    Qed.
    Lemma V_defined : forall x, In x V <-> exists e, defined_by A d x e /\ exprs_of A d1 x = e.
    Proof.
      intros x. unfold V, defined. rewrite filter_In, tree_declared. split.
      - intros [Hd Hf]. destruct (declared_lt x Hd) as [v Ev]. change (s_fixed st x) with (v_fixed (var_at A d1 x)) in Hf. rewrite (var_at_nth A d1 x v (d1_old x v Ev)) in Hf.
        apply negb_true_iff in Hf. pose proof (wv_typed _ _ _ _ (wf_v A d W) x v Ev) as T. unfold typed_var in T. rewrite Hf in T. destruct T as [e [Ee _]]. exists e. split.
        + split; [exact Hd|]. exists v. auto.
        + unfold exprs_of. rewrite (var_at_nth A d1 x v (d1_old x v Ev)), Ee. reflexivity.
      - intros [e [[Hd [v [Ev [Hf Ee]]]] _]]. split; [exact Hd|]. change (s_fixed st x) with (v_fixed (var_at A d1 x)). rewrite (var_at_nth A d1 x v (d1_old x v Ev)), Hf. reflexivity.
    Qed.
    Lemma defined_expr : forall x e, defined_by A d x e -> In x V /\ exprs_of A d1 x = e.
    Proof.
      intros x e He. assert (Hx : In x V). { apply V_defined. destruct He as [Hd [v [Ev [Hf Ee]]]]. exists e. split; [split; eauto|]. unfold exprs_of. rewrite (var_at_nth A d1 x v (d1_old x v Ev)), Ee. reflexivity. }
      split; [exact Hx|]. destruct He as [Hd [v [Ev [Hf Ee]]]]. unfold exprs_of. rewrite (var_at_nth A d1 x v (d1_old x v Ev)), Ee. reflexivity.
    Qed.
    Lemma defined_refs : forall x e y, defined_by A d x e -> In y (refs e) -> y < n.
    Proof.
      intros x e y [Hd [v [Ev [Hf Ee]]]] Hy. pose proof (wv_typed _ _ _ _ (wf_v A d W) x v Ev) as T. unfold typed_var in T. rewrite Hf in T. destruct T as [e' [Ee' [_ [_ Ho]]]].
      assert (e' = e) by congruence. subst e'. destruct (only_refs _ _ _ _ Ho Hy) as [t [w [Ew _]]]. eapply nth_lt; eauto.
    Qed.
    Lemma setting_ok : setting (exprs_of A d1) V n st.
    Proof.
      split; [exact d1_id|]. split; [exact d1_inj|]. split; [eexists; exact d1_dummy|]. intros v Hv Hr. apply V_defined in Hv. destruct Hv as [e [He Ee]]. rewrite Ee in Hr.
      pose proof (defined_refs v e n He Hr). lia.
    Qed.
    Lemma edge_uses : forall x y, edge (exprs_of A d1) V x y <-> uses A d x y.
    Proof.
      intros x y. split.
      - intros [Hx [Hy Hr]]. apply V_defined in Hy. destruct Hy as [e [He Ee]]. rewrite Ee in Hr. exists e. split; [exact He|]. split; [exact Hr|]. apply V_defined in Hx. destruct Hx as [e' [He' _]]. eauto.
      - intros [e [He [Hr [e' He']]]]. destruct (defined_expr y e He) as [H1 H2]. destruct (defined_expr x e' He') as [H3 _]. split; [exact H3|]. split; [exact H1|]. rewrite H2. exact Hr.
    Qed.
    Lemma acyclic_no_cycle : acyclic (exprs_of A d1) V <-> no_cycle A d.
    Proof.
      split; intros H x Hx; apply (H x); eapply clos_impl; try exact Hx; intros a b; apply edge_uses.
    Qed.
    Lemma map_exists : exists m, dep_map A (exprs_of A d1) st n tree = Some m.
    Proof.
      assert (G : exists m', recreate A (exprs_of A d1) st n tree [(s_id st n, mkVI (Some n) [] [] (Some 0%Z))] = Some m'); [|exact G].
      apply recreate_iff. split.
      - intros v Hv. assert (G2 : forall j k vi, dmem [(k, vi)] j = Z.eqb j k) by (intros j k vi; unfold dmem; cbn; destruct (Z.eqb j k); reflexivity).
        rewrite G2. apply Z.eqb_neq. intros E. apply d1_inj in E. subst v. exfalso. fold V in Hv. apply V_defined in Hv. destruct Hv as [e [[Hd _] _]].
        destruct (declared_lt n Hd) as [v Ev]. apply nth_lt in Ev. fold n in Ev. lia.
      - apply FinFun.Injective_map_NoDup; [intros x y; apply d1_inj|]. unfold defined. apply NoDup_filter. apply (tree_nodup (d_blocks d) n (wf_b A d W)).
    Qed.

    Lemma finish_cases :
      match finish A funs d with
      | Accepted _ d' => no_cycle A d /\ exists st', d' = set_nextid A (set_vars A d (restore A d st')) (d_nextid d1) /\
          same_world st st' /\ (forall x, x <> n -> ~ In x V -> s_val st' x = s_val st x) /\
          (forall v, In v V -> has_value (exprs_of A d1) st' v \/ eval st' (exprs_of A d1 v) = BadCast \/ eval st' (exprs_of A d1 v) = BadGet)
      | AssertFailed _ => ~ no_cycle A d
      | Crashed _ => no_cycle A d
      | _ => False
      end.
    Proof.
      unfold finish. fold d1 n tree st. destruct map_exists as [m Hm]. rewrite Hm. destruct (update_all A (exprs_of A d1) m st) as [[m' r]|] eqn:E.
      - assert (Ha : acyclic (exprs_of A d1) V) by (eapply update_all_acyclic; eauto; [exact d1_id|exact d1_inj]).
        destruct (update_all_final A (exprs_of A d1) st n tree m st Hm setting_ok Ha) as [m2 [r2 [E2 H2]]]. rewrite E in E2. inversion E2; subst m2 r2. apply acyclic_no_cycle in Ha.
        destruct r as [st'| | |]; try contradiction; [|exact Ha]. split; [exact Ha|]. exists st'. split; [reflexivity|]. exact H2.
      - intros Hn. apply acyclic_no_cycle in Hn. destruct (update_all_final A (exprs_of A d1) st n tree m st Hm setting_ok Hn) as [m2 [r2 [E2 _]]]. congruence.
    Qed.
    Lemma cycle_asserts : forall x, clos_trans nat (uses A d) x x -> finish A funs d = AssertFailed A.
    Proof.
      intros x Hx. unfold finish. fold d1 n tree st. destruct map_exists as [m Hm]. rewrite Hm. rewrite (cycle_update_all A (exprs_of A d1) st n tree m st x d1_id d1_inj Hm); [reflexivity|].
      eapply clos_impl; [|exact Hx]. intros a b. apply edge_uses.
    Qed.

    Lemma restore_nth : forall st' x v, nth_error (d_vars d) x = Some v ->
      nth_error (restore A d st') x = Some (mkVar A (s_val st' x) (v_expr v) (v_type v) (v_fixed v) (v_init v) (v_ro v) (v_id v)).
    Proof.
      intros st' x v Hx. unfold restore. pose proof (nth_lt _ _ _ Hx) as L. erewrite map_nth_error; [|erewrite nth_error_nth' with (d := 0); [reflexivity|rewrite seq_length; exact L]].
      rewrite seq_nth by exact L. cbn [Nat.add]. rewrite (var_at_nth A d x v Hx). reflexivity.
    Qed.
    Lemma restore_length : forall st', List.length (restore A d st') = n.
    Proof. intros st'. unfold restore. rewrite map_length, seq_length. reflexivity. Qed.
    Lemma restore_inv : forall st' x w, nth_error (restore A d st') x = Some w -> exists v, nth_error (d_vars d) x = Some v /\
      w = mkVar A (s_val st' x) (v_expr v) (v_type v) (v_fixed v) (v_init v) (v_ro v) (v_id v).
    Proof.
      intros st' x w Hx. pose proof (nth_lt _ _ _ Hx) as L. rewrite restore_length in L. destruct (nth_error (d_vars d) x) as [v|] eqn:E; [|apply nth_error_None in E; fold n in E; lia].
      exists v. split; [reflexivity|]. rewrite (restore_nth st' x v E) in Hx. congruence.
    Qed.

    Lemma accepted_spec : forall d', finish A funs d = Accepted A d' ->
      no_cycle A d /\ d_blocks d' = d_blocks d /\ d_cursor d' = d_cursor d /\ d_objs d' = d_objs d /\ d_root d' = d_root d /\ d_cur d' = d_cur d /\ d_depth d' = d_depth d /\ d_mem d' = d_mem d /\
      (forall x v, nth_error (d_vars d) x = Some v -> exists w, nth_error (d_vars d') x = Some (mkVar A w (v_expr v) (v_type v) (v_fixed v) (v_init v) (v_ro v) (v_id v)) /\ (v_fixed v = true -> w = v_val v)) /\
      (forall x e, defined_by A d' x e -> defined_by A d x e) /\
      (forall x e, defined_by A d x e -> defined_by A d' x e /\
         (eval (store_of A funs d') e = Ok (v_val (var_at A d' x)) \/ eval (store_of A funs d') e = BadCast \/ eval (store_of A funs d') e = BadGet)) /\
      wf A d'.
    Proof.
      intros d' E. pose proof finish_cases as F. rewrite E in F. destruct F as [F1 [st' [-> [[S1 [S2 [S3 S4]]] [F2 F3]]]]].
      assert (V0 : forall x v, nth_error (d_vars d) x = Some v -> v_fixed v = true -> s_val st' x = v_val v).
      { intros x v Hx Hf. rewrite F2.
        - change (s_val st x) with (v_val (var_at A d1 x)). rewrite (var_at_nth A d1 x v (d1_old x v Hx)). reflexivity.
        - apply nth_lt in Hx. fold n in Hx. lia.
        - intros Hv. apply V_defined in Hv. destruct Hv as [e [[_ [w [Ew [Hw _]]]] _]]. congruence. }
      assert (D1 : forall x e, defined_by A (set_nextid A (set_vars A d (restore A d st')) (d_nextid d1)) x e -> defined_by A d x e).
      { intros x e [Hd [w [Ew [Hf Ee]]]]. split; [exact Hd|]. cbn in Ew. apply restore_inv in Ew. destruct Ew as [v [Ev ->]]. exists v. auto. }
      assert (D2 : forall x e, defined_by A d x e -> defined_by A (set_nextid A (set_vars A d (restore A d st')) (d_nextid d1)) x e).
      { intros x e [Hd [v [Ev [Hf Ee]]]]. split; [exact Hd|]. eexists. split; [cbn; apply restore_nth; exact Ev|]. auto. }
      split; [exact F1|]. do 7 (split; [reflexivity|]). split; [|split; [exact D1|split]].
      - intros x v Hx. exists (s_val st' x). split; [apply restore_nth; exact Hx|]. apply V0. exact Hx.
      - intros x e He. split; [apply D2; exact He|]. destruct (defined_expr x e He) as [Hx Ex]. specialize (F3 x Hx). unfold has_value in F3. rewrite Ex in F3.
        set (dd := set_nextid A (set_vars A d (restore A d st')) (d_nextid d1)).
        assert (Hval : forall y, y < n -> v_val (var_at A dd y) = s_val st' y).
        { intros y Hy. destruct (nth_error (d_vars d) y) as [v|] eqn:Ev; [|apply nth_error_None in Ev; fold n in Ev; lia]. erewrite (var_at_nth A dd y); [|cbn; apply restore_nth; exact Ev]. reflexivity. }
        assert (Heq : eval (store_of A funs dd) e = eval st' e).
        { apply eval_reads.
          - intros y Hy. apply Hval. eapply defined_refs; eauto.
          - intros m _. rewrite S3. change (nth m (d_mem d) (VInt 0) = nth m (d_mem d ++ [VInt 0]) (VInt 0)). destruct (Nat.lt_ge_cases m (List.length (d_mem d))) as [L|L].
            + rewrite app_nth1 by exact L. reflexivity.
            + rewrite app_nth2 by exact L. rewrite nth_overflow by exact L. destruct (m - List.length (d_mem d)) as [|[|k]]; reflexivity.
          - intros f _. rewrite S4. reflexivity. }
        rewrite Heq. rewrite Hval; [exact F3|]. destruct He as [_ [v [Ev _]]]. apply nth_lt in Ev. exact Ev.
      - destruct W as [HB HC HV HK]. constructor; cbn; [rewrite restore_length; exact HB|exact HC| |exact HK]. destruct HV as [T I D N].
        assert (R : forall t y, ref_ok A (d_vars d) t y -> ref_ok A (restore A d st') t y).
        { intros t y [v [Ev Et]]. eexists. split; [apply restore_nth; exact Ev|exact Et]. }
        constructor; cbn.
        + intros x w Hx. apply restore_inv in Hx. destruct Hx as [v [Ev ->]]. pose proof (T x v Ev) as Tx. unfold typed_var in Tx |- *. cbn. destruct (v_fixed v) eqn:Hf.
          * rewrite (V0 x v Ev Hf). exact Tx.
          * destruct Tx as [e [E1 [E2 [E3 E4]]]]. exists e. repeat split; try assumption. eapply only_impl; [exact R| |exact E4]. auto.
        + intros x w Hx. apply restore_inv in Hx. destruct Hx as [v [Ev ->]]. cbn. specialize (I x v Ev). lia.
        + intros x y w w' Hx Hy. apply restore_inv in Hx. apply restore_inv in Hy. destruct Hx as [v [Ev ->]], Hy as [v' [Ev' ->]]. cbn. eapply D; eauto.
        + lia.
    Qed.
  End One.
End Finish.
