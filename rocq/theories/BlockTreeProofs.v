(** Order of initialisation. *)
From Coq Require Import ZArith List Bool String Ascii Lia Arith.
From Verif Require Import ExprModel DeckModel DeckInvProofs DeckFinishProofs BlockModel BlockSpec.
Import ListNotations.
Local Open Scope nat_scope.

Lemma perform_app : forall {St Exn} (hook : phase -> nat -> St -> Exn + St) l1 l2 s,
  perform hook (l1 ++ l2) s = andThen (perform hook l1 s) (perform hook l2).
Proof.
  intros St Exn hook l1. induction l1 as [|[ph i] l1 IH]; intros l2 s; [reflexivity|]. cbn. destruct (hook ph i s) as [e|s']; [reflexivity|apply IH].
Qed.
Lemma before_app_l : forall {X} (l l' : list X) a b, before l a b -> before (l ++ l') a b.
Proof. intros X l l' a b [l1 [l2 [l3 ->]]]. exists l1, l2, (l3 ++ l'). rewrite <- !app_assoc. cbn. rewrite <- app_assoc. reflexivity. Qed.
Lemma before_app_r : forall {X} (l l' : list X) a b, before l a b -> before (l' ++ l) a b.
Proof. intros X l l' a b [l1 [l2 [l3 ->]]]. exists (l' ++ l1), l2, l3. rewrite <- !app_assoc. reflexivity. Qed.
Lemma before_cross : forall {X} (l l' : list X) a b, In a l -> In b l' -> before (l ++ l') a b.
Proof.
  intros X l l' a b Ha Hb. apply in_split in Ha. apply in_split in Hb. destruct Ha as [l1 [l2 ->]], Hb as [l3 [l4 ->]].
  exists l1, (l2 ++ l3), l4. rewrite <- !app_assoc. reflexivity.
Qed.

Section Tree.
  Variable objs : list bobj.
  Hypothesis L : linked objs.

  Lemma children_spec : forall i c, i < List.length objs -> In c (children objs i) <-> child_of objs i c.
  Proof.
    intros i c Hi. unfold children. destruct (nth_error objs i) as [o|] eqn:E; [apply (L i o E)|]. apply nth_error_None in E. lia.
  Qed.
  Lemma children_nodup : forall i, NoDup (children objs i).
  Proof. intros i. unfold children. destruct (nth_error objs i) as [o|] eqn:E; [apply (L i o E)|constructor]. Qed.
  Lemma child_lt : forall p c, child_of objs p c -> p < c /\ c < List.length objs.
  Proof. intros p c [o [E1 E2]]. split; [apply (L c o E1); exact E2|eapply nth_lt; eauto]. Qed.
  Lemma child_unique : forall p q c, child_of objs p c -> child_of objs q c -> p = q.
  Proof. intros p q c [o [E1 E2]] [o' [E3 E4]]. congruence. Qed.
  Lemma parent_spec : forall i p, parent objs i = Some p <-> child_of objs p i.
  Proof.
    intros i p. unfold parent, child_of. destruct (nth_error objs i) as [o|]; split.
    - intros H. exists o. auto.
    - intros [o' [E1 E2]]. congruence.
    - discriminate.
    - intros [o' [E1 _]]. discriminate.
  Qed.
  Lemma parent_none : forall i, i < List.length objs -> parent objs i = None <-> is_root objs i.
  Proof.
    intros i Hi. unfold parent, is_root. destruct (nth_error objs i) as [o|] eqn:E; [|apply nth_error_None in E; lia]. split.
    - intros H. exists o. auto.
    - intros [o' [E1 E2]]. congruence.
  Qed.
  Lemma within_lt : forall i j, within objs i j -> i <= j /\ j < List.length objs.
  Proof. intros i j H. induction H as [H|p j H IH Hc]; [lia|]. apply child_lt in Hc. lia. Qed.
  Lemma within_trans : forall i j k, within objs i j -> within objs j k -> within objs i k.
  Proof. intros i j k H1 H2. induction H2 as [|p k H2 IH Hc]; [exact H1|]. eapply w_in; eauto. Qed.
  Lemma within_child : forall i c j, child_of objs i c -> within objs c j -> within objs i j.
  Proof.
    intros i c j Hc H. eapply within_trans; [|exact H]. eapply w_in; [apply w_self; apply child_lt in Hc; lia|exact Hc].
  Qed.
  Lemma within_cases : forall i j, within objs i j -> j = i \/ exists c, child_of objs i c /\ within objs c j.
  Proof.
    intros i j H. induction H as [H|p j H IH Hc]; [left; reflexivity|]. right. destruct IH as [->|[c [E1 E2]]].
    - exists j. split; [exact Hc|]. apply w_self. apply child_lt in Hc. lia.
    - exists c. split; [exact E1|]. eapply w_in; eauto.
  Qed.
  Lemma within_linear : forall a b c, within objs a c -> within objs b c -> within objs a b \/ within objs b a.
  Proof.
    intros a b c H1. revert b. induction H1 as [H|p c H IH Hc]; intros b H2.
    - right. exact H2.
    - inversion H2 as [|p' c' H3 Hc']; subst.
      + left. eapply w_in; eauto.
      + rewrite (child_unique _ _ _ Hc Hc') in *. apply IH. exact H3.
  Qed.
  Lemma siblings_disjoint : forall i c c' j, child_of objs i c -> child_of objs i c' -> within objs c j -> within objs c' j -> c = c'.
  Proof.
    intros i c c' j H1 H2 H3 H4. assert (G : forall a b, child_of objs i a -> child_of objs i b -> within objs a b -> a = b).
    { intros a b Ha Hb H. inversion H as [|p q Hp Hq]; subst; [reflexivity|]. rewrite (child_unique _ _ _ Hq Hb) in Hp. apply within_lt in Hp. apply child_lt in Ha. lia. }
    destruct (within_linear _ _ _ H3 H4) as [H|H]; [|symmetry]; apply G; assumption.
  Qed.

  (** ** Preorder *)
  Fixpoint preorder (n i : nat) : list nat := match n with O => [] | S n' => i :: flat_map (preorder n') (children objs i) end.

  Lemma hierarchy_preorder : forall {St Exn} (hook : phase -> nat -> St -> Exn + St) n ph i s,
    hierarchy objs hook n ph i s = perform hook (map (pair ph) (preorder n i)) s.
  Proof.
    intros St Exn hook. induction n as [|n IH]; intros ph i s; [reflexivity|]. cbn. destruct (hook ph i s) as [e|s']; [reflexivity|]. cbn.
    revert s'. generalize (children objs i). induction l as [|c l IHl]; intros s'; [reflexivity|]. cbn. rewrite map_app, perform_app, <- IH.
    destruct (hierarchy objs hook n ph c s') as [e|s1]; [reflexivity|]. cbn. apply IHl.
  Qed.
  Lemma preorder_in : forall n i j, i < List.length objs -> List.length objs <= n + i -> In j (preorder n i) <-> within objs i j.
  Proof.
    induction n as [|n IH]; intros i j Hi Hn; [lia|]. cbn. rewrite in_flat_map. split.
    - intros [->|[c [Hc H]]]; [apply w_self; exact Hi|]. apply children_spec in Hc; [|exact Hi]. pose proof (child_lt _ _ Hc). apply IH in H; [|lia|lia].
      eapply within_child; eauto.
    - intros H. destruct (within_cases _ _ H) as [->|[c [Hc Hw]]]; [left; reflexivity|]. right. exists c. split; [apply children_spec; assumption|].
      pose proof (child_lt _ _ Hc). apply IH; [lia|lia|exact Hw].
  Qed.
  Lemma nodup_flat : forall {X Y} (f : X -> list Y) l, NoDup l -> (forall x, In x l -> NoDup (f x)) ->
    (forall x x' y, In x l -> In x' l -> In y (f x) -> In y (f x') -> x = x') -> NoDup (flat_map f l).
  Proof.
    intros X Y f. induction l as [|x l IH]; intros Hl Hf Hd; [constructor|]. cbn. inversion Hl; subst. apply NoDup_app_intro.
    - apply Hf. left. reflexivity.
    - apply IH; [assumption| |]; intros; [apply Hf; right; assumption|]. eapply Hd; eauto; right; assumption.
    - intros y Hy Hy'. apply in_flat_map in Hy'. destruct Hy' as [x' [Hx' Hy']]. assert (x = x') by (eapply Hd; eauto; [left; reflexivity|right; exact Hx']). subst. contradiction.
  Qed.
  Lemma preorder_nodup : forall n i, i < List.length objs -> List.length objs <= n + i -> NoDup (preorder n i).
  Proof.
    induction n as [|n IH]; intros i Hi Hn; [lia|]. cbn. constructor.
    - intros H. apply in_flat_map in H. destruct H as [c [Hc H]]. apply children_spec in Hc; [|exact Hi]. pose proof (child_lt _ _ Hc). apply preorder_in in H; [|lia|lia].
      apply within_lt in H. lia.
    - apply nodup_flat; [apply children_nodup| |].
      + intros c Hc. apply children_spec in Hc; [|exact Hi]. pose proof (child_lt _ _ Hc). apply IH; lia.
      + intros c c' j Hc Hc' Hj Hj'. apply children_spec in Hc; [|exact Hi]. apply children_spec in Hc'; [|exact Hi]. pose proof (child_lt _ _ Hc). pose proof (child_lt _ _ Hc').
        apply preorder_in in Hj; [|lia|lia]. apply preorder_in in Hj'; [|lia|lia]. eapply siblings_disjoint; eauto.
  Qed.
  Lemma before_flat : forall {X Y} (f : X -> list Y) l x a b, In x l -> before (f x) a b -> before (flat_map f l) a b.
  Proof.
    intros X Y f l x a b H Hb. apply in_split in H. destruct H as [l1 [l2 ->]]. rewrite flat_map_app. cbn. apply before_app_r, before_app_l. exact Hb.
  Qed.
  Lemma preorder_head : forall n i, i < List.length objs -> List.length objs <= n + i -> exists l, preorder n i = i :: l.
  Proof. intros [|n] i Hi Hn; [lia|]. cbn. eexists. reflexivity. Qed.
  Lemma preorder_parents : forall n i p c, i < List.length objs -> List.length objs <= n + i -> In p (preorder n i) -> child_of objs p c -> before (preorder n i) p c.
  Proof.
    induction n as [|n IH]; intros i p c Hi Hn Hp Hc; [lia|]. cbn in *. destruct Hp as [->|Hp].
    - pose proof (child_lt _ _ Hc) as Hl. assert (Hin : In c (flat_map (preorder n) (children objs p))).
      { apply in_flat_map. exists c. split; [apply children_spec; assumption|]. apply preorder_in; [lia|lia|]. apply w_self. lia. }
      exact (before_cross [p] _ p c (or_introl eq_refl) Hin).
    - apply in_flat_map in Hp. destruct Hp as [k [Hk Hp]]. apply (before_app_r _ [i]). eapply before_flat; [exact Hk|].
      apply children_spec in Hk; [|exact Hi]. pose proof (child_lt _ _ Hk). apply IH; [lia|lia|exact Hp|exact Hc].
  Qed.
  Lemma preorder_siblings : forall n i p o c1 c2, i < List.length objs -> List.length objs <= n + i -> In p (preorder n i) -> nth_error objs p = Some o ->
    before (o_children o) c1 c2 -> before (preorder n i) c1 c2.
  Proof.
    induction n as [|n IH]; intros i p o c1 c2 Hi Hn Hp Ho Hb; [lia|]. cbn in *. apply (before_app_r _ [i]). destruct Hp as [->|Hp].
    - assert (Hch : children objs p = o_children o) by (unfold children; rewrite Ho; reflexivity). destruct Hb as [l1 [l2 [l3 Hb]]].
      assert (H1 : In c1 (children objs p)) by (rewrite Hch, Hb; apply in_or_app; right; left; reflexivity).
      assert (H2 : In c2 (children objs p)) by (rewrite Hch, Hb; apply in_or_app; right; right; apply in_or_app; right; left; reflexivity).
      apply children_spec in H1; [|exact Hi]. apply children_spec in H2; [|exact Hi]. pose proof (child_lt _ _ H1). pose proof (child_lt _ _ H2).
      rewrite Hch, Hb, flat_map_app. apply before_app_r. cbn. apply before_cross.
      + apply preorder_in; [lia|lia|]. apply w_self. lia.
      + apply in_flat_map. exists c2. split; [apply in_or_app; right; left; reflexivity|]. apply preorder_in; [lia|lia|]. apply w_self. lia.
    - apply in_flat_map in Hp. destruct Hp as [k [Hk Hp]]. eapply before_flat; [exact Hk|]. apply children_spec in Hk; [|exact Hi]. pose proof (child_lt _ _ Hk). eapply IH; [lia|lia|exact Hp|exact Ho|exact Hb].
  Qed.
  Lemma preorder_in_order : forall r, r < List.length objs -> in_order objs r (preorder (List.length objs) r).
  Proof.
    intros r Hr. split; [|split; [|split]].
    - apply preorder_nodup; lia.
    - intros j. apply preorder_in; lia.
    - intros p c. apply preorder_parents; lia.
    - intros p o c1 c2. apply preorder_siblings; lia.
  Qed.

  Lemma root_lt : forall r, is_root objs r -> r < List.length objs.
  Proof. intros r [o [E _]]. eapply nth_lt; eauto. Qed.
  Lemma climb_root : forall r i, is_root objs r -> i = r \/ child_of objs r i -> forall fuel, 2 <= fuel -> climb objs fuel i i = Some r.
  Proof.
    intros r i Hr Hi fuel Hf. destruct fuel as [|[|fuel]]; [lia|lia|]. pose proof (root_lt _ Hr) as Hl. apply parent_none in Hr; [|exact Hl]. destruct Hi as [->|Hi].
    - cbn [climb]. rewrite Hr. reflexivity.
    - apply parent_spec in Hi. cbn [climb]. rewrite Hi, Hr. reflexivity.
  Qed.
  Lemma init_phases : forall r i, is_root objs r -> i = r \/ child_of objs r i ->
    exists order, in_order objs r order /\
    forall (St Exn : Type) (hook : phase -> nat -> St -> Exn + St) s, exists n, forall fuel, n <= fuel ->
      init_all objs hook fuel i s = Some (perform hook (phases order) s).
  Proof.
    intros r i Hr Hi. exists (preorder (List.length objs) r). split; [apply preorder_in_order, root_lt; exact Hr|].
    intros St Exn hook s. exists 2. intros fuel Hf. unfold init_all. rewrite (climb_root r i Hr Hi fuel Hf). f_equal.
    unfold phases. rewrite perform_app, <- hierarchy_preorder. destruct (hierarchy objs hook (List.length objs) Evaluate r s) as [e|s1]; [reflexivity|]. cbn [andThen].
    rewrite perform_app, <- hierarchy_preorder. destruct (hierarchy objs hook (List.length objs) RegisterData r s1) as [e|s2]; [reflexivity|]. cbn [andThen].
    rewrite perform_app, <- hierarchy_preorder. destruct (hierarchy objs hook (List.length objs) PreInit r s2) as [e|s3]; [reflexivity|]. cbn [andThen].
    rewrite perform_app, <- hierarchy_preorder. destruct (hierarchy objs hook (List.length objs) Init r s3) as [e|s4]; [reflexivity|]. cbn [andThen].
    apply hierarchy_preorder.
  Qed.
  Lemma climb_deep : forall i p q, child_of objs p i -> child_of objs q p -> forall fuel b, b = i \/ b = p -> climb objs fuel i b = None.
  Proof.
    intros i p q Hi Hp. apply parent_spec in Hi. apply parent_spec in Hp. induction fuel as [|fuel IH]; intros b Hb; [reflexivity|]. cbn.
    destruct Hb as [-> | ->]; [rewrite Hi|rewrite Hp, Hi]; apply IH; right; reflexivity.
  Qed.
  Lemma init_hangs : forall i p q, child_of objs p i -> child_of objs q p ->
    forall (St Exn : Type) (hook : phase -> nat -> St -> Exn + St) s fuel, init_all objs hook fuel i s = None.
  Proof. intros i p q Hi Hp St Exn hook s fuel. unfold init_all. rewrite (climb_deep i p q Hi Hp fuel i (or_introl eq_refl)). reflexivity. Qed.
End Tree.
