(** Containers of child blocks, and the objects of a deck as a tree. *)
From Coq Require Import ZArith List Bool String Ascii Lia Arith.
From Verif Require Import ScanModel ParseModel ExprModel ExprSyntax DepModel DeckModel DeckSyntax DeckMeaning DeckSpec DeckInvProofs DeckFinishProofs DeckObjectProofs
  BlockModel BlockSpec BlockTreeProofs.
Import ListNotations.
Local Open Scope nat_scope.

(** ** Lists in the same order *)
Lemma same_order : forall {X} (l1 l2 : list X), NoDup l1 -> NoDup l2 -> (forall x, In x l1 <-> In x l2) ->
  (forall a b, before l1 a b -> before l2 a b) -> l1 = l2.
Proof.
  intros X. induction l1 as [|a l1 IH]; intros l2 N1 N2 S B.
  - destruct l2 as [|x l2]; [reflexivity|]. destruct (proj2 (S x) (or_introl eq_refl)).
  - destruct l2 as [|x l2]; [destruct (proj1 (S a) (or_introl eq_refl))|]. inversion N1 as [|? ? A1 M1]; subst. inversion N2 as [|? ? A2 M2]; subst.
    assert (x = a).
    { destruct (proj2 (S x) (or_introl eq_refl)) as [E|Hx]; [auto|]. exfalso. destruct (B a x) as [u [v [w E]]].
      - exact (before_cross [a] l1 a x (or_introl eq_refl) Hx).
      - destruct u as [|y u]; cbn in E; inversion E; subst.
        + apply A2. apply in_or_app. right. left. reflexivity.
        + apply A2. apply in_or_app. right. right. apply in_or_app. right. left. reflexivity. }
    subst x. f_equal. apply IH; [exact M1|exact M2| |].
    + intros y. split; intros Hy.
      * destruct (proj1 (S y) (or_intror Hy)) as [E|E]; [subst; contradiction|exact E].
      * destruct (proj2 (S y) (or_intror Hy)) as [E|E]; [subst; contradiction|exact E].
    + intros b c Hb. assert (Hb' := Hb). destruct Hb' as [p [q [r E]]]. assert (In b l1) by (rewrite E; apply in_or_app; right; left; reflexivity).
      destruct (B b c (before_app_r _ [a] _ _ Hb)) as [u [v [w E2]]]. destruct u as [|y u]; cbn in E2; inversion E2; subst; [contradiction|]. exists u, v, w. reflexivity.
Qed.
Lemma before_in : forall {X} (l : list X) a b, before l a b -> In a l /\ In b l.
Proof.
  intros X l a b [l1 [l2 [l3 ->]]]. split; apply in_or_app; right; [left; reflexivity|]. right. apply in_or_app. right. left. reflexivity.
Qed.
Lemma before_filter : forall {X} (f : X -> bool) l a b, before l a b -> f a = true -> f b = true -> before (filter f l) a b.
Proof.
  intros X f l a b [l1 [l2 [l3 ->]]] Ha Hb. exists (filter f l1), (filter f l2), (filter f l3). rewrite filter_app. cbn. rewrite Ha, filter_app. cbn. rewrite Hb. reflexivity.
Qed.
Lemma filter_and : forall {X} (f g : X -> bool) l, filter f (filter g l) = filter (fun x => g x && f x)%bool l.
Proof. intros X f g. induction l as [|x l IH]; [reflexivity|]. cbn. destruct (g x); cbn; [|exact IH]. destruct (f x); rewrite IH; reflexivity. Qed.

Section Containers.
  Variable objs : list bobj.
  Hypothesis L : linked objs.
  Variables holder fits : nat -> bool.
  Context {St Exn : Type}.
  Variable view : St -> containers.
  Variable hook : phase -> nat -> St -> Exn + St.
  Hypothesis H : container_hooks objs holder fits view hook.

  Definition enters (p i : nat) : bool := (match parent objs i with Some q => Nat.eqb q p | None => false end && fits i)%bool.
  Lemma pre_init_perform : forall l s s', perform hook (map (pair PreInit) l) s = inr s' ->
    forall p, view s' p = view s p ++ (if holder p then filter (enters p) l else []).
  Proof.
    induction l as [|i l IH]; intros s s' E p; cbn in E.
    - inversion E; subst. destruct (holder p); rewrite app_nil_r; reflexivity.
    - destruct (hook PreInit i s) as [e|s1] eqn:E1; [discriminate|]. rewrite (IH s1 s' E p). pose proof (H _ _ _ _ E1 p) as Hp. cbn in Hp. rewrite Hp. unfold child_pre_init, push.
      cbn [filter]. unfold enters at 2. destruct (parent objs i) as [q|].
      + destruct (Nat.eqb_spec q p) as [->|Hn].
        * cbn [andb]. destruct (holder p); cbn [andb]; [|rewrite !app_nil_r; reflexivity]. destruct (fits i); [|reflexivity]. rewrite Nat.eqb_refl, <- app_assoc. reflexivity.
        * cbn [andb]. destruct (holder q && fits i)%bool; [|reflexivity]. destruct (Nat.eqb_spec p q); [congruence|reflexivity].
      + reflexivity.
  Qed.
  Lemma other_perform : forall ph, ph <> PreInit -> forall l s s', perform hook (map (pair ph) l) s = inr s' -> forall p, view s' p = view s p.
  Proof.
    intros ph Hph. induction l as [|i l IH]; intros s s' E p; cbn in E; [inversion E; reflexivity|].
    destruct (hook ph i s) as [e|s1] eqn:E1; [discriminate|]. rewrite (IH s1 s' E p). pose proof (H _ _ _ _ E1 p) as Hp. destruct ph; congruence.
  Qed.
  Lemma perform_split : forall l1 l2 s s', perform hook (l1 ++ l2) s = inr s' -> exists s1, perform hook l1 s = inr s1 /\ perform hook l2 s1 = inr s'.
  Proof. intros l1 l2 s s' E. rewrite perform_app in E. destruct (perform hook l1 s) as [e|s1]; [discriminate|]. exists s1. auto. Qed.
  Lemma phases_view : forall order s s', perform hook (phases order) s = inr s' ->
    forall p, view s' p = view s p ++ (if holder p then filter (enters p) order else []).
  Proof.
    intros order s s' E p. unfold phases in E. apply perform_split in E. destruct E as [s1 [E1 E]]. apply perform_split in E. destruct E as [s2 [E2 E]].
    apply perform_split in E. destruct E as [s3 [E3 E]]. apply perform_split in E. destruct E as [s4 [E4 E5]].
    rewrite (other_perform PostInit ltac:(discriminate) _ _ _ E5), (other_perform Init ltac:(discriminate) _ _ _ E4), (pre_init_perform _ _ _ E3),
      (other_perform RegisterData ltac:(discriminate) _ _ _ E2), (other_perform Evaluate ltac:(discriminate) _ _ _ E1). reflexivity.
  Qed.
  Lemma order_children : forall r order p o, in_order objs r order -> within objs r p -> nth_error objs p = Some o ->
    filter (fun i => match parent objs i with Some q => Nat.eqb q p | None => false end) order = o_children o.
  Proof.
    intros r order p o [N [I [P S]]] Hp Ho. destruct (L p o Ho) as [_ [Nc Ic]]. symmetry. apply same_order.
    - exact Nc.
    - apply NoDup_filter. exact N.
    - intros c. rewrite filter_In, Ic. split.
      + intros Hc. split; [apply I; eapply w_in; eauto|]. apply parent_spec in Hc. rewrite Hc. apply Nat.eqb_refl.
      + intros [_ Hc]. destruct (parent objs c) as [q|] eqn:Eq; [|discriminate]. apply Nat.eqb_eq in Hc. subst. apply parent_spec. exact Eq.
    - intros a b Hab. destruct (before_in _ _ _ Hab) as [Ha Hb]. apply Ic in Ha. apply Ic in Hb. apply parent_spec in Ha. apply parent_spec in Hb.
      apply before_filter; [|rewrite Ha; apply Nat.eqb_refl|rewrite Hb; apply Nat.eqb_refl]. eapply S; [apply I; exact Hp|exact Ho|exact Hab].
  Qed.
  Lemma containers_filled : forall r i s s' fuel, is_root objs r -> i = r \/ child_of objs r i -> init_all objs hook fuel i s = Some (inr s') ->
    forall p o, within objs r p -> nth_error objs p = Some o -> view s' p = view s p ++ (if holder p then filter fits (o_children o) else []).
  Proof.
    intros r i s s' fuel Hr Hi E p o Hp Ho. destruct (init_phases objs L r i Hr Hi) as [order [Ord Run]]. destruct (Run St Exn hook s) as [n Hn].
    assert (E' : init_all objs hook (Nat.max n fuel) i s = Some (inr s')).
    { unfold init_all in *. destruct (climb objs fuel i i) as [b|] eqn:Ec; [|discriminate].
      assert (M : forall f g b x, f <= g -> climb objs f i b = Some x -> climb objs g i b = Some x).
      { clear. induction f as [|f IH]; intros [|g] b x Hg E; try discriminate; [lia|]. cbn in *. destruct (parent objs b); [|exact E]. destruct (parent objs i); [|discriminate]. apply IH; [lia|exact E]. }
      rewrite (M _ (Nat.max n fuel) _ _ (Nat.le_max_r _ _) Ec). exact E. }
    rewrite Hn in E' by lia. inversion E' as [E2]. rewrite (phases_view _ _ _ E2 p). f_equal. destruct (holder p); [|reflexivity].
    rewrite <- (order_children r order p o Ord Hp Ho), filter_and. reflexivity.
  Qed.
End Containers.

(** ** The objects of a deck *)
Section Decks.
  Variable A : arith.
  Variable reg : string -> option fsig.
  Variable funs : fsig -> list (value A) -> result (value A).
  Variable restricted : bool.
  Hypothesis funs_typed : typed_functions A funs.

  Lemma deck_linked : forall root rootclass classes p d, NoDup (map fst classes) -> typed_classes A classes ->
    run A reg funs restricted p (start A (new_deck A root rootclass classes)) = inr d ->
    linked (d_objs d) /\ (implemented A classes rootclass -> is_root (d_objs d) 0 /\ forall j, j < List.length (d_objs d) -> within (d_objs d) 0 j).
  Proof.
    intros root rootclass classes p d once typed E. destruct (objects A reg funs restricted funs_typed classes once typed root rootclass p d E) as [st [ns [N I]]].
    pose proof (i_shape _ _ _ _ _ I) as [Sh1 Sh2]. pose proof (i_lt _ _ _ _ _ I) as Lt.
    assert (LK : linked (d_objs d)).
    { intros i o Ho. destruct (Sh2 i o Ho) as [S1 S2]. split; [|split].
      - intros q Hq. rewrite Hq in S1. eapply Lt; eauto.
      - rewrite S2. unfold inside. apply NoDup_filter, seq_NoDup.
      - intros c. rewrite S2. unfold inside. rewrite filter_In, in_seq. unfold child_of. split.
        + intros [_ Hc]. destruct (nth_error ns c) as [[q [k|]]|] eqn:En; try discriminate. apply Nat.eqb_eq in Hc. subst k.
          destruct (nth_error (d_objs d) c) as [oc|] eqn:Eo; [|apply nth_error_None in Eo; apply nth_lt in En; lia]. exists oc. split; [reflexivity|]. destruct (Sh2 c oc Eo) as [Q _]. congruence.
        + intros [oc [Eo Ep]]. destruct (Sh2 c oc Eo) as [Q _]. pose proof (nth_lt _ _ _ Eo). split; [lia|]. rewrite Q, Ep. apply Nat.eqb_refl. }
    split; [exact LK|]. intros R. destruct (nesting_rooted A classes _ _ _ _ _ N R) as [[st' ->] T].
    assert (W : forall j, j < List.length (d_objs d) -> within (d_objs d) 0 j).
    { intros j. induction j as [j IH] using lt_wf_ind. intros Hj. destruct (nth_error (d_objs d) j) as [o|] eqn:Eo; [|apply nth_error_None in Eo; lia]. destruct (Sh2 j o Eo) as [S1 _].
      destruct (o_parent o) as [k|] eqn:Ek.
      - pose proof (Lt _ _ _ S1) as Hk. eapply w_in; [apply (IH k Hk); lia|]. exists o. auto.
      - pose proof (T j _ S1). subst. apply w_self. exact Hj. }
    split; [|exact W].
    assert (0 < List.length ns).
    { pose proof (i_stack _ _ _ _ _ I) as St. clear - St. induction st' as [|[o|] st' IH]; cbn in St; [|destruct St as [_ St]; auto|auto]. destruct St as [[q St] _]. eapply nth_lt; eauto. }
    destruct (nth_error (d_objs d) 0) as [o|] eqn:Eo; [|apply nth_error_None in Eo; lia]. exists o. split; [exact Eo|]. destruct (o_parent o) as [k|] eqn:Ek; [|reflexivity].
    destruct (LK 0 o Eo) as [Q _]. specialize (Q k Ek). lia.
  Qed.
End Decks.
