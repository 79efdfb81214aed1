(** Looking up shared data. *)
From Coq Require Import ZArith List Bool String Ascii Lia Arith.
From Verif Require Import ExprModel DeckModel DeckInvProofs BlockModel BlockSpec BlockTreeProofs.
Import ListNotations.
Local Open Scope nat_scope.

Lemma cut_some : forall key h t, cut key = Some (h, t) -> key = (h ++ String "." t)%string /\ plain h.
Proof.
  induction key as [|c s IH]; intros h t H; cbn in H; [discriminate|]. destruct (Ascii.eqb_spec c ".") as [->|Hc].
  - inversion H; subst. split; [reflexivity|]. intros [].
  - destruct (cut s) as [[h' t']|]; [|discriminate]. inversion H; subst. destruct (IH h' t eq_refl) as [-> Hp]. split; [reflexivity|].
    intros [E|E]; [congruence|]. apply Hp. exact E.
Qed.
Lemma cut_app : forall h t, plain h -> cut (h ++ String "." t) = Some (h, t).
Proof.
  induction h as [|c h IH]; intros t Hp; [reflexivity|]. cbn. destruct (Ascii.eqb_spec c ".") as [->|Hc]; [exfalso; apply Hp; left; reflexivity|].
  rewrite IH; [reflexivity|]. intros H. apply Hp. right. exact H.
Qed.
Lemma cut_plain : forall key, plain key -> cut key = None.
Proof.
  intros key H. destruct (cut key) as [[h t]|] eqn:E; [|reflexivity]. apply cut_some in E. destruct E as [-> _]. exfalso. apply H.
  clear H. induction h as [|c h IH]; [left; reflexivity|]. right. exact IH.
Qed.

Section Verdict.
  Context {Ptr Loc : Type}.
  Variable at_loc : Loc -> Ptr -> Prop.
  Definition verdict (S : Loc -> Prop) (res : search Ptr) : Prop :=
    match res with
    | Found p => exists x, S x /\ at_loc x p /\ forall y, S y -> y = x
    | Missing => forall x, ~ S x
    | Duplicate => exists x y, S x /\ S y /\ x <> y
    end.
  Definition verdict_count (S : Loc -> Prop) (res : counted Ptr) : Prop :=
    match res with
    | Thrown => verdict S Duplicate
    | Count 0 _ => verdict S Missing
    | Count 1 (Some p) => verdict S (Found p)
    | Count 1 None => False
    | Count _ _ => verdict S Duplicate
    end.
  Lemma verdict_ext : forall (S T : Loc -> Prop) res, (forall x, S x <-> T x) -> verdict S res -> verdict T res.
  Proof.
    intros S T res H. destruct res as [p| |]; cbn.
    - intros [x [H1 [H2 H3]]]. exists x. split; [apply H; exact H1|]. split; [exact H2|]. intros y Hy. apply H3, H. exact Hy.
    - intros H1 x Hx. apply (H1 x), H. exact Hx.
    - intros [x [y [H1 [H2 H3]]]]. exists x, y. rewrite <- !H. auto.
  Qed.
  Lemma count_verdict : forall (f : nat -> search Ptr) (S : nat -> Loc -> Prop) l, NoDup l ->
    (forall c, In c l -> verdict (S c) (f c)) -> (forall c c' x, In c l -> In c' l -> S c x -> S c' x -> c = c') ->
    verdict_count (fun x => exists c, In c l /\ S c x) (count_children f l 0 None).
  Proof.
    intros f S l Hn Hf Hd.
    (* n children found so far, in U *)
    assert (G : forall l U n data, NoDup l -> (forall c, In c l -> verdict (S c) (f c)) -> (forall c c' x, In c l -> In c' l -> S c x -> S c' x -> c = c') ->
      (forall c x, In c l -> S c x -> ~ U x) -> verdict_count U (Count n data) ->
      verdict_count (fun x => U x \/ exists c, In c l /\ S c x) (count_children f l n data)).
    { clear l Hn Hf Hd. induction l as [|c l IH]; intros U n data Hn Hf Hd HU HV.
      - cbn [count_children]. assert (E : forall x, U x <-> (U x \/ exists c, In c [] /\ S c x)) by (intros x; split; [auto|intros [H|[c [[] _]]]; exact H]).
        destruct n as [|[|n]]; [|destruct data|]; cbn in *; [| |contradiction|].
        + intros x Hx. apply (HV x), E. exact Hx.
        + destruct HV as [x [H1 [H2 H3]]]. exists x. split; [auto|]. split; [exact H2|]. intros y Hy. apply H3, E. exact Hy.
        + destruct HV as [x [y [H1 [H2 H3]]]]. exists x, y. auto.
      - cbn [count_children]. inversion Hn as [|? ? Hc Hl]; subst.
        assert (Hfc := Hf c (or_introl eq_refl)).
        assert (E : forall x, (U x \/ S c x) \/ (exists c0, In c0 l /\ S c0 x) <-> U x \/ exists c0, In c0 (c :: l) /\ S c0 x).
        { intros x. split.
          - intros [[H|H]|[c0 [H1 H2]]]; [left; exact H|right; exists c; split; [left; reflexivity|exact H]|right; exists c0; split; [right; exact H1|exact H2]].
          - intros [H|[c0 [[->|H1] H2]]]; [auto|auto|]. right. exists c0. auto. }
        assert (EC : forall res, verdict_count (fun x => (U x \/ S c x) \/ (exists c0, In c0 l /\ S c0 x)) res -> verdict_count (fun x => U x \/ exists c0, In c0 (c :: l) /\ S c0 x) res).
        { intros [m dd|]; [destruct m as [|[|m]]; [|destruct dd|]|]; cbn [verdict_count]; try (apply verdict_ext; exact E). tauto. }
        destruct (f c) as [p| |] eqn:Ef; cbn in Hfc.
        + destruct Hfc as [x [X1 [X2 X3]]]. apply EC. apply IH; [exact Hl| | | |].
          * intros c0 H0. apply Hf. right. exact H0.
          * intros c0 c1 y H0 H1. apply Hd; right; assumption.
          * intros c0 y H0 H1 [H2|H2]; [apply (HU c0 y); [right; exact H0|exact H1|exact H2]|]. apply Hc.
            rewrite (Hd c c0 y (or_introl eq_refl) (or_intror H0) H2 H1). exact H0.
          * destruct n as [|n]; cbn in HV |- *.
            -- exists x. split; [right; exact X1|]. split; [exact X2|]. intros y [Hy|Hy]; [destruct (HV y Hy)|apply X3; exact Hy].
            -- assert (HU' : exists u, U u).
               { destruct n as [|n]; [destruct data; [|contradiction]; destruct HV as [u [Hu _]]|destruct HV as [u [_ [Hu _]]]]; exists u; exact Hu. }
               destruct HU' as [u Hu]. exists u, x. split; [left; exact Hu|]. split; [right; exact X1|]. intros ->. exact (HU c x (or_introl eq_refl) X1 Hu).
        + apply EC. apply IH; [exact Hl| | | |].
          * intros c0 H0. apply Hf. right. exact H0.
          * intros c0 c1 y H0 H1. apply Hd; right; assumption.
          * intros c0 y H0 H1 [H2|H2]; [apply (HU c0 y); [right; exact H0|exact H1|exact H2]|]. destruct (Hfc y H2).
          * assert (EU : forall x, U x <-> U x \/ S c x) by (intros x; split; [auto|intros [H|H]; [exact H|destruct (Hfc x H)]]).
            destruct n as [|[|n]]; [|destruct data|]; cbn [verdict_count] in *; try (revert HV; apply verdict_ext; exact EU). exact HV.
        + cbn. destruct Hfc as [x [y [X1 [X2 X3]]]]. exists x, y. split; [right; exists c; split; [left; reflexivity|exact X1]|]. split; [right; exists c; split; [left; reflexivity|exact X2]|exact X3]. }
    specialize (G l (fun _ => False) 0 None Hn Hf Hd (fun _ _ _ _ H => H) (fun _ H => H)).
    destruct (count_children f l 0 None) as [[|[|m]] [dd|]|]; cbn [verdict_count] in *; try exact G; try (revert G; apply verdict_ext; intros x; split; [intros [[]|H]; exact H|right; assumption]).
  Qed.
  (** A verdict is the only one. *)
  Lemma verdict_missing : forall S res, verdict S res -> (res = Missing <-> forall x, ~ S x).
  Proof.
    intros S res H. split; [intros ->; exact H|]. intros H1. destruct res as [p| |]; cbn in H; [destruct H as [x [Hx _]]; destruct (H1 x Hx)|reflexivity|destruct H as [x [y [Hx _]]]; destruct (H1 x Hx)].
  Qed.
  Lemma verdict_duplicate : forall S res, verdict S res -> (res = Duplicate <-> exists x y, S x /\ S y /\ x <> y).
  Proof.
    intros S res H. split; [intros ->; exact H|]. intros [x [y [H1 [H2 H3]]]]. destruct res as [p| |]; cbn in H; [|destruct (H x H1)|reflexivity].
    destruct H as [z [_ [_ Hz]]]. exfalso. apply H3. rewrite (Hz x H1), (Hz y H2). reflexivity.
  Qed.
  Lemma verdict_found : (forall x p q, at_loc x p -> at_loc x q -> p = q) ->
    forall S res p, verdict S res -> (res = Found p <-> exists x, S x /\ at_loc x p /\ forall y, S y -> y = x).
  Proof.
    intros HF S res p H. split; [intros ->; exact H|]. intros [x [H1 [H2 H3]]]. destruct res as [q| |]; cbn in H.
    - destruct H as [z [Z1 [Z2 Z3]]]. assert (z = x) by (apply H3; exact Z1). subst. rewrite (HF _ _ _ Z2 H2). reflexivity.
    - destruct (H x H1).
    - destruct H as [a [b [Ha [Hb Hab]]]]. exfalso. apply Hab. rewrite (H3 a Ha), (H3 b Hb). reflexivity.
  Qed.
End Verdict.

Section Data.
  Context {Ptr : Type}.
  Variable objs : list bobj.
  Variable r : registry Ptr.
  Hypothesis L : linked objs.

  Lemma datum_holds : forall i key p, datum r i key = Some p <-> holds r i key p.
  Proof.
    intros i key p. unfold holds. induction r as [|[[j k] q] r' IH]; cbn.
    - split; [discriminate|]. intros [[|? ?] [l2 [E _]]]; discriminate.
    - destruct (Nat.eqb_spec i j) as [->|Hij]; [destruct (String.eqb_spec key k) as [->|Hk]|]; cbn.
      + split.
        * intros E. inversion E; subst. exists [], r'. split; [reflexivity|]. intros q' [].
        * intros [[|y l1] [l2 [E Hn]]]; inversion E; subst; [reflexivity|]. exfalso. apply (Hn q). left. reflexivity.
      + rewrite IH. split; intros [l1 [l2 [E Hn]]].
        * exists ((j, k, q) :: l1), l2. split; [rewrite E; reflexivity|]. intros q' [H|H]; [congruence|]. exact (Hn q' H).
        * destruct l1 as [|y l1]; inversion E; subst; [congruence|]. exists l1, l2. split; [reflexivity|]. intros q' H. apply (Hn q'). right. exact H.
      + rewrite IH. split; intros [l1 [l2 [E Hn]]].
        * exists ((j, k, q) :: l1), l2. split; [rewrite E; reflexivity|]. intros q' [H|H]; [congruence|]. exact (Hn q' H).
        * destruct l1 as [|y l1]; inversion E; subst; [congruence|]. exists l1, l2. split; [reflexivity|]. intros q' H. apply (Hn q'). right. exact H.
  Qed.
  Lemma datum_none : forall i key, datum r i key = None <-> ~ held r i key.
  Proof.
    intros i key. split.
    - intros H [p Hp]. apply datum_holds in Hp. congruence.
    - intros H. destruct (datum r i key) as [p|] eqn:E; [|reflexivity]. exfalso. apply H. exists p. apply datum_holds. exact E.
  Qed.
  Lemma holds_fun : forall (x : place) p q, holds r (fst x) (snd x) p -> holds r (fst x) (snd x) q -> p = q.
  Proof. intros x p q H1 H2. apply datum_holds in H1. apply datum_holds in H2. congruence. Qed.
  Definition at_place (x : place) (p : Ptr) : Prop := holds r (fst x) (snd x) p.
  Lemma name_named : forall c h, c < List.length objs -> String.eqb (name_of objs c) h = true <-> named objs c h.
  Proof.
    intros c h Hc. unfold name_of, named. destruct (nth_error objs c) as [o|] eqn:E; [|apply nth_error_None in E; lia]. rewrite String.eqb_eq. split.
    - intros H. exists o. auto.
    - intros [o' [E1 E2]]. congruence.
  Qed.

  Lemma answer_within : forall n i key x, i < List.length objs -> answer objs r n i key x -> within objs i (fst x).
  Proof.
    induction n as [|n IH]; intros i key x Hi H; cbn in H.
    - destruct H as [[_ ->]|[_ []]]. apply w_self. exact Hi.
    - destruct H as [[_ ->]|[_ [[h [t [c [_ [_ [Hc [_ H]]]]]]]|[_ [c [Hc H]]]]]]; [apply w_self; exact Hi| |];
        (pose proof (child_lt objs L _ _ Hc); eapply within_child; [exact L|exact Hc|]; eapply IH; [lia|exact H]).
  Qed.
  (** The two loops. *)
  Lemma loop_inside : forall f n i key, i < List.length objs -> (forall c, c < List.length objs -> verdict at_place (answer objs r n c key) (f c)) ->
    verdict_count at_place (fun x => exists c, child_of objs i c /\ answer objs r n c key x) (count_children f (children objs i) 0 None).
  Proof.
    intros f n i key Hi Hf.
    assert (V : verdict_count at_place (fun x => exists c, In c (children objs i) /\ answer objs r n c key x) (count_children f (children objs i) 0 None)).
    { apply (count_verdict at_place f (fun c => answer objs r n c key)); [apply children_nodup; exact L| |].
      - intros c Hc. apply children_spec in Hc; [|exact L|exact Hi]. apply Hf. apply (child_lt objs L _ _ Hc).
      - intros c c' x Hc Hc' H1 H2. apply children_spec in Hc; [|exact L|exact Hi]. apply children_spec in Hc'; [|exact L|exact Hi].
        pose proof (child_lt objs L _ _ Hc). pose proof (child_lt objs L _ _ Hc'). apply answer_within in H1; [|lia]. apply answer_within in H2; [|lia]. exact (siblings_disjoint objs L _ _ _ _ Hc Hc' H1 H2). }
    destruct (count_children f (children objs i) 0 None) as [[|[|m]] [dd|]|]; cbn [verdict_count] in *; try exact V;
      (revert V; apply verdict_ext; intros x; split; intros [c [H1 H2]]; exists c; (split; [apply (children_spec objs L i c Hi); exact H1|exact H2])).
  Qed.
  Lemma loop_path : forall f n i key h t, i < List.length objs -> cut key = Some (h, t) -> (forall c, c < List.length objs -> verdict at_place (answer objs r n c t) (f c)) ->
    verdict_count at_place (fun x => exists h t c, key = (h ++ String "." t)%string /\ plain h /\ child_of objs i c /\ named objs c h /\ answer objs r n c t x)
      (count_children (fun c => if String.eqb (name_of objs c) h then f c else Missing) (children objs i) 0 None).
  Proof.
    intros f n i key h t Hi Hk Hf. destruct (cut_some _ _ _ Hk) as [Ek Ph].
    assert (V : verdict_count at_place (fun x => exists c, In c (children objs i) /\ (named objs c h /\ answer objs r n c t x))
      (count_children (fun c => if String.eqb (name_of objs c) h then f c else Missing) (children objs i) 0 None)).
    { apply (count_verdict at_place _ (fun c x => named objs c h /\ answer objs r n c t x)); [apply children_nodup; exact L| |].
      - intros c Hc. apply children_spec in Hc; [|exact L|exact Hi]. pose proof (child_lt objs L _ _ Hc) as Hl. destruct (String.eqb (name_of objs c) h) eqn:En.
        + apply name_named in En; [|lia]. eapply verdict_ext; [|apply Hf; lia]. intros x. tauto.
        + intros x [Hn _]. apply name_named in Hn; [congruence|lia].
      - intros c c' x Hc Hc' [_ H1] [_ H2]. apply children_spec in Hc; [|exact L|exact Hi]. apply children_spec in Hc'; [|exact L|exact Hi].
        pose proof (child_lt objs L _ _ Hc). pose proof (child_lt objs L _ _ Hc'). apply answer_within in H1; [|lia]. apply answer_within in H2; [|lia]. exact (siblings_disjoint objs L _ _ _ _ Hc Hc' H1 H2). }
    assert (E : forall x, (exists c, In c (children objs i) /\ (named objs c h /\ answer objs r n c t x)) <->
      exists h t c, key = (h ++ String "." t)%string /\ plain h /\ child_of objs i c /\ named objs c h /\ answer objs r n c t x).
    { intros x. split.
      - intros [c [H1 [H2 H3]]]. apply children_spec in H1; [|exact L|exact Hi]. exists h, t, c. auto.
      - intros [h' [t' [c [H1 [H2 [H3 [H4 H5]]]]]]]. rewrite H1, (cut_app _ _ H2) in Hk. inversion Hk; subst h' t'. exists c. split; [apply children_spec; assumption|]. auto. }
    destruct (count_children (fun c => if String.eqb (name_of objs c) h then f c else Missing) (children objs i) 0 None) as [[|[|m]] [dd|]|]; cbn [verdict_count] in *; try exact V;
      (revert V; apply verdict_ext; exact E).
  Qed.
  Lemma no_path : forall n i key, cut key = None -> forall x, ~ exists h t c, key = (h ++ String "." t)%string /\ plain h /\ child_of objs i c /\ named objs c h /\ answer objs r n c t x.
  Proof. intros n i key H x [h [t [c [H1 [H2 _]]]]]. rewrite H1, (cut_app _ _ H2) in H. discriminate. Qed.

  Lemma get_inside_verdict : forall n i key, i < List.length objs -> verdict at_place (answer objs r n i key) (get_inside objs r n i key).
  Proof.
    induction n as [|n IH]; intros i key Hi; cbn [get_inside].
    - destruct (datum r i key) as [p|] eqn:Ed.
      + apply datum_holds in Ed. exists (i, key). split; [left; split; [exists p; exact Ed|reflexivity]|]. split; [exact Ed|]. intros y [[_ H]|[_ []]]. exact H.
      + apply datum_none in Ed. intros x [[H _]|[_ []]]. contradiction.
    - destruct (datum r i key) as [p|] eqn:Ed.
      { apply datum_holds in Ed. exists (i, key). split; [left; split; [exists p; exact Ed|reflexivity]|]. split; [exact Ed|]. intros y [[_ H]|[H _]]; [exact H|].
        exfalso. apply H. exists p. exact Ed. }
      apply datum_none in Ed.
      set (path := fun y => exists h t c, key = (h ++ String "." t)%string /\ plain h /\ child_of objs i c /\ named objs c h /\ answer objs r n c t y).
      set (deep := fun y => exists c, child_of objs i c /\ answer objs r n c key y).
      assert (EA : forall x, answer objs r (S n) i key x <-> path x \/ ((forall y, ~ path y) /\ deep x)).
      { intros x. cbn. fold path. unfold deep. tauto. }
      pose proof (loop_inside (fun c => get_inside objs r n c key) n i key Hi (fun c Hc => IH c key Hc)) as VD. fold deep in VD.
      destruct (cut key) as [[h t]|] eqn:Ec.
      + pose proof (loop_path (fun c => get_inside objs r n c t) n i key h t Hi Ec (fun c Hc => IH c t Hc)) as VP. fold path in VP.
        destruct (count_children (fun c => if (name_of objs c =? h)%string then get_inside objs r n c t else Missing) (children objs i) 0 None) as [[|[|m]] [dp|]|]; cbn [verdict_count] in VP; try contradiction.
        3-6: (eapply verdict_ext; [|exact VP]; intros x; rewrite EA; split; [auto|]; intros [H|[H _]]; [exact H|]; exfalso; cbn in VP;
          first [destruct VP as [z [Z1 [Z2 Z3]]]; exact (H z Z1) | destruct VP as [z [w [Z1 _]]]; exact (H z Z1)]).
        all: cbn in VP; assert (EA' : forall x, deep x <-> answer objs r (S n) i key x) by (intros x; rewrite EA; split; [auto|]; intros [H|[_ H]]; [destruct (VP x H)|exact H]);
          destruct (count_children (fun c => get_inside objs r n c key) (children objs i) 0 None) as [[|[|m]] [dd|]|]; cbn [verdict_count] in VD; try contradiction; (eapply verdict_ext; [exact EA'|exact VD]).
      + assert (EA' : forall x, deep x <-> answer objs r (S n) i key x).
        { intros x. rewrite EA. pose proof (no_path n i key Ec) as NP. fold path in NP. split; [auto|]. intros [H|[_ H]]; [destruct (NP x H)|exact H]. }
        destruct (count_children (fun c => get_inside objs r n c key) (children objs i) 0 None) as [[|[|m]] [dd|]|]; cbn [verdict_count] in VD; try contradiction; (eapply verdict_ext; [exact EA'|exact VD]).
  Qed.

  (** ** Upward *)
  Lemma around_exists : forall i, i < List.length objs -> exists l, around objs i l.
  Proof.
    induction i as [i IH] using lt_wf_ind. intros Hi. destruct (parent objs i) as [p|] eqn:Ep.
    - apply parent_spec in Ep. pose proof (child_lt objs L _ _ Ep). destruct (IH p ltac:(lia) ltac:(lia)) as [l Hl]. exists (i :: l). eapply a_in; eauto.
    - apply parent_none in Ep; [|exact Hi]. exists [i]. apply a_root. exact Ep.
  Qed.
  Lemma root_no_parent : forall i p, is_root objs i -> child_of objs p i -> False.
  Proof. intros i p [o [E1 E2]] [o' [E3 E4]]. congruence. Qed.
  Lemma around_unique : forall i l l', around objs i l -> around objs i l' -> l = l'.
  Proof.
    intros i l l' H. revert l'. induction H as [i H|i p l Hc H IH]; intros l' H'; inversion H' as [j Hj|j q m Hq Hm]; subst; auto.
    - exfalso. eapply root_no_parent; eauto.
    - exfalso. eapply root_no_parent; eauto.
    - rewrite (child_unique objs _ _ _ Hc Hq) in *. f_equal. apply IH. exact Hm.
  Qed.
  Lemma around_head : forall i l, around objs i l -> exists l', l = i :: l'.
  Proof. intros i l H. inversion H; subst; eexists; reflexivity. Qed.
  Lemma candidate_here : forall i key x0, i < List.length objs -> known objs r i key x0 -> forall x, known objs r i key x <-> candidate objs r i key x.
  Proof.
    intros i key x0 Hi H0 x. split.
    - intros H. destruct (around_exists i Hi) as [l Hl]. destruct (around_head _ _ Hl) as [l' ->]. exists (i :: l'). split; [exact Hl|]. left. exists [], i, l'. split; [reflexivity|]. split; [exact H|]. intros b [].
    - intros [l [Hl [[near [b [far [E [H1 H2]]]]]|[H1 _]]]]; destruct (around_head _ _ Hl) as [l' El].
      + destruct near as [|b' near]; cbn in E; [congruence|]. exfalso. apply (H2 i) with (y := x0); [left; congruence|exact H0].
      + exfalso. apply (H1 i) with (y := x0); [rewrite El; left; reflexivity|exact H0].
  Qed.
  Lemma candidate_up : forall i p key, child_of objs p i -> (forall x, ~ known objs r i key x) -> forall x, candidate objs r p key x <-> candidate objs r i key x.
  Proof.
    intros i p key Hc Hk x. split.
    - intros [l [Hl H]]. exists (i :: l). split; [eapply a_in; eauto|]. destruct H as [[near [b [far [E [H1 H2]]]]]|[H1 [root [c [H2 H3]]]]].
      + left. exists (i :: near), b, far. split; [rewrite E; reflexivity|]. split; [exact H1|]. intros b' [<-|Hb]; [exact Hk|exact (H2 b' Hb)].
      + right. split.
        * intros b' [<-|Hb]; [exact Hk|exact (H1 b' Hb)].
        * exists root, c. split; [|exact H3]. destruct (around_head _ _ Hl) as [l' ->]. exact H2.
    - intros [l [Hl H]]. inversion Hl as [j Hj|j q m Hq Hm]; subst; [exfalso; eapply root_no_parent; eauto|]. rewrite (child_unique objs _ _ _ Hq Hc) in Hm.
      exists m. split; [exact Hm|]. destruct H as [[near [b [far [E [H1 H2]]]]]|[H1 [root [c [H2 H3]]]]].
      + left. destruct near as [|b' near]; cbn in E; inversion E; subst.
        * destruct (Hk x H1).
        * exists near, b, far. split; [reflexivity|]. split; [exact H1|]. intros b0 Hb. apply H2. right. exact Hb.
      + right. split; [intros b' Hb; apply H1; right; exact Hb|]. exists root, c. split; [|exact H3]. destruct (around_head _ _ Hm) as [m' ->]. exact H2.
  Qed.
  Lemma candidate_root : forall i key, is_root objs i -> (forall x, ~ known objs r i key x) ->
    forall x, (exists c, child_of objs i c /\ inside_of objs r c key x) <-> candidate objs r i key x.
  Proof.
    intros i key Hr Hk x. split.
    - intros [c [H1 H2]]. exists [i]. split; [apply a_root; exact Hr|]. right. split; [intros b' [<-|[]]; exact Hk|]. exists i, c. auto.
    - intros [l [Hl H]]. rewrite (around_unique _ _ _ Hl (a_root objs i Hr)) in *. destruct H as [[near [b [far [E [H1 H2]]]]]|[H1 [root [c [H2 H3]]]]].
      + destruct near as [|b' [|b'' near]]; cbn in E; inversion E; subst. destruct (Hk x H1).
      + cbn in H2. subst root. exists c. exact H3.
  Qed.

  Lemma get_data_verdict : forall n i key, i < List.length objs -> i <= n -> verdict at_place (candidate objs r i key) (get_data objs r n i key).
  Proof.
    set (N := List.length objs).
    assert (UP : forall n i key, i < N -> i <= n -> (forall p, child_of objs p i -> exists n', n = S n' /\ verdict at_place (candidate objs r p key) (get_data objs r n' p key)) ->
      verdict at_place (candidate objs r i key) (get_data objs r n i key)).
    { intros n i key Hi Hn IH.
      assert (EG : get_data objs r n i key =
        match datum r i key with
        | Some p => Found p
        | None =>
            let up := match n, parent objs i with
                  | S n', Some p => get_data objs r n' p key
                  | _, _ => match count_children (fun c => get_inside objs r N c key) (children objs i) 0 None with
                            | Thrown => Duplicate | Count 0 _ => Missing | Count 1 (Some p) => Found p | Count _ _ => Duplicate end
                  end in
            match cut key with
            | Some (h, t) => match count_children (fun c => if String.eqb (name_of objs c) h then get_inside objs r N c t else Missing) (children objs i) 0 None with
                  | Thrown => Duplicate | Count 0 _ => up | Count 1 (Some p) => Found p | Count _ _ => Duplicate end
            | None => up
            end
        end) by (destruct n; reflexivity).
      rewrite EG. clear EG. destruct (datum r i key) as [p|] eqn:Ed.
      { apply datum_holds in Ed. assert (K : known objs r i key (i, key)) by (left; split; [exists p; exact Ed|reflexivity]).
        eapply verdict_ext; [exact (candidate_here i key _ Hi K)|]. exists (i, key). split; [exact K|]. split; [exact Ed|]. intros y [[_ H]|[H _]]; [exact H|]. exfalso. apply H. exists p. exact Ed. }
      apply datum_none in Ed.
      assert (EK : forall x, along objs r i key x <-> known objs r i key x) by (intros x; unfold known; tauto).
      assert (UPV : (forall x, ~ along objs r i key x) -> verdict at_place (candidate objs r i key)
        (match n, parent objs i with
                  | S n', Some p => get_data objs r n' p key
                  | _, _ => match count_children (fun c => get_inside objs r N c key) (children objs i) 0 None with
                            | Thrown => Duplicate | Count 0 _ => Missing | Count 1 (Some p) => Found p | Count _ _ => Duplicate end
                  end)).
      { intros Hno. assert (Hk : forall x, ~ known objs r i key x) by (intros x Hx; apply EK in Hx; exact (Hno x Hx)).
        destruct (parent objs i) as [p|] eqn:Ep.
        - apply parent_spec in Ep. destruct (IH p Ep) as [n' [-> V]]. eapply verdict_ext; [exact (candidate_up i p key Ep Hk)|exact V].
        - apply parent_none in Ep; [|exact Hi].
          pose proof (loop_inside (fun c => get_inside objs r N c key) N i key Hi (fun c Hc => get_inside_verdict N c key Hc)) as VD.
          assert (G : verdict at_place (candidate objs r i key) (match count_children (fun c => get_inside objs r N c key) (children objs i) 0 None with
                            | Thrown => Duplicate | Count 0 _ => Missing | Count 1 (Some p) => Found p | Count _ _ => Duplicate end)).
          { destruct (count_children (fun c => get_inside objs r N c key) (children objs i) 0 None) as [[|[|m]] [dd|]|]; cbn [verdict_count] in VD; try contradiction;
              (eapply verdict_ext; [exact (candidate_root i key Ep Hk)|exact VD]). }
          destruct n; exact G. }
      cbn zeta. destruct (cut key) as [[h t]|] eqn:Ec.
      - pose proof (loop_path (fun c => get_inside objs r N c t) N i key h t Hi Ec (fun c Hc => get_inside_verdict N c t Hc)) as VP.
        change (verdict_count at_place (along objs r i key) (count_children (fun c => if (name_of objs c =? h)%string then get_inside objs r N c t else Missing) (children objs i) 0 None)) in VP.
        assert (HK : forall res, (exists x0, along objs r i key x0) -> verdict at_place (along objs r i key) res -> verdict at_place (candidate objs r i key) res).
        { intros res [x0 H0] V. apply EK in H0. eapply verdict_ext; [exact (candidate_here i key x0 Hi H0)|]. eapply verdict_ext; [exact EK|exact V]. }
        destruct (count_children (fun c => if (name_of objs c =? h)%string then get_inside objs r N c t else Missing) (children objs i) 0 None) as [[|[|m]] [dp|]|]; cbn [verdict_count] in VP; try contradiction.
        + apply UPV. exact VP.
        + apply UPV. exact VP.
        + apply HK; [destruct VP as [z [Z1 _]]; exists z; exact Z1|exact VP].
        + apply HK; [destruct VP as [z [w [Z1 _]]]; exists z; exact Z1|exact VP].
        + apply HK; [destruct VP as [z [w [Z1 _]]]; exists z; exact Z1|exact VP].
        + apply HK; [destruct VP as [z [w [Z1 _]]]; exists z; exact Z1|exact VP].
      - apply UPV. intros x. exact (no_path N i key Ec x). }
    induction n as [|n IH]; intros i key Hi Hn; apply UP; auto; intros p Hp; pose proof (child_lt objs L _ _ Hp); [lia|].
    exists n. split; [reflexivity|]. apply IH; lia.
  Qed.

  Lemma retrieve_spec : forall i key, i < List.length objs ->
    (forall p, retrieve objs r i key = Found p <-> exists x, candidate objs r i key x /\ holds r (fst x) (snd x) p /\ forall y, candidate objs r i key y -> y = x) /\
    (retrieve objs r i key = Missing <-> forall x, ~ candidate objs r i key x) /\
    (retrieve objs r i key = Duplicate <-> exists x y, candidate objs r i key x /\ candidate objs r i key y /\ x <> y).
  Proof.
    intros i key Hi. pose proof (get_data_verdict i i key Hi (le_n i)) as V. split; [|split].
    - intros p. apply (verdict_found at_place holds_fun _ _ p V).
    - apply (verdict_missing at_place _ _ V).
    - apply (verdict_duplicate at_place _ _ V).
  Qed.

  (** ** Plain keys *)
  Lemma plain_no_along : forall i key x, plain key -> ~ along objs r i key x.
  Proof. intros i key x Hp. apply (no_path (List.length objs) i key (cut_plain key Hp)). Qed.
  Lemma plain_known : forall i key x, plain key -> known objs r i key x <-> held r i key /\ x = (i, key).
  Proof.
    intros i key x Hp. unfold known. split; [|auto]. intros [H|[_ H]]; [exact H|]. destruct (plain_no_along _ _ _ Hp H).
  Qed.
  Lemma held_dec : forall i key, held r i key \/ ~ held r i key.
  Proof. intros i key. destruct (datum r i key) as [p|] eqn:E; [left; exists p; apply datum_holds; exact E|right; apply datum_none; exact E]. Qed.
  Lemma nearest_plain : forall i key l near b far p, plain key -> around objs i l -> l = near ++ b :: far -> holds r b key p -> (forall b', In b' near -> ~ held r b' key) ->
    retrieve objs r i key = Found p.
  Proof.
    intros i key l near b far p Hp Hl El Hb Hnear. assert (Hi : i < List.length objs).
    { inversion Hl as [j Hj|j q m Hq Hm]; subst; [destruct Hj as [o [E _]]|destruct Hq as [o [E _]]]; eapply nth_lt; eauto. }
    apply (retrieve_spec i key Hi). exists (b, key). split; [|split; [exact Hb|]].
    - exists l. split; [exact Hl|]. left. exists near, b, far. split; [exact El|]. split; [apply plain_known; [exact Hp|]; split; [exists p; exact Hb|reflexivity]|].
      intros b' Hb' y Hy. apply plain_known in Hy; [|exact Hp]. apply (Hnear b' Hb'). apply Hy.
    - intros y [l' [Hl' H]]. rewrite (around_unique _ _ _ Hl' Hl) in *. destruct H as [[near' [b' [far' [E [H1 H2]]]]]|[H1 _]].
      + apply plain_known in H1; [|exact Hp]. destruct H1 as [H1 ->]. f_equal.
        rewrite E in El. clear - El H1 H2 Hnear Hb Hp. revert near El H2 Hnear. induction near' as [|a near' IH]; intros near El H2 Hnear; destruct near as [|a' near]; cbn in El; inversion El; subst.
        * reflexivity.
        * exfalso. apply (Hnear a' (or_introl eq_refl)). exact H1.
        * exfalso. apply (H2 b (or_introl eq_refl) (b, key)). apply plain_known; [exact Hp|]. split; [exists p; exact Hb|reflexivity].
        * eapply IH; [eassumption| |]; intros b0 Hb0; [apply H2|apply Hnear]; right; exact Hb0.
      + exfalso. apply (H1 b) with (y := (b, key)); [rewrite El; apply in_or_app; right; left; reflexivity|]. apply plain_known; [exact Hp|]. split; [exists p; exact Hb|reflexivity].
  Qed.
  Lemma answer_plain : forall n i key x, plain key -> i < List.length objs -> List.length objs <= n + i ->
    answer objs r n i key x <-> exists j, x = (j, key) /\ topmost objs r i key j.
  Proof.
    induction n as [|n IH]; intros i key x Hp Hi Hn; [lia|]. cbn [answer].
    assert (NP : forall y, ~ exists h t c, key = (h ++ String "." t)%string /\ plain h /\ child_of objs i c /\ named objs c h /\ answer objs r n c t y) by exact (no_path n i key (cut_plain key Hp)).
    split.
    - intros [[H ->]|[Hn0 [H|[_ [c [Hc H]]]]]]; [|destruct (NP x H)|].
      + exists i. split; [reflexivity|]. split; [apply w_self; exact Hi|]. split; [exact H|]. intros k H1 H2 H3. apply (within_lt objs L) in H1. apply (within_lt objs L) in H2. lia.
      + pose proof (child_lt objs L _ _ Hc). apply IH in H; [|exact Hp|lia|lia]. destruct H as [j [-> [H1 [H2 H3]]]]. exists j. split; [reflexivity|].
        split; [eapply within_child; eauto|]. split; [exact H2|]. intros k K1 K2 K3. destruct (within_cases objs L _ _ K1) as [->|[c' [C1 C2]]]; [exact Hn0|].
        assert (c = c') by (eapply (siblings_disjoint objs L i c c' j); eauto; eapply within_trans; eauto). subst c'. apply H3; assumption.
    - intros [j [-> [H1 [H2 H3]]]]. destruct (held_dec i key) as [H|H].
      + destruct (Nat.eq_dec i j) as [->|Hne]; [left; auto|]. exfalso. apply (H3 i); auto. apply w_self. exact Hi.
      + right. split; [exact H|]. right. split; [exact NP|]. destruct (within_cases objs L _ _ H1) as [->|[c [C1 C2]]]; [contradiction|]. exists c. split; [exact C1|].
        pose proof (child_lt objs L _ _ C1). apply IH; [exact Hp|lia|lia|]. exists j. split; [reflexivity|]. split; [exact C2|]. split; [exact H2|].
        intros k K1 K2 K3. apply H3; auto. eapply within_child; eauto.
  Qed.
  (** A key that no block around holds is looked for inside the root. *)
  Lemma elsewhere_plain : forall i key l root, plain key -> around objs i l -> last l 0 = root -> (forall b, In b l -> ~ held r b key) ->
    (forall p, retrieve objs r i key = Found p <-> exists j, topmost objs r root key j /\ holds r j key p /\ forall k, topmost objs r root key k -> k = j) /\
    (retrieve objs r i key = Missing <-> forall j, within objs root j -> ~ held r j key) /\
    (retrieve objs r i key = Duplicate <-> exists j k, topmost objs r root key j /\ topmost objs r root key k /\ j <> k).
  Proof.
    intros i key l root Hp Hl Hroot Hno. assert (Hi : i < List.length objs).
    { inversion Hl as [j Hj|j q m Hq Hm]; subst; [destruct Hj as [o [E _]]|destruct Hq as [o [E _]]]; eapply nth_lt; eauto. }
    assert (HR : In root l /\ root < List.length objs).
    { clear - Hl Hroot. subst root. induction Hl as [i H|i p l Hc H IH]; [split; [left; reflexivity|destruct H as [o [E _]]; eapply nth_lt; eauto]|].
      destruct (around_head _ _ H) as [l' ->]. split; [right; apply IH|]. apply IH. }
    destruct HR as [HR1 HR2].
    assert (EC : forall x, candidate objs r i key x <-> exists j, x = (j, key) /\ topmost objs r root key j).
    { intros x. rewrite <- (answer_plain (S (List.length objs)) root key x Hp HR2) by lia.
      assert (Hnr : ~ held r root key) by (apply Hno; exact HR1). cbn [answer].
      assert (NP := no_path (List.length objs) root key (cut_plain key Hp)). split.
      - intros [l' [Hl' H]]. rewrite (around_unique _ _ _ Hl' Hl) in *. destruct H as [[near [b [far [E [H1 H2]]]]]|[H1 [root' [c [E [H2 H3]]]]]].
        + apply plain_known in H1; [|exact Hp]. exfalso. apply (Hno b); [rewrite E; apply in_or_app; right; left; reflexivity|apply H1].
        + rewrite Hroot in E. subst root'. right. split; [exact Hnr|]. right. split; [exact NP|]. exists c. split; [exact H2|exact H3].
      - intros [[H _]|[_ [H|[_ [c [H1 H2]]]]]]; [contradiction|destruct (NP x H)|]. exists l. split; [exact Hl|]. right. split.
        + intros b Hb y Hy. apply plain_known in Hy; [|exact Hp]. apply (Hno b Hb). apply Hy.
        + exists root, c. auto. }
    destruct (retrieve_spec i key Hi) as [S1 [S2 S3]]. split; [|split].
    - intros p. rewrite S1. split.
      + intros [x [H1 [H2 H3]]]. apply EC in H1. destruct H1 as [j [-> Hj]]. exists j. split; [exact Hj|]. split; [exact H2|]. intros k Hk.
        assert (E : (k, key) = (j, key)) by (apply H3, EC; exists k; auto). congruence.
      + intros [j [H1 [H2 H3]]]. exists (j, key). split; [apply EC; exists j; auto|]. split; [exact H2|]. intros y Hy. apply EC in Hy. destruct Hy as [k [-> Hk]]. rewrite (H3 k Hk). reflexivity.
    - rewrite S2. split.
      + intros H j. induction j as [j IH] using lt_wf_ind. intros Hw Hh. apply (H (j, key)). apply EC. exists j. split; [reflexivity|]. split; [exact Hw|]. split; [exact Hh|].
        intros k K1 K2 K3. apply IH; [apply (within_lt objs L) in K2; lia|exact K1].
      + intros H x Hx. apply EC in Hx. destruct Hx as [j [-> [H1 [H2 _]]]]. exact (H j H1 H2).
    - rewrite S3. split.
      + intros [x [y [H1 [H2 H3]]]]. apply EC in H1. apply EC in H2. destruct H1 as [j [-> Hj]], H2 as [k [-> Hk]]. exists j, k. split; [exact Hj|]. split; [exact Hk|]. congruence.
      + intros [j [k [H1 [H2 H3]]]]. exists (j, key), (k, key). split; [apply EC; exists j; auto|]. split; [apply EC; exists k; auto|]. congruence.
  Qed.
End Data.
