(** Looking names up. *)
From Coq Require Import ZArith List Bool String Ascii Lia Arith.
From Verif Require Import ScanModel ParseModel ExprModel DepModel DeckModel DeckSpec DeckInvProofs.
Import ListNotations.
Local Open Scope nat_scope.

(** ** Names *)
Lemma free_cons : forall sep c s, free_of sep (String c s) <-> c <> sep /\ free_of sep s.
Proof.
  intros sep c s. unfold free_of. cbn. split.
  - intros H. split; [apply (H [] c (list_ascii_of_string s)); reflexivity|]. intros a c' b E. apply (H (c :: a) c' b). rewrite E. reflexivity.
  - intros [H1 H2] [|x a] c' b E; cbn in E; inversion E; subst; [exact H1|]. eapply H2; eauto.
Qed.
Lemma free_nil : forall sep, free_of sep EmptyString.
Proof. intros sep [|x a] c b E; discriminate. Qed.
Lemma split_at_free : forall sep h, free_of sep h -> split_at sep h = (h, []).
Proof.
  induction h as [|c h IH]; intros H; [reflexivity|]. apply free_cons in H. destruct H as [H1 H2]. cbn. rewrite IH by exact H2.
  destruct (Ascii.eqb_spec c sep); [contradiction|reflexivity].
Qed.
Lemma split_at_app : forall sep h s, free_of sep h -> split_at sep (h ++ String sep s)%string = (h, split sep s).
Proof.
  intros sep h s. unfold split. induction h as [|c h IH]; intros H.
  - cbn. destruct (split_at sep s) as [h' t']. rewrite Ascii.eqb_refl. reflexivity.
  - apply free_cons in H. destruct H as [H1 H2]. cbn. rewrite (IH H2). destruct (Ascii.eqb_spec c sep); [contradiction|reflexivity].
Qed.
Lemma split_concat : forall sep path, path <> [] -> Forall (free_of sep) path -> split sep (String.concat (String sep EmptyString) path) = path.
Proof.
  intros sep path. induction path as [|h [|x path] IH]; intros Hn Hf; [congruence| |].
  - inversion Hf; subst. cbn. unfold split. rewrite split_at_free by assumption. reflexivity.
  - inversion Hf; subst. change (String.concat (String sep EmptyString) (h :: x :: path)) with (h ++ String sep (String.concat (String sep EmptyString) (x :: path)))%string.
    unfold split at 1. rewrite split_at_app by assumption. rewrite IH; [reflexivity|discriminate|assumption].
Qed.
Lemma split_at_spec : forall sep s, let (h, t) := split_at sep s in Forall (free_of sep) (h :: t) /\ s = String.concat (String sep EmptyString) (h :: t).
Proof.
  intros sep. induction s as [|c s IH]; cbn [split_at].
  - split; [repeat constructor; apply free_nil|reflexivity].
  - destruct (split_at sep s) as [h t]. destruct IH as [I1 I2]. destruct (Ascii.eqb_spec c sep) as [->|Hn].
    + split; [constructor; [apply free_nil|exact I1]|]. rewrite I2. reflexivity.
    + inversion I1; subst. split; [constructor; [apply free_cons; auto|assumption]|]. destruct t; reflexivity.
Qed.
Lemma components_split : forall sep name path, components sep name path <-> split sep name = path.
Proof.
  intros sep name path. split.
  - intros [H1 [H2 ->]]. apply split_concat; assumption.
  - intros <-. unfold split. pose proof (split_at_spec sep name) as H. destruct (split_at sep name) as [h t]. destruct H as [H1 H2]. split; [discriminate|]. split; assumption.
Qed.

(** ** Blocks *)
Section Blocks.
  Variable bs : list bvar.
  Variable nv : nat.
  Hypothesis H : wf_blocks bs nv.

  Lemma enclosing_exists : forall b, b < List.length bs -> exists l, enclosing bs b l.
  Proof.
    induction b as [b IH] using lt_wf_ind. intros Hb. destruct (nth_error bs b) as [blk|] eqn:E; [|apply nth_error_None in E; lia].
    pose proof (wb_parent _ _ H b blk E) as P. destruct (b_parent blk) as [p|] eqn:Ep.
    - destruct (IH p) as [l Hl]; [lia|lia|]. exists (b :: l). eapply enc_in; eauto.
    - exists [b]. eapply enc_root; eauto.
  Qed.
  Lemma enclosing_unique : forall b l l', enclosing bs b l -> enclosing bs b l' -> l = l'.
  Proof.
    intros b l l' H1. revert l'. induction H1 as [b blk E P|b blk p l E P H1 IH]; intros l' H2; inversion H2; subst; try congruence. f_equal. apply IH. congruence.
  Qed.
  Lemma declares_sfind : forall b blk name x, nth_error bs b = Some blk -> (sfind (b_vars blk) name = Some x <-> declares bs b name x).
  Proof.
    intros b blk name x E. split.
    - intros Hs. exists blk. split; [exact E|apply sfind_in; exact Hs].
    - intros [blk' [E' I]]. assert (blk' = blk) by congruence. subst. apply in_sfind; [apply (wb_names _ _ H b blk E)|exact I].
  Qed.
  Lemma contains_sfind : forall b blk name c, nth_error bs b = Some blk -> (sfind (b_children blk) name = Some c <-> contains bs b name c).
  Proof.
    intros b blk name c E. split.
    - intros Hs. apply sfind_in in Hs. apply (wb_child _ _ H b blk name c E Hs).
    - intros [cb [C1 [C2 <-]]]. pose proof (wb_parent _ _ H c cb C1) as P. rewrite C2 in P. destruct P as [_ [pb [P1 P2]]]. assert (pb = blk) by congruence. subst.
      apply in_sfind; [apply (wb_names _ _ H b blk E)|exact P2].
  Qed.
  Lemma declares_none : forall b blk name, nth_error bs b = Some blk -> (sfind (b_vars blk) name = None <-> ~ exists x, declares bs b name x).
  Proof.
    intros b blk name E. split.
    - intros Hs [x Hx]. apply (declares_sfind b blk name x E) in Hx. congruence.
    - intros Hs. destruct (sfind (b_vars blk) name) as [x|] eqn:Ex; [|reflexivity]. exfalso. apply Hs. exists x. apply (declares_sfind b blk name x E). exact Ex.
  Qed.
  Lemma contains_none : forall b blk name, nth_error bs b = Some blk -> (sfind (b_children blk) name = None <-> ~ exists x, contains bs b name x).
  Proof.
    intros b blk name E. split.
    - intros Hs [x Hx]. apply (contains_sfind b blk name x E) in Hx. congruence.
    - intros Hs. destruct (sfind (b_children blk) name) as [x|] eqn:Ex; [|reflexivity]. exfalso. apply Hs. exists x. apply (contains_sfind b blk name x E). exact Ex.
  Qed.
  Lemma leads_some : forall b path x, leads bs b path x -> exists blk, nth_error bs b = Some blk.
  Proof.
    intros b path x Hl. inversion Hl as [? ? ? D|? ? ? ? ? C]; subst.
    - destruct D as [blk [E _]]. eauto.
    - destruct C as [cb [C1 [C2 _]]]. pose proof (wb_parent _ _ H _ cb C1) as P. rewrite C2 in P. destruct P as [_ [pb [P1 _]]]. eauto.
  Qed.
  Lemma leads_nonempty : forall b path x, leads bs b path x -> path <> [].
  Proof. intros b path x Hl. inversion Hl; discriminate. Qed.
  Lemma get_down_leads : forall path b x, get_down bs b path = Some x <-> leads bs b path x.
  Proof.
    induction path as [|name path IH]; intros b x.
    - split; [cbn; destruct (nth_error bs b); discriminate|]. intros Hl. apply leads_nonempty in Hl. congruence.
    - destruct (nth_error bs b) as [blk|] eqn:E.
      + destruct path as [|name' path].
        * cbn. rewrite E. rewrite (declares_sfind b blk name x E). split; [intros D; constructor; exact D|]. intros Hl. inversion Hl as [|? ? ? ? ? C L]; subst; [assumption|]. apply leads_nonempty in L. congruence.
        * change (get_down bs b (name :: name' :: path)) with (match nth_error bs b with None => None | Some blk => match sfind (b_children blk) name with Some c => get_down bs c (name' :: path) | None => None end end).
          rewrite E. split.
          -- destruct (sfind (b_children blk) name) as [c|] eqn:Ec; [|discriminate]. intros G. apply IH in G. eapply leads_in; [apply (contains_sfind b blk name c E); exact Ec|exact G].
          -- intros Hl. inversion Hl as [|? ? c ? ? C L]; subst. apply (contains_sfind b blk name c E) in C. rewrite C. apply IH. exact L.
      + split; [cbn; rewrite E; destruct path; discriminate|]. intros Hl. destruct (leads_some b _ x Hl) as [blk Eb]. congruence.
  Qed.

  Lemma means_nonempty : forall b path x, means bs b path x -> exists l, enclosing bs b l.
  Proof. intros b [|name [|name' path]] x M; cbn in M; [contradiction| |]; [destruct M as [l [c [Hl _]]]|destruct M as [l [c [s [Hl _]]]]]; eauto. Qed.
  Lemma nearest_here : forall b l (P : nat -> Prop), P b -> nearest (b :: l) P b.
  Proof. intros b l P Hb. exists [], l. split; [reflexivity|]. split; [exact Hb|]. intros c []. Qed.
  Lemma nearest_further : forall b l (P : nat -> Prop) c, ~ P b -> nearest l P c -> nearest (b :: l) P c.
  Proof. intros b l P c Hb [x [y [E [Hc Hn]]]]. exists (b :: x), y. subst. split; [reflexivity|]. split; [exact Hc|]. intros e [<-|He]; auto. Qed.
  Lemma nearest_inv : forall b l (P : nat -> Prop) c, nearest (b :: l) P c -> (c = b /\ P b) \/ (~ P b /\ nearest l P c).
  Proof.
    intros b l P c [[|e x] [y [E [Hc Hn]]]]; cbn in E; inversion E; subst; [left; auto|]. right. split; [apply Hn; left; reflexivity|]. exists x, y. split; [reflexivity|]. split; [exact Hc|].
    intros e' He'. apply Hn. right. exact He'.
  Qed.
  Lemma nearest_nil : forall (P : nat -> Prop) c, ~ nearest [] P c.
  Proof. intros P c [[|e x] [y [E _]]]; discriminate. Qed.

  Lemma get_up_means : forall k b path x, b <= k -> get_up k bs b path = Some x <-> means bs b path x.
  Proof.
    induction k as [|k IH]; intros b path x Hk.
    all: destruct (nth_error bs b) as [blk|] eqn:E; [|split; [destruct path as [|? [|? ?]]; cbn; rewrite E; discriminate|intros M; apply means_nonempty in M; destruct M as [l Hl]; inversion Hl; congruence]].
    - assert (b = 0) by lia. subst b. pose proof (wb_root_parent _ _ H blk E) as R.
      assert (Enc : forall l, enclosing bs 0 l <-> l = [0]).
      { intros l. split; [intros Hl; inversion Hl; subst; congruence|]. intros ->. eapply enc_root; eauto. }
      destruct path as [|name [|name' path]].
      + change (get_up 0 bs 0 []) with (match nth_error bs 0 with None => @None nat | Some _ => None end). rewrite E. split; [discriminate|contradiction].
      + change (get_up 0 bs 0 [name]) with (match nth_error bs 0 with None => None | Some blk => match sfind (b_vars blk) name with Some x => Some x | None => None end end).
        rewrite E. split.
        * destruct (sfind (b_vars blk) name) as [y|] eqn:Ey; [|discriminate]. intros Q. inversion Q; subst y. apply (declares_sfind 0 blk name x E) in Ey. exists [0], 0. split; [apply Enc; reflexivity|]. split; [apply nearest_here; eauto|exact Ey].
        * intros [l [c [Hl [Hc Hd]]]]. apply Enc in Hl. subst l. apply nearest_inv in Hc. destruct Hc as [[-> _]|[_ Hc]]; [|destruct (nearest_nil _ _ Hc)]. apply (declares_sfind 0 blk name x E) in Hd. rewrite Hd. reflexivity.
      + change (get_up 0 bs 0 (name :: name' :: path)) with (match nth_error bs 0 with None => None | Some blk => match sfind (b_children blk) name with Some c => get_down bs c (name' :: path) | None => None end end).
        rewrite E. split.
        * destruct (sfind (b_children blk) name) as [s|] eqn:Ey; [|discriminate]. intros Q. apply get_down_leads in Q. apply (contains_sfind 0 blk name s E) in Ey.
          exists [0], 0, s. split; [apply Enc; reflexivity|]. split; [apply nearest_here; eauto|]. auto.
        * intros [l [c [s [Hl [Hc [Hs Hd]]]]]]. apply Enc in Hl. subst l. apply nearest_inv in Hc. destruct Hc as [[-> _]|[_ Hc]]; [|destruct (nearest_nil _ _ Hc)].
          apply (contains_sfind 0 blk name s E) in Hs. rewrite Hs. apply get_down_leads. exact Hd.
    - pose proof (wb_parent _ _ H b blk E) as P.
      assert (Enc : forall l, enclosing bs b l <-> match b_parent blk with None => l = [b] | Some p => exists l', l = b :: l' /\ enclosing bs p l' end).
      { intros l. split.
        - intros Hl. inversion Hl as [? ? E1 P1|? ? p l' E1 P1 Hp]; subst; assert (blk0 = blk) by congruence; subst; rewrite P1; eauto.
        - destruct (b_parent blk) as [p|] eqn:Ep; [intros [l' [-> Hl]]; eapply enc_in; eauto|]. intros ->. eapply enc_root; eauto. }
      destruct path as [|name [|name' path]].
      + cbn. rewrite E. split; [discriminate|contradiction].
      + change (get_up (S k) bs b [name]) with (match nth_error bs b with None => None | Some blk => match sfind (b_vars blk) name with Some x => Some x | None => match b_parent blk with Some p => get_up k bs p [name] | None => None end end end).
        rewrite E. destruct (sfind (b_vars blk) name) as [y|] eqn:Ey.
        * apply (declares_sfind b blk name y E) in Ey. split.
          -- intros Q. inversion Q; subst y. destruct (enclosing_exists b) as [l Hl]; [eapply nth_lt; eauto|]. exists l, b. split; [exact Hl|]. split; [|exact Ey].
             apply Enc in Hl. destruct (b_parent blk); [destruct Hl as [l' [-> _]]|subst l]; apply nearest_here; eauto.
          -- intros [l [c [Hl [Hc Hd]]]]. assert (c = b). { apply Enc in Hl. destruct (b_parent blk); [destruct Hl as [l' [-> _]]|subst l]; apply nearest_inv in Hc; destruct Hc as [[-> _]|[N _]]; auto; exfalso; apply N; eauto. }
             subst c. apply (declares_sfind b blk name) in Hd; [|exact E]. apply (declares_sfind b blk name) in Ey; [|exact E]. congruence.
        * apply (declares_none b blk name E) in Ey. destruct (b_parent blk) as [p|] eqn:Ep.
          -- rewrite IH by lia. split.
             ++ intros [l [c [Hl [Hc Hd]]]]. exists (b :: l), c. split; [apply Enc; eauto|]. split; [apply nearest_further; assumption|exact Hd].
             ++ intros [l [c [Hl [Hc Hd]]]]. apply Enc in Hl. destruct Hl as [l' [-> Hl]]. apply nearest_inv in Hc. destruct Hc as [[-> Q]|[_ Hc]]; [contradiction|]. exists l', c. auto.
          -- split; [discriminate|]. intros [l [c [Hl [Hc Hd]]]]. apply Enc in Hl. subst l. apply nearest_inv in Hc. destruct Hc as [[-> Q]|[_ Hc]]; [contradiction|destruct (nearest_nil _ _ Hc)].
      + change (get_up (S k) bs b (name :: name' :: path)) with (match nth_error bs b with None => None | Some blk => match sfind (b_children blk) name with Some c => get_down bs c (name' :: path) | None => match b_parent blk with Some p => get_up k bs p (name :: name' :: path) | None => None end end end).
        rewrite E. destruct (sfind (b_children blk) name) as [s|] eqn:Ey.
        * apply (contains_sfind b blk name s E) in Ey. rewrite get_down_leads. split.
          -- intros Q. destruct (enclosing_exists b) as [l Hl]; [eapply nth_lt; eauto|]. exists l, b, s. split; [exact Hl|]. split; [|auto].
             apply Enc in Hl. destruct (b_parent blk); [destruct Hl as [l' [-> _]]|subst l]; apply nearest_here; eauto.
          -- intros [l [c [s' [Hl [Hc [Hs Hd]]]]]]. assert (c = b). { apply Enc in Hl. destruct (b_parent blk); [destruct Hl as [l' [-> _]]|subst l]; apply nearest_inv in Hc; destruct Hc as [[-> _]|[N _]]; auto; exfalso; apply N; eauto. }
             subst c. apply (contains_sfind b blk name) in Hs; [|exact E]. apply (contains_sfind b blk name) in Ey; [|exact E]. assert (s = s') by congruence. subst. exact Hd.
        * apply (contains_none b blk name E) in Ey. destruct (b_parent blk) as [p|] eqn:Ep.
          -- rewrite IH by lia. split.
             ++ intros [l [c [s [Hl [Hc Hd]]]]]. exists (b :: l), c, s. split; [apply Enc; eauto|]. split; [apply nearest_further; assumption|exact Hd].
             ++ intros [l [c [s [Hl [Hc Hd]]]]]. apply Enc in Hl. destruct Hl as [l' [-> Hl]]. apply nearest_inv in Hc. destruct Hc as [[-> Q]|[_ Hc]]; [contradiction|]. exists l', c, s. auto.
          -- split; [discriminate|]. intros [l [c [s [Hl [Hc Hd]]]]]. apply Enc in Hl. subst l. apply nearest_inv in Hc. destruct Hc as [[-> Q]|[_ Hc]]; [contradiction|destruct (nearest_nil _ _ Hc)].
  Qed.
  Lemma get_variable_means : forall b name path x, components ":" name path -> get_variable bs b name = Some x <-> means bs b path x.
  Proof. intros b name path x Hp. apply components_split in Hp. subst path. unfold get_variable. apply get_up_means. lia. Qed.

  (** [exists] without the upward step. *)
  Lemma exists_local : forall path b, b < List.length bs -> path <> [] ->
    exists r, exists_path bs b path false = Some r /\ (r = true <-> exists x, leads bs b path x).
  Proof.
    induction path as [|name path IH]; intros b Hb Hp; [congruence|]. destruct (nth_error bs b) as [blk|] eqn:E; [|apply nth_error_None in E; lia].
    destruct path as [|name' path].
    - cbn. rewrite E. destruct (sfind (b_vars blk) name) as [y|] eqn:Ey.
      + exists true. split; [reflexivity|]. split; [intros _|auto]. exists y. apply get_down_leads. cbn. rewrite E. exact Ey.
      + exists false. split; [reflexivity|]. split; [discriminate|]. intros [x Hx]. apply get_down_leads in Hx. cbn in Hx. rewrite E in Hx. congruence.
    - change (exists_path bs b (name :: name' :: path) false) with (match nth_error bs b with None => None | Some blk => match sfind (b_children blk) name with Some c => exists_path bs c (name' :: path) false | None => Some false end end).
      rewrite E. destruct (sfind (b_children blk) name) as [c|] eqn:Ec.
      + apply (contains_sfind b blk name c E) in Ec. destruct (IH c) as [r [R1 R2]]; [destruct Ec as [cb [C1 _]]; eapply nth_lt; eauto|discriminate|]. exists r. split; [exact R1|]. rewrite R2. split; intros [x Hx]; exists x.
        * eapply leads_in; eauto.
        * inversion Hx as [|? ? c' ? ? C L]; subst. assert (c' = c). { apply (contains_sfind b blk name) in C; [|exact E]. apply (contains_sfind b blk name) in Ec; [|exact E]. congruence. } subst. exact L.
      + exists false. split; [reflexivity|]. split; [discriminate|]. intros [x Hx]. inversion Hx as [|? ? c' ? ? C L]; subst. apply (contains_none b blk name E) in Ec. exfalso. eauto.
  Qed.
End Blocks.
