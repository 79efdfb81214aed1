(** Uniqueness of derivations, and decks with short statements. *)
From Coq Require Import ZArith List Bool Lia.
From Verif Require Import ScanModel ParseModel ParseSpec ParseTableProofs ParseProofs ParseSoundProofs ParseRunProofs.
Import ListNotations.
Local Open Scope Z_scope.

(** ** Every sentence has one derivation *)
Section Unique.
  Context {V : Type}.
  Fixpoint lift (t : tree V) : tree (tree V) :=
    match t with Leaf c v => Leaf c (Leaf c v) | Node r kids => Node r (map lift kids) end.
  Definition build (r : nat) (vs : list (tree V)) (s : tree V) : Empty_set + (tree V * tree V) := inr (Node r vs, Node r vs).

  Lemma lift_ok : (forall X (t : tree V), derives X t -> derives X (lift t) /\ yield (lift t) = map (fun x => (fst x, Leaf (fst x) (snd x))) (yield t) /\
        forall s, exists s', perform build (lift t) s = inr (t, s') /\ match t with Node _ _ => s' = t | _ => True end) /\
    (forall Xs (kids : list (tree V)), derives_all Xs kids -> derives_all Xs (map lift kids) /\
        flat_map yield (map lift kids) = map (fun x => (fst x, Leaf (fst x) (snd x))) (flat_map yield kids) /\
        forall s, exists s', perform_list build (map lift kids) s = inr (kids, s')).
  Proof.
    apply (derives_mutind V
      (fun X t _ => derives X (lift t) /\ yield (lift t) = map (fun x => (fst x, Leaf (fst x) (snd x))) (yield t) /\
        forall s, exists s', perform build (lift t) s = inr (t, s') /\ match t with Node _ _ => s' = t | _ => True end)
      (fun Xs kids _ => derives_all Xs (map lift kids) /\
        flat_map yield (map lift kids) = map (fun x => (fst x, Leaf (fst x) (snd x))) (flat_map yield kids) /\
        forall s, exists s', perform_list build (map lift kids) s = inr (kids, s'))).
    - intros c v. split; [constructor|]. split; [reflexivity|]. intros s. exists s. split; [reflexivity|exact I].
    - intros r A rhs kids Hg _ [IH1 [IH2 IH3]]. split; [econstructor; eassumption|]. split; [exact IH2|].
      intros s. destruct (IH3 s) as [s' E]. exists (Node r kids). cbn [lift]. rewrite perform_node, E. split; reflexivity.
    - split; [constructor|]. split; [reflexivity|]. intros s. exists s. reflexivity.
    - intros X rhs t kids _ [I1 [I2 I3]] _ [J1 [J2 J3]]. split; [constructor; assumption|]. split.
      + cbn [map flat_map]. rewrite map_app, I2, J2. reflexivity.
      + intros s. destruct (I3 s) as [s1 [E1 _]]. destruct (J3 s1) as [s2 E2]. exists s2. cbn [map perform_list]. rewrite E1, E2. reflexivity.
  Qed.

  Theorem derivation_unique : forall t1 t2 : tree V, derives (N Deck) t1 -> derives (N Deck) t2 -> token_list (yield t1) ->
    yield t1 = yield t2 -> t1 = t2.
  Proof.
    intros t1 t2 D1 D2 Ht Hy.
    destruct (proj1 lift_ok _ _ D1) as [L1 [Y1 P1]]. destruct (proj1 lift_ok _ _ D2) as [L2 [Y2 P2]].
    assert (Tl : token_list (yield (lift t1))).
    { rewrite Y1. unfold token_list. apply Forall_map. eapply Forall_impl; [|exact Ht]. intros [c v] H. exact H. }
    assert (Ey : yield (lift t1) = yield (lift t2)) by (rewrite Y1, Y2, Hy; reflexivity).
    destruct (list_bound (pending (lift t1))) as [n1 H1]. destruct (list_bound (pending (lift t2))) as [n2 H2].
    pose proof (deck_parsed (Node 0 []) build (S (n1 + n2)) (lift t1) t1 L1 Tl) as K1.
    pose proof (deck_parsed (Node 0 []) build (S (n1 + n2)) (lift t2) t1 L2 ltac:(rewrite <- Ey; exact Tl)) as K2.
    specialize (K1 ltac:(eapply Forall_impl; [|exact H1]; cbn; intros; lia)).
    specialize (K2 ltac:(eapply Forall_impl; [|exact H2]; cbn; intros; lia)).
    rewrite <- Ey in K2. pose proof (ends_det _ _ _ _ _ _ _ _ K1 K2) as K.
    destruct (P1 t1) as [s1 [E1 F1]]. destruct (P2 t1) as [s2 [E2 F2]]. rewrite E1, E2 in K. cbn in K. injection K as ->.
    inversion D1; subst. inversion D2; subst. congruence.
  Qed.
End Unique.

(** ** Decks with short statements *)
Section Short.
  Context {V : Type}.
  Definition sym_inner (X : sym) : bool :=
    match X with
    | T c => negb (c =? SEMICOLON) && negb (c =? LBRACE) && negb (c =? RBRACE)
    | N Deck | N StatementList | N Statement | N StartBlock => false
    | N _ => true
    end.
  Lemma inner_rules : forall r A rhs, nth_error grammar r = Some (A, rhs) -> sym_inner (N A) = true -> forallb sym_inner rhs = true.
  Proof.
    intros r A rhs Hg HA. do 48 (destruct r as [|r]; [cbn in Hg; injection Hg as <- <-; first [discriminate HA|reflexivity]|]).
    destruct r; discriminate Hg.
  Qed.
  Notation goes_on := (Forall (fun x : Z * V => ~ ends_statement (fst x))).
  Lemma inner_goes_on : (forall X (t : tree V), derives X t -> sym_inner X = true -> goes_on (yield t)) /\
    (forall Xs (kids : list (tree V)), derives_all Xs kids -> forallb sym_inner Xs = true -> goes_on (flat_map yield kids)).
  Proof.
    apply (derives_mutind V (fun X t _ => sym_inner X = true -> goes_on (yield t))
      (fun Xs kids _ => forallb sym_inner Xs = true -> goes_on (flat_map yield kids))).
    - intros c v H. constructor; [|constructor]. cbn in *. unfold ends_statement. cbn. intros K.
      apply andb_true_iff in H. destruct H as [H H3]. apply andb_true_iff in H. destruct H as [H1 H2].
      apply negb_true_iff, Z.eqb_neq in H1. apply negb_true_iff, Z.eqb_neq in H2. apply negb_true_iff, Z.eqb_neq in H3.
      destruct K as [K|[K|[K|[]]]]; congruence.
    - intros r A rhs kids Hg _ IH HA. apply IH. eapply inner_rules; eassumption.
    - intros _. constructor.
    - intros X rhs t kids _ IH1 _ IH2 H. cbn in H. apply andb_true_iff in H. destruct H as [H1 H2]. apply Forall_app. split; auto.
  Qed.

  Ltac split_all := repeat match goal with
    | H : derives_all [] _ |- _ => inversion H; subst; clear H
    | H : derives_all (_ :: _) _ |- _ => inversion H; subst; clear H
    | H : derives (T _) _ |- _ => inversion H; subst; clear H
    end.
  Ltac each_rule n r Hg := lazymatch n with
    | O => destruct r; discriminate Hg
    | S ?m => destruct r as [|r]; [cbn in Hg; try discriminate Hg; injection Hg as Hg; subst; split_all|each_rule m r Hg]
    end.
  Lemma firstn_short : forall {B} k (l : list B) x, (k < length (l ++ [x]))%nat -> firstn k (l ++ [x]) = firstn k l.
  Proof. intros B k l x H. rewrite app_length in H. cbn in H. rewrite firstn_app. replace (k - length l)%nat with 0%nat by lia. cbn. apply app_nil_r. Qed.
  Lemma Forall_firstn : forall {B} (P : B -> Prop) k l, Forall P l -> Forall P (firstn k l).
  Proof. intros B P k l H. revert k. induction H; intros [|k]; cbn; constructor; auto. Qed.
  Lemma token_goes_on : forall c (v : V), sym_inner (T c) = true -> goes_on [(c, v)].
  Proof. intros c v H. apply (proj1 inner_goes_on (T c) (Leaf c v)); [constructor|exact H]. Qed.

  (** Only the last token of a statement ends a statement. *)
  Lemma statement_shape : forall t : tree V, derives (N Statement) t -> token_list (yield t) ->
    exists l x, yield t = l ++ [x] /\ goes_on l.
  Proof.
    intros t H Ht. inversion H as [|r A rhs kids Hg Hall]; subst.
    each_rule 48%nat r Hg.
    - match goal with H1 : derives (N TypeDecl) ?a, H2 : derives (N DeclList) ?b |- _ =>
        exists (yield a ++ yield b); eexists; split; [cbn; rewrite <- app_assoc; reflexivity|];
        apply Forall_app; split; [exact (proj1 inner_goes_on _ _ H1 eq_refl)|exact (proj1 inner_goes_on _ _ H2 eq_refl)] end.
    - match goal with H1 : derives (N Assignment) ?a |- _ => exists (yield a); eexists; split; [reflexivity|exact (proj1 inner_goes_on _ _ H1 eq_refl)] end.
    - eexists [_; _], _. split; [reflexivity|]. constructor; [|constructor; [|constructor]]; cbn; intros [K|[K|[K|[]]]]; discriminate K.
    - match goal with H1 : derives (N StartBlock) _ |- _ => inversion H1 as [|r A rhs kids Hg' Hall']; subst end.
      each_rule 48%nat r Hg'.
      + eexists [_; _], _. split; [reflexivity|]. constructor; [|constructor; [|constructor]]; cbn; intros [K|[K|[K|[]]]]; discriminate K.
      + eexists [_], _. split; [reflexivity|]. constructor; [|constructor]; cbn; intros [K|[K|[K|[]]]]; discriminate K.
    - eexists [], _. split; [reflexivity|constructor].
    - eexists [], _. split; [reflexivity|constructor].
  Qed.

  Lemma list_runs : forall n (t : tree V), (length (yield t) < n)%nat -> derives (N StatementList) t -> token_list (yield t) ->
    forall k, (k < length (yield t))%nat -> exists p m, firstn k (yield t) = p ++ m /\ goes_on m /\ (nth k (pending t) 0 <= length m + 2)%nat.
  Proof.
    induction n as [|n IH]; intros t Hn H Ht k Hk; [lia|]. inversion H as [|r A rhs kids Hg Hall]; subst.
    each_rule 48%nat r Hg.
    - match goal with H1 : derives (N StatementList) ?a, H2 : derives (N Statement) ?b |- _ => rename a into sl; rename b into st; rename H1 into Dl; rename H2 into Ds end.
      cbn [yield flat_map] in *. rewrite app_nil_r in *. apply Forall_app in Ht. destruct Ht as [Ht1 Ht2].
      rewrite pending_node. cbn [pending_list]. rewrite app_nil_r. 
      replace (map (Nat.add 0) (pending sl)) with (pending sl) by (symmetry; apply map_id).
      pose proof (proj1 (pending_length_mut) _ _ Dl) as L1. pose proof (proj1 (pending_length_mut) _ _ Ds) as L2.
      destruct (Nat.lt_ge_cases k (length (yield sl))) as [H1|H1].
      + destruct (statement_shape _ Ds Ht2) as [l [x [El _]]].
        assert (Hl : (0 < length (yield st))%nat) by (rewrite El, app_length; cbn; lia).
        destruct (IH sl ltac:(rewrite app_length in Hn; lia) Dl Ht1 k H1) as [p [m [E1 [G1 B1]]]]. exists p, m. split; [|split; [exact G1|]].
        * rewrite firstn_app. replace (k - length (yield sl))%nat with 0%nat by lia. cbn. rewrite app_nil_r. exact E1.
        * rewrite app_nth1 by lia. exact B1.
      + destruct (statement_shape _ Ds Ht2) as [l [x [El G]]]. set (j := (k - length (yield sl))%nat).
        rewrite app_length in Hk.
        exists (yield sl), (firstn j (yield st)). split.
        * rewrite firstn_app, firstn_all2 by lia. reflexivity.
        * split.
          -- rewrite El, firstn_short by (rewrite <- El; unfold j; lia). apply Forall_firstn. exact G.
          -- rewrite app_nth2 by lia. rewrite L1. fold j. rewrite (nth_indep _ 0%nat (1 + 0)%nat) by (rewrite map_length; unfold j; lia).
             rewrite (map_nth (Nat.add 1)). pose proof (pending_index st j ltac:(eexists; exact Ds)). rewrite firstn_length. unfold j in *. lia.
    - match goal with H2 : derives (N Statement) ?b |- _ => rename b into st; rename H2 into Ds end.
      cbn [yield flat_map] in *. rewrite app_nil_r in *. destruct (statement_shape _ Ds Ht) as [l [x [El G]]].
      exists [], (firstn k (yield st)). split; [reflexivity|]. split.
      + rewrite El, firstn_short by (rewrite <- El; lia). apply Forall_firstn. exact G.
      + rewrite pending_node. cbn [pending_list]. rewrite app_nil_r.
        replace (map (Nat.add 0) (pending st)) with (pending st) by (symmetry; apply map_id).
        pose proof (pending_index st k ltac:(eexists; exact Ds)). rewrite firstn_length. lia.
  Qed.

  Theorem short_shallow : forall n (toks : list (Z * V)), short_statements n toks -> shallow (n + 2) toks.
  Proof.
    intros n toks H t p q q' Hd Ht Ep Ey. inversion Hd as [|r A rhs kids Hg Hall]; subst.
    each_rule 48%nat r Hg.
    match goal with H1 : derives (N StatementList) ?a |- _ => rename a into sl; rename H1 into Dl end.
    rewrite pending_node. cbn [pending_list]. rewrite app_nil_r. replace (map (Nat.add 0) (pending sl)) with (pending sl) by (symmetry; apply map_id).
    cbn [yield flat_map] in *. rewrite app_nil_r in *. apply Forall_nth. intros k d Hk. rewrite firstn_length in Hk.
    pose proof (proj1 (pending_length_mut) _ _ Dl) as L1.
    destruct (list_runs (S (length (yield sl))) sl ltac:(lia) Dl Ht k ltac:(lia)) as [p' [m [E1 [G1 B1]]]].
    rewrite (nth_indep _ d 0%nat) by (rewrite firstn_length; exact Hk). 
    assert (Hm : (length m <= n)%nat).
    { rewrite Ey, firstn_app in E1. replace (k - length p)%nat with 0%nat in E1 by lia. cbn in E1. rewrite app_nil_r in E1.
      apply (H p' m (skipn k p ++ q)); [|exact G1]. rewrite app_assoc, <- E1, app_assoc, firstn_skipn. reflexivity. }
    assert (En : nth k (firstn (length p) (pending sl)) 0%nat = nth k (pending sl) 0%nat).
    { rewrite <- (firstn_skipn (length p) (pending sl)) at 2. rewrite app_nth1; [reflexivity|]. rewrite firstn_length. lia. }
    rewrite En. lia.
  Qed.
End Short.

(** ** Beginnings *)
Section Begin.
  Context {V St E : Type}.
  Variable nv : V.
  Variable act : nat -> list V -> St -> E + (V * St).
  Lemma own_length : forall t : tree V, derives (N Deck) t -> pending_below (length (yield t)) t.
  Proof.
    intros t Hd. apply Forall_nth. intros k d Hk. rewrite (nth_indep _ d 0%nat) by exact Hk.
    pose proof (pending_index t k ltac:(eexists; exact Hd)). rewrite (proj1 (pending_length_mut) _ _ Hd) in Hk. lia.
  Qed.
  (** A list of tokens that a parser with a stack of sufficient size rejects is no sentence. *)
  Lemma rejected_no_sentence : forall toks s v, token_list toks ->
    ends nv act (S (length toks)) new_parser toks s (SyntaxError v) -> ~ sentence toks.
  Proof.
    intros toks s v Ht K [t [Hd Hy]]. pose proof (own_length t Hd) as Hp. rewrite Hy in Hp.
    pose proof (deck_parsed nv act (S (length toks)) t s Hd ltac:(rewrite Hy; exact Ht)) as K2.
    replace (S (length toks) - 1)%nat with (length toks) in K2 by lia. specialize (K2 Hp). rewrite Hy in K2.
    pose proof (ends_det _ _ _ _ _ _ _ _ K K2) as X. destruct (perform act t s) as [x|[v' s']]; discriminate X.
  Qed.
End Begin.
