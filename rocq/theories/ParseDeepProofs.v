(** Sentences that need more than the stack: they are never misread.  When the stack overflows within a
    sentence, the rest of it does not begin with a statement. *)
From Coq Require Import ZArith List Bool Lia Arith.
From Verif Require Import ScanModel ParseModel ParseSpec ParseTableProofs ParseProofs ParseSoundProofs ParseRunProofs ParseMoreProofs.
Import ListNotations.
Local Open Scope Z_scope.

(** ** States with many entries below them *)
Definition nexts (l : list Z) : list Z := flat_map (fun q => flat_map (fun X => match trans q X with Some q' => [q'] | None => [] end) symbols) l.
Definition deep : list Z :=
  [1; 2; 4; 6; 7; 8; 9; 10; 11; 12; 13; 15; 17; 18; 21; 22; 23; 24; 25; 31; 32; 47; 48; 49; 50; 51; 52; 53; 54; 55; 56; 57; 58; 59; 60; 61;
   62; 63; 64; 65; 66; 67; 68; 69].
Fixpoint dedup (l : list Z) : list Z := match l with [] => [] | x :: l' => if zin x l' then dedup l' else x :: dedup l' end.
Fixpoint level (n : nat) : list Z := match n with O => [0] | S k => dedup (nexts (level k)) end.
Lemma level_S : forall k, level (S k) = dedup (nexts (level k)).
Proof. reflexivity. Qed.
Lemma dedup_in : forall x l, In x l -> In x (dedup l).
Proof.
  induction l as [|y l IH]; intros H; [exact H|]. cbn. destruct (zin y l) eqn:E.
  - destruct H as [->|H]; [apply IH, zin_in, E|apply IH, H].
  - destruct H as [->|H]; [left; reflexivity|right; apply IH, H].
Qed.
Lemma nexts_in : forall l q X q', In q l -> trans q X = Some q' -> In q' (nexts l).
Proof.
  intros l q X q' Hq Ht. apply in_flat_map. exists q. split; [exact Hq|]. apply in_flat_map. exists X. split; [apply (trans_symbol _ _ _ Ht)|]. rewrite Ht. left. reflexivity.
Qed.
Lemma level8 : zsub (level 8) deep = true.
Proof. vm_compute. reflexivity. Qed.
Lemma deep_closed : zsub (nexts deep) deep = true.
Proof. vm_compute. reflexivity. Qed.

(** ** The tables around the beginning of a statement *)
Definition goes (q x : Z) : bool := match trans q (T x) with Some _ => true | None => false end.
Definition accessed (X : sym) (q : Z) : bool := existsb (fun p => match trans p X with Some q' => q' =? q | None => false end) states.
Definition openers : list Z := [INCLUDE; RBRACE; INT_DECL; FLOAT_DECL; STRING_DECL].
Definition seconds : list Z := [EQUAL; IDENTIFIER; LBRACE].
(** The state after an identifier that one of the seconds may follow. *)
Definition named (q : Z) : bool := match trans q (T IDENTIFIER) with Some q1 => existsb (goes q1) seconds | None => false end.
Definition is_top (X : sym) : bool := match X with N StatementList | N TypeDecl => true | _ => false end.
Definition is_nonterm (X : sym) : bool := match X with N _ => true | _ => false end.
Definition enders : list Z := [SEMICOLON; LBRACE; RBRACE; INT_DECL; FLOAT_DECL; STRING_DECL].

Definition check_openers : bool := forallb (fun p => forallb (fun X => match trans p X with Some q => implb (existsb (goes q) openers) (is_top X) | None => true end) symbols) states.
Definition check_named : bool :=
  forallb (fun q => negb (named q)) deep &&
  forallb (fun p => forallb (fun X => match trans p X with Some q => implb (named q && is_nonterm X) (is_top X) | None => true end) symbols) states.
Definition check_seconds : bool := forallb (fun p => forallb (fun X => match trans p X with Some q => implb (existsb (goes q) seconds && is_nonterm X) (is_top X) | None => true end) symbols) states.
Definition check_deep_tokens : bool :=
  forallb (fun p => forallb (fun c => match trans p (T c) with Some q => implb (zin q deep) (negb (zin c enders)) | None => true end) (map Z.of_nat (seq 1 21))) states.
Lemma openers_true : check_openers = true. Proof. vm_compute. reflexivity. Qed.
Lemma named_true : check_named = true. Proof. vm_compute. reflexivity. Qed.
Lemma seconds_true : check_seconds = true. Proof. vm_compute. reflexivity. Qed.
Lemma deep_tokens_true : check_deep_tokens = true. Proof. vm_compute. reflexivity. Qed.

Lemma by_table : forall (f : Z -> sym -> Z -> bool), forallb (fun p => forallb (fun X => match trans p X with Some q => f p X q | None => true end) symbols) states = true ->
  forall p X q, valid p -> trans p X = Some q -> f p X q = true.
Proof.
  intros f H p X q Hp Ht. rewrite forallb_forall in H. specialize (H p (in_states p Hp)). rewrite forallb_forall in H. specialize (H X (trans_symbol _ _ _ Ht)).
  rewrite Ht in H. exact H.
Qed.

(** ** The last token of a list of statements or a type *)
Section Last.
  Context {V : Type}.
  Definition last_code (l : list (Z * V)) (c : Z) : Prop := exists l' v, l = l' ++ [(c, v)].
  Lemma last_code_app : forall l l' c, last_code l' c -> last_code (l ++ l') c.
  Proof. intros l l' c [m [v ->]]. exists (l ++ m), v. rewrite app_assoc. reflexivity. Qed.
  Lemma last_code_unique : forall l c c', last_code l c -> last_code l c' -> c = c'.
  Proof. intros l c c' [m [v ->]] [m' [v' H]]. apply app_inj_tail in H. destruct H as [_ H]. congruence. Qed.
  Ltac split_all := repeat match goal with
    | H : derives_all _ _ |- _ => inversion H; subst; clear H
    | H : derives (T _) _ |- _ => inversion H; subst; clear H
    end.
  Ltac each_rule n r Hg := lazymatch n with
    | O => destruct r; discriminate Hg
    | S ?m => destruct r as [|r]; [cbn in Hg; try discriminate Hg; injection Hg as Hg; subst; split_all|each_rule m r Hg]
    end.
  Ltac no_error := exfalso; match goal with H : token_list _ |- _ => cbn in H; inversion H as [|? ? HT _]; subst; unfold is_token in HT; cbn in HT; lia end.
  Lemma statement_last : forall t : tree V, derives (N Statement) t -> token_list (yield t) -> exists c, last_code (yield t) c /\ In c [SEMICOLON; LBRACE; RBRACE].
  Proof.
    intros t H Ht. inversion H as [|r A rhs kids Hg Hall]; subst.
    each_rule 48%nat r Hg.
    - exists SEMICOLON. split; [|cbn; tauto]. cbn [yield flat_map]. apply last_code_app, last_code_app. eexists [], _. reflexivity.
    - exists SEMICOLON. split; [|cbn; tauto]. cbn [yield flat_map]. apply last_code_app. eexists [], _. reflexivity.
    - exists SEMICOLON. split; [|cbn; tauto]. eexists [_; _], _. reflexivity.
    - exists LBRACE. split; [|cbn; tauto]. cbn [yield flat_map]. rewrite app_nil_r.
      match goal with H : derives (N StartBlock) _ |- _ => inversion H as [|r A rhs kids Hg' Hall']; subst end.
      each_rule 48%nat r Hg'.
      + eexists [_; _], _. reflexivity.
      + eexists [_], _. reflexivity.
    - exists RBRACE. split; [|cbn; tauto]. eexists [], _. reflexivity.
    - no_error.
  Qed.
  Lemma type_tokens : forall t : tree V, derives (N TypeDecl) t -> exists c v, yield t = [(c, v)] /\ In c [INT_DECL; FLOAT_DECL; STRING_DECL].
  Proof.
    intros t H. inversion H as [|r A rhs kids Hg Hall]; subst. each_rule 48%nat r Hg; cbn; eexists _, _; (split; [reflexivity|tauto]).
  Qed.
  Lemma top_last : forall X (t : tree V), is_top X = true -> derives X t -> token_list (yield t) -> exists c, last_code (yield t) c /\ In c enders.
  Proof.
    intros X t HX H Ht. destruct X as [|[]]; try discriminate HX.
    - inversion H as [|r A rhs kids Hg Hall]; subst. each_rule 48%nat r Hg; cbn [yield flat_map] in *; rewrite app_nil_r in *.
      + apply Forall_app in Ht. destruct Ht as [_ Ht]. match goal with D : derives (N Statement) ?t |- _ => destruct (statement_last t D Ht) as [c [L I]] end.
        exists c. split; [apply last_code_app; exact L|]. unfold enders. cbn in I |- *. tauto.
      + match goal with D : derives (N Statement) ?t |- _ => destruct (statement_last t D Ht) as [c [L I]] end.
        exists c. split; [exact L|]. unfold enders. cbn in I |- *. tauto.
    - destruct (type_tokens t H) as [c [v [-> I]]]. exists c. split; [exists [], v; reflexivity|]. unfold enders. cbn in I |- *. tauto.
  Qed.
  Lemma last_token : forall t : tree V, derives (N Deck) t -> token_list (yield t) -> exists c, last_code (yield t) c /\ In c [SEMICOLON; LBRACE; RBRACE].
  Proof.
    intros t H Ht. inversion H as [|r A rhs kids Hg Hall]; subst. each_rule 48%nat r Hg. cbn [yield flat_map] in *. rewrite app_nil_r in *.
    match goal with D : derives (N StatementList) _ |- _ => inversion D as [|r A rhs kids Hg Hall]; subst end. each_rule 48%nat r Hg; cbn [yield flat_map] in *; rewrite app_nil_r in *.
    - apply Forall_app in Ht. destruct Ht as [_ Ht]. match goal with D : derives (N Statement) ?t |- _ => destruct (statement_last t D Ht) as [c [L I]] end.
      exists c. split; [apply last_code_app; exact L|exact I].
    - match goal with D : derives (N Statement) ?t |- _ => exact (statement_last t D Ht) end.
  Qed.
  (** How a sentence begins. *)
  Definition opens (l : list (Z * V)) : Prop :=
    exists x1 v1 rest, l = (x1, v1) :: rest /\ (In x1 openers \/ x1 = IDENTIFIER /\ exists x2 v2 rest', rest = (x2, v2) :: rest' /\ In x2 seconds).
  Lemma opens_app : forall l l', opens l -> opens (l ++ l').
  Proof.
    intros l l' [x1 [v1 [rest [-> [H|[H [x2 [v2 [rest' [-> H2]]]]]]]]]]; exists x1, v1, (rest ++ l') || exists x1, v1, (((x2, v2) :: rest') ++ l'); (split; [reflexivity|]).
    - left. exact H.
    - right. split; [exact H|]. exists x2, v2, (rest' ++ l'). split; [reflexivity|exact H2].
  Qed.
  Lemma statement_opens : forall t : tree V, derives (N Statement) t -> token_list (yield t) -> opens (yield t).
  Proof.
    intros t H Ht. inversion H as [|r A rhs kids Hg Hall]; subst. each_rule 48%nat r Hg.
    - match goal with D : derives (N TypeDecl) ?t |- _ => destruct (type_tokens t D) as [c [v' [E I]]] end. cbn [yield flat_map]. rewrite E.
      eexists c, v', _. split; [reflexivity|]. left. unfold openers. cbn in I |- *. tauto.
    - match goal with D : derives (N Assignment) ?t |- _ => inversion D as [|r A rhs kids Hg' Hall']; subst end. each_rule 48%nat r Hg'.
      eexists _, _, _. split; [reflexivity|]. right. split; [reflexivity|]. eexists _, _, _. split; [reflexivity|]. cbn; tauto.
    - eexists _, _, _. split; [reflexivity|]. left. cbn; tauto.
    - match goal with H : derives (N StartBlock) _ |- _ => inversion H as [|r A rhs kids Hg' Hall']; subst end.
      each_rule 48%nat r Hg'; (eexists _, _, _; split; [reflexivity|]; right; split; [reflexivity|]; eexists _, _, _; split; [reflexivity|]; cbn; tauto).
    - eexists _, _, _. split; [reflexivity|]. left. cbn; tauto.
    - no_error.
  Qed.
  Lemma list_opens : forall n (t : tree V), (length (yield t) < n)%nat -> derives (N StatementList) t -> token_list (yield t) -> opens (yield t).
  Proof.
    induction n as [|n IH]; intros t Hn H Ht; [lia|]. inversion H as [|r A rhs kids Hg Hall]; subst.
    each_rule 48%nat r Hg; cbn [yield flat_map] in *; rewrite app_nil_r in *.
    - apply Forall_app in Ht. destruct Ht as [Ht1 Ht2]. apply opens_app.
      match goal with D : derives (N Statement) ?t |- _ => destruct (statement_opens t D Ht2) as [x1 [v1 [rest [E1 _]]]] end.
      match goal with D : derives (N StatementList) ?t |- _ => apply (IH t) end; [|assumption|exact Ht1]. rewrite E1, app_length in Hn. cbn in Hn. lia.
    - match goal with D : derives (N Statement) ?t |- _ => exact (statement_opens t D Ht) end.
  Qed.
  Lemma sentence_opens : forall t : tree V, derives (N Deck) t -> token_list (yield t) -> opens (yield t).
  Proof.
    intros t H Ht. inversion H as [|r A rhs kids Hg Hall]; subst. each_rule 48%nat r Hg. cbn [yield flat_map] in *; rewrite app_nil_r in *.
    match goal with D : derives (N StatementList) ?t |- _ => apply (list_opens _ t (Nat.lt_succ_diag_r _) D Ht) end.
  Qed.
  (** A beginning of at least two tokens of a sentence. *)
  Lemma prefix_opens : forall l w : list (Z * V), opens (l ++ w) -> (2 <= length l)%nat -> opens l.
  Proof.
    intros l w [x1 [v1 [rest [E H]]]] Hl. destruct l as [|a [|b l]]; cbn in Hl; try lia. cbn in E. injection E as -> <-.
    exists x1, v1, (b :: l). split; [reflexivity|]. destruct H as [H|[H [x2 [v2 [rest' [E2 H2]]]]]]; [left; exact H|]. right. split; [exact H|].
    cbn in E2. injection E2 as -> _. exists x2, v2, l. split; [reflexivity|exact H2].
  Qed.
End Last.

Section Deep.
  Context {V St E : Type}.
  Variable nv : V.
  (** Actions that never throw. *)
  Variable act : nat -> list V -> St -> E + (V * St).
  Hypothesis quiet : forall r vs s x, act r vs s <> inl x.
  Notation ends := (ends nv act).
  Notation built := (built nv act).

  Lemma quiet_perform : forall (t : tree V) s x, perform act t s <> inl x.
  Proof.
    fix IH 1. intros [c v|r kids] s x; [discriminate|]. rewrite perform_node.
    assert (HL : forall x, perform_list act kids s <> inl x).
    { revert s. induction kids as [|k kids IHk]; intros s y; cbn [perform_list]; [discriminate|].
      pose proof (IH k s) as H. destruct (perform act k s) as [z|[v s']]; [exfalso; exact (H z eq_refl)|].
      specialize (IHk s'). destruct (perform_list act kids s') as [z|[vs s'']]; [exfalso; exact (IHk z eq_refl)|discriminate]. }
    destruct (perform_list act kids s) as [z|[vs s']]; [exfalso; exact (HL z eq_refl)|apply quiet].
  Qed.
  Lemma high : forall s0 σ ts s, built s0 σ ts s -> forall e σ', σ = e :: σ' ->
    ((length σ' <= 8)%nat -> In (stateno e) (level (length σ'))) /\ ((8 <= length σ')%nat -> In (stateno e) deep).
  Proof.
    intros s0 σ ts s Hb. induction Hb as [|e1 σ1 ts1 s1 X t v s1' q Hb1 IH Ht Hd Hy Hp]; intros e σ' Eσ; injection Eσ as <- <-; cbn [stateno length].
    - split; intros H; [left; reflexivity|lia].
    - destruct (IH e1 σ1 eq_refl) as [H1 H2]. split; intros H.
      + rewrite level_S. apply dedup_in. apply (nexts_in _ (stateno e1) X); [apply H1; lia|exact Ht].
      + destruct (Nat.eq_dec (length σ1) 7) as [E7|E7].
        * apply (zsub_incl _ _ level8). rewrite (level_S 7). apply dedup_in. apply (nexts_in _ (stateno e1) X); [|exact Ht].
          rewrite <- E7. apply H1. rewrite E7. lia.
        * apply (zsub_incl _ _ deep_closed). apply (nexts_in _ (stateno e1) X); [apply H2; lia|exact Ht].
  Qed.
  (** The last symbol of a stack that has read something. *)
  Lemma top_of : forall s0 e σ ts s c, built s0 (e :: σ) ts s -> last_code (read ts) c ->
    exists p X (t : tree V), valid p /\ trans p X = Some (stateno e) /\ major e = scode X /\ derives X t /\ token_list (yield t) /\ last_code (yield t) c.
  Proof.
    intros s0 e σ ts s c Hb [l [v L]]. inversion Hb as [|e1 σ1 ts1 s1 X t v1 s1' q Hb1 Ht Hd Hy Hp]; subst.
    - destruct l; discriminate L.
    - destruct (built_valid _ _ _ _ _ _ Hb1) as [e2 [σ2 [E2 [Hv _]]]]. injection E2 as <- <-. exists (stateno e1), X, t. cbn [stateno major].
      split; [exact Hv|]. split; [exact Ht|]. split; [reflexivity|]. split; [exact Hd|]. split; [exact Hy|].
      rewrite read_app in L. cbn [read flat_map snd] in L. rewrite app_nil_r in L.
      destruct (yield_first X t Hd Hy) as [x [vx [lx [Y _]]]]. assert (NE : yield t <> []) by (rewrite Y; discriminate).
      destruct (exists_last NE) as [l2 [[c2 v2] E2]]. rewrite E2, app_assoc in L. apply app_inj_tail in L. destruct L as [_ L]. injection L as -> ->.
      rewrite E2. exists l2, v. reflexivity.
  Qed.

  Lemma is_nonterm_code : forall p X q, trans p X = Some q -> 23 <= scode X -> is_nonterm X = true.
  Proof. intros p [c|A] q H K; [|reflexivity]. destruct (trans_token _ _ _ H) as [[_ B] _]. cbn in K. unfold ERROR in B. lia. Qed.
  Lemma not_top : forall s0 e σ ts s c (f : Z -> bool), built s0 (e :: σ) ts s -> last_code (read ts) c -> ~ In c enders ->
    (forall p X, valid p -> trans p X = Some (stateno e) -> major e = scode X -> is_top X = true) -> False.
  Proof.
    intros s0 e σ ts s c f Hb L Hc H. destruct (top_of _ _ _ _ _ _ Hb L) as [p [X [t [Hv [Ht [Hm [Hd [Hy Lt]]]]]]]].
    destruct (top_last X t (H p X Hv Ht Hm) Hd Hy) as [c' [L' I]]. rewrite (last_code_unique _ _ _ Lt L') in Hc. exact (Hc I).
  Qed.
  Lemma goes_some : forall q x l, In x l -> (exists q', trans q (T x) = Some q') -> existsb (goes q) l = true.
  Proof. intros q x l Hx [q' Hq]. apply existsb_exists. exists x. split; [exact Hx|]. unfold goes. rewrite Hq. reflexivity. Qed.

  Lemma stuck : forall s0 e σ ts s cnt c q' depth, built s0 (e :: σ) ts s -> In (stateno e) deep -> last_code (read ts) c -> ~ In c enders ->
    cnt < 0 -> token_list q' -> opens q' -> (length (e :: σ) < depth)%nat -> exists v, ends depth (mkParser (e :: σ) cnt) q' s (SyntaxError v).
  Proof.
    intros s0 e σ ts s cnt c q' depth Hb Hdp L Hc Hcnt Htok [x1 [v1 [rest [-> Ho]]]] Hlen.
    inversion Htok as [|? ? Hx1 Htok']; subst. assert (Hx1' : 0 <= x1 < ERROR) by (unfold is_token in Hx1; cbn in Hx1; lia).
    destruct (settle nv act (Z.to_nat (mu (e :: σ) + 1)) s0 e σ ts s (length (e :: σ)) x1 Hb (le_n _) Hx1' ltac:(lia)) as [e1 [σ1 [ts1 [s1 [Hb1 [Rd [Ln [Tp [Rep Fin]]]]]]]]].
    assert (L1 : last_code (read ts1) c) by (rewrite Rd; exact L).
    destruct Fin as [[q1 Hq1]|[Ha|[[H0 _]|[x [t [w [_ [_ [_ [P1 _]]]]]]]]]].
    - destruct Ho as [Ho|[-> [x2 [v2 [rest' [-> Ho]]]]]].
      + exfalso. apply (not_top _ _ _ _ _ _ (fun _ => true) Hb1 L1 Hc). intros p X Hv Ht _.
        pose proof (by_table (fun p X q => implb (existsb (goes q) openers) (is_top X)) openers_true p X _ Hv Ht) as B. cbv beta in B.
        rewrite (goes_some _ x1 openers Ho (ex_intro _ q1 Hq1)) in B. exact B.
      + destruct (trans_token _ _ _ Hq1) as [_ [Hsh Hlt]].
        set (e3 := mkEntry q1 (scode (T IDENTIFIER)) v1).
        assert (Hb3 : built s0 (e3 :: e1 :: σ1) (ts1 ++ [(T IDENTIFIER, Leaf IDENTIFIER v1)]) s1).
        { eapply built_push; [exact Hb1|exact Hq1|constructor|constructor; [exact Hx1|constructor]|reflexivity]. }
        assert (L3 : last_code (read (ts1 ++ [(T IDENTIFIER, Leaf IDENTIFIER v1)])) IDENTIFIER).
        { rewrite read_app. apply last_code_app. exists [], v1. reflexivity. }
        assert (Hc3 : ~ In IDENTIFIER enders) by (intros H; cbn in H; repeat (destruct H as [H|H]; [discriminate H|]); exact H).
        inversion Htok' as [|? ? Hx2 Htok'']; subst. assert (Hx2' : 0 <= x2 < ERROR) by (unfold is_token in Hx2; cbn in Hx2; lia).
        assert (Step : forall r, r <> OutOfFuel -> ends depth (mkParser (e3 :: e1 :: σ1) (cnt - 1)) ((x2, v2) :: rest') s1 r ->
          ends depth (mkParser (e :: σ) cnt) ((IDENTIFIER, v1) :: (x2, v2) :: rest') s r).
        { intros r Hr K. apply Rep; [lia|reflexivity|exact Hr|].
          eapply (ends_shift nv act depth _ e1 σ1); [reflexivity|reflexivity|exact Hlt|discriminate|].
          unfold yy_shift. replace (Nat.leb depth (length (e1 :: σ1))) with false by (symmetry; apply Nat.leb_gt; lia). exact K. }
        destruct (settle nv act (Z.to_nat (mu (e3 :: e1 :: σ1) + 1)) s0 e3 (e1 :: σ1) _ s1 (length (e3 :: e1 :: σ1)) x2 Hb3 (le_n _) Hx2' ltac:(lia))
          as [e4 [σ4 [ts4 [s4 [Hb4 [Rd4 [Ln4 [Tp4 [Rep4 Fin4]]]]]]]]].
        assert (L4 : last_code (read ts4) IDENTIFIER) by (rewrite Rd4; exact L3).
        destruct Fin4 as [[q4 Hq4]|[Ha4|[[H0 _]|[x [t [w [_ [_ [_ [P1 _]]]]]]]]]].
        * exfalso. destruct Tp4 as [->|Tp4].
          -- assert (Hn : named (stateno e1) = true).
             { unfold named. rewrite Hq1. apply (goes_some _ x2 seconds Ho). exists q4. exact Hq4. }
             pose proof named_true as NT. unfold check_named in NT. apply andb_true_iff in NT. destruct NT as [NT1 NT2].
             destruct Tp as [->|Tp].
             ++ rewrite forallb_forall in NT1. specialize (NT1 _ Hdp). rewrite Hn in NT1. discriminate NT1.
             ++ apply (not_top _ _ _ _ _ _ (fun _ => true) Hb1 L1 Hc). intros p X Hv Ht Hm. rewrite Hm in Tp.
                pose proof (by_table (fun p X q => implb (named q && is_nonterm X) (is_top X)) NT2 p X _ Hv Ht) as B. cbv beta in B.
                rewrite Hn, (is_nonterm_code _ _ _ Ht Tp) in B. exact B.
          -- apply (not_top _ _ _ _ _ _ (fun _ => true) Hb4 L4 Hc3). intros p X Hv Ht Hm. rewrite Hm in Tp4.
             pose proof (by_table (fun p X q => implb (existsb (goes q) seconds && is_nonterm X) (is_top X)) seconds_true p X _ Hv Ht) as B. cbv beta in B.
             pose proof (goes_some _ x2 seconds Ho (ex_intro _ q4 Hq4)) as G. rewrite G, (is_nonterm_code _ _ _ Ht Tp4) in B. exact B.
        * exists v2. apply Step; [discriminate|]. apply Rep4; [cbn [length] in *; lia|reflexivity|discriminate|].
          apply (ends_error nv act depth _ e4 σ4 ((x2, v2) :: rest')); [reflexivity|exact Ha4|cbn [errcnt]; lia].
        * exfalso. unfold is_token in Hx2; cbn in Hx2; lia.
        * exfalso. exact (quiet_perform _ _ _ P1).
    - exists v1. apply Rep; [lia|reflexivity|discriminate|]. apply (ends_error nv act depth _ e1 σ1 ((x1, v1) :: rest)); [reflexivity|exact Ha|exact Hcnt].
    - exfalso. unfold is_token in Hx1; cbn in Hx1; lia.
    - exfalso. exact (quiet_perform _ _ _ P1).
  Qed.

  Lemma shifted_deep : forall s0 e σ ts s a c v, built s0 (e :: σ) ts s -> trans (stateno e) (T c) = Some a ->
    built s0 (mkEntry a (scode (T c)) v :: e :: σ) (ts ++ [(T c, Leaf c v)]) s -> (8 <= length (e :: σ))%nat -> ~ In c enders.
  Proof.
    intros s0 e σ ts s a c v Hb Ht Hb2 Hl HI. destruct (built_valid _ _ _ _ _ _ Hb) as [e2 [σ2 [E2 [Hv _]]]]. injection E2 as <- <-.
    assert (Hdeep : In a deep) by (apply (proj2 (high _ _ _ _ Hb2 _ _ eq_refl)); cbn [length] in *; lia).
    pose proof deep_tokens_true as DT. unfold check_deep_tokens in DT. rewrite forallb_forall in DT. specialize (DT _ (in_states _ Hv)).
    rewrite forallb_forall in DT. assert (HIn : In c (map Z.of_nat (seq 1 21))).
    { destruct (trans_token _ _ _ Ht) as [Hc _]. unfold ERROR in Hc. apply in_map_iff. exists (Z.to_nat c). split; [lia|]. apply in_seq. lia. }
    specialize (DT c HIn). rewrite Ht in DT.
    assert (Z1 : forall l x, In x l -> zin x l = true) by (intros l x Hx; apply existsb_exists; exists x; split; [exact Hx|apply Z.eqb_refl]).
    rewrite (Z1 _ _ Hdeep), (Z1 _ _ HI) in DT. discriminate DT.
  Qed.
  (** Where the stack overflows within a sentence, what follows does not begin like a statement. *)
  Lemma overflow_inside : forall depth (t : tree V) s q c v q' s', (8 <= depth)%nat -> derives (N Deck) t -> token_list (yield t) ->
    yield t = q ++ (c, v) :: q' -> stopped nv act depth new_parser s s [] (yield t) q c v q' s' -> ~ opens q'.
  Proof.
    intros depth t s q c v q' s' Hd Hdt Hyt Ey [e [σ [ts [a [cnt [Hb [Rd [Hl [Ht [Hcnt K]]]]]]]]]] Ho. cbn [app] in Rd.
    assert (Hq : token_list q /\ is_token (c, v) /\ token_list q').
    { rewrite Ey in Hyt. apply Forall_app in Hyt. destruct Hyt as [H1 H2]. inversion H2; subst. auto. }
    destruct Hq as [_ [Hc Hq']].
    assert (Hb2 : built s (mkEntry a (scode (T c)) v :: e :: σ) (ts ++ [(T c, Leaf c v)]) s').
    { eapply built_push; [exact Hb|exact Ht|constructor|constructor; [exact Hc|constructor]|reflexivity]. }
    assert (Hdeep : In a deep) by (apply (proj2 (high _ _ _ _ Hb2 _ _ eq_refl)); cbn [length] in *; lia).
    pose proof (shifted_deep _ _ _ _ _ _ _ _ Hb Ht Hb2 ltac:(cbn [length] in *; lia)) as Hne.
    destruct (sentence_runs nv act (S (length (mkEntry a c v :: e :: σ)) + depth) t s Hdt Hyt) as [depth' [Hdd R]].
    destruct (stuck _ _ _ _ _ cnt c q' depth' Hb2 Hdeep ltac:(rewrite read_app; apply last_code_app; exists [], v; reflexivity) Hne Hcnt Hq' Ho ltac:(cbn [length] in *; lia)) as [v' S].
    cbn [scode] in S. assert (K1 : ends depth' new_parser (yield t) s (SyntaxError v')) by (apply K; [cbn [length] in *; lia|discriminate|exact S]).
    pose proof (ends_det _ _ _ _ _ _ _ _ R K1) as X. exact (proj1 (result_not_error _ v') X).
  Qed.

  (** An accepted sentence has been read as what it is. *)
  Lemma quiet_accepted : forall depth (t : tree V) s s', (8 <= depth)%nat -> derives (N Deck) t -> token_list (yield t) ->
    ends depth new_parser (yield t) s (Finished s') -> exists v, perform act t s = inr (v, s').
  Proof.
    intros depth t s s' Hd Hdt Hyt K. destruct (first_run nv act depth (yield t) s ltac:(lia) Hyt) as [[r [K1 K2]]|O].
    - rewrite (ends_det _ _ _ _ _ _ _ _ K1 K) in K2. destruct K2 as [t' [v [D [Y P]]]]. rewrite (derivation_unique t t' Hdt D Hyt (eq_sym Y)). exists v. exact P.
    - exfalso. destruct O as [q [c [v [q' [s1 [Ey [Z1 [R1 _]]]]]]]].
      assert (Hq' : token_list q') by (rewrite Ey in Hyt; apply Forall_app in Hyt; destruct Hyt as [_ H2]; inversion H2; assumption).
      apply (overflow_inside depth t s q c v q' s1 Hd Hdt Hyt Ey Z1).
      destruct (first_run nv act depth q' s1 ltac:(lia) Hq') as [[r [K2 K3]]|O2].
      + assert (r <> OutOfFuel) by (intros ->; exact K3). pose proof (ends_det _ _ _ _ _ _ _ _ (R1 r H K2) K) as ->.
        destruct K3 as [t' [v' [D [Y _]]]]. rewrite <- Y. apply sentence_opens; [exact D|rewrite Y; exact Hq'].
      + destruct O2 as [q2 [c2 [v2 [q2' [s2 [E2 [Z2 [_ [t2 [w [pp [pw [D2 [T2 [Y2 [P2 L2]]]]]]]]]]]]]]]].
        rewrite E2. replace (q2 ++ (c2, v2) :: q2') with ((q2 ++ [(c2, v2)]) ++ q2') by (rewrite <- app_assoc; reflexivity). apply opens_app.
        apply (prefix_opens _ w); [rewrite <- app_assoc; cbn; rewrite <- Y2; apply sentence_opens; assumption|].
        assert (B := pending_index t2 (length q2) ltac:(exists (N Deck); exact D2)). rewrite P2, app_nth2 in B by lia. rewrite L2, Nat.sub_diag in B. cbn in B.
        rewrite app_length. cbn. lia.
  Qed.
  (** A sentence is read as what it is, or rejected with a syntax error. *)
  Lemma quiet_result : forall depth (t : tree V) s, (8 <= depth)%nat -> derives (N Deck) t -> token_list (yield t) ->
    exists r, ends depth new_parser (yield t) s r /\ ((exists s', r = Finished s') \/ exists v, r = SyntaxError v).
  Proof.
    intros depth t s Hd Hdt Hyt. destruct (first_run nv act depth (yield t) s ltac:(lia) Hyt) as [[r [K1 K2]]|O].
    - exists r. split; [exact K1|]. unfold verdict in K2. destruct r as [s'|x|v| | | |]; try contradiction; eauto.
      + exfalso. destruct K2 as [t' [p [q [w [_ [_ [_ [_ P]]]]]]]]. exact (quiet_perform _ _ _ P).
      + exfalso. apply (proj2 K2). exists t. auto.
    - destruct O as [q [c [v [q' [s1 [Ey [Z1 [R1 _]]]]]]]].
      assert (Hq' : token_list q') by (rewrite Ey in Hyt; apply Forall_app in Hyt; destruct Hyt as [_ H2]; inversion H2; assumption).
      pose proof (overflow_inside depth t s q c v q' s1 Hd Hdt Hyt Ey Z1) as No.
      destruct (first_run nv act depth q' s1 ltac:(lia) Hq') as [[r [K2 K3]]|O2].
      + assert (Hr : r <> OutOfFuel) by (intros ->; exact K3). exists r. split; [apply R1; assumption|]. unfold verdict in K3. destruct r as [s'|x|v'| | | |]; try contradiction; eauto.
        * exfalso. destruct K3 as [t' [p [q2 [w [_ [_ [_ [_ P]]]]]]]]. exact (quiet_perform _ _ _ P).
        * exfalso. destruct K3 as [[t' [w [D [Tt Y]]]] _]. pose proof (sentence_opens t' D Tt) as Ho. rewrite Y in Ho.
          destruct (last_token t Hdt Hyt) as [z [Lz Iz]].
          destruct q' as [|a [|b q']].
          -- rewrite Ey in Lz. destruct Z1 as [e [σ [ts [a [cnt [Hb [Rd [Hl [Ht _]]]]]]]]].
             assert (z = c) by (apply (last_code_unique (q ++ [(c, v)])); [exact Lz|exists q, v; reflexivity]). subst z.
             assert (Hb2 : built s (mkEntry a (scode (T c)) v :: e :: σ) (ts ++ [(T c, Leaf c v)]) s1).
             { rewrite Ey in Hyt. apply Forall_app in Hyt. destruct Hyt as [_ H2]. inversion H2; subst.
               eapply built_push; [exact Hb|exact Ht|constructor|constructor; [assumption|constructor]|reflexivity]. }
             apply (shifted_deep _ _ _ _ _ _ _ _ Hb Ht Hb2 ltac:(cbn [length] in *; lia)). unfold enders. cbn in Iz |- *. tauto.
          -- apply No. destruct a as [x1 v1]. exists x1, v1, []. split; [reflexivity|].
             assert (z = x1) by (apply (last_code_unique (yield t)); [exact Lz|rewrite Ey; exists (q ++ [(c, v)]), v1; rewrite <- app_assoc; reflexivity]). subst z.
             destruct Ho as [x [v2 [rest [E2 Ho]]]]. cbn in E2. injection E2 as <- _ _. left. destruct Ho as [Ho|[-> _]]; [exact Ho|].
             cbn in Iz. exfalso. repeat (destruct Iz as [Iz|Iz]; [discriminate Iz|]). exact Iz.
          -- apply No. apply (prefix_opens _ w Ho). cbn. lia.
      + exfalso. apply No. destruct O2 as [q2 [c2 [v2 [q2' [s2 [E2 [Z2 [_ [t2 [w [pp [pw [D2 [T2 [Y2 [P2 L2]]]]]]]]]]]]]]]].
        rewrite E2. replace (q2 ++ (c2, v2) :: q2') with ((q2 ++ [(c2, v2)]) ++ q2') by (rewrite <- app_assoc; reflexivity). apply opens_app.
        apply (prefix_opens _ w); [rewrite <- app_assoc; cbn; rewrite <- Y2; apply sentence_opens; assumption|].
        assert (B := pending_index t2 (length q2) ltac:(exists (N Deck); exact D2)). rewrite P2, app_nth2 in B by lia. rewrite L2, Nat.sub_diag in B. cbn in B.
        rewrite app_length. cbn. lia.
  Qed.
End Deep.

(** ** Actions that throw *)
Section Noted.
  Context {V St E : Type}.
  Variable nv : V.
  Variable act : nat -> list V -> St -> E + (V * St).
  (** The same actions, with a note instead of an exception. *)
  Definition noted (r : nat) (vs : list V) (s : St * bool) : E + (V * (St * bool)) :=
    match act r vs (fst s) with inl _ => inr (nv, (fst s, true)) | inr (v, s') => inr (v, (s', snd s)) end.
  Lemma noted_quiet : forall r vs s x, noted r vs s <> inl x.
  Proof. intros r vs s x. unfold noted. destruct (act r vs (fst s)) as [y|[v s']]; discriminate. Qed.
  Lemma noted_reduce : forall depth st r s st' s', yy_reduce act depth st r s = Ret _ (st', s') -> yy_reduce noted depth st r (s, false) = Ret _ (st', (s', false)).
  Proof.
    intros depth st r s st' s'. unfold yy_reduce. destruct (nth r yyRuleInfo (0, 0%nat)) as [lhs size]. destruct (Nat.ltb (length st) size); [discriminate|].
    unfold noted. cbn [fst snd]. destruct (act r _ s) as [x|[v s1]]; [discriminate|]. destruct (skipn size st) as [|top rest]; [discriminate|].
    destruct (find_reduce_action (stateno top) lhs) as [a|]; [|discriminate]. destruct (a <? YYNSTATE); [intros H; injection H as <- <-; reflexivity|].
    destruct (a =? YY_ACCEPT_ACTION); [intros H; injection H as <- <-; reflexivity|discriminate].
  Qed.
  Lemma noted_loop : forall depth fuel p m v s p' s', parse_loop act depth fuel p m v s = Ret _ (p', s') -> parse_loop noted depth fuel p m v (s, false) = Ret _ (p', (s', false)).
  Proof.
    intros depth. induction fuel as [|n IH]; intros p m v s p' s' H; [discriminate H|]. cbn [parse_loop] in *. destruct (stack p) as [|top st] eqn:Es; [discriminate H|].
    destruct (find_shift_action (stateno top) m <? YYNSTATE).
    - destruct (m =? 0); [discriminate H|]. injection H as <- <-. reflexivity.
    - destruct (find_shift_action (stateno top) m <? YYNSTATE + YYNRULE).
      + destruct (yy_reduce act depth (top :: st) _ s) as [[st' s1]| | | | |] eqn:Er; try discriminate H. rewrite (noted_reduce _ _ _ _ _ _ Er).
        destruct st' as [|e st']; [injection H as <- <-; reflexivity|]. apply IH. exact H.
      + destruct (_ =? YY_ERROR_ACTION); [destruct (errcnt p <? 0)|]; discriminate H.
  Qed.
  Lemma noted_tokens : forall depth fuel toks p s s', parse_tokens nv act depth fuel p toks s = Finished s' -> parse_tokens nv noted depth fuel p toks (s, false) = Finished (s', false).
  Proof.
    intros depth fuel. induction toks as [|[c v] toks IH]; intros p s s' H; cbn [parse_tokens] in *; unfold parse_token in *.
    - destruct (parse_loop act depth fuel _ 0 nv s) as [[p1 s1]| | | | |] eqn:El; try discriminate H. rewrite (noted_loop _ _ _ _ _ _ _ _ El). injection H as ->. reflexivity.
    - destruct (parse_loop act depth fuel _ c v s) as [[p1 s1]| | | | |] eqn:El; try discriminate H. rewrite (noted_loop _ _ _ _ _ _ _ _ El). apply IH. exact H.
  Qed.
  Lemma noted_loop_internal : forall depth fuel p m v s, parse_loop act depth fuel p m v s = Internal _ -> parse_loop noted depth fuel p m v (s, false) = Internal _.
  Proof.
    intros depth. induction fuel as [|n IH]; intros p m v s H; [discriminate H|]. cbn [parse_loop] in *. destruct (stack p) as [|top st] eqn:Es; [discriminate H|].
    destruct (find_shift_action (stateno top) m <? YYNSTATE).
    - destruct (m =? 0); discriminate H.
    - destruct (find_shift_action (stateno top) m <? YYNSTATE + YYNRULE).
      + destruct (yy_reduce act depth (top :: st) _ s) as [[st' s1]| | | | |] eqn:Er; try discriminate H.
        * rewrite (noted_reduce _ _ _ _ _ _ Er). destruct st' as [|e st']; [discriminate H|]. apply IH. exact H.
        * exfalso. clear -Er. unfold yy_reduce in Er. destruct (nth _ yyRuleInfo (0, 0%nat)) as [lhs size]. destruct (Nat.ltb _ size); [discriminate|].
          destruct (act _ _ s) as [x|[w s1]]; [discriminate|]. destruct (skipn size _) as [|e rest]; [discriminate|].
          destruct (find_reduce_action (stateno e) lhs) as [a|]; [|discriminate]. destruct (a <? YYNSTATE); [discriminate|]. destruct (a =? YY_ACCEPT_ACTION); discriminate.
      + destruct (_ =? YY_ERROR_ACTION); [destruct (errcnt p <? 0)|]; (reflexivity || discriminate H).
  Qed.
  Lemma noted_escapes : forall depth fuel toks p s, parse_tokens nv act depth fuel p toks s = EscapedInternalError -> parse_tokens nv noted depth fuel p toks (s, false) = EscapedInternalError.
  Proof.
    intros depth fuel. induction toks as [|[c v] toks IH]; intros p s H; cbn [parse_tokens] in *; unfold parse_token in *.
    - destruct (parse_loop act depth fuel _ 0 nv s) as [[p1 s1]| | | | |] eqn:El; try discriminate H. rewrite (noted_loop_internal _ _ _ _ _ _ El). reflexivity.
    - destruct (parse_loop act depth fuel _ c v s) as [[p1 s1]| | | | |] eqn:El; try discriminate H. rewrite (noted_loop _ _ _ _ _ _ _ _ El). apply IH. exact H.
  Qed.
  Lemma noted_perform : forall (t : tree V) s b v s', perform noted t (s, b) = inr (v, (s', false)) -> b = false /\ perform act t s = inr (v, s').
  Proof.
    fix IH 1. intros [c v0|r kids] s b v s' H; [cbn in *; injection H as <- <- <-; auto|]. rewrite perform_node in H; rewrite perform_node.
    assert (HL : forall l (IHl : forall k, In k l -> forall s b v s', perform noted k (s, b) = inr (v, (s', false)) -> b = false /\ perform act k s = inr (v, s')) s b vs s',
      perform_list noted l (s, b) = inr (vs, (s', false)) -> b = false /\ perform_list act l s = inr (vs, s')).
    { clear. induction l as [|k l IHk]; intros IHl s b vs s' H; cbn [perform_list] in *; [injection H as <- <- <-; auto|].
      destruct (perform noted k (s, b)) as [z|[v [s1 b1]]] eqn:Ek; [discriminate H|]. destruct (perform_list noted l (s1, b1)) as [z|[vs1 [s2 b2]]] eqn:El; [discriminate H|].
      injection H as <- <- ->. destruct (IHk (fun k' Hk => IHl k' (or_intror Hk)) _ _ _ _ El) as [-> E1]. destruct (IHl k (or_introl eq_refl) _ _ _ _ Ek) as [-> E2].
      rewrite E2, E1. auto. }
    assert (HK : forall k, In k kids -> forall s b v s', perform noted k (s, b) = inr (v, (s', false)) -> b = false /\ perform act k s = inr (v, s')).
    { clear -IH. induction kids as [|k kids IHk]; intros k' Hk; [destruct Hk|]. destruct Hk as [<-|Hk]; [intros; apply (IH k); assumption|]. apply IHk, Hk. }
    destruct (perform_list noted kids (s, b)) as [z|[vs [s1 b1]]] eqn:El; [discriminate H|].
    unfold noted in H. cbn [fst snd] in H. destruct (act r vs s1) as [x|[v2 s2]] eqn:Ea; [discriminate H|]. injection H as <- <- ->.
    destruct (HL kids HK _ _ _ _ El) as [-> E1]. rewrite E1. auto.
  Qed.
  Theorem deep_accepted : forall depth (t : tree V) s s', (8 <= depth)%nat -> derives (N Deck) t -> token_list (yield t) ->
    ends nv act depth new_parser (yield t) s (Finished s') -> exists v, perform act t s = inr (v, s').
  Proof.
    intros depth t s s' Hd Hdt Hyt [n K].
    assert (K' : ends nv noted depth new_parser (yield t) (s, false) (Finished (s', false))).
    { exists n. intros fuel Hf. apply noted_tokens. apply K. exact Hf. }
    destruct (quiet_accepted nv noted noted_quiet depth t (s, false) (s', false) Hd Hdt Hyt K') as [v P]. exists v. apply (noted_perform _ _ _ _ _ P).
  Qed.
  (** A sentence is read as what it is, or rejected. *)
  Theorem deep_result : forall depth (t : tree V) s, (8 <= depth)%nat -> derives (N Deck) t -> token_list (yield t) ->
    exists r, ends nv act depth new_parser (yield t) s r /\
      ((exists v s', r = Finished s' /\ perform act t s = inr (v, s')) \/ (exists x, r = ActionError x) \/ exists v, r = SyntaxError v).
  Proof.
    intros depth t s Hd Hdt Hyt. destruct (any_run nv act depth (yield t) s ltac:(lia) Hyt) as [r [K [N1 [N2 [N3 _]]]]]. exists r. split; [exact K|].
    destruct r as [s'|x|v| | | |]; try contradiction; eauto.
    - left. destruct (deep_accepted depth t s s' Hd Hdt Hyt K) as [v P]. eauto.
    - exfalso. destruct (quiet_result nv noted noted_quiet depth t (s, false) Hd Hdt Hyt) as [r [K1 K2]].
      assert (K' : ends nv noted depth new_parser (yield t) (s, false) EscapedInternalError).
      { destruct K as [n K]. exists n. intros fuel Hf. apply noted_escapes. apply K. exact Hf. }
      pose proof (ends_det _ _ _ _ _ _ _ _ K1 K') as ->. destruct K2 as [[s' K2]|[v K2]]; discriminate K2.
  Qed.
End Noted.

(** ** Everything that is accepted *)
Definition check_shape : bool :=
  forallb (fun p => forallb (fun X => match trans p X with
    | Some q => implb (negb (sym_inner X) && existsb (fun Y => match trans q Y with Some _ => true | None => false end) symbols)
                      ((p =? 0) && sym_eqb X (N StatementList))
    | None => true end) symbols) states.
Lemma shape_true : check_shape = true. Proof. vm_compute. reflexivity. Qed.

Section Staged.
  Context {V St E : Type}.
  Variable nv : V.
  Variable act : nat -> list V -> St -> E + (V * St).
  (** The sentence at the end, and the parts in front of it that were dropped before they were
      complete. *)
  Inductive staged (depth : nat) : list (Z * V) -> St -> St -> Prop :=
  | staged_last t v s s' : derives (N Deck) t -> perform act t s = inr (v, s') -> staged depth (yield t) s s'
  | staged_more e σ ts s s1 c v X rest s' : built nv act s (e :: σ) ts s1 -> trans (stateno e) (T c) = Some X -> (depth <= length (e :: σ))%nat ->
      staged depth rest s1 s' -> staged depth (read ts ++ (c, v) :: rest) s s'.
  Lemma accepted_staged : forall depth toks s s', (1 <= depth)%nat -> token_list toks -> ends nv act depth new_parser toks s (Finished s') -> staged depth toks s s'.
  Proof.
    intros depth toks s s' Hd. remember (length toks) as n eqn:En. revert toks s En. induction n as [n IH] using lt_wf_ind. intros toks s En Ht K.
    destruct (first_run nv act depth toks s Hd Ht) as [[r [K1 K2]]|[q [c [v [q' [s1 [Eq [Z1 [R1 _]]]]]]]]].
    - pose proof (ends_det _ _ _ _ _ _ _ _ K1 K) as ->. destruct K2 as [t [v [D [<- P]]]]. econstructor; eassumption.
    - assert (Ht' : token_list q') by (rewrite Eq in Ht; apply Forall_app in Ht; destruct Ht as [_ Ht]; inversion Ht; assumption).
      assert (Hlt : (length q' < n)%nat) by (rewrite En, Eq, app_length; cbn; lia).
      destruct (any_run nv act depth q' s1 Hd Ht') as [r [K2 [_ [_ [N3 _]]]]].
      pose proof (ends_det _ _ _ _ _ _ _ _ (R1 r N3 K2) K) as ->. specialize (IH _ Hlt q' s1 eq_refl Ht' K2).
      destruct Z1 as [e [σ [ts [a [cnt [Hb [Rd [Hl [Htr _]]]]]]]]]. cbn [app] in Rd. rewrite Eq, <- Rd. econstructor; eassumption.
  Qed.

  (** The symbols on a stack that can still grow: perhaps the complete statements, then parts of a
      statement. *)
  Lemma stack_shape : forall s0 σ ts s, built nv act s0 σ ts s -> forall e σ', σ = e :: σ' -> forall X q, trans (stateno e) X = Some q ->
    exists a b, ts = a ++ b /\ (a = [] \/ exists t, a = [(N StatementList, t)]) /\ Forall (fun x => sym_inner (fst x) = true) b.
  Proof.
    intros s0 σ ts s Hb. induction Hb as [|e1 σ1 ts1 s1 X1 t v s1' q1 Hb1 IH Ht Hd Hy Hp]; intros e σ' Eσ X q Hq; injection Eσ as <- <-.
    - exists [], []. split; [reflexivity|]. split; [left; reflexivity|constructor].
    - cbn [stateno] in Hq. destruct (IH e1 σ1 eq_refl X1 q1 Ht) as [a [b [-> [Ha Hbb]]]]. destruct (sym_inner X1) eqn:Es.
      + exists a, (b ++ [(X1, t)]). rewrite <- app_assoc. split; [reflexivity|]. split; [exact Ha|]. apply Forall_app. split; [exact Hbb|]. constructor; [exact Es|constructor].
      + destruct (built_valid _ _ _ _ _ _ Hb1) as [e2 [σ2 [E2 [Hv [Hl H0]]]]]. injection E2 as <- <-.
        pose proof (by_table (fun p X q => implb (negb (sym_inner X) && existsb (fun Y => match trans q Y with Some _ => true | None => false end) symbols)
                      ((p =? 0) && sym_eqb X (N StatementList))) shape_true _ _ _ Hv Ht) as B. cbv beta in B. rewrite Es in B.
        assert (G : existsb (fun Y => match trans q1 Y with Some _ => true | None => false end) symbols = true).
        { apply existsb_exists. exists X. split; [apply (trans_symbol _ _ _ Hq)|rewrite Hq; reflexivity]. }
        rewrite G in B. cbn [negb andb implb] in B. apply andb_true_iff in B. destruct B as [B1 B2]. apply Z.eqb_eq in B1. apply sym_eqb_eq in B2. subst X1.
        specialize (H0 B1). subst σ1. destruct (a ++ b); [|discriminate Hl]. exists [(N StatementList, t)], []. split; [reflexivity|]. split; [right; exists t; reflexivity|constructor].
  Qed.
  Lemma built_split_run : forall a b s0 σ s, built nv act s0 σ (a ++ b) s -> exists σ1 s1, built nv act s0 σ1 a s1 /\ 
    exists vs, perform_list act (map snd b) s1 = inr (vs, s).
  Proof.
    intros a b. induction b as [|[X t] b IH] using rev_ind; intros s0 σ s H.
    - rewrite app_nil_r in H. exists σ, s. split; [exact H|]. exists []. reflexivity.
    - rewrite app_assoc in H. inversion H as [|e1 σ1 ts1 s1 X1 t1 v s1' q1 Hb1 Ht Hd Hy Hp E1 E2 E3]; subst; [destruct (a ++ b); discriminate|].
      apply app_inj_tail in E2. destruct E2 as [-> E2]. injection E2 as -> ->. destruct (IH _ _ _ Hb1) as [σ2 [s2 [B [vs P]]]].
      exists σ2, s2. split; [exact B|]. exists (vs ++ [v]). rewrite map_app. cbn [map snd]. clear -P Hp. revert vs s2 P. induction (map snd b) as [|k l IHl]; intros vs s2 P; cbn [perform_list app] in *.
      + injection P as <- <-. rewrite Hp. reflexivity.
      + destruct (perform act k s2) as [x|[w s3]]; [discriminate|]. destruct (perform_list act l s3) as [x|[ws s4]] eqn:El; [discriminate|]. injection P as <- <-.
        rewrite (IHl ws s3 El). reflexivity.
  Qed.
End Staged.
