(** Where in the list of tokens an action throws. *)
From Coq Require Import ZArith List Bool Lia.
From Verif Require Import ScanModel ParseModel ParseSpec ParseTableProofs ParseProofs ParseSoundProofs ParseRunProofs.
Import ListNotations.
Local Open Scope Z_scope.

(** The symbols that occur within a statement. *)
Definition inner (X : sym) : bool :=
  match X with
  | T c => negb ((c =? SEMICOLON) || (c =? LBRACE) || (c =? RBRACE))
  | N A => match A with Deck | StatementList | Statement | StartBlock => false | _ => true end
  end.
Lemma sl_from_start : forall q q', valid q -> trans q (N StatementList) = Some q' -> q = 0.
Proof.
  intros q q' Hv Ht.
  assert (C : forallb (fun q => (q =? 0) || match trans q (N StatementList) with Some _ => false | None => true end) states = true) by (vm_compute; reflexivity).
  rewrite forallb_forall in C. specialize (C q (in_states q Hv)). rewrite Ht, orb_false_r in C. apply Z.eqb_eq, C.
Qed.
Lemma outer_closed : forall q X q' Y q'', valid q -> trans q X = Some q' -> inner X = false -> X <> N StatementList -> trans q' Y = Some q'' -> False.
Proof.
  intros q X q' Y q'' Hv Ht Hi Hn Hy.
  assert (C : forallb (fun q => forallb (fun X => inner X || match X with N StatementList => true | _ => false end ||
     match trans q X with None => true | Some q' => forallb (fun Y => match trans q' Y with None => true | _ => false end) symbols end) symbols) states = true) by (vm_compute; reflexivity).
  rewrite forallb_forall in C. specialize (C q (in_states q Hv)). rewrite forallb_forall in C. specialize (C X (trans_symbol _ _ _ Ht)).
  rewrite Hi, Ht in C. assert (E : match X with N StatementList => true | _ => false end = false) by (destruct X as [c|[]]; try reflexivity; exfalso; apply Hn; reflexivity).
  rewrite E in C. cbn [orb] in C. rewrite forallb_forall in C. specialize (C Y (trans_symbol _ _ _ Hy)). rewrite Hy in C. discriminate C.
Qed.
Definition is_sl (X : sym) : bool := match X with N StatementList => true | _ => false end.
Lemma inner_rules : forall r A rhs, nth_error grammar r = Some (A, rhs) -> inner (N A) = true -> Forall (fun X => inner X = true) rhs.
Proof.
  intros r A rhs Hg Hi.
  assert (C : forallb (fun x => negb (inner (N (fst x))) || forallb inner (snd x)) grammar = true) by (vm_compute; reflexivity).
  rewrite forallb_forall in C. specialize (C _ (nth_error_In _ _ Hg)). cbn [fst snd] in C. rewrite Hi in C. cbn [negb orb] in C.
  apply Forall_forall. rewrite forallb_forall in C. exact C.
Qed.
Definition tailed (rhs : list sym) : bool :=
  forallb inner (removelast rhs) && match last rhs (T 0) with T _ => true | N A => inner (N A) end.
Lemma tailed_rules : forall r A rhs, nth_error grammar r = Some (A, rhs) -> (2 < r)%nat -> r <> 6%nat -> tailed rhs = true /\ rhs <> [].
Proof.
  intros r A rhs Hg H2 H6.
  assert (C : forallb (fun r => Nat.leb r 2 || Nat.eqb r 6 || match nth_error grammar r with Some (_, rhs) => tailed rhs && negb (match rhs with [] => true | _ => false end) | None => true end) (seq 0 48) = true) by (vm_compute; reflexivity).
  assert (Hr : (r < 48)%nat) by (change 48%nat with (length grammar); apply nth_error_Some; rewrite Hg; discriminate).
  rewrite forallb_forall in C. specialize (C r (proj2 (in_seq 48 0 r) ltac:(lia))). rewrite Hg in C.
  replace (Nat.leb r 2) with false in C by (symmetry; apply Nat.leb_gt; exact H2).
  replace (Nat.eqb r 6) with false in C by (symmetry; apply Nat.eqb_neq; exact H6). cbn [orb] in C.
  apply andb_true_iff in C. destruct C as [C1 C2]. split; [exact C1|]. intros ->. discriminate C2.
Qed.

Section P.
  Context {V St E : Type}.
  Variable nv : V.
  Variable act : nat -> list V -> St -> E + (V * St).
  Variable depth : nat.
  Notation built := (built nv act).
  Notation e0 := (mkEntry 0 0 nv).

  Definition no_end (l : list (Z * V)) : Prop := Forall (fun x => ~ ends_statement (fst x)) l.
  (** No statement ends but with the last token. *)
  Definition end_last (l : list (Z * V)) : Prop := forall m1 y m2, l = m1 ++ y :: m2 -> ends_statement (fst y) -> m2 = [].

  Lemma inner_yield : (forall X (t : tree V), derives X t -> inner X = true -> no_end (yield t)) /\
    (forall Xs (kids : list (tree V)), derives_all Xs kids -> Forall (fun X => inner X = true) Xs -> no_end (flat_map yield kids)).
  Proof.
    apply (derives_mutind V (fun X t _ => inner X = true -> no_end (yield t))
       (fun Xs kids _ => Forall (fun X => inner X = true) Xs -> no_end (flat_map yield kids))).
    - intros c v Hi. constructor; [|constructor]. cbn in *. apply negb_true_iff in Hi. apply orb_false_iff in Hi. destruct Hi as [Hi H3].
      apply orb_false_iff in Hi. destruct Hi as [H1 H2]. apply Z.eqb_neq in H1, H2, H3.
      unfold ends_statement. cbn. intros [H|[H|[H|[]]]]; congruence.
    - intros r A rhs kids Hg _ IH Hi. apply IH. exact (inner_rules _ _ _ Hg Hi).
    - intros _. constructor.
    - intros X rhs t kids _ IH1 _ IH2 HF. inversion HF; subst. apply Forall_app. split; [apply IH1; assumption|apply IH2; assumption].
  Qed.
  Lemma no_end_app_last : forall l y, no_end l -> end_last (l ++ [y]).
  Proof.
    intros l y Hl m1 z m2 Eq He. revert l Hl Eq. induction m1 as [|x m1 IH]; intros l Hl Eq.
    - destruct l as [|a l]; cbn in Eq; injection Eq as <- Eq; [congruence|]. inversion Hl; subst. contradiction.
    - destruct l as [|a l]; cbn in Eq; injection Eq as <- Eq; [destruct m1; discriminate Eq|]. inversion Hl; subst. apply (IH l); assumption.
  Qed.
  Lemma no_end_last : forall l, no_end l -> end_last l.
  Proof.
    intros l Hl m1 z m2 -> He. exfalso. apply Forall_app in Hl. destruct Hl as [_ Hl]. inversion Hl; subst. contradiction.
  Qed.
  Lemma no_end_app : forall a b, no_end a -> end_last b -> end_last (a ++ b).
  Proof.
    induction a as [|x a IH]; intros b Ha Hb; [exact Hb|]. inversion Ha; subst. intros m1 y m2 Eq He. destruct m1 as [|z m1]; cbn in Eq; injection Eq as <- Eq; [contradiction|].
    apply (IH b H2 Hb m1 y m2 Eq He).
  Qed.
  Lemma derives_all_snoc : forall Xs X (kids : list (tree V)), derives_all (Xs ++ [X]) kids -> exists kf k, kids = kf ++ [k] /\ derives_all Xs kf /\ derives X k.
  Proof.
    induction Xs as [|Y Xs IH]; intros X kids H; inversion H; subst.
    - inversion H4; subst. exists [], t. split; [reflexivity|]. split; [constructor|assumption].
    - destruct (IH X kids0 H4) as [kf [k [-> [D1 D2]]]]. exists (t :: kf), k. split; [reflexivity|]. split; [constructor; assumption|exact D2].
  Qed.
  Lemma tailed_yield : forall rhs (kids : list (tree V)), derives_all rhs kids -> tailed rhs = true -> rhs <> [] -> end_last (flat_map yield kids).
  Proof.
    intros rhs kids Hd Ht Hn. apply andb_true_iff in Ht. destruct Ht as [H1 H2]. rewrite (app_removelast_last (T 0) Hn) in Hd.
    destruct (derives_all_snoc _ _ _ Hd) as [kf [k [-> [D1 D2]]]]. rewrite flat_map_app. cbn [flat_map]. rewrite app_nil_r.
    assert (Nf : no_end (flat_map yield kf)). { apply (proj2 inner_yield _ _ D1). apply Forall_forall. rewrite forallb_forall in H1. exact H1. }
    destruct (last rhs (T 0)) as [c|A].
    - inversion D2; subst. cbn [yield]. apply no_end_app_last. exact Nf.
    - apply no_end_last. apply Forall_app. split; [exact Nf|]. apply (proj1 inner_yield _ _ D2 H2).
  Qed.

  Definition open_shape (ts : list (sym * tree V)) : Prop :=
    Forall (fun x => inner (fst x) = true) ts \/
    exists t rest, ts = (N StatementList, t) :: rest /\ Forall (fun x => inner (fst x) = true) rest.
  Lemma shape : forall s0 σ ts s, built s0 σ ts s -> forall e σ', σ = e :: σ' -> (exists X q, trans (stateno e) X = Some q) -> open_shape ts.
  Proof.
    intros s0 σ ts s Hb. induction Hb as [|e1 σ1 ts1 s1 X t v s1' q Hb1 IH Ht Hd Hy Hp]; intros e σ' Eσ [Y [q2 Hq2]].
    - left. constructor.
    - injection Eσ as <- <-. cbn [stateno] in Hq2. destruct (built_valid _ _ _ _ _ _ Hb1) as [e2 [σ2 [E2 [V2 [L2 H0]]]]]. injection E2 as <- <-.
      specialize (IH e1 σ1 eq_refl (ex_intro _ X (ex_intro _ q Ht))).
      destruct (inner X) eqn:Ei.
      + destruct IH as [IH|[t0 [rest [-> IH]]]].
        * left. apply Forall_app. split; [exact IH|]. constructor; [exact Ei|constructor].
        * right. exists t0, (rest ++ [(X, t)]). split; [reflexivity|]. apply Forall_app. split; [exact IH|]. constructor; [exact Ei|constructor].
      + destruct (is_sl X) eqn:Es.
        * assert (EX : X = N StatementList) by (destruct X as [c|[]]; try discriminate Es; reflexivity). subst X.
          assert (stateno e1 = 0) by (apply (sl_from_start _ _ V2 Ht)). specialize (H0 H). subst σ1. destruct ts1; [|discriminate L2].
          right. exists t, []. split; [reflexivity|constructor].
        * exfalso. apply (outer_closed _ _ _ Y q2 V2 Ht Ei); [intros ->; discriminate Es|exact Hq2].
  Qed.
  Lemma built_first : forall s0 σ ts s, built s0 σ ts s -> forall X t rest, ts = (X, t) :: rest -> exists v s1, derives X t /\ perform act t s0 = inr (v, s1).
  Proof.
    intros s0 σ ts s Hb. induction Hb as [|e1 σ1 ts1 s1 X t v s1' q Hb1 IH Ht Hd Hy Hp]; intros X0 t0 rest Ets; [discriminate Ets|].
    destruct ts1 as [|[X1 t1] ts1].
    - injection Ets as <- <- <-. inversion Hb1; subst; [exists v, s1'; split; assumption|]. match goal with H : _ ++ [_] = [] |- _ => destruct (app_cons_not_nil _ _ _ (eq_sym H)) end.
    - injection Ets as <- <- _. apply (IH X1 t1 ts1 eq_refl).
  Qed.

  (** A reduction after reading [toks] throws. *)
  Definition thrown (s0 : St) (toks : list (Z * V)) (x : E) : Prop :=
    exists eb σb tsb sb r A rhs kids vs s1, toks = read tsb ++ flat_map yield kids /\ built s0 (eb :: σb) tsb sb /\
      nth_error grammar r = Some (A, rhs) /\ derives_all rhs kids /\ token_list (flat_map yield kids) /\
      perform_list act kids sb = inr (vs, s1) /\ act r vs s1 = inl x /\ exists las, item (stateno eb) r 0 las.
  Lemma perform_list_length : forall kids s vs s', perform_list act kids s = inr (vs, s') -> length vs = length kids.
  Proof.
    induction kids as [|k kids IH]; intros s vs s' H; cbn in H; [injection H as <- _; reflexivity|].
    destruct (perform act k s) as [e|[v s1]]; [discriminate H|]. destruct (perform_list act kids s1) as [e|[vs1 s2]] eqn:Ek; [discriminate H|].
    injection H as <- _. cbn. f_equal. exact (IH _ _ _ Ek).
  Qed.

  (** The statement in which it throws, and the statements before it. *)
  Definition place (s0 : St) (toks : list (Z * V)) (x : E) : Prop :=
    exists p m kids r A rhs vs sb s1, toks = p ++ m ++ flat_map yield kids /\
      (p = [] \/ exists t v s, derives (N StatementList) t /\ yield t = p /\ perform act t s0 = inr (v, s)) /\
      no_end m /\ end_last (m ++ flat_map yield kids) /\ nth_error grammar r = Some (A, rhs) /\ derives_all rhs kids /\
      token_list (flat_map yield kids) /\ perform_list act kids sb = inr (vs, s1) /\ act r vs s1 = inl x.
  Lemma thrown_place : forall s0 toks x, thrown s0 toks x ->
    (forall r A rhs vs s, nth_error grammar r = Some (A, rhs) -> length vs = length rhs -> act r vs s = inl x -> (2 < r)%nat /\ r <> 6%nat) ->
    place s0 toks x.
  Proof.
    intros s0 toks x [eb [σb [tsb [sb [r [A [rhs [kids [vs [s1 [Et [Hb [Hg [Hd [Hy [Hp [Ha [las Hi]]]]]]]]]]]]]]]]]] HF.
    destruct (HF r A rhs vs s1 Hg ltac:(rewrite (perform_list_length _ _ _ _ Hp); symmetry; apply derives_all_length; exact Hd) Ha) as [H2 H6].
    destruct (tailed_rules _ _ _ Hg H2 H6) as [Ht Hn].
    destruct (built_valid _ _ _ _ _ _ Hb) as [e1 [σ1 [E1 [Hv _]]]]. injection E1 as <- <-.
    assert (Ho : exists X q, trans (stateno eb) X = Some q).
    { pose proof (forward_of _ _ _ _ _ _ Hv Hi Hg) as F. destruct rhs as [|X rhs]; [exfalso; apply Hn; reflexivity|]. cbn in F.
      inversion Hd as [|X1 rhs1 k1 kids1 Hd1 Hd2]; subst. destruct F as [[q [las' [Hq _]]] _]; [|exists X, q; exact Hq].
      apply (token_not_error _ _ Hd1). cbn in Hy. apply Forall_app in Hy. exact (proj1 Hy). }
    assert (NR : forall rest, Forall (fun y => inner (fst y) = true) rest -> (forall X t, In (X, t) rest -> derives X t) -> no_end (@read V rest)).
    { clear. induction rest as [|[X t] rest IH]; intros HF HD; [constructor|]. inversion HF; subst. cbn. apply Forall_app. split.
      - apply (proj1 inner_yield X t); [apply HD; left; reflexivity|exact H1].
      - apply IH; [exact H2|]. intros. apply HD. right. assumption. }
    assert (HD : forall X t, In (X, t) tsb -> derives X t).
    { clear -Hb. remember (eb :: σb) as σ. clear Heqσ. induction Hb as [|? ? ? ? ? ? ? ? ? ? IH]; intros X0 t0 Hin; [destruct Hin|].
      apply in_app_or in Hin. destruct Hin as [Hin|[Hin|[]]]; [apply IH; exact Hin|]. injection Hin as <- <-. assumption. }
    destruct (shape _ _ _ _ Hb eb σb eq_refl Ho) as [HS|[t [rest [-> HS]]]].
    - exists [], (read tsb), kids, r, A, rhs, vs, sb, s1. split; [exact Et|]. split; [left; reflexivity|]. pose proof (NR tsb HS HD) as HN.
      split; [exact HN|]. split; [apply no_end_app; [exact HN|apply (tailed_yield rhs); assumption]|]. tauto.
    - destruct (built_first _ _ _ _ Hb _ _ _ eq_refl) as [v [s2 [D1 P1]]].
      exists (yield t), (read rest), kids, r, A, rhs, vs, sb, s1. split; [rewrite Et; cbn; rewrite <- app_assoc; reflexivity|].
      split; [right; exists t, v, s2; tauto|]. pose proof (NR rest HS (fun X t H => HD X t (or_intror H))) as HN.
      split; [exact HN|]. split; [apply no_end_app; [exact HN|apply (tailed_yield rhs); assumption]|]. tauto.
  Qed.

  (** One call of [Parse]. *)
  Lemma loop_thrown : forall fuel s0 e σ ts s cnt maj v, built s0 (e :: σ) ts s -> (length (e :: σ) <= depth)%nat -> 0 <= maj < ERROR ->
    match parse_loop act depth fuel (mkParser (e :: σ) cnt) maj v s with
    | Ret _ (p', s') =>
        (exists e' σ' ts', stack p' = e' :: σ' /\ built s0 (e' :: σ') ts' s' /\ read ts' = read ts ++ [(maj, v)] /\ (length (e' :: σ') <= depth)%nat) \/
        (stack p' = [] /\ (maj = 0 \/ ((depth <= length (read ts ++ [(maj, v)]))%nat /\ forall rest, ~ shallow (depth - 1) (read ts ++ (maj, v) :: rest))))
    | Throw _ x => thrown s0 (read ts) x
    | _ => True
    end.
  Proof.
    induction fuel as [|fuel IH]; intros s0 e σ ts s cnt maj v Hb Hl Hm; [exact I|].
    cbn [parse_loop stack]. destruct (built_valid _ _ _ _ _ _ Hb) as [e1 [σ1 [E1 [Hv [Hlen H0]]]]]. injection E1 as <- <-.
    destruct (action_cases _ _ Hv Hm) as [[q [Ha [Hq Hc0]]]|[[r [A [rhs [las [Ha [Hr [Hg [Hi Hr0]]]]]]]]|Ha]].
    - rewrite Ha. replace (q <? YYNSTATE) with true by (symmetry; apply Z.ltb_lt; lia). replace (maj =? 0) with false by (symmetry; apply Z.eqb_neq; exact Hc0).
      assert (Ht : trans (stateno e) (T maj) = Some q).
      { unfold trans. rewrite Ha. replace (0 <? maj) with true by (symmetry; apply Z.ltb_lt; lia). replace (maj <? ERROR) with true by (symmetry; apply Z.ltb_lt; lia).
        replace (q <? YYNSTATE) with true by (symmetry; apply Z.ltb_lt; lia). reflexivity. }
      cbn [stack]. unfold yy_shift. destruct (Nat.leb depth (length (e :: σ))) eqn:El.
      + right. split; [reflexivity|]. right. apply Nat.leb_le in El.
        destruct (shift_viable nv act _ _ _ _ _ maj v _ Hb Ht) as [t [w [pp [pw [D1 [T1 [Y1 [P1 L1]]]]]]]]. split.
        * rewrite app_length. cbn [length] in *. assert (G : forall tsx, (forall X t, In (X, t) tsx -> derives X t) -> (length tsx <= length (@read V tsx))%nat).
          { clear. induction tsx as [|[X t] tsx IH]; intros HD; [cbn; lia|]. change (read ((X, t) :: tsx)) with (yield t ++ read tsx). rewrite app_length. cbn [length].
            assert (length (yield t) <> 0)%nat; [|specialize (IH (fun X t H => HD X t (or_intror H))); lia].
            rewrite <- (proj1 pending_length_mut X t (HD X t (or_introl eq_refl))). destruct (pending_first X t (HD X t (or_introl eq_refl))) as [h [l Eh]]. rewrite Eh. discriminate. }
          assert (HD : forall X t, In (X, t) ts -> derives X t).
          { clear -Hb. remember (e :: σ) as σx. clear Heqσx. induction Hb as [|? ? ? ? ? ? ? ? ? ? IH]; intros X0 t0 Hin; [destruct Hin|].
            apply in_app_or in Hin. destruct Hin as [Hin|[Hin|[]]]; [apply IH; exact Hin|]. injection Hin as <- <-. assumption. }
          specialize (G ts HD). lia.
        * intros rest Hs. specialize (Hs t (read ts ++ [(maj, v)]) rest w D1 T1). rewrite <- !app_assoc in Hs. specialize (Hs eq_refl Y1).
          rewrite P1, app_length, <- L1 in Hs. cbn [length] in Hs. rewrite firstn_app in Hs.
          replace (length pp + 1 - length pp)%nat with 1%nat in Hs by lia. apply Forall_app in Hs. destruct Hs as [_ Hs]. inversion Hs; subst. cbn [length] in *. lia.
      + apply Nat.leb_gt in El. left. exists (mkEntry q maj v), (e :: σ), (ts ++ [(T maj, Leaf maj v)]). split; [reflexivity|]. split; [|split; [rewrite read_app; reflexivity|cbn [length] in *; lia]].
        eapply (built_push nv act s0 e σ ts s (T maj)); [exact Hb|exact Ht|constructor|constructor; [unfold is_token; cbn; lia|constructor]|reflexivity].
    - rewrite Ha. replace (YYNSTATE + Z.of_nat r <? YYNSTATE) with false by (symmetry; apply Z.ltb_ge; lia).
      replace (YYNSTATE + Z.of_nat r <? YYNSTATE + YYNRULE) with true by (symmetry; apply Z.ltb_lt; lia).
      replace (Z.to_nat (YYNSTATE + Z.of_nat r - YYNSTATE)) with r by lia.
      destruct (built_split _ _ _ _ _ _ _ _ _ _ _ _ Hb Hi Hg) as [es [eb [σb [tsb [kids [vs [sb [Eσ [Ets [Hbb [L1 [L2 [M [Da [Tl [Pf [las0 I0]]]]]]]]]]]]]]]]].
      rewrite firstn_all in *. rewrite Eσ. rewrite (reduce_eq act depth es eb σb r A rhs s vs Hg L1 M).
      assert (Hread : read ts = read tsb ++ flat_map yield kids) by (rewrite Ets, read_app, read_combine by congruence; reflexivity).
      destruct (act r vs s) as [x|[v' s']] eqn:Eact.
      + exists eb, σb, tsb, sb, r, A, rhs, kids, vs, s. split; [exact Hread|]. split; [exact Hbb|]. split; [exact Hg|]. split; [exact Da|]. split; [exact Tl|]. split; [exact Pf|]. split; [exact Eact|]. exists las0. exact I0.
      + destruct (find_reduce_action (stateno eb) (ncode A)) as [a|] eqn:Ef; [|exact I].
        destruct (a <? YYNSTATE) eqn:Ea.
        * assert (Htr : trans (stateno eb) (N A) = Some a) by (unfold trans; rewrite Ef, Ea; reflexivity).
          assert (Hes : (0 < length es)%nat). { destruct (rule_facts _ _ _ Hg) as [_ [X0 [rhs0 [Erhs _]]]]. rewrite L1, Erhs. cbn. lia. }
          assert (Hll : length (e :: σ) = (length es + length (eb :: σb))%nat) by (rewrite Eσ, app_length; reflexivity).
          unfold yy_shift. replace (Nat.leb depth (length (eb :: σb))) with false by (symmetry; apply Nat.leb_gt; lia).
          assert (Hb' : built s0 (mkEntry a (scode (N A)) v' :: eb :: σb) (tsb ++ [(N A, Node r kids)]) s').
          { eapply built_push; [exact Hbb|exact Htr|econstructor; eassumption|exact Tl|rewrite perform_node, Pf; exact Eact]. }
          specialize (IH s0 _ _ _ _ cnt maj v Hb' ltac:(cbn [length] in *; lia) Hm).
          assert (Hread' : read (tsb ++ [(N A, Node r kids)]) = read ts).
          { rewrite Hread, read_app. cbn [read flat_map snd]. rewrite app_nil_r. reflexivity. }
          rewrite Hread' in IH. exact IH.
        * destruct (a =? YY_ACCEPT_ACTION); [|exact I]. cbn [stack]. right. split; [reflexivity|]. left.
          destruct (Nat.eq_dec r 0) as [->|Hrn]; [exact (Hr0 eq_refl)|]. exfalso.
          destruct (built_valid _ _ _ _ _ _ Hbb) as [eb' [σb' [E2 [Hvb _]]]]. injection E2 as <- <-.
          destruct (before_lhs _ _ _ _ _ Hvb I0 Hg Hrn) as [r' [d' [las' [A' [rhs' [Hi' [Hg' Hd']]]]]]].
          pose proof (forward_of _ _ _ _ _ _ Hvb Hi' Hg') as F. rewrite Hd' in F. destruct F as [[q [las'' [Htr _]]] _]; [discriminate|].
          destruct (trans_nonterm _ _ _ Htr) as [T1 T2]. rewrite Ef in T1. injection T1 as ->. apply Z.ltb_ge in Ea. lia.
    - rewrite Ha. change (YY_ERROR_ACTION <? YYNSTATE) with false. change (YY_ERROR_ACTION <? YYNSTATE + YYNRULE) with false.
      change (YY_ERROR_ACTION =? YY_ERROR_ACTION) with true. cbn iota. destruct (errcnt _ <? 0); exact I.
  Qed.

  Definition empty_or_built (p : @yyparser V) (s0 s : St) (l : list (Z * V)) : Prop :=
    (stack p = [] /\ s = s0 /\ l = []) \/ exists e σ ts, stack p = e :: σ /\ built s0 (e :: σ) ts s /\ read ts = l /\ (length (e :: σ) <= depth)%nat.
  Lemma tokens_thrown : (1 <= depth)%nat -> forall toks fuel p s0 s l x, token_list toks -> empty_or_built p s0 s l ->
    parse_tokens nv act depth fuel p toks s = ActionError x ->
    exists front mid q s1, l ++ toks = front ++ mid ++ q /\ thrown s1 mid x /\
      (front = [] /\ s1 = s0 \/ (depth <= length front)%nat /\ ~ shallow (depth - 1) (l ++ toks)).
  Proof.
    intros Hdep. induction toks as [|[c v] toks IH]; intros fuel p s0 s l x Ht Hp H; cbn [parse_tokens] in H.
    - assert (H' : exists cnt e σ ts, parse_loop act depth fuel (mkParser (e :: σ) cnt) 0 nv s = Throw _ x /\ built s0 (e :: σ) ts s /\ read ts = l /\ (length (e :: σ) <= depth)%nat).
      { unfold parse_token in H. destruct Hp as [[Ep [-> ->]]|[e [σ [ts [Ep [Hb [Hr Hl]]]]]]].
        - rewrite Ep in H. destruct (parse_loop act depth fuel (mkParser [e0] (-1)) 0 nv s0) as [[? ?]|y| | | |] eqn:El; try discriminate H. injection H as ->.
          exists (-1), e0, [], []. split; [exact El|]. split; [constructor|]. split; [reflexivity|cbn; lia].
        - rewrite Ep in H. destruct p as [st cnt]. cbn [stack] in Ep. subst st.
          destruct (parse_loop act depth fuel (mkParser (e :: σ) cnt) 0 nv s) as [[? ?]|y| | | |] eqn:El; try discriminate H. injection H as ->.
          exists cnt, e, σ, ts. tauto. }
      destruct H' as [cnt [e [σ [ts [El [Hb [<- Hl]]]]]]]. pose proof (loop_thrown fuel s0 e σ ts s cnt 0 nv Hb Hl ltac:(unfold ERROR; lia)) as L. rewrite El in L.
      exists [], (read ts), [], s0. split; [reflexivity|]. split; [exact L|]. left. split; reflexivity.
    - inversion Ht as [|y ys Hc Ht']; subst. assert (Hm : 0 <= c < ERROR) by (unfold is_token in Hc; cbn in Hc; lia).
      assert (H' : exists cnt e σ ts, parse_token nv act depth fuel p c v s = parse_loop act depth fuel (mkParser (e :: σ) cnt) c v s /\ built s0 (e :: σ) ts s /\ read ts = l /\ (length (e :: σ) <= depth)%nat).
      { unfold parse_token. destruct Hp as [[Ep [-> ->]]|[e [σ [ts [Ep [Hb [Hr Hl]]]]]]].
        - rewrite Ep. exists (-1), e0, [], []. split; [reflexivity|]. split; [constructor|]. split; [reflexivity|cbn; lia].
        - rewrite Ep. destruct p as [st cnt]. cbn [stack] in Ep. subst st. exists cnt, e, σ, ts. tauto. }
      destruct H' as [cnt [e [σ [ts [El [Hb [<- Hl]]]]]]]. pose proof (loop_thrown fuel s0 e σ ts s cnt c v Hb Hl Hm) as L. rewrite El in H.
      destruct (parse_loop act depth fuel (mkParser (e :: σ) cnt) c v s) as [[p' s']|y| | | |]; try discriminate H.
      + destruct L as [[e' [σ' [ts' [Es [Hb' [Hr' Hl']]]]]]|[Es [L|[L1 L2]]]].
        * destruct (IH fuel p' s0 s' (read ts') x Ht' (or_intror (ex_intro _ e' (ex_intro _ σ' (ex_intro _ ts' (conj Es (conj Hb' (conj eq_refl Hl'))))))) H) as [front [mid [q [s1 [Eq [Th Fr]]]]]].
          rewrite Hr', <- app_assoc in Eq, Fr. exists front, mid, q, s1. split; [exact Eq|]. split; [exact Th|exact Fr].
        * unfold is_token in Hc. cbn in Hc. lia.
        * destruct (IH fuel p' s' s' [] x Ht' (or_introl (conj Es (conj eq_refl eq_refl))) H) as [front [mid [q [s1 [Eq [Th Fr]]]]]]. cbn [app] in Eq.
          exists ((read ts ++ [(c, v)]) ++ front), mid, q, s1. split; [rewrite <- !app_assoc; cbn [app]; rewrite Eq; reflexivity|]. split; [exact Th|]. right.
          split; [rewrite app_length; lia|apply L2].
      + injection H as ->. exists [], (read ts), ((c, v) :: toks), s0. split; [reflexivity|]. split; [exact L|]. left. split; reflexivity.
  Qed.
End P.
