(** The parser performs the actions of a derivation tree when given its tokens. *)
From Coq Require Import ZArith List Bool Lia.
From Verif Require Import ParseModel ParseSpec ParseTableProofs.
Import ListNotations.
Local Open Scope Z_scope.

Scheme derives_ind2 := Induction for derives Sort Prop
  with derives_all_ind2 := Induction for derives_all Sort Prop.
Combined Scheme derives_mutind from derives_ind2, derives_all_ind2.

Section P.
  Context {V St E : Type}.
  Variable nv : V.
  Variable act : nat -> list V -> St -> E + (V * St).
  Variable depth : nat.
  Notation loop := (parse_loop act depth).
  Notation ptokens := (parse_tokens nv act depth).
  Notation reduce := (yy_reduce act depth).
  Notation ent := (@entry V).
  Notation parser := (@yyparser V).

  (** ** Trees *)
  Fixpoint perform_list (l : list (tree V)) (s : St) : E + (list V * St) :=
    match l with
    | [] => inr ([], s)
    | k :: l' =>
        match perform act k s with
        | inl e => inl e
        | inr (v, s') => match perform_list l' s' with inl e => inl e | inr (vs, s'') => inr (v :: vs, s'') end
        end
    end.
  Lemma perform_node : forall r kids s,
    perform act (Node r kids) s = match perform_list kids s with inl e => inl e | inr (vs, s') => act r vs s' end.
  Proof. reflexivity. Qed.
  Fixpoint pending_list (i : nat) (l : list (tree V)) : list nat :=
    match l with [] => [] | k :: l' => map (Nat.add i) (pending k) ++ pending_list (S i) l' end.
  Lemma pending_node : forall r (kids : list (tree V)), pending (Node r kids) = pending_list 0 kids.
  Proof. reflexivity. Qed.
  Lemma pending_list_shift : forall l i j, pending_list (i + j) l = map (Nat.add i) (pending_list j l).
  Proof.
    induction l as [|k l IH]; intros i j; [reflexivity|]. cbn [pending_list]. rewrite map_app, map_map. f_equal.
    - apply map_ext. intros x. lia.
    - rewrite <- IH. f_equal. lia.
  Qed.
  Definition la (toks : list (Z * V)) : Z := match toks with [] => 0 | (c, _) :: _ => c end.

  Lemma yield_first : forall X (t : tree V), derives X t -> token_list (yield t) ->
    exists c v l, yield t = (c, v) :: l /\ In c (firsts X).
  Proof.
    apply (derives_ind2 V
      (fun X t _ => token_list (yield t) -> exists c v l, yield t = (c, v) :: l /\ In c (firsts X))
      (fun Xs kids _ => token_list (flat_map yield kids) ->
         match Xs with [] => kids = [] | X :: _ => X <> T ERROR /\ exists c v l, flat_map yield kids = (c, v) :: l /\ In c (firsts X) end)).
    - intros c v _. exists c, v, []. split; [reflexivity|]. left. reflexivity.
    - intros r A rhs kids Hg _ IH Ht. cbn [yield] in *. destruct (rule_facts _ _ _ Hg) as [_ [X [rhs' [-> Hf]]]].
      destruct (IH Ht) as [HX [c [v [l [E1 E2]]]]]. exists c, v, l. split; [exact E1|]. exact (Hf HX c E2).
    - intros _. reflexivity.
    - intros X rhs t kids Hd IH _ _ Ht. cbn [flat_map] in *. apply Forall_app in Ht. destruct Ht as [Ht _].
      destruct (IH Ht) as [c [v [l [E1 E2]]]]. split.
      + intros ->. inversion Hd; subst. cbn in Ht. inversion Ht; subst. unfold is_token in *. cbn in *. unfold ERROR in *. lia.
      + exists c, v, (l ++ flat_map yield kids). rewrite E1. split; [reflexivity|exact E2].
  Qed.
  Lemma token_not_error : forall X (t : tree V), derives X t -> token_list (yield t) -> X <> T ERROR.
  Proof.
    intros X t Hd Ht ->. inversion Hd; subst. inversion Ht; subst. unfold is_token in *. cbn in *. unfold ERROR in *. lia.
  Qed.

  Lemma pending_first : forall X (t : tree V), derives X t -> exists h l, pending t = S h :: l.
  Proof.
    apply (derives_ind2 V (fun X t _ => exists h l, pending t = S h :: l)
      (fun Xs kids _ => match Xs with [] => True | _ => exists h l, pending_list 0 kids = S h :: l end)).
    - intros c v. exists 0%nat, []. reflexivity.
    - intros r A rhs kids Hg _ IH. rewrite pending_node. destruct (rule_facts _ _ _ Hg) as [_ [X [rhs' [-> _]]]]. exact IH.
    - exact I.
    - intros X rhs t kids _ [h [l E1]] _ _. cbn [pending_list]. rewrite E1. cbn. eexists. eexists. reflexivity.
  Qed.

  (** ** Fuel *)
  Lemma loop_mono : forall n n' p m v s, loop n p m v s <> NoFuel _ -> (n <= n')%nat -> loop n' p m v s = loop n p m v s.
  Proof.
    induction n as [|n IH]; intros n' p m v s H Hle; [exfalso; apply H; reflexivity|].
    destruct n' as [|n']; [lia|]. cbn [parse_loop] in *. destruct (stack p) as [|e st]; [reflexivity|].
    destruct (find_shift_action (stateno e) m <? YYNSTATE); [reflexivity|].
    destruct (find_shift_action (stateno e) m <? YYNSTATE + YYNRULE); [|reflexivity].
    destruct (reduce (e :: st) (Z.to_nat (find_shift_action (stateno e) m - YYNSTATE)) s) as [[st' s']| | | | |]; try reflexivity.
    destruct st' as [|e' st']; [reflexivity|]. apply IH; [exact H|lia].
  Qed.

  Definition ends (p : parser) (toks : list (Z * V)) (s : St) (r : parsed V St E) : Prop :=
    exists n, forall fuel, (n <= fuel)%nat -> ptokens fuel p toks s = r.

  Definition continue (fuel : nat) (toks : list (Z * V)) (o : outcome E (parser * St)) : parsed V St E :=
    match toks, o with
    | [], Ret _ (_, s') => Finished s'
    | _ :: toks', Ret _ (p', s') => ptokens fuel p' toks' s'
    | [], Internal _ => EscapedInternalError
    | (_, v) :: _, Internal _ => SyntaxError v
    | _, Throw _ e => ActionError e
    | _, Assertion _ => Aborted
    | _, Recovery _ => EnteredRecovery
    | _, NoFuel _ => OutOfFuel
    end.
  Definition tok_value (toks : list (Z * V)) : V := match toks with [] => nv | (_, v) :: _ => v end.
  Lemma ptokens_loop : forall fuel p toks s, stack p <> [] ->
    ptokens fuel p toks s = continue fuel toks (loop fuel p (la toks) (tok_value toks) s).
  Proof.
    intros fuel p toks s H. destruct toks as [|[c v] toks]; cbn [parse_tokens la tok_value continue]; unfold parse_token;
      destruct (stack p) as [|e st] eqn:Es; try (exfalso; apply H; reflexivity).
    - destruct (loop fuel p 0 nv s) as [[p' s']| | | | |]; reflexivity.
    - destruct (loop fuel p c v s) as [[p' s']| | | | |]; reflexivity.
  Qed.

  (** The cases of one step. *)
  Lemma ends_reduce : forall p e st toks s r st' s' res,
    stack p = e :: st -> find_shift_action (stateno e) (la toks) = YYNSTATE + Z.of_nat r -> Z.of_nat r < YYNRULE ->
    reduce (e :: st) r s = Ret _ (st', s') -> st' <> [] -> res <> OutOfFuel ->
    ends (mkParser st' (errcnt p)) toks s' res -> ends p toks s res.
  Proof.
    intros p e st toks s r st' s' res Es Ha Hr Hred Hne Hres [n Hn]. exists (S n). intros fuel Hf.
    destruct fuel as [|fuel]; [lia|]. rewrite ptokens_loop by (rewrite Es; discriminate).
    cbn [parse_loop]. rewrite Es, Ha.
    replace (YYNSTATE + Z.of_nat r <? YYNSTATE) with false by (symmetry; apply Z.ltb_ge; lia).
    replace (YYNSTATE + Z.of_nat r <? YYNSTATE + YYNRULE) with true by (symmetry; apply Z.ltb_lt; lia).
    replace (Z.to_nat (YYNSTATE + Z.of_nat r - YYNSTATE)) with r by lia. rewrite Hred.
    destruct st' as [|e' st']; [exfalso; apply Hne; reflexivity|].
    pose proof (Hn fuel ltac:(lia)) as H1. rewrite ptokens_loop in H1 by discriminate.
    assert (Hnf : loop fuel (mkParser (e' :: st') (errcnt p)) (la toks) (tok_value toks) s' <> NoFuel _).
    { intros Hc. rewrite Hc in H1. apply Hres. rewrite <- H1. destruct toks as [|[c v] toks]; reflexivity. }
    pose proof (Hn (S fuel) ltac:(lia)) as H2. rewrite ptokens_loop in H2 by discriminate.
    rewrite (loop_mono fuel (S fuel)) in H2; [exact H2|exact Hnf|lia].
  Qed.
  Lemma ends_throw : forall p e st toks s r x,
    stack p = e :: st -> find_shift_action (stateno e) (la toks) = YYNSTATE + Z.of_nat r -> Z.of_nat r < YYNRULE ->
    reduce (e :: st) r s = Throw _ x -> ends p toks s (ActionError x).
  Proof.
    intros p e st toks s r x Es Ha Hr Hred. exists 1%nat. intros fuel Hf.
    destruct fuel as [|fuel]; [lia|]. rewrite ptokens_loop by (rewrite Es; discriminate).
    cbn [parse_loop]. rewrite Es, Ha.
    replace (YYNSTATE + Z.of_nat r <? YYNSTATE) with false by (symmetry; apply Z.ltb_ge; lia).
    replace (YYNSTATE + Z.of_nat r <? YYNSTATE + YYNRULE) with true by (symmetry; apply Z.ltb_lt; lia).
    replace (Z.to_nat (YYNSTATE + Z.of_nat r - YYNSTATE)) with r by lia. rewrite Hred.
    destruct toks as [|[c v] toks]; reflexivity.
  Qed.
  Lemma ends_shift : forall p e st c v toks s q res,
    stack p = e :: st -> find_shift_action (stateno e) c = q -> q < YYNSTATE -> c <> 0 ->
    ends (mkParser (yy_shift depth (e :: st) q c v) (errcnt p - 1)) toks s res -> ends p ((c, v) :: toks) s res.
  Proof.
    intros p e st c v toks s q res Es Ha Hq Hc [n Hn]. exists (S n). intros fuel Hf.
    destruct fuel as [|fuel]; [lia|]. rewrite ptokens_loop by (rewrite Es; discriminate).
    cbn [la tok_value parse_loop]. rewrite Es, Ha. apply Z.ltb_lt in Hq. rewrite Hq.
    apply Z.eqb_neq in Hc. rewrite Hc. cbn [continue]. apply Hn. lia.
  Qed.
  Lemma ends_accept : forall p e st s r s',
    stack p = e :: st -> find_shift_action (stateno e) 0 = YYNSTATE + Z.of_nat r -> Z.of_nat r < YYNRULE ->
    reduce (e :: st) r s = Ret _ ([], s') -> ends p [] s (Finished s').
  Proof.
    intros p e st s r s' Es Ha Hr Hred. exists 1%nat. intros fuel Hf.
    destruct fuel as [|fuel]; [lia|]. rewrite ptokens_loop by (rewrite Es; discriminate).
    cbn [parse_loop la tok_value]. rewrite Es, Ha.
    replace (YYNSTATE + Z.of_nat r <? YYNSTATE) with false by (symmetry; apply Z.ltb_ge; lia).
    replace (YYNSTATE + Z.of_nat r <? YYNSTATE + YYNRULE) with true by (symmetry; apply Z.ltb_lt; lia).
    replace (Z.to_nat (YYNSTATE + Z.of_nat r - YYNSTATE)) with r by lia. rewrite Hred. reflexivity.
  Qed.
  Definition syntax_error (toks : list (Z * V)) : parsed V St E :=
    match toks with [] => EscapedInternalError | (_, v) :: _ => SyntaxError v end.
  Lemma ends_error : forall p e st toks s,
    stack p = e :: st -> find_shift_action (stateno e) (la toks) = YY_ERROR_ACTION -> errcnt p < 0 ->
    ends p toks s (syntax_error toks).
  Proof.
    intros p e st toks s Es Ha He. exists 1%nat. intros fuel Hf.
    destruct fuel as [|fuel]; [lia|]. rewrite ptokens_loop by (rewrite Es; discriminate).
    cbn [parse_loop]. rewrite Es, Ha. change (YY_ERROR_ACTION <? YYNSTATE) with false.
    change (YY_ERROR_ACTION <? YYNSTATE + YYNRULE) with false. change (YY_ERROR_ACTION =? YY_ERROR_ACTION) with true.
    apply Z.ltb_lt in He. cbv beta iota. rewrite He. destruct toks as [|[c v] toks]; reflexivity.
  Qed.
  Lemma ends_restart : forall c toks s res,
    ends (mkParser [mkEntry 0 0 nv] (-1)) toks s res <-> ends (mkParser [] c) toks s res.
  Proof.
    intros c toks s res. split; intros [n Hn]; exists n; intros fuel Hf; rewrite <- (Hn fuel Hf);
      destruct toks as [|[c' v] toks]; reflexivity.
  Qed.
  Lemma ends_det : forall p toks s r1 r2, ends p toks s r1 -> ends p toks s r2 -> r1 = r2.
  Proof.
    intros p toks s r1 r2 [n1 H1] [n2 H2]. rewrite <- (H1 (n1 + n2)%nat ltac:(lia)). apply H2. lia.
  Qed.

  (** Computation of a reduction. *)
  Lemma reduce_eq : forall es e σ r A rhs s vs,
    nth_error grammar r = Some (A, rhs) -> length es = length rhs -> map (@minor V) es = rev vs ->
    reduce (es ++ e :: σ) r s =
      match act r vs s with
      | inl x => Throw _ x
      | inr (v, s') =>
          match find_reduce_action (stateno e) (ncode A) with
          | None => Assertion _
          | Some a => if a <? YYNSTATE then Ret _ (yy_shift depth (e :: σ) a (ncode A) v, s')
                      else if a =? YY_ACCEPT_ACTION then Ret _ ([], s') else Assertion _
          end
      end.
  Proof.
    intros es e σ r A rhs s vs Hg Hl Hm. unfold yy_reduce. destruct (rule_facts _ _ _ Hg) as [-> _]. rewrite <- Hl.
    replace (Nat.ltb (length (es ++ e :: σ)) (length es)) with false.
    2:{ symmetry. apply Nat.ltb_ge. rewrite app_length. lia. }
    rewrite firstn_app, firstn_all, Nat.sub_diag, firstn_O, app_nil_r, Hm, rev_involutive.
    rewrite skipn_app, skipn_all, Nat.sub_diag, skipn_O. reflexivity.
  Qed.

  (** ** A tree is parsed *)
  Definition parses_tree (X : sym) (t : tree V) : Prop :=
    forall e σ c0 s rest r d las A rhs,
      valid (stateno e) -> item (stateno e) r d las -> nth_error grammar r = Some (A, rhs) ->
      nth_error rhs d = Some X -> In (la rest) (follow (skipn (S d) rhs) las) -> c0 < 0 -> token_list (yield t) ->
      Forall (fun h => (length (e :: σ) + h <= depth)%nat) (pending t) ->
      match perform act t s with
      | inl x => ends (mkParser (e :: σ) c0) (yield t ++ rest) s (ActionError x)
      | inr (v, s') => forall res, res <> OutOfFuel ->
          (forall q c, c < 0 -> trans (stateno e) X = Some q -> valid q ->
             ends (mkParser (mkEntry q (scode X) v :: e :: σ) c) rest s' res) ->
          ends (mkParser (e :: σ) c0) (yield t ++ rest) s res
      end.
  Definition parses_forest (Xs : list sym) (kids : list (tree V)) : Prop :=
    forall e σ c0 s rest r d las A rhs,
      valid (stateno e) -> item (stateno e) r d las -> nth_error grammar r = Some (A, rhs) ->
      (d <= length rhs)%nat -> skipn d rhs = Xs -> In (la rest) las -> c0 < 0 -> token_list (flat_map yield kids) ->
      Forall (fun h => (length (e :: σ) + h <= depth)%nat) (pending_list 0 kids) ->
      match perform_list kids s with
      | inl x => ends (mkParser (e :: σ) c0) (flat_map yield kids ++ rest) s (ActionError x)
      | inr (vs, s') => forall res, res <> OutOfFuel ->
          (forall es e' σ' c las', c < 0 -> length es = length kids -> map (@minor V) es = rev vs -> es ++ e :: σ = e' :: σ' ->
             valid (stateno e') -> item (stateno e') r (length rhs) las' -> incl las las' ->
             ends (mkParser (e' :: σ') c) rest s' res) ->
          ends (mkParser (e :: σ) c0) (flat_map yield kids ++ rest) s res
      end.

  Lemma skipn_cons_nth : forall {B} (l : list B) d X l', skipn d l = X :: l' -> nth_error l d = Some X /\ skipn (S d) l = l' /\ (S d <= length l)%nat.
  Proof.
    intros B l. induction l as [|y l IH]; intros d X l' H.
    - destruct d; discriminate H.
    - destruct d as [|d]; cbn in H.
      + injection H as -> ->. split; [reflexivity|]. split; [reflexivity|cbn; lia].
      + destruct (IH d X l' H) as [H1 [H2 H3]]. split; [exact H1|]. split; [exact H2|cbn; lia].
  Qed.

  Lemma all_parsed : (forall X t, derives X t -> parses_tree X t) /\ (forall Xs kids, derives_all Xs kids -> parses_forest Xs kids).
  Proof.
    apply (derives_mutind V (fun X t _ => parses_tree X t) (fun Xs kids _ => parses_forest Xs kids)).
    - (* token *)
      intros c v e σ c0 s rest r d las A rhs Hv Hi Hg Hd Hla Hc Ht Hp. cbn [perform yield]. intros res Hres K.
      assert (Hc' : 0 < c < ERROR). { inversion Ht; subst. assumption. }
      pose proof (forward_of _ _ _ _ _ _ Hv Hi Hg) as F. rewrite Hd in F.
      destruct F as [[q [las' [Htr [Hvq [_ _]]]]] _]. { intros Hx. injection Hx as ->. unfold ERROR in Hc'. lia. }
      destruct (trans_token _ _ _ Htr) as [_ [F1 F2]].
      apply ends_shift with (e := e) (st := σ) (q := q); [reflexivity|exact F1|rewrite <- F1; exact F2|lia|].
      assert (Hov : Nat.leb depth (length (e :: σ)) = false).
      { apply Nat.leb_gt. inversion Hp; subst. lia. }
      unfold yy_shift. rewrite Hov. apply K; [cbn; lia|exact Htr|exact Hvq].
    - (* rule *)
      intros r' B rhs' kids Hg' Hall IH e σ c0 s rest r d las A rhs Hv Hi Hg Hd Hla Hc Ht Hp.
      rewrite perform_node. cbn [yield] in *. rewrite pending_node in Hp.
      pose proof (forward_of _ _ _ _ _ _ Hv Hi Hg) as F. rewrite Hd in F. destruct F as [[q [las0 [Htr [Hvq _]]]] F2]; [discriminate|].
      destruct (F2 r' rhs' Hg') as [las' [Hi' Hincl]].
      specialize (IH e σ c0 s rest r' 0%nat las' B rhs' Hv Hi' Hg' ltac:(lia) eq_refl (Hincl _ Hla) Hc Ht Hp).
      destruct (perform_list kids s) as [x|[vs s']]; [exact IH|].
      assert (Hlen : length kids = length rhs').
      { clear -Hall. induction Hall; cbn; [reflexivity|]. rewrite IHHall. reflexivity. }
      assert (Hred : forall es e' σ' c las'', c < 0 -> length es = length kids -> map (@minor V) es = rev vs -> es ++ e :: σ = e' :: σ' ->
             valid (stateno e') -> item (stateno e') r' (length rhs') las'' -> incl las' las'' ->
             find_shift_action (stateno e') (la rest) = YYNSTATE + Z.of_nat r').
      { intros es e' σ' c las'' Hcc Hle Hm Eq Hv' Hi'' Hin'.
        pose proof (forward_of _ _ _ _ _ _ Hv' Hi'' Hg') as F. rewrite (proj2 (nth_error_None rhs' (length rhs'))) in F by lia.
        apply (proj2 F). apply Hin', Hincl, Hla. }
      assert (Hr48 : Z.of_nat r' < YYNRULE).
      { assert (r' < length grammar)%nat by (apply nth_error_Some; rewrite Hg'; discriminate).
        change (length grammar) with 48%nat in *. change YYNRULE with 48. lia. }
      destruct (act r' vs s') as [x|[v s'']] eqn:Ea.
      + apply IH; [discriminate|]. intros es e' σ' c las'' Hcc Hle Hm Eq Hv' Hi'' Hin'.
        apply ends_throw with (e := e') (st := σ') (r := r'); [reflexivity|eapply Hred; eassumption|exact Hr48|].
        rewrite <- Eq. rewrite (reduce_eq es e σ r' B rhs' s' vs Hg') by (congruence || assumption). rewrite Ea. reflexivity.
      + intros res Hres K. apply IH; [exact Hres|]. intros es e' σ' c las'' Hcc Hle Hm Eq Hv' Hi'' Hin'.
        destruct (trans_nonterm _ _ _ Htr) as [T1 T2]. apply Z.ltb_lt in T2.
        assert (Hov : Nat.leb depth (length (e :: σ)) = false).
        { apply Nat.leb_gt. destruct (rule_facts _ _ _ Hg') as [_ [X [rr [Hrr _]]]].
          destruct kids as [|k kids]; [rewrite Hrr in Hlen; discriminate Hlen|].
          inversion Hall; subst. cbn [pending_list] in Hp. apply Forall_app in Hp. destruct Hp as [Hp _].
          match goal with Hk : derives _ k |- _ => destruct (pending_first _ _ Hk) as [h [l Hl]] end.
          rewrite Hl in Hp. inversion Hp; subst. cbn in *. lia. }
        apply ends_reduce with (e := e') (st := σ') (r := r') (st' := mkEntry q (ncode B) v :: e :: σ) (s' := s'');
          [reflexivity|eapply Hred; eassumption|exact Hr48| |discriminate|exact Hres|].
        * rewrite <- Eq. rewrite (reduce_eq es e σ r' B rhs' s' vs Hg') by (congruence || assumption). rewrite Ea, T1, T2.
          unfold yy_shift. rewrite Hov. reflexivity.
        * apply K; [exact Hcc|exact Htr|exact Hvq].
    - (* no symbols left *)
      intros e σ c0 s rest r d las A rhs Hv Hi Hg Hd Hs Hla Hc Ht Hp. cbn [perform_list flat_map app]. intros res Hres K.
      assert (d = length rhs).
      { assert (H : length (skipn d rhs) = 0%nat) by (rewrite Hs; reflexivity). rewrite skipn_length in H. lia. }
      subst d. apply (K [] e σ c0 las); [exact Hc|reflexivity|reflexivity|reflexivity|exact Hv|exact Hi|apply incl_refl].
    - (* a symbol *)
      intros X Xs t kids Hdt IHt Hdk IHk e σ c0 s rest r d las A rhs Hv Hi Hg Hd Hs Hla Hc Ht Hp.
      cbn [perform_list flat_map pending_list] in *. apply Forall_app in Ht. destruct Ht as [Ht1 Ht2].
      apply Forall_app in Hp. destruct Hp as [Hp1 Hp2].
      destruct (skipn_cons_nth _ _ _ _ Hs) as [Hn [Hs' Hd']]. rewrite <- app_assoc.
      pose proof (forward_of _ _ _ _ _ _ Hv Hi Hg) as F. rewrite Hn in F.
      destruct F as [[q [las' [Htr [Hvq [Hi' Hincl]]]]] _]; [apply (token_not_error _ _ Hdt Ht1)|].
      assert (Hla' : In (la (flat_map yield kids ++ rest)) (follow (skipn (S d) rhs) las)).
      { rewrite Hs'. destruct Hdk as [|Y Ys k kids Hdk1 Hdk2]; [exact Hla|]. cbn [flat_map] in *. apply Forall_app in Ht2.
        destruct (yield_first _ _ Hdk1 (proj1 Ht2)) as [c [v [l [E1 E2]]]]. rewrite E1. exact E2. }
      rewrite map_ext with (g := fun x => x) in Hp1 by reflexivity. rewrite map_id in Hp1.
      specialize (IHt e σ c0 s (flat_map yield kids ++ rest) r d las A rhs Hv Hi Hg Hn Hla' Hc Ht1 Hp1).
      destruct (perform act t s) as [x|[v s1]]; [exact IHt|].
      assert (Hp2' : forall q' c', Forall (fun h => (length (mkEntry q' c' v :: e :: σ) + h <= depth)%nat) (pending_list 0 kids)).
      { intros q' c'. change 1%nat with (1 + 0)%nat in Hp2. rewrite pending_list_shift in Hp2. rewrite Forall_map in Hp2.
        eapply Forall_impl; [|exact Hp2]. cbn. intros h Hh. lia. }
      destruct (perform_list kids s1) as [x|[vs s2]] eqn:Ek.
      + apply IHt; [discriminate|]. intros q0 c Hcc Htr' _. rewrite Htr in Htr'. injection Htr' as <-.
        specialize (IHk (mkEntry q (scode X) v) (e :: σ) c s1 rest r (S d) las' A rhs Hvq Hi' Hg Hd' Hs' (Hincl _ Hla) Hcc Ht2 (Hp2' _ _)).
        rewrite Ek in IHk. exact IHk.
      + intros res Hres K. apply IHt; [exact Hres|]. intros q0 c Hcc Htr' _. rewrite Htr in Htr'. injection Htr' as <-.
        specialize (IHk (mkEntry q (scode X) v) (e :: σ) c s1 rest r (S d) las' A rhs Hvq Hi' Hg Hd' Hs' (Hincl _ Hla) Hcc Ht2 (Hp2' _ _)).
        rewrite Ek in IHk. apply IHk; [exact Hres|]. intros es e' σ' c' las'' Hc' Hle Hm Eq Hv' Hi'' Hin'.
        apply (K (es ++ [mkEntry q (scode X) v]) e' σ' c' las''); [exact Hc'| | | |exact Hv'|exact Hi''|].
        * rewrite app_length, Hle. cbn. lia.
        * rewrite map_app, Hm. reflexivity.
        * rewrite <- app_assoc. exact Eq.
        * intros a Ha. apply Hin', Hincl, Ha.
  Qed.

  (** ** A deck *)
  Definition result_of (r : E + (V * St)) : parsed V St E :=
    match r with inl x => ActionError x | inr (_, s) => Finished s end.
  Lemma deck_parsed : forall t s, derives (N Deck) t -> token_list (yield t) -> pending_below (depth - 1) t ->
    ends new_parser (yield t) s (result_of (perform act t s)).
  Proof.
    intros t s Hd Ht Hp. apply ends_restart. inversion Hd as [|r A rhs kids Hg Hall]; subst.
    assert (E0 : r = 0%nat /\ rhs = [N StatementList]).
    { do 48 (destruct r as [|r]; [cbn in Hg; try discriminate Hg; injection Hg as Hg; subst; split; reflexivity|]).
      destruct r; discriminate Hg. }
    destruct E0 as [-> ->].
    destruct start_item as [las [Hi Hl]].
    destruct all_parsed as [_ HF].
    pose proof (pending_first _ _ Hd) as [h0 [l0 Hp0]].
    assert (Hp' : Forall (fun h => (length [mkEntry 0 0 nv] + h <= depth)%nat) (pending_list 0 kids)).
    { unfold pending_below in Hp. rewrite pending_node in *. rewrite Hp0 in Hp. inversion Hp; subst.
      rewrite <- Hp0 in Hp. eapply Forall_impl; [|exact Hp]. cbn. intros h Hh. lia. }
    specialize (HF _ _ Hall (mkEntry 0 0 nv) [] (-1) s [] 0%nat 0%nat las Deck [N StatementList] valid_start Hi Hg ltac:(cbn; lia) eq_refl
                  (Hl 0 (or_introl eq_refl)) ltac:(lia) Ht Hp').
    rewrite app_nil_r in HF. rewrite perform_node. cbn [yield].
    destruct (perform_list kids s) as [x|[vs s']]; [exact HF|].
    assert (Hlen : length kids = length [N StatementList]).
    { clear -Hall. induction Hall; cbn; [reflexivity|]. rewrite IHHall. reflexivity. }
    apply HF; [destruct (act 0 vs s') as [x|[v s'']]; discriminate|].
    intros es e' σ' c las' Hc Hle Hm Eq Hv' Hi' Hin'.
    pose proof (forward_of _ _ _ _ _ _ Hv' Hi' Hg) as F. rewrite (proj2 (nth_error_None _ _)) in F by (cbn; lia).
    assert (Ha : find_shift_action (stateno e') (la []) = YYNSTATE + Z.of_nat 0). { apply (proj2 F), Hin', Hl. left. reflexivity. }
    pose proof (reduce_eq es (mkEntry 0 0 nv) [] 0 Deck [N StatementList] s' vs Hg ltac:(congruence) Hm) as R. rewrite Eq in R.
    cbn [stateno] in R. rewrite accept_true in R.
    destruct (act 0 vs s') as [x|[v s'']].
    - apply ends_throw with (e := e') (st := σ') (r := 0%nat); [reflexivity|exact Ha|reflexivity|exact R].
    - apply ends_accept with (e := e') (st := σ') (r := 0%nat); [reflexivity|exact Ha|reflexivity|exact R].
  Qed.
End P.
