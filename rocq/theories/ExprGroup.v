(** The value of an expression is the conventional value of the expression with the parentheses
    of ExprGroupSpec.v put in. *)
From Coq Require Import String ZArith List Bool Lia.
From Verif Require Import ExprModel ExprSyntax ExprBuildModel ExprSpec ExprProofs ExprGroupSpec.
Import ListNotations.

Lemma ty_less_true a b : ty_less a b = true <-> ~ ty_le b a.
Proof. unfold ty_less, ty_le. rewrite Nat.ltb_lt. lia. Qed.
Lemma ty_less_false a b : ty_less a b = false <-> ty_le b a.
Proof. unfold ty_less, ty_le. rewrite Nat.ltb_ge. lia. Qed.
Lemma ty_max_small a b : ty_less b a = true -> ty_max a b = a.
Proof. destruct a, b; simpl; intros; try discriminate; reflexivity. Qed.
Lemma largest_eq x l : largest x l = tmax x l.
Proof. apply fold_tmax. Qed.

Section Group.
Variable A : arith.
Notation expr := (expr A).
Notation value := (value A).
Notation build_right := (build_right A).
Notation up := (up A).

(** Grouping at the level of trees. *)
Fixpoint egroup (x : ty) (l : list (bop * expr)) : list (bop * expr) :=
  match l with
  | [] => []
  | (o, y) :: l' =>
      if ty_less (tmax (etype y) (rest_types A l')) x
      then match build_right y l' with Built e => [(o, e)] | Failed _ => [] end
      else (o, y) :: egroup (etype y) l'
  end.

Lemma build_right_group (f : bop) : positive_op f = f -> forall rest x,
  rest <> [] ->
  (forall o y, In (o, y) rest -> positive_op o = f /\ fam A y <> Some f) -> fam A x <> Some f ->
  let t := tmax (etype x) (rest_types A rest) in
  exists o, positive_op o = f /\ build_right x rest = Built (EBin o t (flat A t x (egroup (etype x) rest))).
Proof.
  intros Hf. induction rest as [|[o y] rest IH]; intros x Hn Hr Hx; [contradiction|].
  destruct (Hr o y ltac:(left; reflexivity)) as [Ho Hy]. cbn zeta.
  destruct (build_right_total A rest y) as (e & E & T & _ & N & B).
  exists o. split; [exact Ho|].
  cbn [ExprBuildModel.build_right egroup]. rewrite E. cbn [bbind]. rewrite assign_binary_eq. unfold of_option. f_equal.
  change (tmax (etype x) (rest_types A ((o, y) :: rest))) with (ty_max (etype x) (tmax (etype y) (rest_types A rest))).
  rewrite T. remember (tmax (etype y) (rest_types A rest)) as t' eqn:Et'.
  destruct (ty_less t' (etype x)) eqn:L.
  - rewrite (ty_max_small _ _ L). unfold binary_op.
    rewrite (chain_of_fam A o (etype x) (up (etype x) x)) by (rewrite Ho; apply up_fam_neq; exact Hx).
    assert (Eu : up (etype x) e = ECast (etype x) (etype e) e).
    { unfold ExprProofs.up. destruct (ty_eqb (etype e) (etype x)) eqn:Q; [|reflexivity]. apply ty_eqb_eq in Q.
      apply ty_less_true in L. exfalso. apply L. rewrite <- Q, T. apply ty_le_refl. }
    unfold flat. cbn [map fst snd app]. rewrite Eu. cbn [chain_of]. reflexivity.
  - apply ty_less_false in L. rewrite (ty_max_absorb _ _ L).
    destruct rest as [|[o2 z] rest].
    + rewrite (N eq_refl) in *. unfold binary_op, flat. cbn [egroup map fst snd].
      rewrite !chain_of_fam by (rewrite Ho; apply up_fam_neq; assumption). reflexivity.
    + destruct (IH y ltac:(discriminate)) as (o' & Ho' & E').
      { intros p q Hpq. apply Hr. right. exact Hpq. }
      { exact Hy. }
      cbn zeta in E'. rewrite <- Et' in E'. rewrite E in E'. assert (Ee : e = EBin o' t' (flat A t' y (egroup (etype y) ((o2, z) :: rest)))) by congruence.
      clear E' IH. remember (egroup (etype y) ((o2, z) :: rest)) as g eqn:Eg.
      assert (Eu : up t' e = e).
      { unfold ExprProofs.up. rewrite Ee. cbn [etype]. rewrite ty_eqb_refl. reflexivity. }
      rewrite Eu. unfold binary_op.
      rewrite (chain_of_fam A o t' (up t' x)) by (rewrite Ho; apply up_fam_neq; exact Hx).
      assert (Ec : chain_of o t' e = Some (flat A t' y g)).
      { rewrite Ee. simpl. rewrite ty_eqb_refl. rewrite <- Ho in Ho'. destruct o, o'; simpl in *; try discriminate; reflexivity. }
      rewrite Ec. unfold flat. cbn [map fst snd app]. destruct (is_positive o) eqn:Ep; reflexivity.
Qed.

Lemma egroup_wt l : forall x, Forall (fun oy => wt A (snd oy)) l -> Forall (fun oy => wt A (snd oy)) (egroup x l).
Proof.
  induction l as [|[o y] l IH]; intros x H; [constructor|]. inversion H; subst. cbn [egroup].
  destruct (ty_less _ _).
  - destruct (build_right_total A l y) as (e & E & _ & W & _). rewrite E. constructor; [|constructor]. apply W; assumption.
  - constructor; [assumption|]. apply IH. assumption.
Qed.

Lemma egroup_ops (P : bop -> Prop) l : forall x, (forall o y, In (o, y) l -> P o) -> forall o y, In (o, y) (egroup x l) -> P o.
Proof.
  induction l as [|[o y] l IH]; intros x H p q Hin; [destruct Hin|]. cbn [egroup] in Hin.
  destruct (ty_less _ _).
  - destruct (build_right y l); [|destruct Hin]. destruct Hin as [Hin|[]]. inversion Hin; subst. apply (H p y). left. reflexivity.
  - destruct Hin as [Hin|Hin]; [inversion Hin; subst; apply (H p q); left; reflexivity|].
    apply (IH (etype y)) with (y := q); [|exact Hin]. intros o' y' H'. apply (H o' y'). right. exact H'.
Qed.

Lemma build_right_gvalue st (f : bop) x rest e : functions_typed st -> positive_op f = f ->
  (forall o y, In (o, y) rest -> positive_op o = f /\ fam A y <> Some f) -> fam A x <> Some f ->
  wt A x -> Forall (fun oy => wt A (snd oy)) rest ->
  build_right x rest = Built e ->
  eval st e = chain A (tmax (etype x) (rest_types A rest)) (eval st x)
                (map (fun oy => (fst oy, eval st (snd oy))) (egroup (etype x) rest)).
Proof.
  intros HF Hf Hr Hx Wx Wr E. destruct rest as [|p rest].
  - simpl in E. inversion E; subst. symmetry. apply chain_single; auto.
  - destruct (build_right_group f Hf (p :: rest) x ltac:(discriminate) Hr Hx) as (o & Ho & E').
    cbn zeta in E'. rewrite E' in E. injection E as <-. eapply eval_flat; eauto.
    + apply egroup_wt, Wr.
    + apply (egroup_ops (fun o' => positive_op o' = f)). intros q y Hq. apply (Hr q y Hq).
Qed.

(** ** Types and values of chains *)
Lemma chain_value_type t l : forall (v w : value), type_of v = t -> chain_value A t v l = Ok w -> type_of w = t.
Proof.
  induction l as [|[o r] l IH]; intros v w Hv H; simpl in H; [injection H as <-; exact Hv|].
  destruct r as [u| | |]; simpl in H; try discriminate.
  destruct (converted A t u) as [u'| | |] eqn:Eu; simpl in H; try discriminate.
  destruct (op_value A o v u') as [v'| | |] eqn:Ev; simpl in H; try discriminate.
  apply (IH v' w); [|exact H]. rewrite op_value_eq in Ev. apply bin_apply_type in Ev. congruence.
Qed.
Lemma chain_type t r l (w : value) : chain A t r l = Ok w -> type_of w = t.
Proof.
  unfold chain. destruct r as [v| | |]; simpl; try discriminate.
  destruct (converted A t v) as [v'| | |] eqn:Ev; simpl; try discriminate.
  apply chain_value_type. rewrite converted_eq in Ev. apply cast_to_type in Ev. exact Ev.
Qed.
Lemma chain_again t r l : chain A t (chain A t r l) [] = chain A t r l.
Proof.
  destruct (chain A t r l) as [w| | |] eqn:E; try reflexivity. unfold chain. simpl. rewrite converted_eq.
  apply chain_type in E. rewrite <- E, cast_to_same. reflexivity.
Qed.

Lemma rest_types_cons o y (l : list (bop * expr)) : rest_types A ((o, y) :: l) = etype y :: rest_types A l.
Proof. reflexivity. Qed.

Lemma tmax_fold_group {X} (type : X -> ty) (paren : X -> list (bool * X) -> X) :
  (forall y l, type (paren y l) = tmax (type y) (map (fun z => type (snd z)) l)) ->
  forall l x, tmax x (map (fun z => type (snd z)) (group type paren x l)) = tmax x (map (fun z => type (snd z)) l).
Proof.
  intros HP. induction l as [|[o y] l IH]; intros x; [reflexivity|]. cbn [group]. rewrite largest_eq.
  destruct (ty_less _ _); cbn [map tmax snd].
  - rewrite HP, IH. reflexivity.
  - rewrite IH. reflexivity.
Qed.

(** Grouping of syntax and of trees correspond. *)
Section Correspond.
  Context {X : Type} (type : X -> ty) (paren : X -> list (bool * X) -> X) (val : X -> result value) (op : bool -> bop) (f : bop).
  Variable st : store A.
  Hypothesis HF : functions_typed st.
  Hypothesis Hf : positive_op f = f.
  Hypothesis Hop : forall b, positive_op (op b) = f.
  Hypothesis PT : forall y l, type (paren y l) = tmax (type y) (map (fun z => type (snd z)) l).
  Hypothesis PV : forall y l, val (paren y l) = chain A (tmax (type y) (map (fun z => type (snd z)) l)) (val y) (map (fun z => (op (fst z), val (snd z))) l).
  Definition goodx (x : X) (e : expr) : Prop := wt A e /\ etype e = type x /\ fam A e <> Some f /\ eval st e = val x.
  Lemma group_values : forall l le, Forall2 (fun z oe => fst oe = op (fst z) /\ goodx (snd z) (snd oe)) l le ->
    rest_types A le = map (fun z => type (snd z)) l /\
    Forall (fun oy => wt A (snd oy)) le /\ (forall o y, In (o, y) le -> positive_op o = f /\ fam A y <> Some f) /\
    forall x, map (fun oy => (fst oy, eval st (snd oy))) (egroup x le) = map (fun z => (op (fst z), val (snd z))) (group type paren x l).
  Proof.
    intros l le H. induction H as [|[b y] [o e] l le [Ho (W & T & Fm & V)] _ (IT & IW & IF & IV)].
    - split; [reflexivity|]. split; [constructor|]. split; [intros ? ? []|]. reflexivity.
    - cbn [fst snd] in *. subst o. split; [rewrite rest_types_cons; cbn [map snd]; rewrite T, IT; reflexivity|].
      split; [constructor; assumption|]. split.
      { intros o y' [Q|Q]; [|apply IF, Q]. inversion Q; subst. split; [apply Hop|exact Fm]. }
      intros x. cbn [egroup group]. rewrite largest_eq, T, IT.
      destruct (ty_less _ _); [|cbn [map fst snd]; rewrite V, IV; reflexivity].
      destruct (build_right_total A le e) as (e' & E' & T' & _). rewrite E'. cbn [map fst snd]. do 2 f_equal.
      rewrite (build_right_gvalue st f e le e' HF Hf IF Fm W IW E').
      rewrite PV, T, IT, V, IV. rewrite tmax_fold_group by exact PT. reflexivity.
  Qed.
  Lemma group_whole x0 x l le e : Forall2 (fun z oe => fst oe = op (fst z) /\ goodx (snd z) (snd oe)) l le ->
    wt A x -> etype x = x0 -> fam A x <> Some f -> build_right x le = Built e ->
    eval st e = chain A (tmax x0 (map (fun z => type (snd z)) l)) (eval st x) (map (fun z => (op (fst z), val (snd z))) (group type paren x0 l)).
  Proof.
    intros H W T Fm E. destruct (group_values l le H) as (IT & IW & IF & IV).
    rewrite (build_right_gvalue st f x le e HF Hf IF Fm W IW E). rewrite T, IT, IV. reflexivity.
  Qed.
End Correspond.

(** ** Whole expressions *)
Section Whole.
  Variable vars : string -> option (nat * ty).
  Variable reg : string -> option fsig.
  Notation atype := (atype vars reg). Notation ftype := (ftype vars reg).
  Notation ttype := (ttype vars reg). Notation stype := (stype vars reg).

  Lemma paren_factors_type y l : ftype (paren_factors y l) = tmax (ftype y) (map (fun z => ftype (snd z)) l).
  Proof. unfold paren_factors. cbn [ExprSpec.ftype ExprSpec.atype ExprSpec.stype ExprSpec.ttype map fold_left]. apply fold_tmax. Qed.
  Lemma paren_terms_type y l : ttype (paren_terms y l) = tmax (ttype y) (map (fun z => ttype (snd z)) l).
  Proof. unfold paren_terms. cbn [ExprSpec.ftype ExprSpec.atype ExprSpec.stype ExprSpec.ttype map fold_left]. apply fold_tmax. Qed.

  Lemma ttype_eq f rest : ttype (Term f rest) = tmax (ftype f) (map (fun x => ftype (snd x)) rest).
  Proof. rewrite <- fold_tmax. reflexivity. Qed.
  Lemma stype_eq sg t rest : stype (Sum sg t rest) = tmax (ttype t) (map (fun x => ttype (snd x)) rest).
  Proof. rewrite <- fold_tmax. reflexivity. Qed.
  Lemma pterm_eq f rest : pterm vars reg (Term f rest) =
    Term (pfactor vars reg f) (group ftype paren_factors (ftype f) (map (fun x => (fst x, pfactor vars reg (snd x))) rest)).
  Proof. reflexivity. Qed.
  Lemma psum_eq sg t rest : parenthesised vars reg (Sum sg t rest) =
    Sum sg (pterm vars reg t) (group ttype paren_terms (ttype t) (map (fun x => (fst x, pterm vars reg (snd x))) rest)).
  Proof. reflexivity. Qed.

  Lemma ptypes : (forall a, atype (patom vars reg a) = atype a) /\ (forall f, ftype (pfactor vars reg f) = ftype f) /\
    (forall t, ttype (pterm vars reg t) = ttype t) /\ (forall s, stype (parenthesised vars reg s) = stype s).
  Proof.
    apply syntax_ind; try reflexivity.
    - intros e IH. exact IH.
    - intros a IH. exact IH.
    - intros a s b IHa IHb.
      change (ty_max (atype (patom vars reg a)) (atype (patom vars reg b)) = ty_max (atype a) (atype b)).
      rewrite IHa, IHb. reflexivity.
    - intros f rest IHf IHr. rewrite pterm_eq, !ttype_eq, IHf.
      rewrite (tmax_fold_group ftype paren_factors paren_factors_type). f_equal. rewrite map_map. cbn [snd].
      apply map_ext_in. intros x Hx. rewrite Forall_forall in IHr. apply IHr, Hx.
    - intros sg t rest IHt IHr. rewrite psum_eq, !stype_eq, IHt.
      rewrite (tmax_fold_group ttype paren_terms paren_terms_type). f_equal. rewrite map_map. cbn [snd].
      apply map_ext_in. intros x Hx. rewrite Forall_forall in IHr. apply IHr, Hx.
  Qed.
  Let ptype_f := proj1 (proj2 ptypes).
  Let ptype_t := proj1 (proj2 (proj2 ptypes)).

  Variable st : store A.
  Hypothesis HF : functions_typed st.
  Notation avalue := (avalue A vars reg st). Notation fvalue := (fvalue A vars reg st).
  Notation tvalue := (tvalue A vars reg st). Notation svalue := (svalue A vars reg st).

  Lemma paren_factors_value y l : fvalue (paren_factors y l) =
    chain A (tmax (ftype y) (map (fun z => ftype (snd z)) l)) (fvalue y) (map (fun z => (mul_op (fst z), fvalue (snd z))) l).
  Proof.
    unfold paren_factors. cbn [ExprSpec.fvalue ExprSpec.avalue ExprSpec.svalue ExprSpec.tvalue ExprSpec.stype ExprSpec.ttype map fold_left signed].
    rewrite fold_tmax. apply chain_again.
  Qed.
  Lemma paren_terms_value y l : tvalue (paren_terms y l) =
    chain A (tmax (ttype y) (map (fun z => ttype (snd z)) l)) (tvalue y) (map (fun z => (add_op (fst z), tvalue (snd z))) l).
  Proof.
    unfold paren_terms. cbn [ExprSpec.fvalue ExprSpec.avalue ExprSpec.svalue ExprSpec.tvalue ExprSpec.stype ExprSpec.ttype ExprSpec.ftype ExprSpec.atype map fold_left signed].
    rewrite fold_tmax. apply chain_again.
  Qed.
  Lemma tvalue_eq f rest : tvalue (Term f rest) =
    chain A (ttype (Term f rest)) (fvalue f) (map (fun x => (mul_op (fst x), fvalue (snd x))) rest).
  Proof. reflexivity. Qed.
  Lemma svalue_eq sg t rest : svalue (Sum sg t rest) =
    chain A (stype (Sum sg t rest)) (signed A sg (tvalue t)) (map (fun x => (add_op (fst x), tvalue (snd x))) rest).
  Proof. reflexivity. Qed.
  Notation build_atom := (build_atom A vars reg). Notation build_factor := (build_factor A vars reg).
  Notation build_term := (build_term A vars reg). Notation build_sum := (build_sum A vars reg).
  Let BC := build_correct A vars reg.

  Lemma grouped :
    (forall a e, build_atom a = Built e -> eval st e = avalue (patom vars reg a)) /\
    (forall f e, build_factor f = Built e -> eval st e = fvalue (pfactor vars reg f)) /\
    (forall t e, build_term t = Built e -> eval st e = tvalue (pterm vars reg t)) /\
    (forall s e, build_sum s = Built e -> eval st e = svalue (parenthesised vars reg s)).
  Proof.
    apply syntax_ind.
    - intros s e E. apply (proj1 BC _ _ E); [exact HF|exact Logic.I].
    - intros s e E. apply (proj1 BC _ _ E); [exact HF|exact Logic.I].
    - intros s e E. apply (proj1 BC _ _ E); [exact HF|exact Logic.I].
    - intros s e E. apply (proj1 BC _ _ E); [exact HF|exact Logic.I].
    - intros s IH e E. cbn in E. apply bbind_inv in E. destruct E as (x & Ex & E). inversion E; subst.
      unfold assign_unary. cbn. rewrite rbind_ext with (g := Ok) by reflexivity. rewrite rbind_ok. apply IH, Ex.
    - intros f args IH e E. rewrite build_call_eq in E. apply bbind_inv in E. destruct E as (l & El & E).
      assert (Q : exists es, l = rev es ++ [] /\ Forall2 (fun s e => build_sum s = Built e) args es).
      { clear E IH. revert El. generalize (@nil expr) as acc. revert l. induction args as [|s args IHa]; intros l acc E; simpl in E.
        - inversion E. exists []. split; [reflexivity|constructor].
        - apply bbind_inv in E. destruct E as (e' & Ee & E). apply IHa in E. destruct E as (es & -> & F).
          exists (e' :: es). split; [simpl; rewrite <- app_assoc; reflexivity|constructor; assumption]. }
      destruct Q as (es & -> & F). rewrite app_nil_r in E.
      unfold assign_function in E. rewrite function_args_rev, rev_involutive in E. unfold get_expression in E.
      destruct (reg f) as [s|] eqn:Es; [|discriminate].
      assert (We : Forall (wt A) es).
      { clear - F BC. induction F as [|s e' args es H _ IH]; constructor; [|exact IH]. apply (proj2 (proj2 (proj2 BC)) _ _ H). }
      destruct (make_list_spec A (fs_params s) es) as [(L & l & Ml & T & W & V)|(L & Ml)]; rewrite Ml in E; [|discriminate].
      inversion E; subst. rewrite eval_fun. cbn. rewrite Es. rewrite V by assumption.
      do 2 f_equal. clear - F IH. induction F as [|s e args es H _ IH']; [reflexivity|]. inversion IH; subst. simpl.
      rewrite (H2 _ H). rewrite IH' by assumption. reflexivity.
    - intros a IH e E. apply IH, E.
    - intros a s b IHa IHb e E. cbn in E. apply bbind_inv in E. destruct E as (x & Ex & E).
      apply bbind_inv in E. destruct E as (y & Ey & E).
      destruct (proj1 BC _ _ Ex) as (Wx & Tx & Fx & _). destruct (proj1 BC _ _ Ey) as (Wy & Ty & Fy & _).
      set (y' := build_signed A s y) in *.
      assert (Ey' : wt A y' /\ etype y' = etype y /\ fam A y' = None /\ eval st y' = signed A s (eval st y)).
      { unfold y', build_signed, signed. destruct s as [[|]|]; simpl; repeat split; auto;
          first [intros; symmetry; apply rbind_ext; intros; apply minus_eq|destruct Fy as [<-|[]]; reflexivity]. }
      destruct Ey' as (Wy' & Ty' & Fy' & Vy').
      assert (R : build_right x [(OExp, y')] = Built e) by (simpl; exact E).
      rewrite (build_right_value A st OExp x [(OExp, y')] e HF eq_refl); try assumption.
      + cbn [rest_types map snd tmax fst pfactor ExprSpec.fvalue ExprSpec.ftype]. rewrite Vy', Tx, Ty', Ty.
        rewrite (IHa _ Ex), (IHb _ Ey), !(proj1 ptypes). reflexivity.
      + intros o z [H|[]]. inversion H; subst. split; [reflexivity|]. rewrite Fy'. discriminate.
      + destruct Fx as [<-|[]]. discriminate.
      + intros c Hc. exists c. split; [|apply ty_le_refl]. simpl in *. tauto.
      + constructor; [exact Wy'|constructor].
    - intros f rest IHf IHr e E. rewrite build_term_eq in E. apply bbind_inv in E. destruct E as (x & Ex & E).
      apply bbind_inv in E. destruct E as (l & El & E). destruct (proj1 (proj2 BC) _ _ Ex) as (Wx & Tx & Fx & _).
      assert (F2 : Forall2 (fun z oe => fst oe = mul_op (fst z) /\ goodx ftype fvalue OMul st (snd z) (snd oe))
                     (map (fun x => (fst x, pfactor vars reg (snd x))) rest) l).
      { clear E. revert l El. induction IHr as [|[o y] rest Hy _ IH]; intros l E; simpl in E.
        - inversion E. constructor.
        - apply bbind_inv in E. destruct E as (e' & Ee & E). apply bbind_inv in E. destruct E as (r & Er & E). inversion E; subst.
          constructor; [|apply IH, Er]. cbn [fst snd]. split; [destruct o; reflexivity|].
          destruct (proj1 (proj2 BC) _ _ Ee) as (W & T & F & _). split; [exact W|]. split; [rewrite ptype_f; exact T|].
          split; [destruct F as [<-|[<-|[]]]; discriminate|]. apply Hy, Ee. }
      rewrite (group_whole ftype paren_factors fvalue mul_op OMul st HF eq_refl ltac:(intros [|]; reflexivity) paren_factors_type
                 paren_factors_value (ftype f) x _ l e F2 Wx Tx); [|destruct Fx as [<-|[<-|[]]]; discriminate|exact E].
      rewrite (IHf _ Ex). rewrite pterm_eq, tvalue_eq, ttype_eq, ptype_f.
      rewrite (tmax_fold_group ftype paren_factors paren_factors_type). reflexivity.
    - intros sg t rest IHt IHr e E. rewrite build_sum_eq in E. apply bbind_inv in E. destruct E as (x0 & Ex & E).
      apply bbind_inv in E. destruct E as (l & El & E). destruct (proj1 (proj2 (proj2 BC)) _ _ Ex) as (Wx0 & Tx0 & Fx0 & _).
      set (x := build_signed A sg x0) in *.
      assert (Hx : wt A x /\ etype x = ttype t /\ In (fam A x) [None; Some OExp; Some OMul] /\ eval st x = signed A sg (eval st x0)).
      { unfold x, build_signed, signed. destruct sg as [[|]|]; simpl; repeat split; auto.
        intros; symmetry; apply rbind_ext; intros; apply minus_eq. }
      destruct Hx as (Wx & Tx & Fx & Vx).
      assert (F2 : Forall2 (fun z oe => fst oe = add_op (fst z) /\ goodx ttype tvalue OAdd st (snd z) (snd oe))
                     (map (fun x => (fst x, pterm vars reg (snd x))) rest) l).
      { clear E. revert l El. induction IHr as [|[o y] rest Hy _ IH]; intros l E; simpl in E.
        - inversion E. constructor.
        - apply bbind_inv in E. destruct E as (e' & Ee & E). apply bbind_inv in E. destruct E as (r & Er & E). inversion E; subst.
          constructor; [|apply IH, Er]. cbn [fst snd]. split; [destruct o; reflexivity|].
          destruct (proj1 (proj2 (proj2 BC)) _ _ Ee) as (W & T & F & _). split; [exact W|]. split; [rewrite ptype_t; exact T|].
          split; [destruct F as [<-|[<-|[<-|[]]]]; discriminate|]. apply Hy, Ee. }
      rewrite (group_whole ttype paren_terms tvalue add_op OAdd st HF eq_refl ltac:(intros [|]; reflexivity) paren_terms_type
                 paren_terms_value (ttype t) x _ l e F2 Wx Tx); [|destruct Fx as [<-|[<-|[<-|[]]]]; discriminate|exact E].
      rewrite Vx, (IHt _ Ex). rewrite psum_eq, svalue_eq, stype_eq, ptype_t.
      rewrite (tmax_fold_group ttype paren_terms paren_terms_type). reflexivity.
  Qed.
End Whole.
End Group.

Lemma value_grouped (A : arith) vars reg (st : store A) s e : functions_typed st -> build_sum A vars reg s = Built e ->
  eval st e = svalue A vars reg st (parenthesised vars reg s).
Proof. intros HF. apply (grouped A vars reg st HF). Qed.
