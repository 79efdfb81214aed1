(** The variables and the external memory a tree refers to, with the types it expects there. *)
From Coq Require Import ZArith List Bool String.
From Verif Require Import ExprModel ExprSyntax ExprBuildModel ExprSpec ExprProofs.
Import ListNotations.

Section Refs.
  Variable A : arith.
  Notation expr := (expr A).

  Section Only.
    Variables (P Q : ty -> nat -> Prop).
    (** Every reference of the tree satisfies [P], every external value [Q]. *)
    Fixpoint only (e : expr) : Prop :=
      match e with
      | EValue _ => True
      | ERef t x => P t x
      | EExt t x => Q t x
      | EUn _ _ e | ECast _ _ e => only e
      | EBin _ _ l => (fix all (l : list (bool * expr)) : Prop :=
                         match l with [] => True | e :: l' => only (snd e) /\ all l' end) l
      | EFun _ args => (fix all (l : list expr) : Prop := match l with [] => True | e :: l' => only e /\ all l' end) args
      end.
    Lemma only_bin o t l : only (EBin o t l) <-> Forall (fun pe => only (snd pe)) l.
    Proof. apply (all_Forall (fun pe : bool * expr => only (snd pe))). Qed.
    Lemma only_fun f l : only (EFun f l) <-> Forall only l.
    Proof. apply (all_Forall only). Qed.
    Lemma only_up t e : only e -> only (up A t e).
    Proof. unfold up. destruct (ty_eqb _ _); auto. Qed.
    Lemma only_binary o t e1 e2 : only e1 -> only e2 -> only (binary_op o t e1 e2).
    Proof.
      intros H1 H2. unfold binary_op. apply only_bin. apply Forall_app.
      assert (G : forall e l, only e -> chain_of o t e = Some l -> Forall (fun pe => only (snd pe)) l).
      { intros e l He. destruct e; simpl; try discriminate. destruct (_ && _); [|discriminate].
        intros E. inversion E; subst. exact (proj1 (only_bin o0 t0 l) He). }
      split.
      - destruct (chain_of o t e1) eqn:E; [apply (G _ _ H1 E)|]. constructor; [exact H1|constructor].
      - destruct (chain_of o t e2) as [l|] eqn:E; [|constructor; [exact H2|constructor]].
        pose proof (G _ _ H2 E) as Hl. destruct (is_positive o); [exact Hl|].
        destruct l as [|[p q] l]; [constructor|]. inversion Hl; subst. constructor; assumption.
    Qed.
    Lemma only_right rest : forall x e, build_right A x rest = Built e -> only x -> Forall (fun oy => only (snd oy)) rest -> only e.
    Proof.
      induction rest as [|[o y] rest IH]; intros x e E Hx Hr; simpl in E; [inversion E; subst; exact Hx|].
      apply bbind_inv in E. destruct E as (e' & E' & E). inversion Hr; subst. rewrite assign_binary_eq in E. inversion E; subst.
      apply only_binary; apply only_up; [exact Hx|]. eapply IH; eauto.
    Qed.
    Lemma only_signed s e : only e -> only (build_signed A s e).
    Proof. destruct s as [[|]|]; simpl; auto. Qed.
    Lemma only_promote t e : only e -> only (promote_assign t e).
    Proof. unfold promote_assign. destruct (ty_eqb _ _); auto. Qed.

    Variable vars : string -> option (nat * ty).
    Variable reg : string -> option fsig.
    Hypothesis HP : forall name x t, vars name = Some (x, t) -> P t x.
    Notation build_atom := (build_atom A vars reg).
    Notation build_factor := (build_factor A vars reg).
    Notation build_term := (build_term A vars reg).
    Notation build_sum := (build_sum A vars reg).
    Lemma built_only_all :
      (forall a e, build_atom a = Built e -> only e) /\ (forall f e, build_factor f = Built e -> only e) /\
      (forall t e, build_term t = Built e -> only e) /\ (forall s e, build_sum s = Built e -> only e).
    Proof.
      apply syntax_ind.
      - intros s e E. cbn in E. unfold assign_integer in E. destruct (str_to_int A s) as [z|]; simpl in E; [|discriminate].
        inversion E; subst. exact Logic.I.
      - intros s e E. cbn in E. unfold assign_float in E. destruct (str_to_float A s) as [z|]; simpl in E; [|discriminate].
        inversion E; subst. exact Logic.I.
      - intros s e E. cbn in E. inversion E; subst. exact Logic.I.
      - intros s e E. cbn in E. unfold assign_identifier in E. destruct (vars s) as [[x t]|] eqn:Ev; simpl in E; [|discriminate].
        inversion E; subst. exact (HP _ _ _ Ev).
      - intros s IH e E. cbn in E. apply bbind_inv in E. destruct E as (x & Ex & E). inversion E; subst. exact (IH x Ex).
      - intros f args IH e E. rewrite build_call_eq in E. apply bbind_inv in E. destruct E as (l & El & E).
        assert (Hl : forall c l, Forall only c -> arg_chain A vars reg c args = Built l -> Forall only l).
        { clear - IH. induction IH as [|s args Hs _ IHl]; intros c l Hc E; simpl in E; [inversion E; subst; exact Hc|].
          apply bbind_inv in E. destruct E as (x & Ex & E). apply (IHl _ _ (Forall_cons _ (Hs x Ex) Hc) E). }
        specialize (Hl [] l (Forall_nil _) El). unfold assign_function, get_expression in E. destruct (reg f); [|discriminate].
        rewrite function_args_rev in E. apply Forall_rev in Hl.
        destruct (make_list _ _) as [l'|] eqn:Em; [|discriminate]. inversion E; subst. apply only_fun.
        clear - Em Hl. revert l' Em Hl. generalize (rev l), (fs_params f0). clear. intros l ps. revert l.
        induction ps as [|t ps IHp]; intros [|x l] l' Em Hl; simpl in Em; try discriminate; [inversion Em; constructor|].
        destruct (make_list ps l) eqn:E; [|discriminate]. inversion Em; subst. inversion Hl; subst.
        constructor; [|eapply IHp; eauto]. unfold convert_arg. destruct (ty_eqb _ _); auto.
      - intros a IH e E. exact (IH e E).
      - intros a s b IHa IHb e E. rewrite build_pow_eq in E. apply bbind_inv in E. destruct E as (x & Ex & E).
        apply bbind_inv in E. destruct E as (y & Ey & E). rewrite assign_binary_eq in E. inversion E; subst.
        apply only_binary; apply only_up; [apply IHa, Ex|apply only_signed, IHb, Ey].
      - intros f rest IHf IHr e E. rewrite build_term_eq in E. apply bbind_inv in E. destruct E as (x & Ex & E).
        apply bbind_inv in E. destruct E as (l & El & E). eapply only_right; [exact E|apply IHf, Ex|].
        clear - IHr El. revert l El. induction IHr as [|[o y] rest Hy _ IH]; intros l E; simpl in E; [inversion E; constructor|].
        apply bbind_inv in E. destruct E as (e & Ee & E). apply bbind_inv in E. destruct E as (r & Er & E). inversion E; subst.
        constructor; [apply Hy, Ee|apply IH, Er].
      - intros sg f rest IHf IHr e E. rewrite build_sum_eq in E. apply bbind_inv in E. destruct E as (x & Ex & E).
        apply bbind_inv in E. destruct E as (l & El & E). eapply only_right; [exact E|apply only_signed, IHf, Ex|].
        clear - IHr El. revert l El. induction IHr as [|[o y] rest Hy _ IH]; intros l E; simpl in E; [inversion E; constructor|].
        apply bbind_inv in E. destruct E as (e & Ee & E). apply bbind_inv in E. destruct E as (r & Er & E). inversion E; subst.
        constructor; [apply Hy, Ee|apply IH, Er].
    Qed.
    Lemma built_only s e : build_sum s = Built e -> only e.
    Proof. apply built_only_all. Qed.
  End Only.

  Lemma only_impl (P Q P' Q' : ty -> nat -> Prop) : (forall t x, P t x -> P' t x) -> (forall t x, Q t x -> Q' t x) ->
    forall e, only P Q e -> only P' Q' e.
  Proof.
    intros HP HQ. apply (expr_ind' A (fun e => only P Q e -> only P' Q' e)); try (cbn; auto; fail).
    - intros o t l IH H. apply only_bin in H. apply only_bin. rewrite Forall_forall in *. auto.
    - intros f args IH H. apply only_fun in H. apply only_fun. rewrite Forall_forall in *. auto.
  Qed.
End Refs.
