(** Proofs about the values of variables. *)
From Coq Require Import ZArith List Bool String Ascii Lia Arith.
From Verif Require Import ScanModel ParseModel ExprModel ExprSyntax ExprBuildModel ExprSpec ExprGroupSpec ExprProofs ExprGroup ExprRefProofs DepModel DepSpec DepProofs DeckModel DeckSyntax DeckMeaning DeckSpec
  DeckInvProofs DeckFinishProofs DeckLookupProofs DeckEffectProofs DeckObjectProofs DeckExamples BlockParamProofs BlockInitProofs ValueSpec.
Import ListNotations.
Local Open Scope nat_scope.

(** ** Expressions *)
Section Built.
  Variable A : arith.
  Notation expr := (expr A).
  Variable reg : string -> option fsig.

  Section Ext.
    Variables vars vars' : string -> option (nat * ty).
    Hypothesis same : forall n, vars n = vars' n.
    Lemma build_ext :
      (forall a, build_atom A vars reg a = build_atom A vars' reg a) /\ (forall f, build_factor A vars reg f = build_factor A vars' reg f) /\
      (forall t, build_term A vars reg t = build_term A vars' reg t) /\ (forall s, build_sum A vars reg s = build_sum A vars' reg s).
    Proof.
      apply syntax_ind.
      - reflexivity.
      - reflexivity.
      - reflexivity.
      - intros s. cbn. unfold assign_identifier. rewrite same. reflexivity.
      - intros s IH. change (bbind (build_sum A vars reg s) (fun e => Built (assign_unary OId e)) = bbind (build_sum A vars' reg s) (fun e => Built (assign_unary OId e))). rewrite IH. reflexivity.
      - intros f args IH. rewrite !build_call_eq. f_equal. generalize (@nil expr). induction IH as [|s args Hs _ IHl]; intros c; [reflexivity|].
        cbn [arg_chain]. rewrite Hs. destruct (build_sum A vars' reg s); [|reflexivity]. cbn [bbind]. apply IHl.
      - intros a IH. exact IH.
      - intros a s b IHa IHb. rewrite !build_pow_eq. rewrite IHa, IHb. reflexivity.
      - intros f rest IHf IHr. rewrite !build_term_eq, IHf. f_equal. 
        assert (E : factors A vars reg rest = factors A vars' reg rest); [|rewrite E; reflexivity].
        induction IHr as [|[o y] rest Hy _ IH]; [reflexivity|]. cbn [factors]. cbn [snd] in Hy. rewrite Hy, IH. reflexivity.
      - intros sg f rest IHf IHr. rewrite !build_sum_eq, IHf. f_equal.
        assert (E : terms A vars reg rest = terms A vars' reg rest); [|rewrite E; reflexivity].
        induction IHr as [|[o y] rest Hy _ IH]; [reflexivity|]. cbn [terms]. cbn [snd] in Hy. rewrite Hy, IH. reflexivity.
    Qed.
  End Ext.

  Section Const.
    Variable vars : string -> option (nat * ty).
    Variable st : store A.
    Definition calm (m : mention) : bool :=
      match m with
      | Var n => match vars n with Some (x, _) => s_fixed st x | None => true end
      | Fun f => match reg f with Some g => negb (fs_always g) | None => true end
      end.
    Lemma const_up t e : is_constant st (up A t e) = is_constant st e.
    Proof. unfold up. destruct (ty_eqb _ _); reflexivity. Qed.
    Lemma const_binary o t e1 e2 : is_constant st (binary_op o t e1 e2) = is_constant st e1 && is_constant st e2.
    Proof.
      unfold binary_op. cbn [is_constant]. rewrite forallb_app.
      assert (G : forall e l, chain_of o t e = Some l -> forallb (fun pe => is_constant st (snd pe)) l = is_constant st e).
      { intros e l. destruct e; simpl; try discriminate. destruct (_ && _); [|discriminate]. intros E. inversion E; subst. reflexivity. }
      f_equal.
      - destruct (chain_of o t e1) eqn:E; [apply (G _ _ E)|]. cbn. apply andb_true_r.
      - destruct (chain_of o t e2) as [l|] eqn:E; [|cbn; apply andb_true_r].
        rewrite <- (G _ _ E). destruct (is_positive o); [reflexivity|]. destruct l as [|[p q] l]; [reflexivity|]. reflexivity.
    Qed.
    Lemma const_right rest : forall x e, build_right A x rest = Built e -> is_constant st e = is_constant st x && forallb (fun oy => is_constant st (snd oy)) rest.
    Proof.
      induction rest as [|[o y] rest IH]; intros x e E; simpl in E; [inversion E; subst; cbn; rewrite andb_true_r; reflexivity|].
      apply bbind_inv in E. destruct E as (e' & E' & E). rewrite assign_binary_eq in E. inversion E; subst.
      rewrite const_binary, !const_up, (IH _ _ E'). reflexivity.
    Qed.
    Lemma const_signed s e : is_constant st (build_signed A s e) = is_constant st e.
    Proof. destruct s as [[|]|]; reflexivity. Qed.
    Lemma const_promote t e : is_constant st (promote_assign t e) = is_constant st e.
    Proof. unfold promote_assign. destruct (ty_eqb _ _); reflexivity. Qed.

    Lemma built_const :
      (forall a e, build_atom A vars reg a = Built e -> is_constant st e = forallb calm (amentions a)) /\
      (forall f e, build_factor A vars reg f = Built e -> is_constant st e = forallb calm (fmentions f)) /\
      (forall t e, build_term A vars reg t = Built e -> is_constant st e = forallb calm (tmentions t)) /\
      (forall s e, build_sum A vars reg s = Built e -> is_constant st e = forallb calm (smentions s)).
    Proof.
      apply syntax_ind.
      - intros s e E. cbn in E. unfold assign_integer in E. destruct (str_to_int A s) as [z|]; simpl in E; [|discriminate]. inversion E; subst. reflexivity.
      - intros s e E. cbn in E. unfold assign_float in E. destruct (str_to_float A s) as [z|]; simpl in E; [|discriminate]. inversion E; subst. reflexivity.
      - intros s e E. cbn in E. inversion E; subst. reflexivity.
      - intros s e E. cbn in E. unfold assign_identifier in E. destruct (vars s) as [[x t]|] eqn:Ev; simpl in E; [|discriminate].
        inversion E; subst. cbn. rewrite Ev, andb_true_r. reflexivity.
      - intros s IH e E. cbn in E. apply bbind_inv in E. destruct E as (x & Ex & E). inversion E; subst. exact (IH x Ex).
      - intros f args IH e E. rewrite build_call_eq in E. apply bbind_inv in E. destruct E as (l & El & E).
        assert (Hl : forall c l, arg_chain A vars reg c args = Built l -> forallb (is_constant st) l = forallb (is_constant st) c && forallb calm (flat_map smentions args)).
        { clear - IH. induction IH as [|s args Hs _ IHl]; intros c l E; simpl in E; [inversion E; subst; cbn; rewrite andb_true_r; reflexivity|].
          apply bbind_inv in E. destruct E as (x & Ex & E). rewrite (IHl _ _ E). cbn [flat_map]. rewrite forallb_app. unfold append_token. cbn [forallb].
          rewrite (Hs x Ex). rewrite andb_assoc. f_equal. apply andb_comm. }
        specialize (Hl [] l El). cbn [forallb andb] in Hl. unfold assign_function, get_expression in E. cbn [amentions forallb calm]. destruct (reg f) as [g|]; [|discriminate].
        rewrite function_args_rev in E.
        assert (Hr : forallb (is_constant st) (rev l) = forallb calm (flat_map smentions args)).
        { rewrite <- Hl. clear. induction l as [|x l IH]; [reflexivity|]. cbn. rewrite forallb_app, IH. cbn. rewrite andb_true_r. apply andb_comm. }
        destruct (make_list _ _) as [l'|] eqn:Em; [|discriminate]. inversion E; subst. cbn [is_constant].
        assert (Hm : forallb (is_constant st) l' = forallb (is_constant st) (rev l)).
        { clear - Em. revert l' Em. generalize (rev l), (fs_params g). clear. intros l ps. revert l.
          induction ps as [|t ps IHp]; intros [|x l] l' Em; simpl in Em; try discriminate; [inversion Em; reflexivity|].
          destruct (make_list ps l) eqn:E; [|discriminate]. inversion Em; subst. cbn. rewrite (IHp _ _ E). f_equal. unfold convert_arg. destruct (ty_eqb _ _); reflexivity. }
        rewrite Hm, Hr. destruct (fs_always g); reflexivity.
      - intros a IH e E. exact (IH e E).
      - intros a s b IHa IHb e E. rewrite build_pow_eq in E. apply bbind_inv in E. destruct E as (x & Ex & E).
        apply bbind_inv in E. destruct E as (y & Ey & E). rewrite assign_binary_eq in E. inversion E; subst.
        rewrite const_binary, !const_up, const_signed, (IHa _ Ex), (IHb _ Ey). cbn. rewrite forallb_app. reflexivity.
      - intros f rest IHf IHr e E. rewrite build_term_eq in E. apply bbind_inv in E. destruct E as (x & Ex & E).
        apply bbind_inv in E. destruct E as (l & El & E). rewrite (const_right _ _ _ E), (IHf _ Ex). cbn [tmentions]. rewrite forallb_app. f_equal.
        clear - IHr El. revert l El. induction IHr as [|[o y] rest Hy _ IH]; intros l E; simpl in E; [inversion E; reflexivity|].
        apply bbind_inv in E. destruct E as (e & Ee & E). apply bbind_inv in E. destruct E as (r & Er & E). inversion E; subst.
        cbn. rewrite forallb_app. cbn in Hy. rewrite (Hy _ Ee), (IH _ Er). reflexivity.
      - intros sg f rest IHf IHr e E. rewrite build_sum_eq in E. apply bbind_inv in E. destruct E as (x & Ex & E).
        apply bbind_inv in E. destruct E as (l & El & E). rewrite (const_right _ _ _ E), const_signed, (IHf _ Ex). cbn [smentions]. rewrite forallb_app. f_equal.
        clear - IHr El. revert l El. induction IHr as [|[o y] rest Hy _ IH]; intros l E; simpl in E; [inversion E; reflexivity|].
        apply bbind_inv in E. destruct E as (e & Ee & E). apply bbind_inv in E. destruct E as (r & Er & E). inversion E; subst.
        cbn. rewrite forallb_app. cbn in Hy. rewrite (Hy _ Ee), (IH _ Er). reflexivity.
    Qed.
  End Const.
End Built.

(** ** Decks *)
Section Deck.
  Variable A : arith.
  Variable reg : string -> option fsig.
  Variable funs : fsig -> list (value A) -> result (value A).
  Variable restricted : bool.
  Hypothesis funs_typed : typed_functions A funs.
  Notation deck := (deck A).
  Notation exec := (exec A reg funs restricted).
  Notation history := (history A reg funs restricted).
  Notation writes := (writes A).
  Notation unwritten := (unwritten A reg funs restricted).
  Notation settled := (settled A reg).
  Notation value_in := (value_in A reg funs).
  Notation owes := (owes A reg funs).

  Lemma scope_lookup : forall d vars, wf A d -> scope A d vars -> forall n, vars n = lookup A d n.
  Proof.
    intros d vars W S n. set (path := split ":" n). assert (C : components ":" n path) by (apply components_split; reflexivity).
    unfold lookup. pose proof (fun x => get_variable_means (d_blocks d) _ (wf_b A d W) (d_cursor d) n path x C) as G.
    destruct (get_variable (d_blocks d) (d_cursor d) n) as [x|] eqn:E.
    - apply (S n path C). split; [apply G; reflexivity|]. exists (var_at A d x). split; [eapply found; eauto|reflexivity].
    - destruct (vars n) as [[x t]|] eqn:Ev; [|reflexivity]. apply (S n path C) in Ev. destruct Ev as [Ev _]. apply G in Ev. discriminate.
  Qed.
  Lemma lookup_scope : forall d, wf A d -> scope A d (lookup A d).
  Proof.
    intros d W n path C x t. unfold lookup. pose proof (fun x => get_variable_means (d_blocks d) _ (wf_b A d W) (d_cursor d) n path x C) as G.
    destruct (get_variable (d_blocks d) (d_cursor d) n) as [y|] eqn:E.
    - pose proof (found A d n y W E) as F. split.
      + intros Q. inversion Q; subst. split; [apply G; reflexivity|]. eauto.
      + intros [M [v [V1 V2]]]. apply G in M. inversion M; subst. rewrite (var_at_nth A d x v V1). reflexivity.
    - split; [discriminate|]. intros [M _]. apply G in M. discriminate.
  Qed.

  Lemma calm_settled : forall d vars s, wf A d -> scope A d vars -> forallb (calm A reg vars (store_of A funs d)) (smentions s) = true <-> settled d vars s.
  Proof.
    intros d vars s W S. rewrite forallb_forall. split.
    - intros H. split.
      + intros n x t v I V Hx. specialize (H _ I). cbn in H. rewrite V in H. rewrite (var_at_nth A d x v Hx) in H. exact H.
      + intros f g I R. specialize (H _ I). cbn in H. rewrite R in H. destruct (fs_always g); [discriminate|reflexivity].
    - intros [H1 H2] [n|f] I; cbn.
      + destruct (vars n) as [[x t]|] eqn:V; [|reflexivity]. pose proof V as V'. apply (S n (split ":" n) (proj2 (components_split _ _ _) eq_refl)) in V'. destruct V' as [_ [v [Hx _]]].
        rewrite (var_at_nth A d x v Hx). eapply H1; eauto.
      + destruct (reg f) as [g|] eqn:R; [|reflexivity]. rewrite (H2 f g I R). reflexivity.
  Qed.

  (** The expression of a statement and its value. *)
  Lemma expression_built : forall d vars s e, wf A d -> scope A d vars -> expression A reg d s = inr e -> build_sum A vars reg s = Built e.
  Proof.
    intros d vars s e W S E. unfold expression in E. rewrite (proj2 (proj2 (proj2 (build_ext A reg vars (lookup A d) (scope_lookup d vars W S))))). destruct (build_sum A (lookup A d) reg s); [|discriminate]. congruence.
  Qed.
  Lemma built_value_in : forall d vars s e t, build_sum A vars reg s = Built e -> eval (store_of A funs d) (promote_assign t e) = value_in d vars s t.
  Proof.
    intros d vars s e t B. unfold ValueSpec.value_in. rewrite <- (value_grouped A vars reg (store_of A funs d) s e (typed_store A funs funs_typed d) B).
    exact (proj2 (assignment_converts A vars reg (store_of A funs d) s e t (typed_store A funs funs_typed d) B)).
  Qed.
  Lemma promote_same : forall (e : expr A), promote_assign (etype e) e = e.
  Proof. intros e. unfold promote_assign. rewrite ty_eqb_refl. reflexivity. Qed.

  (** What a variable written to contains. *)
  Definition filled (d : deck) (vars : string -> option (nat * ty)) (s : sum) (v : vrec A) : Prop :=
    (settled d vars s -> v_fixed v = true /\ value_in d vars s (v_type v) = Ok (v_val v)) /\
    (~ settled d vars s -> v_fixed v = false /\ exists e, build_sum A vars reg s = Built e /\ v_expr v = Some (promote_assign (v_type v) e)).
  Lemma content_filled : forall d d2 vars s e t v, wf A d -> scope A d vars -> build_sum A vars reg s = Built e ->
    (exists new, d_vars d2 = d_vars d ++ new) -> d_mem d2 = d_mem d -> content A funs d2 (promote_assign t e) = inr v ->
    filled d vars s v /\ v_type v = t.
  Proof.
    intros d d2 vars s e t v W S B [new V2] M2 C.
    assert (Old : forall x w, nth_error (d_vars d) x = Some w -> var_at A d2 x = var_at A d x).
    { intros x w Hx. rewrite (var_at_nth A d x w Hx). apply var_at_nth. rewrite V2. rewrite nth_error_app1; [exact Hx|eapply nth_lt; eauto]. }
    assert (Ref : only A (fun t x => exists w, nth_error (d_vars d) x = Some w) (fun _ _ => True) e).
    { eapply built_only; [|exact B]. intros n x u V. apply (S n (split ":" n) (proj2 (components_split _ _ _) eq_refl)) in V. destruct V as [_ [w [Hx _]]]. eauto. }
    assert (Cs : is_constant (store_of A funs d2) e = is_constant (store_of A funs d) e).
    { rewrite (proj2 (proj2 (proj2 (built_const A reg vars (store_of A funs d2)))) s e B), (proj2 (proj2 (proj2 (built_const A reg vars (store_of A funs d)))) s e B).
      assert (Q : forall m, calm A reg vars (store_of A funs d2) m = calm A reg vars (store_of A funs d) m).
      { intros [n|f]; [|reflexivity]. cbn. destruct (vars n) as [[x u]|] eqn:V; [|reflexivity]. apply (S n (split ":" n) (proj2 (components_split _ _ _) eq_refl)) in V. destruct V as [_ [w [Hx _]]]. rewrite (Old x w Hx). reflexivity. }
      generalize (smentions s). intros l. induction l as [|m l IH]; [reflexivity|]. cbn [forallb]. rewrite Q, IH. reflexivity. }
    assert (Ev : eval (store_of A funs d2) (promote_assign t e) = eval (store_of A funs d) (promote_assign t e)).
    { apply eval_reads; cbn; auto.
      - intros x Hx. assert (Hx' : In x (refs e)). { unfold promote_assign in Hx. destruct (ty_eqb _ _); exact Hx. } destruct (only_refs A _ _ e x Ref Hx') as [_ [w Hw]]. rewrite (Old x w Hw). reflexivity.
      - intros x Hx. rewrite M2. reflexivity. }
    assert (Ty : etype (promote_assign t e) = t) by (apply assignment_converts with (vars := vars) (reg := reg) (st := store_of A funs d) (s := s); [apply typed_store; exact funs_typed|exact B]).
    unfold content in C. rewrite const_promote, Cs in C. pose proof (calm_settled d vars s W S) as St.
    rewrite <- (proj2 (proj2 (proj2 (built_const A reg vars (store_of A funs d)))) s e B) in St. rewrite Ev in C.
    destruct (is_constant (store_of A funs d) e).
    - destruct (eval (store_of A funs d) (promote_assign t e)) as [w| | |] eqn:Ew; try discriminate. inversion C; subst v; clear C.
      assert (Tw : type_of w = t).
      { rewrite (built_value_in d vars s e t B) in Ew. unfold ValueSpec.value_in in Ew. apply rbind_inv in Ew. destruct Ew as [a [_ Ea]]. rewrite converted_eq in Ea. eapply cast_to_type; eauto. }
      split; [|exact Tw]. split; [|intros N; exfalso; apply N; apply St; reflexivity]. intros _. cbn. split; [reflexivity|]. rewrite Tw. rewrite <- (built_value_in d vars s e t B). exact Ew.
    - inversion C; subst v; clear C. cbn [v_type expr_var v_fixed v_expr]. rewrite Ty. split; [|reflexivity]. split; [intros N; apply St in N; discriminate|]. intros _. cbn. rewrite Ty. eauto.
  Qed.

  (** *** Declarations *)
  Lemma forall2_impl : forall {X Y} (R R' : X -> Y -> Prop) l l', (forall x y, R x y -> R' x y) -> Forall2 R l l' -> Forall2 R' l l'.
  Proof. intros X Y R R' l l' H F. induction F; constructor; auto. Qed.
  Lemma declare_all_contents : forall t l d2 d', declare_all A funs t d2 l = inr d' ->
    exists new, d_vars d' = d_vars d2 ++ new /\ d_mem d' = d_mem d2 /\
      Forall2 (fun x v => v_type v = t /\ exists e dk, snd x = Some e /\ content A funs dk e = inr v /\ (exists l, d_vars dk = d_vars d2 ++ l) /\ d_mem dk = d_mem d2) l new.
  Proof.
    intros t. induction l as [|[n oe] l IH]; intros d2 d' E; cbn [declare_all] in E; [inversion E; subst; exists []; rewrite app_nil_r; auto|].
    destruct (declare A funs t d2 (n, oe)) as [f|d3] eqn:E1; [discriminate|]. cbn [bind] in E. destruct (IH _ _ E) as [new [N1 [N2 N3]]].
    unfold declare in E1. cbn [snd fst] in E1. destruct oe as [e|]; [|discriminate]. destruct (content A funs d2 e) as [f|v] eqn:Ec; [discriminate|]. cbn [bind] in E1.
    destruct (ty_eqb t (v_type v)) eqn:Et; [|discriminate]. destruct (block_add _ _ _ _) as [bs|]; [|discriminate]. inversion E1; subst d3; clear E1. cbn in N1, N2.
    exists (v :: new). split; [rewrite N1, <- app_assoc; reflexivity|]. split; [exact N2|]. constructor.
    - split; [symmetry; apply ty_eqb_eq; exact Et|]. exists e, d2. split; [reflexivity|]. split; [exact Ec|]. split; [exists []; rewrite app_nil_r; reflexivity|reflexivity].
    - eapply forall2_impl; [|exact N3]. intros x w [T [e' [dk [H1 [H2 [[l' H3] H4]]]]]]. split; [exact T|]. exists e', dk. split; [exact H1|]. split; [exact H2|]. cbn in H3, H4. split; [|exact H4].
      rewrite H3, <- app_assoc. eexists. reflexivity.
  Qed.
  Lemma expressions_in : forall d l r, expressions A reg d l = inr r -> forall n s, In (n, Some s) l -> exists e, In (n, Some e) r /\ expression A reg d s = inr e.
  Proof.
    intros d. induction l as [|[x [e|]] l IH]; intros r E n s I; cbn [expressions] in E.
    - destruct I.
    - destruct (expression A reg d e) as [|y] eqn:Ey; [discriminate|]. cbn [bind] in E. destruct (expressions A reg d l) as [|r'] eqn:El; [discriminate|]. cbn [bind] in E. inversion E; subst r.
      destruct I as [I|I]; [inversion I; subst; exists y; split; [left; reflexivity|exact Ey]|]. destruct (IH r' eq_refl n s I) as [e' [H1 H2]]. exists e'. split; [right; exact H1|exact H2].
    - destruct (expressions A reg d l) as [|r'] eqn:El; [discriminate|]. cbn [bind] in E. inversion E; subst r.
      destruct I as [I|I]; [discriminate|]. destruct (IH r' eq_refl n s I) as [e' [H1 H2]]. exists e'. split; [right; exact H1|exact H2].
  Qed.
  Lemma in_combine_seq : forall {X} (l : list X) a n x, In (n, x) (combine l (seq a (List.length l))) -> exists i, nth_error l i = Some n /\ x = a + i.
  Proof.
    intros X. induction l as [|y l IH]; intros a n x I; cbn in I; [destruct I|]. destruct I as [I|I].
    - inversion I; subst. exists 0. split; [reflexivity|lia].
    - destruct (IH _ _ _ I) as [i [H1 H2]]. exists (S i). split; [exact H1|lia].
  Qed.
  Lemma nodup_fst : forall {X Y} (l : list (X * Y)) n a b, NoDup (map fst l) -> In (n, a) l -> In (n, b) l -> a = b.
  Proof.
    intros X Y. induction l as [|[m c] l IH]; intros n a b N Ia Ib; [destruct Ia|]. cbn in N. inversion N as [|? ? N1 N2]; subst.
    destruct Ia as [Ia|Ia], Ib as [Ib|Ib].
    - congruence.
    - inversion Ia; subst. exfalso. apply N1. apply in_map_iff. exists (n, b). auto.
    - inversion Ib; subst. exfalso. apply N1. apply in_map_iff. exists (n, a). auto.
    - eapply IH; eauto.
  Qed.
  Lemma forall2_nth : forall {X Y} (R : X -> Y -> Prop) l l' i x, Forall2 R l l' -> nth_error l i = Some x -> exists y, nth_error l' i = Some y /\ R x y.
  Proof.
    intros X Y R l l' i x F. revert i. induction F as [|a b l l' H F IH]; intros [|i] E; cbn in E; try discriminate.
    - inversion E; subst. exists b. auto.
    - apply IH. exact E.
  Qed.

  Lemma decl_writes : forall d t y rest d1 x s vars, wf A d -> scope A d vars -> exec (SDecl t y rest) d = inr d1 -> writes d d1 (SDecl t y rest) x s ->
    exists v, nth_error (d_vars d1) x = Some v /\ filled d vars s v /\ v_type v = t /\ stype vars reg s = t.
  Proof.
    intros d t y rest d1 x s vars W S E [n [I D]]. cbn [DeckMeaning.exec] in E. destruct (expressions A reg d (y :: rest)) as [f|r] eqn:El; [discriminate|]. cbn [bind] in E.
    destruct (declare_all_effect A reg funs funs_typed t (rev r) d d1 W) as [_ [_ [_ [_ [_ [N [Nd Dc]]]]]]]; [apply Forall_rev; eapply expressions_good; eauto|exact E|].
    destruct (expressions_in d _ r El n s I) as [e [Ir Ee]]. pose proof (expression_built d vars s e W S Ee) as B.
    apply in_rev in Ir. apply Dc in D. destruct D as [D|[_ D]]; [exfalso; apply (Nd n x); [apply in_map_iff; exists (n, Some e); auto|exact D]|].
    rewrite <- (map_length fst) in D. destruct (in_combine_seq _ _ _ _ D) as [i [Hi ->]]. rewrite nth_error_map in Hi. destruct (nth_error (rev r) i) as [[n' oe]|] eqn:Er; [|discriminate].
    cbn in Hi. inversion Hi; subst n'; clear Hi. assert (oe = Some e) by (eapply nodup_fst; [exact N|eapply nth_error_In; eauto|exact Ir]). subst oe.
    destruct (declare_all_contents t (rev r) d d1 E) as [new [N1 [N2 N3]]]. destruct (forall2_nth _ _ _ _ _ N3 Er) as [v [Hv [T [e' [dk [Q1 [Q2 [Q3 Q4]]]]]]]].
    cbn in Q1. inversion Q1; subst e'; clear Q1. exists v. rewrite N1. split; [rewrite nth_error_app2 by lia; replace (_ + i - _) with i by lia; exact Hv|].
    rewrite <- (promote_same e) in Q2. destruct (content_filled d dk vars s e (etype e) v W S B Q3 Q4 Q2) as [F Te]. split; [exact F|]. split; [exact T|]. rewrite <- (built_type A vars reg s e B). congruence.
  Qed.

  (** *** Assignments *)
  Lemma assign_writes : forall d n s d1 vars, wf A d -> scope A d vars -> exec (SAssign n s) d = inr d1 ->
    exists x v w, get_variable (d_blocks d) (d_cursor d) n = Some x /\ nth_error (d_vars d) x = Some w /\ nth_error (d_vars d1) x = Some v /\ filled d vars s v /\ v_type v = v_type w /\
      d_blocks d1 = d_blocks d /\ List.length (d_vars d1) = List.length (d_vars d) /\ (forall y, y <> x -> nth_error (d_vars d1) y = nth_error (d_vars d) y).
  Proof.
    intros d n s d1 vars W S E. cbn [DeckMeaning.exec] in E. destruct (expression A reg d s) as [f|a] eqn:Ea; [discriminate|]. cbn [bind] in E.
    pose proof (expression_built d vars s a W S Ea) as B. unfold assign in E. destruct (get_variable (d_blocks d) (d_cursor d) n) as [x|] eqn:Eg; [|discriminate].
    pose proof (found A d n x W Eg) as F. rewrite (target_type A d x _ W F) in E. set (old := var_at A d x) in *.
    destruct (content A funs d (promote_assign (v_type old) a)) as [f|v] eqn:Ec; [discriminate|]. cbn [bind] in E.
    destruct (negb (ty_eqb _ _)) eqn:Et; [discriminate|]. destruct (v_ro old) eqn:Er; [discriminate|]. inversion E; subst d1; clear E.
    destruct (content_filled d d vars s a (v_type old) v W S B) as [Fl Tv]; [exists []; rewrite app_nil_r; reflexivity|reflexivity|exact Ec|].
    eexists x, _, old. split; [reflexivity|]. split; [exact F|]. split; [apply nth_update_same; eapply nth_lt; eauto|]. split; [|split; [reflexivity|split; [reflexivity|split; [apply length_update|intros y Hy; apply nth_update_other; exact Hy]]]].
    destruct Fl as [F1 F2]. split; intros Q; cbn; [specialize (F1 Q)|specialize (F2 Q)]; rewrite <- Tv; auto.
  Qed.

  (** *** Other statements *)
  Definition born (mem : list (value A)) (k : pkind A) (v : vrec A) : Prop :=
    match k with
    | Required _ t => v_fixed v = true /\ v_init v = false /\ v_ro v = false
    | Default _ _ w => v_fixed v = true /\ v_val v = w /\ v_init v = true /\ v_ro v = false
    | ReadOnly _ t o => v_fixed v = false /\ v_init v = true /\ v_ro v = true /\
        exists c, v_expr v = Some (EExt (type_of t) c) /\ nth_error mem c = Some (match o with Some w => w | None => t end)
    | Constant _ w => v_fixed v = true /\ v_val v = w /\ v_init v = true /\ v_ro v = true
    end.
  Lemma born_mono : forall mem mem' k v, (exists l, mem' = mem ++ l) -> born mem k v -> born mem' k v.
  Proof.
    intros mem mem' [t|t w|t o|w] v [l ->] B; cbn in *; auto. destruct B as [B1 [B2 [B3 [c [B4 B5]]]]]. split; [exact B1|]. split; [exact B2|]. split; [exact B3|]. exists c. split; [exact B4|].
    rewrite nth_error_app1; [exact B5|eapply nth_lt; eauto].
  Qed.
  Lemma add_params_vars : forall b l d ps, exists new, d_vars (fst (add_params A b d l ps)) = d_vars d ++ new /\ (exists m, d_mem (fst (add_params A b d l ps)) = d_mem d ++ m) /\
    Forall2 (fun p v => born (d_mem (fst (add_params A b d l ps))) (snd p) v) l new.
  Proof.
    intros b. induction l as [|[n k] l IH]; intros d ps; cbn [add_params]; [exists []; rewrite app_nil_r; split; [reflexivity|]; split; [exists []; rewrite app_nil_r; reflexivity|constructor]|].
    assert (V : exists v, d_vars (fst (add_param A b d (n, k))) = d_vars d ++ [v] /\ (exists m, d_mem (fst (add_param A b d (n, k))) = d_mem d ++ m) /\ born (d_mem (fst (add_param A b d (n, k)))) k v).
    { eexists. split; [reflexivity|]. cbn. destruct k as [t|t w|t [w|]|w]; cbn.
      - split; [eexists; reflexivity|auto].
      - split; [eexists; reflexivity|auto].
      - split; [eexists; reflexivity|]. split; [reflexivity|]. split; [reflexivity|]. split; [reflexivity|]. eexists. split; [reflexivity|]. rewrite nth_error_app2 by lia. rewrite Nat.sub_diag. reflexivity.
      - split; [eexists; reflexivity|]. split; [reflexivity|]. split; [reflexivity|]. split; [reflexivity|]. eexists. split; [reflexivity|]. rewrite nth_error_app2 by lia. rewrite Nat.sub_diag. reflexivity.
      - split; [exists []; rewrite app_nil_r; reflexivity|auto]. }
    destruct (add_param A b d (n, k)) as [d2 np]. cbn [fst] in V. destruct V as [v [V1 [[m V2] V3]]]. destruct (IH d2 (sput ps (fst np) (snd np))) as [new [N1 [[m' N2] N3]]].
    exists (v :: new). split; [rewrite N1, V1, <- app_assoc; reflexivity|]. split; [rewrite N2, V2, <- app_assoc; eexists; reflexivity|]. constructor; [|exact N3]. cbn [snd]. eapply born_mono; [|exact V3]. rewrite N2. eauto.
  Qed.
  Definition from_class (cls : list (string * class A)) (mem : list (value A)) (v : vrec A) : Prop :=
    exists name c l n k, In (name, c) cls /\ c_impl A c = Some l /\ In (n, k) l /\ born mem k v.
  Lemma from_class_mono : forall cls mem mem' v, (exists l, mem' = mem ++ l) -> from_class cls mem v -> from_class cls mem' v.
  Proof. intros cls mem mem' v L [name [c [l [n [k [H1 [H2 [H3 H4]]]]]]]]. exists name, c, l, n, k. eauto using born_mono. Qed.
  Lemma forall2_right : forall {X Y} (R : X -> Y -> Prop) l l' y, Forall2 R l l' -> In y l' -> exists x, In x l /\ R x y.
  Proof. intros X Y R l l' y F. induction F as [|a b l l' H F IH]; intros I; [destruct I|]. destruct I as [<-|I]; [exists a; cbn; auto|]. destruct (IH I) as [x [H1 H2]]. exists x. cbn. auto. Qed.
  Lemma make_object_vars : forall d name cls, exists new, d_vars (make_object A d name cls) = d_vars d ++ new /\
    forall classes, classes_of A classes d -> forall v, In v new -> from_class classes (d_mem (make_object A d name cls)) v.
  Proof.
    intros d name cls. unfold make_object. assert (V : d_vars (snd (get_class A d cls)) = d_vars d) by (unfold get_class; destruct (sfind (d_classes d) cls); reflexivity).
    pose proof (fun classes => get_class_found A classes d cls) as GF.
    destruct (get_class A d cls) as [c d1]. cbn [fst snd] in V, GF. destruct (c_impl A c) as [l|] eqn:Ei; [|exists []; cbn; rewrite app_nil_r; split; [exact V|intros ? ? ? []]].
    destruct (add_params_vars (d_cursor d1) l d1 []) as [new [Hn [_ F]]]. destruct (add_params A (d_cursor d1) d1 l []) as [d2 ps]. cbn [fst] in Hn, F. exists new. split; [unfold tree_add; cbn; rewrite Hn, V; reflexivity|].
    intros classes Cl v I. destruct (GF classes Cl) as [[c' [l' [G1 [G2 G3]]]]|G]; [|congruence]. inversion G3; subst c'. rewrite Ei in G2. inversion G2; subst l'.
    destruct (forall2_right _ _ _ _ F I) as [[n k] [I1 I2]]. exists cls, c, l, n, k. auto.
  Qed.

  (** *** Which parameter a variable is *)
  Lemma add_param_declares : forall b d n k B m x, declares (d_blocks (fst (add_param A b d (n, k)))) B m x -> declares (d_blocks d) B m x \/ (B = b /\ m = n /\ x = List.length (d_vars d)).
  Proof.
    intros b d n k B m x [blk [E I]]. cbn in E. unfold block_add in E. destruct (nth_error (d_blocks d) b) as [blk0|] eqn:Eb; [|left; exists blk; auto].
    destruct (sfind (b_vars blk0) n) eqn:Ef; [left; exists blk; auto|]. rewrite nth_update in E. destruct (Nat.eqb_spec B b) as [->|_]; [|left; exists blk; auto].
    destruct (Nat.ltb _ _); [|discriminate]. inversion E; subst blk. cbn in I. apply sput_sub in I. destruct I as [Q|I]; [inversion Q; auto|]. left. exists blk0. auto.
  Qed.
  Lemma add_params_declares : forall b l d ps B m x, let d1 := fst (add_params A b d l ps) in declares (d_blocks d1) B m x ->
    declares (d_blocks d) B m x \/ (B = b /\ exists k v, In (m, k) l /\ nth_error (d_vars d1) x = Some v /\ born (d_mem d1) k v).
  Proof.
    intros b. induction l as [|[n k] l IH]; intros d ps B m x; cbn [add_params]; [cbn; auto|].
    pose proof (add_param_declares b d n k B m x) as AD. destruct (add_params_vars b [(n, k)] d []) as [new [N1 [_ N3]]]. cbn [add_params] in N1, N3.
    destruct (add_param A b d (n, k)) as [d1 np]. cbn [fst snd] in *. intros D. destruct (IH d1 (sput ps (fst np) (snd np)) B m x D) as [D1|[HB [k' [v [I1 [I2 I3]]]]]].
    - destruct (AD D1) as [D2|[-> [-> ->]]]; [auto|]. right. split; [reflexivity|]. inversion N3 as [|? v ? ? Bn N4]; subst. inversion N4; subst. cbn [snd] in Bn.
      exists k, v. split; [left; reflexivity|]. destruct (add_params_vars b l d1 (sput ps (fst np) (snd np))) as [new' [M1 [M2 _]]]. split.
      + rewrite M1, N1, <- app_assoc. rewrite nth_error_app2 by lia. rewrite Nat.sub_diag. reflexivity.
      + eapply born_mono; eauto.
    - right. split; [exact HB|]. exists k', v. split; [right; exact I1|]. auto.
  Qed.
  Lemma parameter_sigs : forall cls d d1 b n k, (exists new, map sig (d_objs d1) = map sig (d_objs d) ++ new) -> parameter A cls d b n k -> parameter A cls d1 b n k.
  Proof.
    intros cls d d1 b n k [new S] [o [c [l [I [H1 [H2 [H3 H4]]]]]]]. assert (Is : In (sig o) (map sig (d_objs d1))) by (rewrite S; apply in_or_app; left; apply in_map; exact I).
    apply in_map_iff in Is. destruct Is as [o' [Q Io]]. unfold sig in Q. inversion Q as [[Q1 Q2 Q3]]. exists o', c, l. split; [exact Io|]. split; [congruence|]. rewrite Q1. auto.
  Qed.
  Lemma make_object_owner : forall cls d name c B m x, NoDup (map fst cls) -> classes_of A cls d -> let d1 := make_object A d name c in
    (exists new, map sig (d_objs d1) = map sig (d_objs d) ++ new) /\
    (declares (d_blocks d1) B m x -> declares (d_blocks d) B m x \/ exists k v, parameter A cls d1 B m k /\ nth_error (d_vars d1) x = Some v /\ born (d_mem d1) k v).
  Proof.
    intros cls d name c B m x Nd Cl d1. destruct (make_object_sigs A cls d name c Cl) as [S|[c0 [l [ps [H1 [H2 [S _]]]]]]].
    - split; [exists []; rewrite app_nil_r; exact S|]. subst d1. intros D. unfold make_object in D, S. destruct (get_class_found A cls d c Cl) as [[c0 [l [H1 [H2 H3]]]]|H].
      + exfalso. clear D. assert (L : List.length (d_objs (make_object A d name c)) = List.length (d_objs d)) by (rewrite <- (map_length sig), <- (map_length sig (d_objs d)); f_equal; exact S).
        unfold make_object in L. rewrite H3, H2 in L. assert (O2 : d_objs (fst (add_params A (d_cursor d) d l [])) = d_objs d).
        { generalize ([] : list (string * param)). generalize (d_cursor d). clear. intros b. revert d. induction l as [|[n k] l IH]; intros d ps; cbn [add_params]; [reflexivity|]. change (add_param A b d (n, k)) with (fst (add_param A b d (n, k)), snd (add_param A b d (n, k))). cbv beta iota. rewrite IH. reflexivity. }
        destruct (add_params A (d_cursor d) d l []) as [d2 ps]. cbn [fst] in O2. unfold tree_add in L. cbn [d_objs set_tree d_cur] in L. rewrite O2 in L.
        destruct (d_cur d2); [|rewrite app_length in L; cbn in L; lia]. repeat (destruct (nth_error _ _)); rewrite ?length_update, app_length in L; cbn in L; lia.
      + left. pose proof (get_class_rest A d c) as [_ [_ [_ R4]]]. destruct (get_class A d c) as [c0 d2]. cbn [fst snd] in *. rewrite H in D. cbn in D. rewrite R4 in D. exact D.
    - split; [eauto|]. intros D. assert (Ow : forall k, In (m, k) l -> B = d_cursor d -> parameter A cls d1 B m k).
      { intros k Hk ->. assert (Is : In (c, d_cursor d, ps) (map sig (d_objs d1))) by (unfold d1; rewrite S; apply in_or_app; right; left; reflexivity).
        apply in_map_iff in Is. destruct Is as [o [Q Io]]. unfold sig in Q. inversion Q as [[Q1 Q2 Q3]]. exists o, c0, l. rewrite Q1. auto. }
      subst d1. clear S. unfold make_object in *. destruct (get_class_found A cls d c Cl) as [[c1 [l1 [G1 [G2 G3]]]]|H].
      + rewrite G3, G2 in *. assert (c1 = c0) by (eapply nodup_fst; [exact Nd|exact G1|exact H1]). subst c1. assert (l1 = l) by congruence. subst l1. pose proof (add_params_declares (d_cursor d) l d [] B m x) as AD. destruct (add_params A (d_cursor d) d l []) as [d2 ps2]. cbn [fst] in AD. unfold tree_add in D. cbn in D.
        destruct (AD D) as [D1|[HB [k [v [I1 [I2 I3]]]]]]; [auto|]. right. exists k, v. split; [apply Ow; assumption|]. split; [exact I2|exact I3].
      + left. pose proof (get_class_rest A d c) as [_ [_ [_ R4]]]. destruct (get_class A d c) as [c1 d2]. cbn [fst snd] in *. rewrite H in D. cbn in D. rewrite R4 in D. exact D.
  Qed.
  Lemma open_vars : forall d c n d1, open_block A restricted d c n = inr d1 -> exists new, d_vars d1 = d_vars d ++ new /\
    forall classes, classes_of A classes d -> forall v, In v new -> from_class classes (d_mem d1) v.
  Proof.
    intros d c n d1 E. unfold open_block in E. destruct (nth_error (d_blocks d) (d_cursor d)) as [cur|]; [|discriminate].
    assert (Hgo : match create_block A d n c with None => inl (error DuplicateBlock) | Some d' => inr (make_object A d' n c) end = inr d1).
    { destruct restricted; [|exact E]. destruct (has_child A d (b_class cur) c) as [[|]|]; try discriminate. exact E. }
    destruct (create_block A d n c) as [d2|] eqn:Ec; [|discriminate]. inversion Hgo; subst d1. destruct (make_object_vars d2 n c) as [new [Hn Hc]].
    unfold create_block in Ec. destruct (nth_error (d_blocks d) (d_cursor d)); [|discriminate]. destruct (sfind _ _); [discriminate|]. inversion Ec. subst d2. exists new. split; [rewrite Hn; reflexivity|].
    intros classes Cl. apply Hc. exact Cl.
  Qed.
  Lemma close_vars : forall d d1, close_block A d = inr d1 -> d_vars d1 = d_vars d.
  Proof.
    intros d d1 E. unfold close_block in E. destruct (nth_error (d_blocks d) (d_cursor d)) as [cur|]; [|discriminate]. destruct (b_parent cur); [|discriminate].
    destruct (tree_up _ _) eqn:Et; [|discriminate]. apply tree_up_same in Et. destruct Et as [r [cu [l ->]]]. inversion E; subst. reflexivity.
  Qed.

  Lemma exec_keeps_var : forall s d d1 x v, wf A d -> exec s d = inr d1 -> (forall e, ~ writes d d1 s x e) -> nth_error (d_vars d) x = Some v -> nth_error (d_vars d1) x = Some v.
  Proof.
    intros s d d1 x v W E N Hx.
    assert (App : (exists new, d_vars d1 = d_vars d ++ new) -> nth_error (d_vars d1) x = Some v).
    { intros [new ->]. rewrite nth_error_app1; [exact Hx|eapply nth_lt; eauto]. }
    destruct s as [t y rest|n e|file|c n|]; cbn [DeckMeaning.exec] in E.
    - apply App. destruct (expressions A reg d (y :: rest)) as [f|r]; [discriminate|]. cbn [bind] in E. destruct (declare_all_contents _ _ _ _ E) as [new [Hn _]]. eauto.
    - destruct (assign_writes d n e d1 (lookup A d) W (lookup_scope d W) E) as [y [w [w' [G [_ [_ [_ [_ [_ [_ K]]]]]]]]]]. destruct (Nat.eq_dec x y) as [->|Hn]; [|rewrite K by exact Hn; exact Hx].
      exfalso. apply (N e). cbn. split; [reflexivity|]. exists (split ":" n). assert (C : components ":" n (split ":" n)) by (apply components_split; reflexivity). split; [exact C|].
      apply (get_variable_means (d_blocks d) _ (wf_b A d W) (d_cursor d) n _ y C). exact G.
    - inversion E; subst. exact Hx.
    - apply App. destruct n; (destruct (open_vars _ _ _ _ E) as [new [Hn _]]; exists new; exact Hn).
    - rewrite (close_vars _ _ E). exact Hx.
  Qed.
  Lemma unwritten_keeps : forall x d d', unwritten x d d' -> history d -> forall v, nth_error (d_vars d) x = Some v -> nth_error (d_vars d') x = Some v /\ history d' /\ later A reg funs restricted d d'.
  Proof.
    intros x d d' U. induction U as [d|s d d1 d' E N U IH]; intros H v Hx; [split; [exact Hx|split; [exact H|constructor]]|].
    destruct (IH (h_exec A reg funs restricted s d d1 H E) v) as [I1 [I2 I3]]; [eapply exec_keeps_var; eauto; eapply history_wf; eauto|]. split; [exact I1|]. split; [exact I2|]. econstructor; eauto.
  Qed.

  (** *** The value at the end *)
  Lemma leads_declared : forall bs b path x, leads bs b path x -> exists c n, declares bs c n x.
  Proof. induction 1; eauto. Qed.
  Lemma means_declared : forall bs b path x, means bs b path x -> exists c n, declares bs c n x.
  Proof.
    intros bs b [|n [|m path]] x M; cbn in M; [destruct M| |].
    - destruct M as [l [c [_ [_ D]]]]. eauto.
    - destruct M as [l [c [s [_ [_ [_ L]]]]]]. eapply leads_declared; eauto.
  Qed.
  Lemma exec_writes : forall s d d1 x e vars, history d -> scope A d vars -> exec s d = inr d1 -> writes d d1 s x e ->
    exists v, nth_error (d_vars d1) x = Some v /\ filled d vars e v /\ declared A d1 x /\
      match s with
      | SDecl t _ _ => v_type v = t /\ stype vars reg e = t
      | _ => exists w, nth_error (d_vars d) x = Some w /\ v_type v = v_type w
      end.
  Proof.
    intros s d d1 x e vars H S E Wr. pose proof (history_wf A reg funs restricted funs_typed d H) as W. destruct s as [t y rest|n e'|file|c n|]; cbn in Wr; try contradiction.
    - destruct (decl_writes d t y rest d1 x e vars W S E Wr) as [v [H1 [H2 [H3 H4]]]]. exists v. split; [exact H1|]. split; [exact H2|]. split; [|auto]. destruct Wr as [n [_ D]]. exists (d_cursor d), n. exact D.
    - destruct Wr as [-> [path [C M]]]. destruct (assign_writes d n e d1 vars W S E) as [y [v [w [G [Q1 [Q2 [Q3 [Q4 [Q5 _]]]]]]]]].
      assert (y = x) by (apply (get_variable_means (d_blocks d) _ (wf_b A d W) (d_cursor d) n path x C) in M; congruence). subst y. exists v. split; [exact Q2|]. split; [exact Q3|]. split; [|eauto].
      destruct (means_declared _ _ _ _ M) as [c [m D]]. exists c, m. rewrite Q5. exact D.
  Qed.

  Lemma value_at_end : forall s d d1 d2 d' x e vars, history d -> scope A d vars -> exec s d = inr d1 -> writes d d1 s x e ->
    unwritten x d1 d2 -> finish A funs d2 = Accepted A d' ->
    exists v, nth_error (d_vars d') x = Some v /\ owes d d' vars e v /\
      match s with
      | SDecl t _ _ => v_type v = t /\ stype vars reg e = t
      | _ => exists w, nth_error (d_vars d) x = Some w /\ v_type v = v_type w
      end.
  Proof.
    intros s d d1 d2 d' x e vars H S E Wr U F. destruct (exec_writes s d d1 x e vars H S E Wr) as [v [Hv [Fl [Dc Ty]]]].
    pose proof (h_exec A reg funs restricted s d d1 H E) as H1. destruct (unwritten_keeps x d1 d2 U H1 v Hv) as [Hv2 [H2 L]].
    destruct (finish_keeps A reg funs restricted funs_typed d2 d' H2 F) as [_ K]. destruct (K x v Hv2) as [v' [Hv' [T [_ [Ex Fx]]]]].
    exists v'. split; [exact Hv'|]. split; [|destruct s; rewrite T; exact Ty].
    assert (Dc2 : declared A d2 x).
    { destruct Dc as [b [n D]]. exists b, n. apply (never_changes A reg funs restricted funs_typed d1 d2 H1 L). exact D. }
    split.
    - intros St. destruct (proj1 Fl St) as [F1 F2]. rewrite (Fx F1). exact F2.
    - intros St. destruct (proj2 Fl St) as [F1 [ex [B F2]]].
      assert (Db : defined_by A d2 x (promote_assign (v_type v) ex)) by (split; [exact Dc2|]; exists v; auto).
      destruct (final_values A reg funs restricted funs_typed d2 d' H2 F x _ Db) as [_ V]. rewrite (built_value_in d' vars e ex (v_type v) B) in V. rewrite T. rewrite (var_at_nth A d' x v' Hv') in V. exact V.
  Qed.

  (** *** Where the content of a variable comes from *)
  Lemma expressions_from : forall d l r, expressions A reg d l = inr r -> forall n e, In (n, Some e) r -> exists s, In (n, Some s) l.
  Proof.
    intros d. induction l as [|[x [e|]] l IH]; intros r E n s I; cbn [expressions] in E.
    - inversion E; subst. destruct I.
    - destruct (expression A reg d e) as [|y] eqn:Ey; [discriminate|]. cbn [bind] in E. destruct (expressions A reg d l) as [|r'] eqn:El; [discriminate|]. cbn [bind] in E. inversion E; subst r.
      destruct I as [I|I]; [inversion I; subst; exists e; left; reflexivity|]. destruct (IH r' eq_refl n s I) as [e' H1]. exists e'. right; exact H1.
    - destruct (expressions A reg d l) as [|r'] eqn:El; [discriminate|]. cbn [bind] in E. inversion E; subst r.
      destruct I as [I|I]; [discriminate|]. destruct (IH r' eq_refl n s I) as [e' H1]. exists e'. right; exact H1.
  Qed.
  Lemma seq_in_combine : forall {X} (l : list X) a i n, nth_error l i = Some n -> In (n, a + i) (combine l (seq a (List.length l))).
  Proof.
    intros X. induction l as [|y l IH]; intros a [|i] n E; cbn in E; try discriminate.
    - inversion E; subst. left. f_equal. lia.
    - right. replace (a + S i) with (S a + i) by lia. apply IH. exact E.
  Qed.
  Lemma decl_cases : forall d t y rest d1 x, wf A d -> exec (SDecl t y rest) d = inr d1 ->
    (x < List.length (d_vars d) -> forall e, ~ writes d d1 (SDecl t y rest) x e) /\
    (List.length (d_vars d) <= x < List.length (d_vars d1) -> exists e, writes d d1 (SDecl t y rest) x e).
  Proof.
    intros d t y rest d1 x W E. cbn [DeckMeaning.exec] in E. destruct (expressions A reg d (y :: rest)) as [f|r] eqn:El; [discriminate|]. cbn [bind] in E.
    destruct (declare_all_effect A reg funs funs_typed t (rev r) d d1 W) as [_ [_ [_ [_ [_ [N [Nd Dc]]]]]]]; [apply Forall_rev; eapply expressions_good; eauto|exact E|].
    pose proof (expressions_names A reg _ _ _ El) as Nm. split.
    - intros L e [n [I D]]. apply Dc in D. destruct D as [D|[_ D]].
      + apply (Nd n x); [|exact D]. rewrite map_rev, Nm, <- in_rev. apply in_map_iff. exists (n, Some e). auto.
      + rewrite <- (map_length fst) in D. destruct (in_combine_seq _ _ _ _ D) as [i [_ ->]]. lia.
    - intros L. destruct (declare_all_contents t (rev r) d d1 E) as [new [N1 [N2 N3]]]. rewrite N1, app_length in L. set (i := x - List.length (d_vars d)).
      assert (Ln : List.length new = List.length (rev r)) by (clear - N3; induction N3; cbn; congruence). destruct (nth_error (rev r) i) as [[n oe]|] eqn:Er; [|apply nth_error_None in Er; subst i; lia].
      destruct (forall2_nth _ _ _ _ _ N3 Er) as [v [Hv [T [e' [dk [Q1 _]]]]]]. cbn in Q1. subst oe. assert (Ir : In (n, Some e') r) by (apply in_rev; eapply nth_error_In; eauto).
      destruct (expressions_from _ _ _ El n e' Ir) as [s Is]. exists s, n. split; [exact Is|]. apply Dc. right. split; [reflexivity|]. replace x with (List.length (d_vars d) + i) by (subst i; lia).
      rewrite <- (map_length fst (rev r)). apply seq_in_combine. rewrite nth_error_map, Er. reflexivity.
  Qed.

  Lemma exec_cases : forall classes s d d1 x v, wf A d -> classes_of A classes d -> exec s d = inr d1 -> nth_error (d_vars d1) x = Some v ->
    (exists e, writes d d1 s x e) \/
    ((forall e, ~ writes d d1 s x e) /\ (nth_error (d_vars d) x = Some v \/ (List.length (d_vars d) <= x /\ from_class classes (d_mem d1) v))).
  Proof.
    intros classes s d d1 x v W Cl E Hx. destruct s as [t y rest|n e|file|c n|].
    - destruct (decl_cases d t y rest d1 x W E) as [D1 D2]. destruct (Nat.lt_ge_cases x (List.length (d_vars d))) as [L|L].
      + right. split; [exact (D1 L)|]. left. cbn [DeckMeaning.exec] in E. destruct (expressions A reg d (y :: rest)) as [f|r]; [discriminate|]. cbn [bind] in E. destruct (declare_all_contents _ _ _ _ E) as [new [Hn _]].
        rewrite Hn, nth_error_app1 in Hx by exact L. exact Hx.
      + left. apply D2. split; [exact L|eapply nth_lt; eauto].
    - destruct (assign_writes d n e d1 (lookup A d) W (lookup_scope d W) E) as [y [w [w' [G [Q1 [Q2 [_ [_ [_ [Q3 K]]]]]]]]]]. assert (C : components ":" n (split ":" n)) by (apply components_split; reflexivity).
      pose proof (fun z => get_variable_means (d_blocks d) _ (wf_b A d W) (d_cursor d) n _ z C) as GM. destruct (Nat.eq_dec x y) as [->|Hn].
      + left. exists e. cbn. split; [reflexivity|]. exists (split ":" n). split; [exact C|]. apply GM. exact G.
      + right. split; [|left; rewrite <- K by exact Hn; exact Hx]. intros e' [_ [path [C' M]]]. apply Hn. apply (get_variable_means (d_blocks d) _ (wf_b A d W) (d_cursor d) n path x C') in M. congruence.
    - right. split; [cbn; auto|]. cbn in E. inversion E; subst. auto.
    - right. split; [cbn; auto|]. assert (Eo : exists new, d_vars d1 = d_vars d ++ new /\ forall v, In v new -> from_class classes (d_mem d1) v).
      { cbn in E. destruct n; (destruct (open_vars _ _ _ _ E) as [new [Hn Hc]]; exists new; split; [exact Hn|apply Hc; exact Cl]). }
      destruct Eo as [new [Hn Hc]]. rewrite Hn in Hx. destruct (Nat.lt_ge_cases x (List.length (d_vars d))) as [L|L].
      + left. rewrite nth_error_app1 in Hx by exact L. exact Hx.
      + right. split; [exact L|]. apply Hc. rewrite nth_error_app2 in Hx by exact L. eapply nth_error_In; eauto.
    - right. split; [cbn; auto|]. left. cbn in E. rewrite (close_vars _ _ E) in Hx. exact Hx.
  Qed.

  Notation run := (run A reg funs restricted).
  Lemma run_app : forall p q d, run (p ++ q) d = bind (run p d) (run q).
  Proof. induction p as [|s p IH]; intros q d; cbn; [reflexivity|]. destruct (exec s d); [reflexivity|]. cbn. apply IH. Qed.
  Lemma run_snoc : forall p s d d', run (p ++ [s]) d = inr d' -> exists d1, run p d = inr d1 /\ exec s d1 = inr d'.
  Proof.
    intros p s d d' R. rewrite run_app in R. destruct (run p d) as [f|d1]; [discriminate|]. cbn in R. exists d1. split; [reflexivity|]. destruct (exec s d1); [discriminate|]. exact R.
  Qed.
  Lemma exec_length : forall s d d1, wf A d -> exec s d = inr d1 -> List.length (d_vars d) <= List.length (d_vars d1).
  Proof.
    intros s d d1 W E. destruct (exec_keeps A reg funs restricted funs_typed s d d1 W E) as [_ G].
    destruct (Nat.le_gt_cases (List.length (d_vars d)) (List.length (d_vars d1))) as [L|L]; [exact L|]. exfalso.
    destruct (nth_error (d_vars d) (List.length (d_vars d1))) as [v|] eqn:Ev; [|apply nth_error_None in Ev; lia].
    destruct (gr_v A d d1 G _ _ Ev) as [v' [Hv' _]]. apply nth_lt in Hv'. lia.
  Qed.
  Lemma run_length : forall p d d1, history d -> run p d = inr d1 -> List.length (d_vars d) <= List.length (d_vars d1).
  Proof.
    induction p as [|s p IH]; intros d d1 H R; cbn in R; [inversion R; auto|]. destruct (exec s d) as [f|d2] eqn:E; [discriminate|]. cbn in R.
    pose proof (exec_length s d d2 (history_wf A reg funs restricted funs_typed d H) E). specialize (IH d2 d1 (h_exec A reg funs restricted s d d2 H E) R). lia.
  Qed.
  (** The same for a variable that can be evaluated at the end. *)
  Lemma due_at_end : forall s d d1 d2 d' x e vars v, history d -> scope A d vars -> exec s d = inr d1 -> writes d d1 s x e ->
    unwritten x d1 d2 -> finish A funs d2 = Accepted A d' -> nth_error (d_vars d') x = Some v ->
    (v_fixed v = true \/ exists f w, v_expr v = Some f /\ eval (store_of A funs d') f = Ok w) -> due A reg funs d d' vars e (v_type v) (v_val v).
  Proof.
    intros s d d1 d2 d' x e vars v' H S E Wr U F Hv' R. destruct (exec_writes s d d1 x e vars H S E Wr) as [v [Hv [Fl [Dc Ty]]]].
    pose proof (h_exec A reg funs restricted s d d1 H E) as H1. destruct (unwritten_keeps x d1 d2 U H1 v Hv) as [Hv2 [H2 L]].
    destruct (accepted_spec A funs d2 (history_wf A reg funs restricted funs_typed d2 H2) d' F) as [_ [_ [_ [_ [_ [_ [_ [_ [V _]]]]]]]]].
    destruct (V x v Hv2) as [w [Hw Fw]]. rewrite Hv' in Hw. inversion Hw; subst v'; clear Hw. cbn [v_type v_val v_fixed v_expr] in *.
    assert (Dc2 : declared A d2 x).
    { destruct Dc as [b [n D]]. exists b, n. apply (never_changes A reg funs restricted funs_typed d1 d2 H1 L). exact D. }
    split.
    - intros St. destruct (proj1 Fl St) as [F1 F2]. rewrite (Fw F1). exact F2.
    - intros St. destruct (proj2 Fl St) as [F1 [ex [B F2]]].
      assert (Db : defined_by A d2 x (promote_assign (v_type v) ex)) by (split; [exact Dc2|]; exists v; auto).
      destruct (final_values A reg funs restricted funs_typed d2 d' H2 F x _ Db) as [_ Ev]. rewrite (var_at_nth A d' x _ Hv') in Ev. cbn [v_val] in Ev.
      rewrite <- (built_value_in d' vars e ex (v_type v) B). destruct R as [R|[f [u [R1 R2]]]]; [congruence|]. rewrite F2 in R1. inversion R1; subst f. destruct Ev as [Ev|[Ev|Ev]]; [exact Ev|congruence|congruence].
  Qed.
  Lemma writes_init : forall s d d1 x e v, history d -> exec s d = inr d1 -> writes d d1 s x e -> nth_error (d_vars d1) x = Some v -> v_init v = true.
  Proof.
    intros s d d1 x e v H E Wr Hv. pose proof (history_wf A reg funs restricted funs_typed d H) as W. destruct s as [t y rest|n e'|file|c n|]; [| |destruct Wr|destruct Wr|destruct Wr].
    - destruct Wr as [n [I D]]. cbn [DeckMeaning.exec] in E. destruct (expressions A reg d (y :: rest)) as [f|r] eqn:El; [discriminate|]. cbn [bind] in E.
      destruct (declare_all_effect A reg funs funs_typed t (rev r) d d1 W) as [_ [_ [_ [_ [_ [N [Nd Dc]]]]]]]; [apply Forall_rev; eapply expressions_good; eauto|exact E|].
      pose proof (expressions_names A reg _ _ _ El) as Nm. apply Dc in D. destruct D as [D|[_ D]]; [exfalso; apply (Nd n x); [rewrite map_rev, Nm, <- in_rev; apply in_map_iff; exists (n, Some e); auto|exact D]|].
      rewrite <- (map_length fst) in D. destruct (in_combine_seq _ _ _ _ D) as [i [_ ->]]. destruct (declare_all_contents t (rev r) d d1 E) as [new [N1 [_ N3]]].
      rewrite N1, nth_error_app2 in Hv by lia. apply nth_error_In in Hv. destruct (forall2_right _ _ _ _ N3 Hv) as [z [_ [_ [ez [dk [_ [Q _]]]]]]]. eapply content_new; eauto.
    - destruct Wr as [-> [path [Cm M]]]. assert (Hx : exists w, nth_error (d_vars d) x = Some w).
      { destruct (assign_writes d n e d1 (lookup A d) W (lookup_scope d W) E) as [y [_ [_ [_ [_ [_ [_ [_ [_ [L _]]]]]]]]]]. destruct (nth_error (d_vars d) x) eqn:Ex; [eauto|]. apply nth_error_None in Ex. apply nth_lt in Hv. lia. }
      destruct Hx as [w Hx]. destruct (BlockEvalProofs.initialised A reg funs restricted funs_typed _ d d1 x w H E Hx) as [v' [Hv' [[n' [e' [path' [_ [_ [_ I]]]]]]|[N _]]]]; [congruence|].
      destruct (N n e path eq_refl Cm M).
  Qed.
  Lemma exec_owner : forall cls s d d1 B m x, NoDup (map fst cls) -> wf A d -> classes_of A cls d -> exec s d = inr d1 ->
    (exists new, map sig (d_objs d1) = map sig (d_objs d) ++ new) /\
    (declares (d_blocks d1) B m x ->
     declares (d_blocks d) B m x \/ (exists e, writes d d1 s x e) \/ exists k v, parameter A cls d1 B m k /\ nth_error (d_vars d1) x = Some v /\ born (d_mem d1) k v).
  Proof.
    intros cls s d d1 B m x Nd W Cl E. assert (Same : d_objs d1 = d_objs d -> exists new, map sig (d_objs d1) = map sig (d_objs d) ++ new) by (intros ->; exists []; rewrite app_nil_r; reflexivity).
    destruct s as [t y rest|n e|file|c n|].
    - pose proof (decl_cases d t y rest d1 x W E) as [_ D2]. cbn [DeckMeaning.exec] in E. destruct (expressions A reg d (y :: rest)) as [f|r] eqn:El; [discriminate|]. cbn [bind] in E.
      destruct (declare_all_effect A reg funs funs_typed t (rev r) d d1 W) as [new [_ [_ [_ [N4 [N [_ Dc]]]]]]]; [apply Forall_rev; eapply expressions_good; eauto|exact E|]. split; [apply Same; apply N4|].
      intros D. apply Dc in D. destruct D as [D|[_ D]]; [auto|]. right. left. apply D2. pose proof D as D'. rewrite <- (map_length fst) in D. destruct (in_combine_seq _ _ _ _ D) as [i [Hi ->]].
      destruct (declare_all_contents t (rev r) d d1 E) as [nw [M1 [_ M3]]]. rewrite M1, app_length. apply nth_lt in Hi. rewrite map_length in Hi.
      assert (Ln : List.length nw = List.length (rev r)) by (clear - M3; induction M3; cbn; congruence). lia.
    - destruct (assign_writes d n e d1 (lookup A d) W (lookup_scope d W) E) as [y [v [w [_ [_ [_ [_ [_ [Bl _]]]]]]]]]. split; [|rewrite Bl; auto]. apply Same.
      cbn [DeckMeaning.exec] in E. destruct (expression A reg d e) as [f|a]; [discriminate|]. cbn [bind] in E. unfold assign in E. destruct (get_variable _ _ _); [|discriminate].
      destruct (if v_fixed _ then _ else _) as [t|]; [|discriminate]. destruct (content _ _ _ _); [discriminate|]. cbn [bind] in E. destruct (negb _); [discriminate|]. destruct (v_ro _); [discriminate|]. inversion E. reflexivity.
    - cbn in E. inversion E; subst. split; [apply Same; reflexivity|auto].
    - assert (Eo : open_block A restricted d c (block_name c n) = inr d1) by (destruct n; exact E). clear E.
      assert (Ec : exists d2, create_block A d (block_name c n) c = Some d2 /\ d1 = make_object A d2 (block_name c n) c).
      { unfold open_block in Eo. destruct (nth_error (d_blocks d) (d_cursor d)) as [cur|]; [|discriminate].
        assert (Hgo : match create_block A d (block_name c n) c with None => inl (error DuplicateBlock) | Some d' => inr (make_object A d' (block_name c n) c) end = inr d1).
        { destruct restricted; [|exact Eo]. destruct (has_child A d (b_class cur) c) as [[|]|]; try discriminate. exact Eo. }
        destruct (create_block A d (block_name c n) c) as [d2|]; [|discriminate]. inversion Hgo. eauto. }
      destruct Ec as [d2 [Ec ->]]. destruct (create_block_rest _ _ _ _ _ Ec) as [T1 [T2 [T3 [T4 [T5 T6]]]]].
      destruct (make_object_owner cls d2 (block_name c n) c B m x Nd ltac:(unfold classes_of; rewrite T5; exact Cl)) as [S D]. split; [rewrite T1 in S; exact S|].
      intros D1. destruct (D D1) as [D2|D2]; [|auto]. left. destruct D2 as [blk [Eb I]]. unfold create_block in Ec. destruct (nth_error (d_blocks d) (d_cursor d)) as [blk0|] eqn:E0; [|discriminate].
      destruct (sfind _ _); [discriminate|]. inversion Ec; subst d2; clear Ec. cbn in Eb. rewrite nth_snoc, length_update in Eb. destruct (Nat.eqb_spec B (List.length (d_blocks d))); [inversion Eb; subst blk; destruct I|].
      rewrite nth_update in Eb. destruct (Nat.eqb_spec B (d_cursor d)) as [->|]; [|exists blk; auto]. destruct (Nat.ltb _ _); [|discriminate]. inversion Eb; subst blk. exists blk0. auto.
    - cbn in E. unfold close_block in E. destruct (nth_error (d_blocks d) (d_cursor d)) as [cur|]; [|discriminate]. destruct (b_parent cur); [|discriminate].
      destruct (tree_up _ _) eqn:Et; [|discriminate]. apply tree_up_same in Et. destruct Et as [r [cu [l ->]]]. inversion E; subst. split; [apply Same; reflexivity|auto].
  Qed.
  Lemma writes_lt : forall s d d1 x e, history d -> exec s d = inr d1 -> writes d d1 s x e -> x < List.length (d_vars d1).
  Proof.
    intros s d d1 x e H E Wr. destruct (exec_writes s d d1 x e (lookup A d) H (lookup_scope d (history_wf A reg funs restricted funs_typed d H)) E Wr) as [v [Hv _]]. eapply nth_lt; eauto.
  Qed.
  Lemma unwritten_snoc : forall x d d1 d2 s, unwritten x d d1 -> exec s d1 = inr d2 -> (forall e, ~ writes d1 d2 s x e) -> unwritten x d d2.
  Proof.
    intros x d d1 d2 s U. induction U as [d|s' d d' d'' E N U IH]; intros E2 N2.
    - eapply u_exec; [exact E2|exact N2|constructor].
    - eapply u_exec; [exact E|exact N|]. apply IH; assumption.
  Qed.
  Notation last_writer := (last_writer A reg funs restricted).
  Notation no_writer := (no_writer A reg funs restricted).

  Section Origin.
    Variable classes : list (string * class A).
    Hypothesis once : NoDup (map fst classes).
    Hypothesis typed : typed_classes A classes.
    Variables root rootclass : string.
    Let d0 := start A (new_deck A root rootclass classes).

    Lemma d0_history : history d0.
    Proof. apply h_start. apply h_new. exact typed. Qed.
    Lemma run_origin : forall p d2, run p d0 = inr d2 -> forall x v, nth_error (d_vars d2) x = Some v ->
      (exists d e, last_writer p d0 x d e) \/ (no_writer p d0 x /\ from_class classes (d_mem d2) v).
    Proof.
      induction p as [|s p IH] using rev_ind; intros d2 R x v Hx.
      - right. split; [intros [|? ?] ? ? ? ? ? Q; discriminate Q|]. assert (Q : d2 = d0) by (injection R; auto). rewrite Q in Hx |- *. clear Q R d2.
        set (dn := set_tree A (new_deck A root rootclass classes) (d_objs (new_deck A root rootclass classes)) None None []) in *.
        change d0 with (make_object A dn root rootclass) in Hx |- *.
        destruct (make_object_vars dn root rootclass) as [new [Hn Hc]]. rewrite Hn in Hx. cbn in Hx. apply Hc; [split; auto|eapply nth_error_In; eauto].
      - destruct (run_snoc p s d0 d2 R) as [d1 [R1 E]]. pose proof (history_run A reg funs restricted p d0 d1 d0_history R1) as H1.
        pose proof (history_wf A reg funs restricted funs_typed d1 H1) as W1. pose proof (deck_classes A reg funs restricted funs_typed classes once typed root rootclass p d1 R1) as Cl.
        destruct (exec_cases classes s d1 d2 x v W1 Cl E Hx) as [[e Wr]|[N O]].
        + left. exists d1, e, p, s, [], d2, d2. split; [reflexivity|]. split; [exact R1|]. split; [exact E|]. split; [reflexivity|]. split; [exact Wr|constructor].
        + assert (Before : no_writer p d0 x -> no_writer (p ++ [s]) d0 x).
          { intros Np q1 s' q2 dq dq1 e Q Rq Eq Wr. destruct q2 as [|z q2 _] using rev_ind.
            - apply app_inj_tail in Q. destruct Q as [-> ->]. assert (dq = d1) by congruence. subst dq. assert (dq1 = d2) by congruence. subst dq1. exact (N e Wr).
            - rewrite app_comm_cons, app_assoc in Q. apply app_inj_tail in Q. destruct Q as [-> ->]. eapply (Np q1 s' q2); eauto. }
          destruct O as [O|[L O]].
          * destruct (IH d1 R1 x v O) as [[d [e [p1 [s' [p2 [dd1 [dd2 [Q1 [Q2 [Q3 [Q4 [Q5 Q6]]]]]]]]]]]]|[I1 I2]].
            -- left. exists d, e, p1, s', (p2 ++ [s]), dd1, d2. split; [rewrite Q1, <- app_assoc; reflexivity|]. split; [exact Q2|]. split; [exact Q3|].
               assert (dd2 = d1). { rewrite Q1, run_app, Q2 in R1. cbn in R1. rewrite Q3 in R1. cbn in R1. congruence. } subst dd2.
               split; [rewrite run_app, Q4; cbn; rewrite E; reflexivity|]. split; [exact Q5|]. eapply unwritten_snoc; eauto.
            -- right. split; [apply Before; exact I1|]. eapply from_class_mono; [|exact I2]. apply (gr_m A d1 d2). eapply exec_keeps; eauto.
          * right. split; [|exact O]. apply Before. intros q1 s' q2 dq dq1 e Q Rq Eq Wr. pose proof (history_run A reg funs restricted q1 d0 dq d0_history Rq) as Hq.
            pose proof (writes_lt s' dq dq1 x e Hq Eq Wr) as Lt. rewrite Q, run_app, Rq in R1. cbn in R1. rewrite Eq in R1. cbn in R1.
            pose proof (run_length q2 dq1 d1 (h_exec A reg funs restricted s' dq dq1 Hq Eq) R1). lia.
    Qed.

    (** A declared variable that no statement writes is a parameter of the object its block belongs
        to. *)
    Lemma run_owner : forall p d2, run p d0 = inr d2 -> forall b n x, declares (d_blocks d2) b n x -> no_writer p d0 x ->
      exists k v, parameter A classes d2 b n k /\ nth_error (d_vars d2) x = Some v /\ born (d_mem d2) k v.
    Proof.
      induction p as [|s p IH] using rev_ind; intros d2 R b n x D N.
      - assert (Q : d2 = d0) by (injection R; auto). rewrite Q in D |- *. clear Q R d2.
        set (dn := set_tree A (new_deck A root rootclass classes) (d_objs (new_deck A root rootclass classes)) None None []) in *.
        change d0 with (make_object A dn root rootclass) in D |- *. destruct (make_object_owner classes dn root rootclass b n x once ltac:(split; auto)) as [_ O].
        destruct (O D) as [[blk [E I]]|O']; [|exact O']. destruct b as [|[|b]]; cbn in E; try discriminate. inversion E; subst blk. destruct I.
      - destruct (run_snoc p s d0 d2 R) as [d1 [R1 E]]. pose proof (history_run A reg funs restricted p d0 d1 d0_history R1) as H1.
        pose proof (history_wf A reg funs restricted funs_typed d1 H1) as W1. pose proof (deck_classes A reg funs restricted funs_typed classes once typed root rootclass p d1 R1) as Cl.
        assert (Nw : forall e, ~ writes d1 d2 s x e) by (intros e; apply (N p s [] d1 d2 e); auto).
        assert (Np : no_writer p d0 x). { intros q1 s' q2 dq dq1 e Q. apply (N q1 s' (q2 ++ [s])). rewrite Q, <- app_assoc. reflexivity. }
        destruct (exec_owner classes s d1 d2 b n x once W1 Cl E) as [S O]. destruct (O D) as [D1|[[e Wr]|O']]; [|destruct (Nw e Wr)|exact O'].
        destruct (IH d1 R1 b n x D1 Np) as [k [v [P [Hx Bn]]]]. exists k, v. split; [eapply parameter_sigs; eauto|]. split; [eapply exec_keeps_var; eauto|].
        eapply born_mono; [|exact Bn]. apply (gr_m A d1 d2). eapply exec_keeps; eauto.
    Qed.

    (** At the end of a deck. *)
    Lemma born_end : forall d2 d' x v k, history d2 -> finish A funs d2 = Accepted A d' -> declared A d2 x -> nth_error (d_vars d2) x = Some v -> born (d_mem d2) k v ->
      exists v', nth_error (d_vars d') x = Some v' /\ left_alone A k v'.
    Proof.
      intros d2 d' x v k H F Dc Hx B. destruct (accepted_spec A funs d2 (history_wf A reg funs restricted funs_typed d2 H) d' F) as [_ [_ [_ [_ [_ [_ [_ [Mm [V [_ [Df _]]]]]]]]]]].
      destruct (V x v Hx) as [w [Hw Fw]]. exists (mkVar A w (v_expr v) (v_type v) (v_fixed v) (v_init v) (v_ro v) (v_id v)). split; [exact Hw|].
      destruct k as [t|t u|t o|u]; cbn in B |- *.
      - tauto.
      - destruct B as [B1 [B2 [B3 B4]]]. rewrite (Fw B1). auto.
      - destruct B as [B1 [B2 [B3 [c [B4 B5]]]]]. split; [|auto]. assert (Db : defined_by A d2 x (EExt (type_of t) c)) by (split; [exact Dc|]; exists v; auto).
        destruct (Df x _ Db) as [_ Ev]. cbn in Ev. rewrite Mm in Ev. rewrite (nth_error_nth _ _ (VInt 0) B5) in Ev. rewrite (var_at_nth A d' x _ Hw) in Ev. cbn [v_val] in Ev.
        pose proof (wv_typed _ _ _ _ (wf_v A d2 (history_wf A reg funs restricted funs_typed d2 H)) x v Hx) as T. unfold typed_var in T. rewrite B1 in T. destruct T as [e [T1 [T2 T3]]]. rewrite B4 in T1. inversion T1; subst e.
        destruct T3 as [_ T3]. cbn in T3. destruct T3 as [u [T3 T4]]. rewrite B5 in T3. inversion T3; subst u.
        set (u := match o with Some w => w | None => t end) in *. rewrite <- T4 in Ev. destruct u; cbn in Ev; destruct Ev as [Ev|[Ev|Ev]]; congruence.
      - destruct B as [B1 [B2 [B3 B4]]]. rewrite (Fw B1). auto.
    Qed.
    Lemma every_variable : forall p d2 d', run p d0 = inr d2 -> finish A funs d2 = Accepted A d' -> forall b n x, declares (d_blocks d') b n x ->
      exists v, nth_error (d_vars d') x = Some v /\
      ((exists d e, last_writer p d0 x d e /\ forall vars, scope A d vars -> owes d d' vars e v) \/
       (no_writer p d0 x /\ exists k, parameter A classes d' b n k /\ left_alone A k v)).
    Proof.
      intros p d2 d' R F b n x Dc. pose proof (history_run A reg funs restricted p d0 d2 d0_history R) as H2. pose proof (history_wf A reg funs restricted funs_typed d2 H2) as W2.
      destruct (accepted_spec A funs d2 W2 d' F) as [_ [Bl [_ [Ob _]]]]. rewrite Bl in Dc. assert (Dd : declared A d2 x) by (exists b, n; exact Dc).
      assert (Hx : exists v, nth_error (d_vars d2) x = Some v).
      { destruct Dc as [blk [Eb I]]. destruct (nth_error (d_vars d2) x) eqn:Ex; [eauto|]. apply nth_error_None in Ex. pose proof (wb_entry _ _ (wf_b A d2 W2) b blk n x Eb I). lia. }
      destruct Hx as [v Hx]. destruct (run_origin p d2 R x v Hx) as [[d [e L]]|[N _]].
      - pose proof L as L'. destruct L as [p1 [s [p2 [dd1 [dd2 [Q1 [Q2 [Q3 [Q4 [Q5 Q6]]]]]]]]]]. pose proof (history_run A reg funs restricted p1 d0 d d0_history Q2) as Hd.
        assert (dd2 = d2). { rewrite Q1, run_app, Q2 in R. cbn in R. rewrite Q3 in R. cbn in R. congruence. } subst dd2.
        destruct (value_at_end s d dd1 d2 d' x e (lookup A d) Hd (lookup_scope d (history_wf A reg funs restricted funs_typed d Hd)) Q3 Q5 Q6 F) as [w [Hw _]].
        exists w. split; [exact Hw|]. left. exists d, e. split; [exact L'|]. intros vars S. destruct (value_at_end s d dd1 d2 d' x e vars Hd S Q3 Q5 Q6 F) as [w' [Hw' [O _]]]. congruence.
      - destruct (run_owner p d2 R b n x Dc N) as [k [u [P [Hu Bn]]]]. destruct (born_end d2 d' x u k H2 F Dd Hu Bn) as [v' [Hv' La]]. exists v'. split; [exact Hv'|]. right. split; [exact N|].
        exists k. split; [|exact La]. eapply parameter_sigs; [|exact P]. exists []. rewrite app_nil_r, Ob. reflexivity.
    Qed.
    (** A variable that cannot be evaluated at the end. *)
    Lemma written_init : forall p d2 d' x d e v, run p d0 = inr d2 -> finish A funs d2 = Accepted A d' -> last_writer p d0 x d e -> nth_error (d_vars d') x = Some v -> v_init v = true.
    Proof.
      intros p d2 d' x d e v R F L Hv. destruct L as [p1 [s [p2 [dd1 [dd2 [Q1 [Q2 [Q3 [Q4 [Q5 Q6]]]]]]]]]]. pose proof (history_run A reg funs restricted p1 d0 d d0_history Q2) as Hd.
      assert (dd2 = d2). { rewrite Q1, run_app, Q2 in R. cbn in R. rewrite Q3 in R. cbn in R. congruence. } subst dd2.
      destruct (exec_writes s d dd1 x e (lookup A d) Hd (lookup_scope d (history_wf A reg funs restricted funs_typed d Hd)) Q3 Q5) as [u [Hu _]]. pose proof (writes_init s d dd1 x e u Hd Q3 Q5 Hu) as I.
      destruct (unwritten_keeps x dd1 d2 Q6 (h_exec A reg funs restricted s d dd1 Hd Q3) u Hu) as [Hu2 [H2 _]].
      destruct (accepted_spec A funs d2 (history_wf A reg funs restricted funs_typed d2 H2) d' F) as [_ [_ [_ [_ [_ [_ [_ [_ [V _]]]]]]]]]. destruct (V x u Hu2) as [w [Hw _]]. rewrite Hv in Hw. injection Hw as ->. exact I.
    Qed.
    Lemma unready_writer : forall p d2 d' x d e v vars, run p d0 = inr d2 -> finish A funs d2 = Accepted A d' -> last_writer p d0 x d e -> scope A d vars -> nth_error (d_vars d') x = Some v ->
      ~ (v_fixed v = true \/ exists f w, v_expr v = Some f /\ eval (store_of A funs d') f = Ok w) ->
      ~ settled d vars e /\ (value_in d' vars e (v_type v) = BadCast \/ value_in d' vars e (v_type v) = BadGet).
    Proof.
      intros p d2 d' x d e v vars R F L S Hv NR. destruct L as [p1 [s [p2 [dd1 [dd2 [Q1 [Q2 [Q3 [Q4 [Q5 Q6]]]]]]]]]]. pose proof (history_run A reg funs restricted p1 d0 d d0_history Q2) as Hd.
      assert (dd2 = d2). { rewrite Q1, run_app, Q2 in R. cbn in R. rewrite Q3 in R. cbn in R. congruence. } subst dd2.
      destruct (exec_writes s d dd1 x e vars Hd S Q3 Q5) as [u [Hu [Fl [Dc _]]]]. pose proof (h_exec A reg funs restricted s d dd1 Hd Q3) as H1.
      destruct (unwritten_keeps x dd1 d2 Q6 H1 u Hu) as [Hu2 [H2 L]].
      destruct (accepted_spec A funs d2 (history_wf A reg funs restricted funs_typed d2 H2) d' F) as [_ [_ [_ [_ [_ [_ [_ [_ [V _]]]]]]]]]. destruct (V x u Hu2) as [w [Hw Fw]]. rewrite Hv in Hw. inversion Hw; subst v; clear Hw. cbn [v_type v_val v_fixed v_expr] in *.
      assert (Ns : ~ settled d vars e) by (intros St; apply NR; left; apply Fl; exact St). split; [exact Ns|]. destruct (proj2 Fl Ns) as [F1 [ex [B F2]]].
      assert (Dc2 : declared A d2 x) by (destruct Dc as [b [n D]]; exists b, n; apply (never_changes A reg funs restricted funs_typed dd1 d2 H1 L); exact D).
      assert (Db : defined_by A d2 x (promote_assign (v_type u) ex)) by (split; [exact Dc2|]; exists u; auto).
      destruct (final_values A reg funs restricted funs_typed d2 d' H2 F x _ Db) as [_ Ev]. rewrite <- (built_value_in d' vars e ex (v_type u) B). destruct Ev as [Ev|Ev]; [|exact Ev]. destruct NR. right. eauto.
    Qed.
    Lemma every_parameter : forall p d2 d', run p d0 = inr d2 -> finish A funs d2 = Accepted A d' -> forall b n x v, declares (d_blocks d') b n x ->
      nth_error (d_vars d') x = Some v -> (v_fixed v = true \/ exists f w, v_expr v = Some f /\ eval (store_of A funs d') f = Ok w) ->
      (exists d e, last_writer p d0 x d e /\ forall vars, scope A d vars -> due A reg funs d d' vars e (v_type v) (v_val v)) \/
      (no_writer p d0 x /\ exists k, parameter A classes d' b n k /\ left_alone A k v).
    Proof.
      intros p d2 d' R F b n x v Dc Hv Rd. destruct (every_variable p d2 d' R F b n x Dc) as [v' [Hv' [[d [e [L _]]]|N]]]; assert (v' = v) by congruence; subst v'; [|right; exact N].
      left. exists d, e. split; [exact L|]. intros vars S. destruct L as [p1 [s [p2 [dd1 [dd2 [Q1 [Q2 [Q3 [Q4 [Q5 Q6]]]]]]]]]]. pose proof (history_run A reg funs restricted p1 d0 d d0_history Q2) as Hd.
      assert (dd2 = d2). { rewrite Q1, run_app, Q2 in R. cbn in R. rewrite Q3 in R. cbn in R. congruence. } subst dd2. eapply due_at_end; eauto.
    Qed.
  End Origin.
End Deck.
