(** The actions of a derivation have the effect of the statements it spells. *)
From Coq Require Import ZArith List Bool String Ascii Lia.
From Verif Require Import ScanModel ParseModel ParseSpec ParseProofs ParseExamples ExprModel ExprSyntax ExprBuildModel ExprSpec ExprProofs DepModel
  DeckModel DeckSyntax DeckMeaning DeckReadProofs.
Import ListNotations.
Local Open Scope Z_scope.

Section Run.
  Variable A : arith.
  Variable reg : string -> option fsig.
  Variable funs : fsig -> list (value A) -> result (value A).
  Variable restricted : bool.
  Notation deck := (deck A).
  Notation ptoken := (ptoken A).
  Notation action := (action A reg funs restricted).
  Notation perform := (perform action).
  Notation tree := (tree ptoken).
  Notation r_sum := (r_sum (text A)).
  Notation vars d := (lookup A d).

  Definition lexed (x : Z * ptoken) : Prop := exists a, snd x = of_token A a /\ t_code a = fst x.
  Notation leaves t := (Forall lexed (yield t)).

  (** The result of the actions of an expression. *)
  Definition agrees (r : act_result A) (d : deck) (b : built (expr A)) : Prop :=
    match b with
    | Built e => exists tok, r = inr (PTok A tok Pexpression (Some e) None, d)
    | Failed x => exists f, r = inl f /\ forget f = build_failure x
    end.
  Definition agrees_list (r : act_result A) (d : deck) (b : built (list (expr A))) : Prop :=
    match b with
    | Built l => exists p, r = inr (p, d) /\ chain_data A p = Some l
    | Failed x => exists f, r = inl f /\ forget f = build_failure x
    end.

  Lemma of_built_agrees : forall p d b, agrees (of_built A p Pexpression d b) d b.
  Proof. intros p d [e|[]]; cbn; eexists; try split; reflexivity. Qed.
  Lemma of_built_forget : forall p t d x, exists f, of_built A p t d (Failed x) = inl f /\ forget f = build_failure x.
  Proof. intros p t d []; cbn; eexists; split; reflexivity. Qed.

  Lemma leaf_inv : forall c v, lexed (c, v) -> exists a, v = of_token A a /\ t_code a = c.
  Proof. intros c v [a [H1 H2]]. eauto. Qed.
  Ltac leaf_tac := repeat match goal with
    | H : Forall lexed (_ :: _) |- _ => apply Forall_cons_iff in H; let K := fresh "L" in destruct H as [K H]
    | H : Forall lexed (_ ++ _) |- _ => apply Forall_app in H; let K := fresh "L" in destruct H as [K H]
    | H : lexed (_, _) |- _ => apply leaf_inv in H; let a := fresh "a" in let E1 := fresh "C" in destruct H as [a [-> E1]]
    end.
  Ltac leaves_tac := cbn [yield flat_map app] in *; rewrite ?app_nil_r in *; leaf_tac.
  Ltac go := rewrite perform_node; cbn [perform_list ParseSpec.perform].

  Lemma arg_chain_snoc : forall vs l c e,
    arg_chain A vs reg c (l ++ [e]) = bbind (arg_chain A vs reg c l) (fun c' => bbind (build_sum A vs reg e) (fun x => Built (x :: c'))).
  Proof.
    intros vs. induction l as [|y l IH]; intros c e; [reflexivity|]. cbn [app arg_chain]. destruct (build_sum A vs reg y) as [z|z]; [|reflexivity].
    cbn [bbind]. apply IH.
  Qed.
  Lemma agrees_binary : forall o p p' d e e', act_binary A o (PTok A p Pexpression (Some e) None) (PTok A p' Pexpression (Some e') None) d =
    inr (PTok A p Pexpression (Some (binary_op o (ty_max (etype e) (etype e')) (up A (ty_max (etype e) (etype e')) e) (up A (ty_max (etype e) (etype e')) e'))) None, d).
  Proof. intros. unfold act_binary. cbn [p_data]. rewrite assign_binary_eq. reflexivity. Qed.
  Lemma chain_data_append : forall a e q, chain_data A (append A (PTok A a Pexpression (Some e) None) q) =
    match chain_data A q with Some l => Some (e :: l) | None => None end.
  Proof. reflexivity. Qed.

  Ltac use IH := let f := fresh "f" in let p := fresh "p" in let E1 := fresh "E" in let E2 := fresh "F" in
    match type of IH with
    | agrees _ _ ?b => destruct b; cbn [agrees bbind] in IH |- *; [destruct IH as [p E1]; rewrite E1|destruct IH as [f [E1 E2]]; rewrite E1; exists f; split; [reflexivity|exact E2]]
    | agrees_list _ _ ?b => destruct b; cbn [agrees_list bbind] in IH |- *; [destruct IH as [p [E1 E2]]; rewrite E1|destruct IH as [f [E1 E2]]; rewrite E1; exists f; split; [reflexivity|exact E2]]
    end.

  Lemma expressions_agree :
    (forall t a, r_atom (text A) t a -> leaves t -> forall d, agrees (perform t d) d (build_atom A (vars d) reg a)) /\
    (forall t l, r_args (text A) t l -> leaves t -> forall d, agrees_list (perform t d) d (arg_chain A (vars d) reg [] l)) /\
    (forall t f, r_factor (text A) t f -> leaves t -> forall d, agrees (perform t d) d (build_factor A (vars d) reg f)) /\
    (forall t s a, r_signed (text A) t s a -> leaves t -> forall d,
       agrees (perform t d) d (bbind (build_atom A (vars d) reg a) (fun e => Built (build_signed A s e)))) /\
    (forall t x, r_term (text A) t x -> leaves t -> forall d, agrees (perform t d) d (build_term A (vars d) reg x)) /\
    (forall t x l, r_uns (text A) t x l -> leaves t -> forall d,
       agrees (perform t d) d (bbind (build_term A (vars d) reg x) (fun e => bbind (terms A (vars d) reg l) (build_right A e)))) /\
    (forall t s x, r_sterm (text A) t s x -> leaves t -> forall d,
       agrees (perform t d) d (bbind (build_term A (vars d) reg x) (fun e => Built (build_signed A s e)))) /\
    (forall t s, r_sum t s -> leaves t -> forall d, agrees (perform t d) d (build_sum A (vars d) reg s)).
  Proof.
    apply r_mutind.
    - intros v H d. leaves_tac. go. cbn [DeckModel.action]. unfold act_integer, check_atom. cbn [of_token p_type p_atom]. rewrite C. cbn [Z.eqb].
      rewrite Z.eqb_refl. cbn [build_atom]. unfold text; cbn [of_token p_atom].
      destruct (assign_integer (string_of_list_ascii (t_text a))) as [e|x]; cbn [bbind].
      + cbn. eauto.
      + destruct (of_built_forget (of_token A a) Pint d x) as [f [Hf1 Hf2]]. unfold of_token in *. rewrite Hf1. cbn. eauto.
    - intros v H d. leaves_tac. go. cbn [DeckModel.action]. unfold act_float, check_atom. cbn [of_token p_type p_atom]. rewrite C.
      rewrite Z.eqb_refl. cbn [build_atom]. unfold text; cbn [of_token p_atom].
      destruct (assign_float (string_of_list_ascii (t_text a))) as [e|x]; cbn [bbind].
      + cbn. eauto.
      + destruct (of_built_forget (of_token A a) Pfloat d x) as [f [Hf1 Hf2]]. unfold of_token in *. rewrite Hf1. cbn. eauto.
    - intros v H d. leaves_tac. go. cbn [DeckModel.action]. unfold act_string, check_atom. cbn [of_token p_type p_atom]. rewrite C.
      rewrite Z.eqb_refl. cbn. eauto.
    - intros v H d. leaves_tac. go. cbn [DeckModel.action]. unfold act_identifier, check_atom. cbn [of_token p_type p_atom]. rewrite C.
      rewrite Z.eqb_refl. cbn [build_atom]. unfold text; cbn [of_token p_atom].
      destruct (assign_identifier (lookup A d) (string_of_list_ascii (t_text a))) as [e|x]; cbn [bbind].
      + cbn. eauto.
      + destruct (of_built_forget (of_token A a) Pexpression d x) as [f [Hf1 Hf2]]. unfold of_token in *. rewrite Hf1. cbn. eauto.
    - intros v t e v' R IH H d. leaves_tac. go. specialize (IH L0 d). change (build_atom A (vars d) reg (APar e)) with (bbind (build_sum A (vars d) reg e) (fun e => Built (assign_unary OId e))). use IH. cbn. eauto.
    - intros v v1 v2 H d. leaves_tac. go. cbn [DeckModel.action]. unfold act_function0. rewrite build_call_eq. cbn [arg_chain bbind]. apply of_built_agrees.
    - intros v v1 t l v2 R IH H d. leaves_tac. go. specialize (IH L1 d). rewrite build_call_eq. use IH. cbn [DeckModel.action]. unfold act_function. rewrite F. apply of_built_agrees.
    - intros t e R IH H d. leaves_tac. go. specialize (IH H d). cbn [arg_chain]. use IH. cbn. eauto.
    - intros t l v t' e R IH R' IH' H d. leaves_tac. go. specialize (IH L d). specialize (IH' H d). rewrite arg_chain_snoc. use IH. use IH'. cbn [DeckModel.action].
      eexists. split; [reflexivity|]. rewrite chain_data_append, F. reflexivity.
    - intros t a R IH H d. leaves_tac. go. specialize (IH H d). change (build_factor A (vars d) reg (FAtom a)) with (build_atom A (vars d) reg a). use IH. cbn. eauto.
    - intros t a v t' s b R IH R' IH' H d. leaves_tac. go. specialize (IH L d). specialize (IH' H d). rewrite build_pow_eq. use IH.
      destruct (build_atom A (vars d) reg b) as [y|y]; cbn [bbind agrees] in *.
      + destruct IH' as [q Eq]. rewrite Eq. cbn [DeckModel.action]. rewrite agrees_binary, assign_binary_eq. cbn. eauto.
      + destruct IH' as [f [E1 E2]]. rewrite E1. eauto.
    - intros v t a R IH H d. leaves_tac. go. specialize (IH H d). use IH. cbn. eauto.
    - intros v t a R IH H d. leaves_tac. go. specialize (IH H d). use IH. cbn. eauto.
    - intros t a R IH H d. leaves_tac. go. specialize (IH H d). use IH. cbn. eauto.
    - intros t f R IH H d. leaves_tac. go. specialize (IH H d). rewrite build_term_eq. use IH. cbn. eauto.
    - intros t f v t' f' rest R IH R' IH' H d. leaves_tac. go. specialize (IH L d). specialize (IH' H d). rewrite build_term_eq. rewrite build_term_eq in IH'. cbn [factors]. use IH.
      destruct (build_factor A (vars d) reg f') as [y|y]; cbn [bbind agrees] in *; [|destruct IH' as [g [E1 E2]]; rewrite E1; eauto].
      destruct (factors A (vars d) reg rest) as [z|z]; cbn [bbind agrees] in *; [|destruct IH' as [g [E1 E2]]; rewrite E1; eauto].
      cbn [build_right]. destruct (build_right A y z) as [w|w]; cbn [bbind agrees] in *; [|destruct IH' as [g [E1 E2]]; rewrite E1; eauto].
      destruct IH' as [q Eq]. rewrite Eq. cbn [DeckModel.action]. rewrite agrees_binary. cbn [binop_mul]. rewrite assign_binary_eq. cbn. eauto.
    - intros t f v t' f' rest R IH R' IH' H d. leaves_tac. go. specialize (IH L d). specialize (IH' H d). rewrite build_term_eq. rewrite build_term_eq in IH'. cbn [factors]. use IH.
      destruct (build_factor A (vars d) reg f') as [y|y]; cbn [bbind agrees] in *; [|destruct IH' as [g [E1 E2]]; rewrite E1; eauto].
      destruct (factors A (vars d) reg rest) as [z|z]; cbn [bbind agrees] in *; [|destruct IH' as [g [E1 E2]]; rewrite E1; eauto].
      cbn [build_right]. destruct (build_right A y z) as [w|w]; cbn [bbind agrees] in *; [|destruct IH' as [g [E1 E2]]; rewrite E1; eauto].
      destruct IH' as [q Eq]. rewrite Eq. cbn [DeckModel.action]. rewrite agrees_binary. cbn [binop_mul]. rewrite assign_binary_eq. cbn. eauto.
    - intros t x R IH H d. leaves_tac. go. specialize (IH H d). use IH. cbn. eauto.
    - intros t x v t' y rest R IH R' IH' H d. leaves_tac. go. specialize (IH L d). specialize (IH' H d). cbn [terms]. use IH.
      destruct (build_term A (vars d) reg y) as [y'|y']; cbn [bbind agrees] in *; [|destruct IH' as [g [E1 E2]]; rewrite E1; eauto].
      destruct (terms A (vars d) reg rest) as [z|z]; cbn [bbind agrees] in *; [|destruct IH' as [g [E1 E2]]; rewrite E1; eauto].
      cbn [build_right]. destruct (build_right A y' z) as [w|w]; cbn [bbind agrees] in *; [|destruct IH' as [g [E1 E2]]; rewrite E1; eauto].
      destruct IH' as [q Eq]. rewrite Eq. cbn [DeckModel.action]. rewrite agrees_binary. cbn [binop_add]. rewrite assign_binary_eq. cbn. eauto.
    - intros t x v t' y rest R IH R' IH' H d. leaves_tac. go. specialize (IH L d). specialize (IH' H d). cbn [terms]. use IH.
      destruct (build_term A (vars d) reg y) as [y'|y']; cbn [bbind agrees] in *; [|destruct IH' as [g [E1 E2]]; rewrite E1; eauto].
      destruct (terms A (vars d) reg rest) as [z|z]; cbn [bbind agrees] in *; [|destruct IH' as [g [E1 E2]]; rewrite E1; eauto].
      cbn [build_right]. destruct (build_right A y' z) as [w|w]; cbn [bbind agrees] in *; [|destruct IH' as [g [E1 E2]]; rewrite E1; eauto].
      destruct IH' as [q Eq]. rewrite Eq. cbn [DeckModel.action]. rewrite agrees_binary. cbn [binop_add]. rewrite assign_binary_eq. cbn. eauto.
    - intros v t x R IH H d. leaves_tac. go. specialize (IH H d). use IH. cbn. eauto.
    - intros v t x R IH H d. leaves_tac. go. specialize (IH H d). use IH. cbn. eauto.
    - intros t x R IH H d. leaves_tac. go. specialize (IH H d). use IH. cbn. eauto.
    - intros t s x R IH H d. leaves_tac. go. specialize (IH H d). rewrite build_sum_eq.
      destruct (build_term A (vars d) reg x) as [y|y]; cbn [bbind agrees] in *; [|destruct IH as [g [E1 E2]]; rewrite E1; eauto].
      destruct IH as [p E1]. rewrite E1. cbn. eauto.
    - intros t s x v t' y rest R IH R' IH' H d. leaves_tac. go. specialize (IH L d). specialize (IH' H d). rewrite build_sum_eq. cbn [terms].
      destruct (build_term A (vars d) reg x) as [x'|x']; cbn [bbind agrees] in *; [|destruct IH as [g [E1 E2]]; rewrite E1; eauto].
      destruct IH as [p Ep]. rewrite Ep.
      destruct (build_term A (vars d) reg y) as [y'|y']; cbn [bbind agrees] in *; [|destruct IH' as [g [E1 E2]]; rewrite E1; eauto].
      destruct (terms A (vars d) reg rest) as [z|z]; cbn [bbind agrees] in *; [|destruct IH' as [g [E1 E2]]; rewrite E1; eauto].
      cbn [build_right]. destruct (build_right A y' z) as [w|w]; cbn [bbind agrees] in *; [|destruct IH' as [g [E1 E2]]; rewrite E1; eauto].
      destruct IH' as [q Eq]. rewrite Eq. cbn [DeckModel.action]. rewrite agrees_binary. cbn [binop_add]. rewrite assign_binary_eq. cbn. eauto.
    - intros t s x v t' y rest R IH R' IH' H d. leaves_tac. go. specialize (IH L d). specialize (IH' H d). rewrite build_sum_eq. cbn [terms].
      destruct (build_term A (vars d) reg x) as [x'|x']; cbn [bbind agrees] in *; [|destruct IH as [g [E1 E2]]; rewrite E1; eauto].
      destruct IH as [p Ep]. rewrite Ep.
      destruct (build_term A (vars d) reg y) as [y'|y']; cbn [bbind agrees] in *; [|destruct IH' as [g [E1 E2]]; rewrite E1; eauto].
      destruct (terms A (vars d) reg rest) as [z|z]; cbn [bbind agrees] in *; [|destruct IH' as [g [E1 E2]]; rewrite E1; eauto].
      cbn [build_right]. destruct (build_right A y' z) as [w|w]; cbn [bbind agrees] in *; [|destruct IH' as [g [E1 E2]]; rewrite E1; eauto].
      destruct IH' as [q Eq]. rewrite Eq. cbn [DeckModel.action]. rewrite agrees_binary. cbn [binop_add]. rewrite assign_binary_eq. cbn. eauto.
  Qed.

  (** ** Statements *)
  Notation expression := (expression A reg).
  Notation expressions := (expressions A reg).
  Notation content := (content A funs).
  Notation declare := (declare A funs).
  Notation declare_all := (declare_all A funs).
  Notation exec := (exec A reg funs restricted).
  Notation run := (run A reg funs restricted).

  (** The result of the actions of a statement. *)
  Definition follows (r : act_result A) (b : failure + deck) : Prop :=
    match b with
    | inr d' => exists v, r = inr (v, d')
    | inl f => exists f', r = inl f' /\ forget f' = f
    end.

  Lemma sum_agrees : forall t e d, r_sum t e -> leaves t ->
    match expression d e with
    | inr x => exists tok, perform t d = inr (PTok A tok Pexpression (Some x) None, d)
    | inl f => exists f', perform t d = inl f' /\ forget f' = f
    end.
  Proof.
    intros t e d R L. pose proof (proj2 (proj2 (proj2 (proj2 (proj2 (proj2 (proj2 expressions_agree)))))) t e R L d) as H.
    unfold DeckMeaning.expression. destruct (build_sum A (lookup A d) reg e); exact H.
  Qed.
  Lemma assign_agrees : forall t n e d, r_assign (text A) t n e -> leaves t ->
    match expression d e with
    | inr x => exists tok, perform t d = inr (PTok A tok Pstatement (Some x) None, d) /\ string_of_list_ascii (t_text tok) = n
    | inl f => exists f', perform t d = inl f' /\ forget f' = f
    end.
  Proof.
    intros t n e d R L. destruct R as [v v' t e R]. leaves_tac. go. pose proof (sum_agrees t e d R L) as IH. destruct (expression d e) as [f|x].
    - destruct IH as [f' [E1 E2]]. rewrite E1. eauto.
    - destruct IH as [p E1]. rewrite E1. cbn [DeckModel.action]. unfold act_assignment, check_atom. cbn [of_token p_type p_atom p_data]. rewrite C0, Z.eqb_refl.
      eexists. split; reflexivity.
  Qed.

  (** A chain of declarations, the last one first. *)
  Inductive holds : ptoken -> list (string * option (expr A)) -> Prop :=
  | holds_one a t e : (e <> None -> t = Pstatement) -> holds (PTok A a t e None) [(string_of_list_ascii (t_text a), e)]
  | holds_more a t e q l : (e <> None -> t = Pstatement) -> holds q l -> holds (PTok A a t e (Some q)) ((string_of_list_ascii (t_text a), e) :: l).

  Lemma expressions_app : forall d l l', expressions d (l ++ l') = bind (expressions d l) (fun r => bind (expressions d l') (fun r' => inr (r ++ r'))).
  Proof.
    intros d. induction l as [|[x [e|]] l IH]; intros l'.
    - cbn. destruct (expressions d l'); reflexivity.
    - cbn [app DeckMeaning.expressions]. rewrite IH. destruct (expression d e); [reflexivity|]. cbn [bind]. destruct (expressions d l); [reflexivity|]. cbn [bind]. destruct (expressions d l'); reflexivity.
    - cbn [app DeckMeaning.expressions]. rewrite IH. destruct (expressions d l); [reflexivity|]. cbn [bind]. destruct (expressions d l'); reflexivity.
  Qed.
  Lemma decl_agrees : forall t x d, r_decl (text A) t x -> leaves t ->
    match expressions d [x] with
    | inr l => exists a y e, perform t d = inr (PTok A a y e None, d) /\ (e <> None -> y = Pstatement) /\ l = [(string_of_list_ascii (t_text a), e)]
    | inl f => exists f', perform t d = inl f' /\ forget f' = f
    end.
  Proof.
    intros t x d R L. destruct R as [v|t n e R]; leaves_tac; go.
    - cbn [DeckMeaning.expressions bind]. exists a, Patom, None. cbn. repeat split. intros H. contradiction.
    - pose proof (assign_agrees t n e d R L) as H. cbn [DeckMeaning.expressions]. destruct (expression d e) as [f|y]; cbn [bind].
      + destruct H as [f' [E1 E2]]. rewrite E1. eauto.
      + destruct H as [tok [E1 E2]]. rewrite E1. exists tok, Pstatement, (Some y). cbn. subst n. auto.
  Qed.
  Lemma decls_agree : forall t l d, r_decls (text A) t l -> leaves t ->
    match expressions d l with
    | inr r => exists p, perform t d = inr (p, d) /\ holds p (rev r)
    | inl f => exists f', perform t d = inl f' /\ forget f' = f
    end.
  Proof.
    induction 1 as [t x R|t l v t' x R IH R']; intros L; leaves_tac; go.
    - pose proof (decl_agrees t x d R L) as H. destruct (expressions d [x]) as [f|r].
      + destruct H as [f' [E1 E2]]. rewrite E1. eauto.
      + destruct H as [a [y [e [E1 [E2 ->]]]]]. rewrite E1. cbn. eexists. split; [reflexivity|]. constructor. exact E2.
    - specialize (IH L0). pose proof (decl_agrees t' x d R' L) as H. rewrite expressions_app. destruct (expressions d l) as [f|r]; cbn [bind].
      + destruct IH as [f' [E1 E2]]. rewrite E1. eauto.
      + destruct IH as [p [E1 E2]]. rewrite E1. destruct (expressions d [x]) as [f|r']; cbn [bind].
        * destruct H as [f' [F1 F2]]. rewrite F1. eauto.
        * destruct H as [a' [y [e [F1 [F2 ->]]]]]. rewrite F1. cbn [DeckModel.action]. eexists. split; [reflexivity|]. rewrite rev_app_distr. cbn. constructor; assumption.
  Qed.

  Lemma type_code_inj : forall t t', (type_code t =? type_code t') = ty_eqb t t'.
  Proof. intros [] []; reflexivity. Qed.
  Lemma evaluate_content : forall d tok e,
    match content d e with
    | inr v => evaluate_new A funs d tok (Some e) = inr v /\ v_id v = d_nextid d
    | inl f => evaluate_new A funs d tok (Some e) = inl f /\ forget f = f
    end.
  Proof.
    intros d tok e. unfold DeckMeaning.content, evaluate_new. destruct (is_constant (store_of A funs d) e); [|split; reflexivity].
    destruct (eval (store_of A funs d) e); split; reflexivity.
  Qed.
  Lemma store_agrees : forall p l, holds p l -> forall a t d, t_code a = type_code t ->
    follows (store_variable A funs p (of_token A a) d) (declare_all t d l).
  Proof.
    assert (S1 : forall b y e, (e <> None -> y = Pstatement) -> forall c a t d, t_code a = type_code t ->
      match declare t d (string_of_list_ascii (t_text b), e) with
      | inr d' => store_variable A funs (PTok A b y e c) (of_token A a) d = match c with Some q => store_variable A funs q (of_token A a) d' | None => inr (no_token A, d') end
      | inl f => exists f', store_variable A funs (PTok A b y e c) (of_token A a) d = inl f' /\ forget f' = f
      end).
    { intros b y e Hy c a t d Ht. unfold DeckMeaning.declare. cbn [fst snd]. destruct e as [e|].
      2:{ exists (ParserErr EmptyExpression b). destruct c; split; reflexivity. }
      rewrite Hy by discriminate. pose proof (evaluate_content d b e) as H. destruct (content d e) as [f|v]; cbn [bind].
      - destruct H as [H1 H2]. exists f. split; [|exact H2]. destruct c; cbn [store_variable p_atom p_data]; rewrite H1; reflexivity.
      - destruct H as [H1 H2]. 
        assert (E : ensure_variable A (PTok A b Pstatement (Some e) c) (of_token A a) v (d_nextid d + 1) =
                    if ty_eqb t (v_type v) then inr v else inl (ParserErr WrongType a)).
        { unfold ensure_variable. cbn [of_token p_type p_atom]. rewrite Ht, type_code_inj. destruct t; reflexivity. }
        destruct c as [q|]; cbn [store_variable p_atom p_data]; rewrite H1, E; destruct (ty_eqb t (v_type v)).
        + unfold text. cbn [p_atom]. destruct (block_add _ _ _ _) as [bs|]; [rewrite H2; reflexivity|]. eexists. split; reflexivity.
        + eexists. split; reflexivity.
        + unfold text. cbn [p_atom]. destruct (block_add _ _ _ _) as [bs|]; [rewrite H2; reflexivity|]. eexists. split; reflexivity.
        + eexists. split; reflexivity. }
    induction 1 as [b y e Hy|b y e q l Hy H IH]; intros a t d Ht; specialize (S1 b y e Hy).
    - specialize (S1 None a t d Ht). cbn [DeckMeaning.declare_all]. destruct (declare t d _) as [f|d']; cbn [bind follows]; [exact S1|]. rewrite S1. eauto.
    - specialize (S1 (Some q) a t d Ht). cbn [DeckMeaning.declare_all]. destruct (declare t d _) as [f|d']; cbn [bind follows]; [exact S1|]. rewrite S1. apply IH. exact Ht.
  Qed.
  Lemma update_agrees : forall a e d, follows (update_variable A funs (PTok A a Pstatement (Some e) None) d) (assign A funs d (string_of_list_ascii (t_text a)) e).
  Proof.
    intros a e d. unfold update_variable, assign, text. cbn [p_atom p_data]. destruct (get_variable _ _ _) as [x|]; [|eexists; split; reflexivity].
    destruct (if v_fixed (var_at A d x) then _ else _) as [t|]; [|eexists; split; reflexivity].
    pose proof (evaluate_content d a (promote_assign t e)) as H. destruct (content d (promote_assign t e)) as [f|v]; cbn [bind].
    - destruct H as [H1 H2]. rewrite H1. eexists. split; [reflexivity|exact H2].
    - destruct H as [H1 H2]. rewrite H1. destruct (negb _); [eexists; split; reflexivity|]. destruct (v_ro (var_at A d x)); eexists; try split; reflexivity.
  Qed.
  Lemma block_agrees : forall a b d, t_code a = IDENTIFIER -> t_code b = IDENTIFIER ->
    follows (act_block A restricted (of_token A a) (of_token A b) d)
            (open_block A restricted d (text A (of_token A a)) (text A (of_token A b))).
  Proof.
    intros a b d Ha Hb. unfold act_block, check_atom, open_block, text. cbn [of_token p_type p_atom]. rewrite Ha, Hb, Z.eqb_refl.
    destruct (nth_error (d_blocks d) (d_cursor d)) as [cur|]; [|eexists; split; reflexivity].
    destruct restricted; [destruct (has_child _ _ _ _) as [[|]|]|]; try (eexists; split; reflexivity); destruct (create_block _ _ _ _); eexists; try split; reflexivity.
  Qed.
  Lemma end_agrees : forall a d, follows (act_end A (of_token A a) d) (close_block A d).
  Proof.
    intros a d. unfold act_end, close_block. destruct (nth_error (d_blocks d) (d_cursor d)) as [cur|]; [|eexists; split; reflexivity].
    destruct (b_parent cur) as [b|]; [|eexists; split; reflexivity]. destruct (tree_up _ _); eexists; try split; reflexivity.
  Qed.
  Lemma follows_bind : forall r (x : failure + deck), follows r x -> match x with inr d' => exists v, r = inr (v, d') | inl f => exists f', r = inl f' /\ forget f' = f end.
  Proof. intros r x H. exact H. Qed.
  Ltac one_step P := let H := fresh "P" in pose proof P as H; unfold follows in H |- *;
    match type of H with match ?b with _ => _ end => destruct b end; [destruct H as [? [H ?]]; rewrite H; eauto|destruct H as [? H]; rewrite H; first [solve [eauto] | eexists; reflexivity]].

  Lemma stmt_agrees : forall t s, r_stmt (text A) t s -> leaves t -> forall d, follows (perform t d) (exec s d).
  Proof.
    intros t s R L d. destruct R as [t y t' x rest v R R'|t n e v R| | | |]; leaves_tac; go.
    - pose proof (decls_agree t' (x :: rest) d R' L1) as H.
      assert (HT : exists c, perform t d = inr (of_token A c, d) /\ t_code c = type_code y).
      { destruct R; leaves_tac; rewrite perform_node; cbn; eexists; split; eauto. }
      destruct HT as [c [HT1 HT2]]. rewrite HT1. cbn [DeckMeaning.exec].
      destruct (expressions d (x :: rest)) as [f|r]; cbn [bind].
      + destruct H as [f' [E1 E2]]. rewrite E1. exists f'. auto.
      + destruct H as [p [E1 E2]]. rewrite E1. cbn [DeckModel.action]. apply store_agrees; assumption.
    - pose proof (assign_agrees t n e d R L0) as H. cbn [DeckMeaning.exec]. destruct (expression d e) as [f|r]; cbn [bind].
      + destruct H as [f' [E1 E2]]. rewrite E1. exists f'. auto.
      + destruct H as [tok [E1 <-]]. rewrite E1. cbn [DeckModel.action]. apply update_agrees.
    - cbn. eauto.
    - cbn [DeckModel.action DeckMeaning.exec]. one_step (block_agrees a1 a0 d C1 C0).
    - cbn [DeckModel.action DeckMeaning.exec]. one_step (block_agrees a0 a0 d C0 C0).
    - cbn [DeckModel.action DeckMeaning.exec]. apply end_agrees.
  Qed.
  Lemma run_app : forall p q d, run (p ++ q) d = bind (run p d) (run q).
  Proof. induction p as [|s p IH]; intros q d; [reflexivity|]. cbn [app DeckMeaning.run]. destruct (exec s d); [reflexivity|]. cbn [bind]. apply IH. Qed.
  Lemma run_one : forall s d, run [s] d = exec s d.
  Proof. intros s d. cbn. destruct (exec s d); reflexivity. Qed.
  Lemma stmts_agree : forall t p, r_stmts (text A) t p -> leaves t -> forall d, follows (perform t d) (run p d).
  Proof.
    induction 1 as [t s R|t l t' s R IH R']; intros L d; leaves_tac; go.
    - rewrite run_one. one_step (stmt_agrees t s R L d).
    - rewrite run_app. specialize (IH L0 d). unfold follows in IH |- *. destruct (run l d) as [f|d']; cbn [bind].
      + destruct IH as [f' [E1 E2]]. rewrite E1. eauto.
      + destruct IH as [v E1]. rewrite E1. rewrite run_one. one_step (stmt_agrees t' s R' L d').
  Qed.
  Lemma deck_agrees : forall t p, r_deck (text A) t p -> leaves t -> forall d, follows (perform t d) (run p d).
  Proof. intros t p [t' p' R] L d. leaves_tac. go. one_step (stmts_agree t' p' R L d). Qed.

  (** ** Tokens *)
  Lemma tokens_lexed : forall toks, Forall lexed (tokens A toks).
  Proof. induction toks as [|a toks IH]; constructor; [|exact IH]. exists a. split; reflexivity. Qed.
  Lemma tokens_words : forall toks ws, Forall2 (is_w (text A)) (tokens A toks) ws <-> spells toks ws.
  Proof.
    unfold spells. induction toks as [|a toks IH]; intros ws; split; intros H; inversion H; subst; cbn; constructor; try (apply IH; assumption); assumption.
  Qed.
  Lemma word_codes : forall s, Forall (fun w : word => 0 < fst w < 22 /\ fst w <> PATHIDENTIFIER) (spell s).
  Proof.
    assert (HS : forall {X} w (f : X -> list word) l, 0 < fst w < 22 /\ fst w <> PATHIDENTIFIER -> Forall (fun x => Forall (fun w : word => 0 < fst w < 22 /\ fst w <> PATHIDENTIFIER) (f x)) l ->
      Forall (fun w : word => 0 < fst w < 22 /\ fst w <> PATHIDENTIFIER) (separated w f l)).
    { intros X w f l Hw. induction 1 as [|x l Hx Hl IH]; [constructor|]. cbn. apply Forall_app. split; [exact Hx|]. destruct l; [constructor|]. constructor; assumption. }
    assert (HM : forall c v, 0 < c < 22 /\ c <> PATHIDENTIFIER -> (fun w : word => 0 < fst w < 22 /\ fst w <> PATHIDENTIFIER) (c, v)) by (intros; assumption).
    assert (HF : forall {X} (f : X -> list word) l, Forall (fun x => Forall (fun w : word => 0 < fst w < 22 /\ fst w <> PATHIDENTIFIER) (f x)) l ->
      Forall (fun w : word => 0 < fst w < 22 /\ fst w <> PATHIDENTIFIER) (flat_map f l)).
    { intros X f l. induction 1; cbn; [constructor|]. apply Forall_app. split; assumption. }
    Ltac ok_tac := repeat first [apply Forall_cons; [cbn; split; [split; reflexivity|discriminate]|] | apply Forall_nil | apply Forall_app; split | assumption].
    assert (HG : forall sg, Forall (fun w : word => 0 < fst w < 22 /\ fst w <> PATHIDENTIFIER) (spell_sign sg)) by (intros [[|]|]; cbn [spell_sign]; ok_tac).
    assert (HE : (forall a, Forall (fun w : word => 0 < fst w < 22 /\ fst w <> PATHIDENTIFIER) (spell_atom a)) /\
                 (forall f, Forall (fun w : word => 0 < fst w < 22 /\ fst w <> PATHIDENTIFIER) (spell_factor f)) /\
                 (forall t, Forall (fun w : word => 0 < fst w < 22 /\ fst w <> PATHIDENTIFIER) (spell_term t)) /\
                 (forall s, Forall (fun w : word => 0 < fst w < 22 /\ fst w <> PATHIDENTIFIER) (spell_sum s))).
    { apply syntax_ind; intros; cbn [spell_atom spell_factor spell_term spell_sum]; unfold ident, mark; ok_tac.
      - apply HS; [cbn; split; [split; reflexivity|discriminate]|assumption].
      - apply HG.
      - apply HF. eapply Forall_impl; [|exact H0]. intros [[|] x] Hx; cbn [fst snd]; ok_tac.
      - apply HG.
      - apply HF. eapply Forall_impl; [|exact H0]. intros [[|] x] Hx; cbn [fst snd]; ok_tac. }
    destruct HE as [_ [_ [_ HE]]].
    intros [y x rest|n e|f|c [n|]|]; unfold spell, ident, mark.
    - apply Forall_cons; [destruct y; split; [split; reflexivity|discriminate|split; reflexivity|discriminate|split; reflexivity|discriminate]|]. apply Forall_app. split.
      + apply HS; [cbn; split; [split; reflexivity|discriminate]|]. apply Forall_forall. intros [n [e|]] _; unfold spell_decl, ident, mark; cbn [fst snd]; ok_tac. apply HE.
      + ok_tac.
    - ok_tac. apply HE.
    - ok_tac.
    - ok_tac.
    - ok_tac.
    - ok_tac.
  Qed.
  Lemma written_codes : forall toks p, written toks p -> plain (tokens A toks).
  Proof.
    intros toks p H. unfold written, spells in H. assert (HW : Forall (fun w : word => 0 < fst w < 22 /\ fst w <> PATHIDENTIFIER) (flat_map spell p)).
    { induction p as [|s p IH] in |- *; cbn; [constructor|]. apply Forall_app. split; [apply word_codes|exact IH]. }
    revert HW. generalize (flat_map spell p) H. clear. induction toks as [|a toks IH]; intros ws H HW; [constructor|].
    inversion H as [|? w ? ws' [H1 H2] H3]; subst. inversion HW as [|? ? HW1 HW2]; subst. constructor; [|apply (IH ws'); assumption].
    unfold is_token. cbn [fst]. rewrite H1. exact HW1.
  Qed.

  (** ** Whole decks *)
  Definition deck_result (toks : list token) (d : deck) (r : ended A) : Prop :=
    exists n, forall fuel, (n <= fuel)%nat -> parse_deck A reg funs restricted fuel toks d = r.
  Lemma deck_result_unique : forall toks d r r', deck_result toks d r -> deck_result toks d r' -> r = r'.
  Proof. intros toks d r r' [n H] [m K]. rewrite <- (H (n + m)%nat), <- (K (n + m)%nat) by lia. reflexivity. Qed.

  Definition outcome (p : list statement) (d : deck) (r : ended A) : Prop :=
    match run p (start A d) with
    | inr d' => r = finish A funs d'
    | inl UndefinedBehaviour => r = Crashed A
    | inl f => exists f', r = Rejected A f' /\ forget f' = f
    end.
  Lemma written_run : forall toks p d, p <> [] -> written toks p -> shallow 99 (tokens A toks) ->
    exists r, deck_result toks d r /\ outcome p d r.
  Proof.
    intros toks p d Hn Hw Hs. pose proof (written_codes toks p Hw) as Hp. apply tokens_words in Hw. destruct (spelled_deck (text A) p Hn _ Hw) as [t [R Y]].
    assert (HD := r_deck_derives _ _ _ R). assert (HT : token_list (yield t)).
    { rewrite Y. eapply Forall_impl; [|exact Hp]. intros x [H _]. exact H. }
    assert (HL : leaves t) by (rewrite Y; apply tokens_lexed).
    pose proof (deck_agrees t p R HL (start A d)) as HF.
    pose proof (sentence_performed (no_token A) action t (start A d) HD HT (shallow_pending t HD HT ltac:(rewrite Y; exact Hs))) as [n HR].
    unfold outcome. unfold follows in HF. destruct (run p (start A d)) as [f|d'].
    - destruct HF as [f' [E1 E2]]. rewrite E1 in HR. exists (match f' with UndefinedBehaviour => Crashed A | _ => Rejected A f' end). split.
      + exists n. intros fuel Hf. unfold parse_deck. rewrite <- Y, HR by exact Hf. destruct f'; reflexivity.
      + destruct f'; cbn in E2; subst f; cbn; first [reflexivity | eexists; split; reflexivity].
    - destruct HF as [v E1]. rewrite E1 in HR. eexists. split; [|reflexivity]. exists n. intros fuel Hf. unfold parse_deck. rewrite <- Y, HR by exact Hf. reflexivity.
  Qed.
  (** If the statements were all executed, the tokens are those statements. *)
  Lemma finished_run : forall toks d r, plain (tokens A toks) -> shallow 99 (tokens A toks) -> deck_result toks d r ->
    (exists d', r = Accepted A d') \/ r = DuplicateId A \/ (r = AssertFailed A) ->
    exists p d', p <> [] /\ written toks p /\ run p (start A d) = inr d' /\ r = finish A funs d'.
  Proof.
    intros toks d r Hp Hs [n HR] Hr.
    assert (HT : token_list (tokens A toks)) by (eapply Forall_impl; [|exact Hp]; intros x [H _]; exact H).
    destruct (always_ends (no_token A) action (tokens A toks) (start A d) HT) as [q [K [N1 [N2 N3]]]].
    assert (Hq : exists d', q = Finished d' /\ r = finish A funs d').
    { destruct K as [m K]. specialize (HR (n + m)%nat ltac:(lia)). specialize (K (n + m)%nat ltac:(lia)). unfold parse_deck in HR. rewrite K in HR.
      destruct q as [d'|f|x| | | |].
      1: eauto.
      all: exfalso; try contradiction; subst r; destruct Hr as [[d' Hr]|[Hr|Hr]]; try discriminate; destruct f; discriminate. }
    destruct Hq as [d' [-> Hfin]]. destruct (accepted_sentence (no_token A) action (tokens A toks) (start A d) d' HT Hs K) as [t [v [D1 [Y1 [P1 _]]]]].
    assert (HPl : plain (yield t)) by (rewrite Y1; exact Hp).
    pose proof (reads_all (text A)) as HA. 
    assert (HX : exists p, r_deck (text A) t p) by (apply (proj1 HA (N Deck) t D1 HPl)).
    destruct HX as [p R]. exists p, d'.
    assert (HL : leaves t) by (rewrite Y1; apply tokens_lexed).
    pose proof (deck_agrees t p R HL (start A d)) as HF. rewrite P1 in HF. unfold follows in HF.
    split.
    { destruct R as [t' p' R]. destruct R; [discriminate|]. intros HE. symmetry in HE. revert HE. apply app_cons_not_nil. }
    split. { unfold written. apply tokens_words. rewrite <- Y1. apply r_deck_words. exact R. }
    split; [|exact Hfin]. destruct (run p (start A d)) as [f|d'']; [destruct HF as [f' [E1 _]]; discriminate|]. destruct HF as [v' E1]. inversion E1. reflexivity.
  Qed.
End Run.
