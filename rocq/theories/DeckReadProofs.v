(** Derivation trees of the deck grammar and the statements they spell. *)
From Coq Require Import ZArith List Bool String Ascii Lia.
From Verif Require Import ScanModel ParseSpec ParseProofs ExprModel ExprSyntax ExprProofs DeckSyntax.
Import ListNotations.
Local Open Scope Z_scope.

Section R.
  Context {V : Type}.
  Variable txt : V -> string.
  Notation tree := (tree V).

  (** ** Trees of expressions *)
  Inductive r_atom : tree -> atom -> Prop :=
  | ra_int v : r_atom (Node 37 [Node 42 [Leaf INTEGER v]]) (AInt (txt v))
  | ra_float v : r_atom (Node 37 [Node 43 [Leaf FLOAT v]]) (AFloat (txt v))
  | ra_str v : r_atom (Node 37 [Node 44 [Leaf STRING v]]) (AStr (txt v))
  | ra_id v : r_atom (Node 37 [Node 41 [Leaf IDENTIFIER v]]) (AId (txt v))
  | ra_par v t e v' : r_sum t e -> r_atom (Node 34 [Leaf LBRACKET v; t; Leaf RBRACKET v']) (APar e)
  | ra_call0 v v1 v2 : r_atom (Node 36 [Leaf IDENTIFIER v; Leaf LBRACKET v1; Leaf RBRACKET v2]) (ACall (txt v) [])
  | ra_call v v1 t l v2 : r_args t l -> r_atom (Node 35 [Leaf IDENTIFIER v; Leaf LBRACKET v1; t; Leaf RBRACKET v2]) (ACall (txt v) l)
  with r_args : tree -> list sum -> Prop :=
  | rl_one t e : r_sum t e -> r_args (Node 39 [t]) [e]
  | rl_more t l v t' e : r_args t l -> r_sum t' e -> r_args (Node 38 [t; Leaf COMMA v; t']) (l ++ [e])
  with r_factor : tree -> factor -> Prop :=
  | rf_atom t a : r_atom t a -> r_factor (Node 30 [t]) (FAtom a)
  | rf_pow t a v t' s b : r_atom t a -> r_signed t' s b -> r_factor (Node 29 [t; Leaf EXPONENT v; t']) (FPow a s b)
  with r_signed : tree -> option bool -> atom -> Prop :=
  | rg_plus v t a : r_atom t a -> r_signed (Node 31 [Leaf PLUS v; t]) (Some true) a
  | rg_minus v t a : r_atom t a -> r_signed (Node 32 [Leaf MINUS v; t]) (Some false) a
  | rg_none t a : r_atom t a -> r_signed (Node 33 [t]) None a
  with r_term : tree -> term -> Prop :=
  | rt_one t f : r_factor t f -> r_term (Node 28 [t]) (Term f [])
  | rt_mul t f v t' f' rest : r_factor t f -> r_term t' (Term f' rest) -> r_term (Node 26 [t; Leaf TIMES v; t']) (Term f ((true, f') :: rest))
  | rt_div t f v t' f' rest : r_factor t f -> r_term t' (Term f' rest) -> r_term (Node 27 [t; Leaf DIVIDE v; t']) (Term f ((false, f') :: rest))
  with r_uns : tree -> term -> list (bool * term) -> Prop :=
  | ru_one t x : r_term t x -> r_uns (Node 22 [t]) x []
  | ru_plus t x v t' y rest : r_term t x -> r_uns t' y rest -> r_uns (Node 20 [t; Leaf PLUS v; t']) x ((true, y) :: rest)
  | ru_minus t x v t' y rest : r_term t x -> r_uns t' y rest -> r_uns (Node 21 [t; Leaf MINUS v; t']) x ((false, y) :: rest)
  with r_sterm : tree -> option bool -> term -> Prop :=
  | rm_plus v t x : r_term t x -> r_sterm (Node 23 [Leaf PLUS v; t]) (Some true) x
  | rm_minus v t x : r_term t x -> r_sterm (Node 24 [Leaf MINUS v; t]) (Some false) x
  | rm_none t x : r_term t x -> r_sterm (Node 25 [t]) None x
  with r_sum : tree -> sum -> Prop :=
  | rs_one t s x : r_sterm t s x -> r_sum (Node 19 [t]) (Sum s x [])
  | rs_plus t s x v t' y rest : r_sterm t s x -> r_uns t' y rest -> r_sum (Node 17 [t; Leaf PLUS v; t']) (Sum s x ((true, y) :: rest))
  | rs_minus t s x v t' y rest : r_sterm t s x -> r_uns t' y rest -> r_sum (Node 18 [t; Leaf MINUS v; t']) (Sum s x ((false, y) :: rest)).

  (** ** Trees of statements *)
  Inductive r_assign : tree -> string -> sum -> Prop :=
  | rassign v v' t e : r_sum t e -> r_assign (Node 16 [Leaf IDENTIFIER v; Leaf EQUAL v'; t]) (txt v) e.
  Inductive r_decl : tree -> decl -> Prop :=
  | rd_none v : r_decl (Node 13 [Leaf IDENTIFIER v]) (txt v, None)
  | rd_value t n e : r_assign t n e -> r_decl (Node 14 [t]) (n, Some e).
  Inductive r_decls : tree -> list decl -> Prop :=
  | rds_one t x : r_decl t x -> r_decls (Node 12 [t]) [x]
  | rds_more t l v t' x : r_decls t l -> r_decl t' x -> r_decls (Node 11 [t; Leaf COMMA v; t']) (l ++ [x]).
  Inductive r_type : tree -> ty -> Prop :=
  | rty_int v : r_type (Node 45 [Leaf INT_DECL v]) TInt
  | rty_float v : r_type (Node 46 [Leaf FLOAT_DECL v]) TFloat
  | rty_string v : r_type (Node 47 [Leaf STRING_DECL v]) TString.
  Inductive r_stmt : tree -> statement -> Prop :=
  | rst_decl t ty t' x rest v : r_type t ty -> r_decls t' (x :: rest) -> r_stmt (Node 3 [t; t'; Leaf SEMICOLON v]) (SDecl ty x rest)
  | rst_assign t n e v : r_assign t n e -> r_stmt (Node 4 [t; Leaf SEMICOLON v]) (SAssign n e)
  | rst_include v v1 v2 : r_stmt (Node 5 [Leaf INCLUDE v; Leaf STRING v1; Leaf SEMICOLON v2]) (SInclude (txt v1))
  | rst_open v v1 v2 : r_stmt (Node 6 [Node 9 [Leaf IDENTIFIER v; Leaf IDENTIFIER v1; Leaf LBRACE v2]]) (SOpen (txt v) (Some (txt v1)))
  | rst_open1 v v1 : r_stmt (Node 6 [Node 10 [Leaf IDENTIFIER v; Leaf LBRACE v1]]) (SOpen (txt v) None)
  | rst_close v : r_stmt (Node 7 [Leaf RBRACE v]) SClose.
  Inductive r_stmts : tree -> list statement -> Prop :=
  | rsl_one t s : r_stmt t s -> r_stmts (Node 2 [t]) [s]
  | rsl_more t l t' s : r_stmts t l -> r_stmt t' s -> r_stmts (Node 1 [t; t']) (l ++ [s]).
  Inductive r_deck : tree -> list statement -> Prop :=
  | rdeck t l : r_stmts t l -> r_deck (Node 0 [t]) l.

  (** ** Every derivation spells a statement *)
  Definition plain (l : list (Z * V)) : Prop := Forall (fun x => is_token x /\ fst x <> PATHIDENTIFIER) l.
  Definition reads (n : nonterm) (t : tree) : Prop :=
    match n with
    | Deck => exists p, r_deck t p
    | StatementList => exists p, r_stmts t p
    | Statement => exists s, r_stmt t s
    | TypeDecl => exists y, r_type t y
    | DeclList => exists l, l <> [] /\ r_decls t l
    | Assignment => exists n e, r_assign t n e
    | StartBlock => exists s, r_stmt (Node 6 [t]) s
    | Declaration => exists x, r_decl t x
    | Expression => exists s, r_sum t s
    | SignedTerm => exists s x, r_sterm t s x
    | UnsignedExpression => exists x rest, r_uns t x rest
    | TermExpression => exists x, r_term t x
    | ExpExpression => exists f, r_factor t f
    | AtomicExpression => exists a, r_atom t a
    | SignedAtomic => exists s a, r_signed t s a
    | ExpressionList => exists l, r_args t l
    | Value => exists a, r_atom (Node 37 [t]) a
    end.
  Definition reads_sym (X : sym) (t : tree) : Prop :=
    match X with T c => exists v, t = Leaf c v | N n => reads n t end.

  Ltac kids := repeat match goal with
    | H : Forall2 _ [] _ |- _ => inversion H; subst; clear H
    | H : Forall2 _ (_ :: _) _ |- _ => inversion H; subst; clear H
    | H : reads_sym (T _) _ |- _ => let v := fresh "v" in destruct H as [v ->]
    | H : reads_sym (N _) _ |- _ => cbn [reads_sym reads] in H
    | H : exists _, _ |- _ => destruct H
    | H : _ /\ _ |- _ => destruct H
    end.
  Ltac each_rule n r Hg := lazymatch n with
    | O => destruct r; discriminate Hg
    | S ?m => destruct r as [|r]; [cbn in Hg; try discriminate Hg; injection Hg as <- <-|each_rule m r Hg]
    end.

  Ltac read_it := match goal with
    | |- exists l, l <> [] /\ _ => eexists; split; [|econstructor; eassumption]; intros HH; try (symmetry in HH; revert HH; apply app_cons_not_nil); try discriminate
    | |- exists _ _, _ => eexists; eexists; econstructor; eassumption
    | |- exists _, _ => eexists; econstructor; eassumption
    | |- exists _ _, _ => eexists; eexists; econstructor
    | |- exists _, _ => eexists; econstructor
    end.
  Lemma term_shape : forall t x, r_term t x -> exists f rest, x = Term f rest.
  Proof. intros t [f rest] _. exists f, rest. reflexivity. Qed.
  Lemma reads_all :
    (forall X t, derives X t -> plain (yield t) -> reads_sym X t) /\
    (forall Xs ts, derives_all Xs ts -> plain (flat_map yield ts) -> Forall2 reads_sym Xs ts).
  Proof.
    apply derives_mutind.
    - intros c v _. exists v. reflexivity.
    - intros r A rhs kids Hg Hd IH Hp. cbn [yield] in Hp. specialize (IH Hp). cbn [reads_sym].
      each_rule 48%nat r Hg; cbn [reads] in *; kids;
        try (match goal with H : plain _ |- _ => exfalso; inversion H as [|? ? [[? ?] ?]]; subst; cbn in *; unfold ERROR in *; first [congruence|lia] end).
      all: try solve [read_it].
      + match goal with H1 : ?l <> [], H2 : r_decls _ ?l |- _ => destruct l as [|x' rest']; [contradiction|]; eexists; econstructor; eassumption end.
      + eexists. eassumption.
      + match goal with H : r_term _ ?x |- _ => destruct x end. read_it.
      + match goal with H : r_term _ ?x |- _ => destruct x end. read_it.
      + eexists. eassumption.
    - constructor.
    - intros X rhs t kids _ IH1 _ IH2 Hp. cbn [flat_map] in Hp. apply Forall_app in Hp. destruct Hp as [P1 P2]. constructor; [apply IH1; exact P1|apply IH2; exact P2].
  Qed.

  (** ** The trees are derivations and spell what they read *)
  Scheme r_atom_m := Minimality for r_atom Sort Prop
    with r_args_m := Minimality for r_args Sort Prop
    with r_factor_m := Minimality for r_factor Sort Prop
    with r_signed_m := Minimality for r_signed Sort Prop
    with r_term_m := Minimality for r_term Sort Prop
    with r_uns_m := Minimality for r_uns Sort Prop
    with r_sterm_m := Minimality for r_sterm Sort Prop
    with r_sum_m := Minimality for r_sum Sort Prop.
  Combined Scheme r_mutind from r_atom_m, r_args_m, r_factor_m, r_signed_m, r_term_m, r_uns_m, r_sterm_m, r_sum_m.

  Ltac derive := repeat (first [assumption | apply derives_token | eapply derives_rule; [reflexivity|] | apply derives_none | apply derives_some]).
  Lemma r_derives :
    (forall t a, r_atom t a -> derives (N AtomicExpression) t) /\ (forall t l, r_args t l -> derives (N ExpressionList) t) /\
    (forall t f, r_factor t f -> derives (N ExpExpression) t) /\ (forall t s a, r_signed t s a -> derives (N SignedAtomic) t) /\
    (forall t x, r_term t x -> derives (N TermExpression) t) /\ (forall t x l, r_uns t x l -> derives (N UnsignedExpression) t) /\
    (forall t s x, r_sterm t s x -> derives (N SignedTerm) t) /\ (forall t s, r_sum t s -> derives (N Expression) t).
  Proof. apply r_mutind; intros; derive. Qed.
  Lemma r_sum_derives : forall t s, r_sum t s -> derives (N Expression) t. Proof. apply r_derives. Qed.
  Lemma r_assign_derives : forall t n e, r_assign t n e -> derives (N Assignment) t.
  Proof. intros t n e []. match goal with H : r_sum _ _ |- _ => apply r_sum_derives in H end. derive. Qed.
  Lemma r_decl_derives : forall t x, r_decl t x -> derives (N Declaration) t.
  Proof. intros t x []; try (match goal with H : r_assign _ _ _ |- _ => apply r_assign_derives in H end); derive. Qed.
  Lemma r_decls_derives : forall t l, r_decls t l -> derives (N DeclList) t.
  Proof. induction 1; try (match goal with H : r_decl _ _ |- _ => apply r_decl_derives in H end); derive. Qed.
  Lemma r_type_derives : forall t y, r_type t y -> derives (N TypeDecl) t.
  Proof. intros t y []; derive. Qed.
  Lemma r_stmt_derives : forall t s, r_stmt t s -> derives (N Statement) t.
  Proof.
    intros t s []; try (match goal with H : r_type _ _ |- _ => apply r_type_derives in H end);
      try (match goal with H : r_decls _ _ |- _ => apply r_decls_derives in H end);
      try (match goal with H : r_assign _ _ _ |- _ => apply r_assign_derives in H end).
    1, 2, 3, 6: derive.
    - eapply derives_rule; [reflexivity|]. apply derives_some; [|apply derives_none]. apply (derives_rule 9 StartBlock [T IDENTIFIER; T IDENTIFIER; T LBRACE]); [reflexivity|]. derive.
    - eapply derives_rule; [reflexivity|]. apply derives_some; [|apply derives_none]. apply (derives_rule 10 StartBlock [T IDENTIFIER; T LBRACE]); [reflexivity|]. derive.
  Qed.
  Lemma r_stmts_derives : forall t l, r_stmts t l -> derives (N StatementList) t.
  Proof. induction 1; try (match goal with H : r_stmt _ _ |- _ => apply r_stmt_derives in H end); derive. Qed.
  Lemma r_deck_derives : forall t l, r_deck t l -> derives (N Deck) t.
  Proof. intros t l []. match goal with H : r_stmts _ _ |- _ => apply r_stmts_derives in H end. derive. Qed.

  Definition is_w (x : Z * V) (w : word) : Prop :=
    fst x = fst w /\ match snd w with Some s => txt (snd x) = s | None => True end.
  Notation words := (Forall2 is_w).
  Lemma separated_snoc : forall {X} w (f : X -> list word) l x, l <> [] -> separated w f (l ++ [x]) = separated w f l ++ w :: f x.
  Proof.
    intros X w f. induction l as [|y l IH]; intros x H; [contradiction|]. destruct l as [|z l].
    - cbn. rewrite !app_nil_r. reflexivity.
    - cbn [app]. specialize (IH x). cbn [app] in IH. 
      change (separated w f (y :: z :: l ++ [x])) with (f y ++ w :: separated w f (z :: l ++ [x])).
      change (separated w f (y :: z :: l)) with (f y ++ w :: separated w f (z :: l)).
      rewrite IH by discriminate. rewrite <- app_assoc. reflexivity.
  Qed.
  Lemma r_args_nonempty : forall t l, r_args t l -> l <> [].
  Proof. intros t l []; [discriminate|]. intros HE. symmetry in HE. revert HE. apply app_cons_not_nil. Qed.
  Lemma r_decls_nonempty : forall t l, r_decls t l -> l <> [].
  Proof. intros t l []; [discriminate|]. intros HE. symmetry in HE. revert HE. apply app_cons_not_nil. Qed.

  Ltac spell := cbn; rewrite ?app_nil_r; repeat (first [assumption | split; [reflexivity|exact I] | split; [reflexivity|reflexivity]
                                                       | apply Forall2_cons | apply Forall2_app | apply Forall2_nil]).
  Lemma r_words :
    (forall t a, r_atom t a -> words (yield t) (spell_atom a)) /\ (forall t l, r_args t l -> words (yield t) (separated (mark COMMA) spell_sum l)) /\
    (forall t f, r_factor t f -> words (yield t) (spell_factor f)) /\
    (forall t s a, r_signed t s a -> words (yield t) (spell_sign s ++ spell_atom a)) /\
    (forall t x, r_term t x -> words (yield t) (spell_term x)) /\
    (forall t x l, r_uns t x l -> words (yield t) (spell_term x ++ flat_map (fun x : bool * term => mark (if fst x then PLUS else MINUS) :: spell_term (snd x)) l)) /\
    (forall t s x, r_sterm t s x -> words (yield t) (spell_sign s ++ spell_term x)) /\ (forall t s, r_sum t s -> words (yield t) (spell_sum s)).
  Proof.
    apply r_mutind; intros; try solve [spell].
    - rewrite separated_snoc by (eapply r_args_nonempty; eassumption). spell.
    - cbn in *. rewrite app_nil_r, app_assoc. apply Forall2_app; [assumption|]. spell.
    - cbn in *. rewrite app_nil_r, app_assoc. apply Forall2_app; [assumption|]. spell.
  Qed.
  Lemma r_assign_words : forall t n e, r_assign t n e -> words (yield t) (ident n :: mark EQUAL :: spell_sum e).
  Proof. intros t n e []. match goal with H : r_sum _ _ |- _ => apply (proj2 (proj2 (proj2 (proj2 (proj2 (proj2 (proj2 r_words))))))) in H end. spell. Qed.
  Lemma r_decl_words : forall t x, r_decl t x -> words (yield t) (spell_decl x).
  Proof. intros t x [v|t' n e H]; [spell|]. apply r_assign_words in H. cbn. rewrite app_nil_r. exact H. Qed.
  Lemma r_decls_words : forall t l, r_decls t l -> words (yield t) (separated (mark COMMA) spell_decl l).
  Proof.
    induction 1; match goal with H : r_decl _ _ |- _ => apply r_decl_words in H end.
    - cbn [yield flat_map separated]. rewrite !app_nil_r. assumption.
    - rewrite separated_snoc by (eapply r_decls_nonempty; eassumption). cbn [yield flat_map]. rewrite app_nil_r. apply Forall2_app; [assumption|].
      apply Forall2_cons; [split; [reflexivity|exact I]|assumption].
  Qed.
  Lemma r_type_words : forall t y, r_type t y -> words (yield t) [spell_type y].
  Proof. intros t y []; spell. Qed.
  Lemma r_stmt_words : forall t s, r_stmt t s -> words (yield t) (spell s).
  Proof.
    intros t s [t1 y t2 x rest v H1 H2|t1 n e v H| | | |]; try solve [spell].
    - apply r_type_words in H1. apply r_decls_words in H2. cbn [yield flat_map]. unfold spell.
      change (spell_type y :: separated (mark COMMA) spell_decl (x :: rest) ++ [mark SEMICOLON])
        with ([spell_type y] ++ separated (mark COMMA) spell_decl (x :: rest) ++ [mark SEMICOLON]).
      apply Forall2_app; [assumption|]. apply Forall2_app; [assumption|]. spell.
    - apply r_assign_words in H. cbn [yield flat_map spell app]. change (ident n :: mark EQUAL :: spell_sum e ++ [mark SEMICOLON]) with ((ident n :: mark EQUAL :: spell_sum e) ++ [mark SEMICOLON]).
      apply Forall2_app; [assumption|]. spell.
  Qed.
  Lemma r_stmts_words : forall t p, r_stmts t p -> words (yield t) (flat_map spell p).
  Proof.
    induction 1; match goal with H : r_stmt _ _ |- _ => apply r_stmt_words in H end; cbn [yield flat_map]; rewrite ?flat_map_app; cbn [flat_map]; rewrite ?app_nil_r; auto using Forall2_app.
  Qed.
  Lemma r_deck_words : forall t p, r_deck t p -> words (yield t) (flat_map spell p).
  Proof. intros t p []. cbn [yield flat_map]. rewrite app_nil_r. apply r_stmts_words. assumption. Qed.

  (** ** Whatever is spelled has a tree *)
  Lemma words_cons : forall l w ws, words l (w :: ws) -> exists x l', l = x :: l' /\ is_w x w /\ words l' ws.
  Proof. intros l w ws H. inversion H; subst. eauto. Qed.
  Lemma words_mark : forall l c ws, words l (mark c :: ws) -> exists v l', l = (c, v) :: l' /\ words l' ws.
  Proof. intros l c ws H. apply words_cons in H. destruct H as [[c' v] [l' [-> [[E _] H]]]]. cbn in E. subst. eauto. Qed.
  Lemma words_text : forall l c s ws, words l ((c, Some s) :: ws) -> exists v l', l = (c, v) :: l' /\ txt v = s /\ words l' ws.
  Proof. intros l c s ws H. apply words_cons in H. destruct H as [[c' v] [l' [-> [[E E'] H]]]]. cbn in E, E'. subst. eauto. Qed.
  Lemma words_app : forall l w1 w2, words l (w1 ++ w2) -> exists l1 l2, l = l1 ++ l2 /\ words l1 w1 /\ words l2 w2.
  Proof. intros l w1 w2 H. apply Forall2_app_inv_r in H. destruct H as [l1 [l2 [H1 [H2 ->]]]]. eauto. Qed.
  Lemma words_nil : forall l, words l [] -> l = []. Proof. intros l H. inversion H. reflexivity. Qed.

  Ltac parts := repeat match goal with
    | H : words _ (mark _ :: _) |- _ => apply words_mark in H; let v := fresh "v" in let l := fresh "l" in destruct H as [v [l [-> H]]]
    | H : words _ ((_, Some _) :: _) |- _ => apply words_text in H; let v := fresh "v" in let l := fresh "l" in destruct H as [v [l [-> [<- H]]]]
    | H : words _ (ident _ :: _) |- _ => unfold ident at 1 in H
    | H : words _ (_ ++ _) |- _ => let K := fresh "K" in let l1 := fresh "l" in let l2 := fresh "l" in apply words_app in H; destruct H as [l1 [l2 [-> [K H]]]]
    | H : words ?l [] |- _ => apply words_nil in H; subst l
    end.

  Definition has (P : tree -> Prop) (l : list (Z * V)) : Prop := exists t, P t /\ yield t = l.
  Lemma terms_tree : forall rest t0, (forall l, words l (spell_term t0) -> has (fun t => r_term t t0) l) ->
    Forall (fun x : bool * term => forall l, words l (spell_term (snd x)) -> has (fun t => r_term t (snd x)) l) rest ->
    forall l, words l (spell_term t0 ++ flat_map (fun x : bool * term => mark (if fst x then PLUS else MINUS) :: spell_term (snd x)) rest) ->
    has (fun t => r_uns t t0 rest) l.
  Proof.
    induction rest as [|[p y] rest IH]; intros t0 H0 HR l H.
    - cbn [flat_map] in H. rewrite app_nil_r in H. destruct (H0 l H) as [t [R Y]]. exists (Node 22 [t]). split; [constructor; exact R|]. cbn. rewrite app_nil_r. exact Y.
    - cbn [flat_map fst snd] in H. apply words_app in H. destruct H as [l1 [l2 [-> [K1 K2]]]]. destruct (H0 _ K1) as [t [R Y]].
      inversion HR as [|? ? HR1 HR2]; subst. cbn [app] in K2. apply words_mark in K2. destruct K2 as [v [l3 [-> K2]]].
      destruct (IH y HR1 HR2 _ K2) as [t' [R' Y']]. destruct p.
      + exists (Node 20 [t; Leaf PLUS v; t']). split; [constructor; assumption|]. cbn. rewrite app_nil_r, Y'. reflexivity.
      + exists (Node 21 [t; Leaf MINUS v; t']). split; [constructor; assumption|]. cbn. rewrite app_nil_r, Y'. reflexivity.
  Qed.
  Lemma factors_tree : forall rest f0, (forall l, words l (spell_factor f0) -> has (fun t => r_factor t f0) l) ->
    Forall (fun x : bool * factor => forall l, words l (spell_factor (snd x)) -> has (fun t => r_factor t (snd x)) l) rest ->
    forall l, words l (spell_factor f0 ++ flat_map (fun x : bool * factor => mark (if fst x then TIMES else DIVIDE) :: spell_factor (snd x)) rest) ->
    has (fun t => r_term t (Term f0 rest)) l.
  Proof.
    induction rest as [|[p y] rest IH]; intros t0 H0 HR l H.
    - cbn [flat_map] in H. rewrite app_nil_r in H. destruct (H0 l H) as [t [R Y]]. exists (Node 28 [t]). split; [constructor; exact R|]. cbn. rewrite app_nil_r. exact Y.
    - cbn [flat_map fst snd] in H. apply words_app in H. destruct H as [l1 [l2 [-> [K1 K2]]]]. destruct (H0 _ K1) as [t [R Y]].
      inversion HR as [|? ? HR1 HR2]; subst. cbn [app] in K2. apply words_mark in K2. destruct K2 as [v [l3 [-> K2]]].
      destruct (IH y HR1 HR2 _ K2) as [t' [R' Y']]. destruct p.
      + exists (Node 26 [t; Leaf TIMES v; t']). split; [constructor; assumption|]. cbn. rewrite app_nil_r, Y'. reflexivity.
      + exists (Node 27 [t; Leaf DIVIDE v; t']). split; [constructor; assumption|]. cbn. rewrite app_nil_r, Y'. reflexivity.
  Qed.
  Lemma args_tree : forall args, args <> [] -> Forall (fun s => forall l, words l (spell_sum s) -> has (fun t => r_sum t s) l) args ->
    forall l, words l (separated (mark COMMA) spell_sum args) -> has (fun t => r_args t args) l.
  Proof.
    induction args as [|e args IH] using rev_ind; intros Hn HF l H; [contradiction|]. apply Forall_app in HF. destruct HF as [F1 F2]. inversion F2 as [|? ? F3 _]; subst.
    destruct args as [|a args].
    - cbn in H. rewrite app_nil_r in H. destruct (F3 _ H) as [t [R Y]]. exists (Node 39 [t]). split; [constructor; exact R|]. cbn. rewrite app_nil_r. exact Y.
    - rewrite separated_snoc in H by discriminate. apply words_app in H. destruct H as [l1 [l2 [-> [K1 K2]]]]. apply words_mark in K2. destruct K2 as [v [l3 [-> K2]]].
      destruct (IH (not_eq_sym (@nil_cons _ _ _)) F1 _ K1) as [t [R Y]]. destruct (F3 _ K2) as [t' [R' Y']].
      exists (Node 38 [t; Leaf COMMA v; t']). split; [constructor; assumption|]. cbn. rewrite app_nil_r, Y, Y'. reflexivity.
  Qed.
  Lemma spelled_tree :
    (forall a l, words l (spell_atom a) -> has (fun t => r_atom t a) l) /\ (forall f l, words l (spell_factor f) -> has (fun t => r_factor t f) l) /\
    (forall x l, words l (spell_term x) -> has (fun t => r_term t x) l) /\ (forall s l, words l (spell_sum s) -> has (fun t => r_sum t s) l).
  Proof.
    apply syntax_ind.
    - intros s l H. cbn in H. parts. exists (Node 37 [Node 42 [Leaf INTEGER v]]). split; [constructor|reflexivity].
    - intros s l H. cbn in H. parts. exists (Node 37 [Node 43 [Leaf FLOAT v]]). split; [constructor|reflexivity].
    - intros s l H. cbn in H. parts. exists (Node 37 [Node 44 [Leaf STRING v]]). split; [constructor|reflexivity].
    - intros s l H. cbn in H. parts. exists (Node 37 [Node 41 [Leaf IDENTIFIER v]]). split; [constructor|reflexivity].
    - intros e IH l H. cbn [spell_atom] in H. parts. destruct (IH _ K) as [t [R Y]]. exists (Node 34 [Leaf LBRACKET v; t; Leaf RBRACKET v0]). split; [constructor; exact R|].
      cbn. rewrite Y. reflexivity.
    - intros f args IH l H. cbn [spell_atom] in H. parts. destruct args as [|a args].
      + apply words_nil in K. subst. exists (Node 36 [Leaf IDENTIFIER v; Leaf LBRACKET v0; Leaf RBRACKET v1]). split; [constructor|reflexivity].
      + destruct (args_tree _ (not_eq_sym (@nil_cons _ _ _)) IH _ K) as [t [R Y]]. exists (Node 35 [Leaf IDENTIFIER v; Leaf LBRACKET v0; t; Leaf RBRACKET v1]). split; [constructor; exact R|].
        cbn. rewrite Y. reflexivity.
    - intros a IH l H. destruct (IH _ H) as [t [R Y]]. exists (Node 30 [t]). split; [constructor; exact R|]. cbn. rewrite app_nil_r. exact Y.
    - intros a s b IHa IHb l H. cbn [spell_factor] in H. parts. destruct (IHa _ K) as [t [R Y]]. destruct (IHb _ H) as [t' [R' Y']].
      destruct s as [[|]|]; cbn [spell_sign] in K0; parts.
      + exists (Node 29 [t; Leaf EXPONENT v; Node 31 [Leaf PLUS v0; t']]). split; [constructor; [exact R|constructor; exact R']|]. cbn. rewrite Y, Y', !app_nil_r. reflexivity.
      + exists (Node 29 [t; Leaf EXPONENT v; Node 32 [Leaf MINUS v0; t']]). split; [constructor; [exact R|constructor; exact R']|]. cbn. rewrite Y, Y', !app_nil_r. reflexivity.
      + exists (Node 29 [t; Leaf EXPONENT v; Node 33 [t']]). split; [constructor; [exact R|constructor; exact R']|]. cbn. rewrite Y, Y', !app_nil_r. reflexivity.
    - intros f rest IHf IHr l H. cbn [spell_term] in H. apply factors_tree; assumption.
    - intros sg t0 rest IHt IHr l H. cbn [spell_sum] in H. apply words_app in H. destruct H as [l0 [l1 [-> [K0 K1]]]].
      assert (S1 : forall l', words l' (spell_term t0) -> has (fun t => r_sterm t sg t0) (l0 ++ l')).
      { intros l' K. destruct (IHt _ K) as [t [R Y]]. destruct sg as [[|]|]; cbn [spell_sign] in K0; parts.
        - exists (Node 23 [Leaf PLUS v; t]). split; [constructor; exact R|]. cbn. rewrite Y, app_nil_r. reflexivity.
        - exists (Node 24 [Leaf MINUS v; t]). split; [constructor; exact R|]. cbn. rewrite Y, app_nil_r. reflexivity.
        - exists (Node 25 [t]). split; [constructor; exact R|]. cbn. rewrite Y, app_nil_r. reflexivity. }
      apply words_app in K1. destruct K1 as [l2 [l3 [-> [K1 K2]]]]. destruct (S1 _ K1) as [t [R Y]]. destruct rest as [|[p y] rest].
      + cbn in K2. apply words_nil in K2. subst. exists (Node 19 [t]). split; [constructor; exact R|]. cbn. rewrite Y, !app_nil_r. reflexivity.
      + inversion IHr as [|? ? HR1 HR2]; subst. cbn [flat_map fst snd app] in K2. apply words_mark in K2. destruct K2 as [v [l4 [-> K2]]].
        destruct (terms_tree rest y HR1 HR2 _ K2) as [t' [R' Y']]. destruct p.
        * exists (Node 17 [t; Leaf PLUS v; t']). split; [constructor; assumption|]. cbn. rewrite Y, Y', app_nil_r, <- !app_assoc. reflexivity.
        * exists (Node 18 [t; Leaf MINUS v; t']). split; [constructor; assumption|]. cbn. rewrite Y, Y', app_nil_r, <- !app_assoc. reflexivity.
  Qed.
  Lemma spelled_sum : forall s l, words l (spell_sum s) -> has (fun t => r_sum t s) l. Proof. apply spelled_tree. Qed.
  Lemma spelled_decl : forall x l, words l (spell_decl x) -> has (fun t => r_decl t x) l.
  Proof.
    intros [n [e|]] l H; unfold spell_decl in H; cbn [fst snd] in H; parts.
    - destruct (spelled_sum _ _ H) as [t [R Y]]. exists (Node 14 [Node 16 [Leaf IDENTIFIER v; Leaf EQUAL v0; t]]). split; [repeat constructor; exact R|]. cbn. rewrite Y, !app_nil_r. reflexivity.
    - exists (Node 13 [Leaf IDENTIFIER v]). split; [constructor|reflexivity].
  Qed.
  Lemma spelled_decls : forall ds, ds <> [] -> forall l, words l (separated (mark COMMA) spell_decl ds) -> has (fun t => r_decls t ds) l.
  Proof.
    induction ds as [|e ds IH] using rev_ind; intros Hn l H; [contradiction|].
    destruct ds as [|a ds].
    - cbn [app separated] in H. rewrite app_nil_r in H. destruct (spelled_decl _ _ H) as [t [R Y]]. exists (Node 12 [t]). split; [constructor; exact R|]. cbn. rewrite app_nil_r. exact Y.
    - rewrite separated_snoc in H by discriminate. apply words_app in H. destruct H as [l1 [l2 [-> [K1 K2]]]]. apply words_mark in K2. destruct K2 as [v [l3 [-> K2]]].
      destruct (IH (not_eq_sym (@nil_cons _ _ _)) _ K1) as [t [R Y]]. destruct (spelled_decl _ _ K2) as [t' [R' Y']].
      exists (Node 11 [t; Leaf COMMA v; t']). split; [constructor; assumption|]. cbn. rewrite app_nil_r, Y, Y'. reflexivity.
  Qed.
  Lemma spelled_stmt : forall s l, words l (spell s) -> has (fun t => r_stmt t s) l.
  Proof.
    intros [y x rest|n e|f|c [n|]|] l H; unfold spell in H.
    - apply words_mark in H. destruct H as [v [l1 [-> H]]]. apply words_app in H. destruct H as [l2 [l3 [-> [K H]]]].
      destruct (spelled_decls (x :: rest) (not_eq_sym (@nil_cons _ _ _)) _ K) as [t [R Y]]. parts.
      destruct y; [exists (Node 3 [Node 45 [Leaf INT_DECL v]; t; Leaf SEMICOLON v0])|exists (Node 3 [Node 46 [Leaf FLOAT_DECL v]; t; Leaf SEMICOLON v0])|exists (Node 3 [Node 47 [Leaf STRING_DECL v]; t; Leaf SEMICOLON v0])];
        (split; [constructor; [constructor|exact R]|cbn; rewrite Y; reflexivity]).
    - parts. destruct (spelled_sum _ _ K) as [t [R Y]]. exists (Node 4 [Node 16 [Leaf IDENTIFIER v; Leaf EQUAL v0; t]; Leaf SEMICOLON v1]).
      split; [repeat constructor; exact R|]. cbn. rewrite Y, app_nil_r. reflexivity.
    - parts. eexists. split; [constructor|reflexivity].
    - parts. eexists. split; [constructor|reflexivity].
    - parts. eexists. split; [constructor|reflexivity].
    - parts. eexists. split; [constructor|reflexivity].
  Qed.
  Lemma spelled_stmts : forall p, p <> [] -> forall l, words l (flat_map spell p) -> has (fun t => r_stmts t p) l.
  Proof.
    induction p as [|s p IH] using rev_ind; intros Hn l H; [contradiction|]. rewrite flat_map_app in H. cbn [flat_map] in H. rewrite app_nil_r in H.
    apply words_app in H. destruct H as [l1 [l2 [-> [K1 K2]]]]. destruct (spelled_stmt _ _ K2) as [t' [R' Y']]. destruct p as [|a p].
    - apply words_nil in K1. subst. exists (Node 2 [t']). split; [constructor; exact R'|]. cbn. rewrite app_nil_r. reflexivity.
    - destruct (IH (not_eq_sym (@nil_cons _ _ _)) _ K1) as [t [R Y]]. exists (Node 1 [t; t']). split; [constructor; assumption|]. cbn. rewrite Y, Y', app_nil_r. reflexivity.
  Qed.
  Lemma spelled_deck : forall p, p <> [] -> forall l, words l (flat_map spell p) -> has (fun t => r_deck t p) l.
  Proof. intros p Hn l H. destruct (spelled_stmts p Hn l H) as [t [R Y]]. exists (Node 0 [t]). split; [constructor; exact R|]. cbn. rewrite app_nil_r. exact Y. Qed.
End R.
