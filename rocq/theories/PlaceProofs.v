(** The tokens at which the actions report errors. *)
From Coq Require Import ZArith List Bool String Ascii Lia.
From Verif Require Import ScanModel ScanSpec ParseModel ParseSpec ParseTableProofs ParseProofs ParseSoundProofs ParseRunProofs ParseWhereProofs ExprModel ExprSyntax ExprBuildModel DepModel
  DeckModel DeckSyntax DeckMeaning DeckSpec DeckReadProofs DeckRunProofs DeckStageProofs PlaceSpec.
Import ListNotations.
Local Open Scope Z_scope.

Section Place.
  Variable A : arith.
  Variable reg : string -> option fsig.
  Variable funs : fsig -> list (value A) -> result (value A).
  Variable restricted : bool.
  Notation deck := (deck A).
  Notation ptoken := (ptoken A).
  Notation action := (action A reg funs restricted).
  Notation perform := (perform action).
  Notation tree := (tree ptoken).
  Notation run := (run A reg funs restricted).
  Notation lexed := (lexed A).

  (** The tokens a value of the parser may report. *)
  Fixpoint atoms (p : ptoken) : list token :=
    match p with PTok _ a _ _ c => a :: match c with Some q => atoms q | None => [] end end.
  Definition code_ok (X : sym) (c : Z) : Prop :=
    match X with
    | T c' => c = c'
    | N (Declaration | DeclList | Assignment) => c = IDENTIFIER
    | N TypeDecl => In c [INT_DECL; FLOAT_DECL; STRING_DECL]
    | _ => True
    end.
  Definition valued (X : sym) : bool := match X with N (Deck | StatementList | Statement | StartBlock) => false | _ => true end.
  Definition good (X : sym) (l : list (Z * ptoken)) (v : ptoken) : Prop :=
    forall a, In a (atoms v) -> In (t_code a, of_token A a) l /\ code_ok X (t_code a).
  Inductive all_good : list sym -> list tree -> list ptoken -> Prop :=
  | ag_nil : all_good [] [] []
  | ag_cons X Xs k kids v vs : (valued X = true -> good X (yield k) v) -> all_good Xs kids vs -> all_good (X :: Xs) (k :: kids) (v :: vs).

  Lemma of_built_good : forall p t d b v d', of_built A p t d b = inr (v, d') -> atoms v = [p_atom A p].
  Proof. intros p t d [e|[]] v d' H; cbn in H; try discriminate; injection H as <- <-; reflexivity. Qed.
  Lemma atom_in : forall p : ptoken, In (p_atom A p) (atoms p).
  Proof. intros []; left; reflexivity. Qed.

  Ltac kids H := repeat match type of H with all_good (_ :: _) _ _ =>
      let G := fresh "G" in let H' := fresh "K" in inversion H as [|? ? ? ? ? ? G H']; subst; clear H; rename H' into H; cbn [valued] in G; specialize (G eq_refl) end;
    inversion H; subst; clear H.
  Lemma good_sub : forall X Y l l' v v', good X l v -> incl l l' -> incl (atoms v') (atoms v) -> (forall c, code_ok X c -> code_ok Y c) -> good Y l' v'.
  Proof. intros X Y l l' v v' H Hl Ha Hc a Hin. destruct (H a (Ha _ Hin)) as [H1 H2]. split; auto. Qed.
  Lemma single_sub : forall (p : ptoken) v, atoms v = [p_atom A p] -> incl (atoms v) (atoms p).
  Proof. intros p v E a Hin. rewrite E in Hin. destruct Hin as [<-|[]]. apply atom_in. Qed.
  Lemma good_append : forall X Y Z l l1 l2 p q, good X l1 p -> good Y l2 q -> incl l1 l -> incl l2 l -> (forall c, code_ok X c -> code_ok Z c) -> (forall c, code_ok Y c -> code_ok Z c) ->
    good Z l (append A p q).
  Proof.
    intros X Y Z l l1 l2 p q Hp Hq H1 H2 C1 C2 a Hin. destruct p as [x t e c]. cbn in Hin. destruct Hin as [<-|Hin].
    - destruct (Hp x (or_introl eq_refl)). split; auto.
    - destruct (Hq a Hin). split; auto.
  Qed.
  Ltac inc := cbn [flat_map]; intros z Hz; repeat (apply in_or_app; first [left; exact Hz|right]); try exact Hz; fail.
  Ltac cc := let c := fresh "c" in let H := fresh "H" in cbn [code_ok]; intros c H; cbn; first [exact I|exact H|tauto|subst c; cbn; tauto].
  Ltac fin := match goal with
    | G : good _ _ ?p |- good _ _ ?v => apply (good_sub _ _ _ _ p v G); [inc|first [apply incl_refl|apply single_sub; first [reflexivity|eassumption]|intros ? ?; assumption]|cc]
    end.

  Lemma value_good : forall r B rhs kids vs d v d', nth_error grammar r = Some (B, rhs) -> valued (N B) = true -> token_list (flat_map yield kids) -> derives_all rhs kids ->
    all_good rhs kids vs -> action r vs d = inr (v, d') -> good (N B) (flat_map yield kids) v.
  Proof.
    intros r B rhs kids vs d v d' Hg Hv Ht Hd Ha H.
    do 48 (try (destruct r as [|r]; [cbn in Hg; injection Hg as <- <-; try discriminate Hv; kids Ha; cbn [DeckModel.action] in H;
      unfold act_assignment, act_binary, act_unary, act_function, act_function0, act_list, act_identifier, act_integer, act_float, act_string, check_atom, fail in H;
      repeat match type of H with context [match ?x with _ => _ end] => destruct x; cbn in H; try discriminate H end;
      try (apply of_built_good in H); try (injection H as <- <-); try fin; try (eapply good_append; [eassumption|eassumption|inc|inc|cc|cc]; fail)|])).
    all: try solve [match goal with r : nat |- _ => destruct r; discriminate Hg end].
    - exfalso. inversion Hd as [|? ? ? ? D0 _]; subst. inversion D0; subst. inversion Ht as [|? ? F _]; subst. cbn in F. unfold is_token in F. cbn in F. lia.
    - apply (good_sub _ _ _ _ v0 _ G); [inc| |cc]. destruct v0; intros ? ?; assumption.
  Qed.

  Lemma perform_good : (forall X (t : tree), derives X t -> token_list (yield t) -> Forall lexed (yield t) -> valued X = true -> forall d v d', perform t d = inr (v, d') -> good X (yield t) v) /\
    (forall Xs (kids : list tree), derives_all Xs kids -> token_list (flat_map yield kids) -> Forall lexed (flat_map yield kids) -> forall d vs d', perform_list action kids d = inr (vs, d') -> all_good Xs kids vs).
  Proof.
    apply (derives_mutind ptoken (fun X t _ => token_list (yield t) -> Forall lexed (yield t) -> valued X = true -> forall d v d', perform t d = inr (v, d') -> good X (yield t) v)
      (fun Xs kids _ => token_list (flat_map yield kids) -> Forall lexed (flat_map yield kids) -> forall d vs d', perform_list action kids d = inr (vs, d') -> all_good Xs kids vs)).
    - intros c v _ HL _ d v' d' H. cbn in H. injection H as <- <-. inversion HL as [|? ? L _]; subst. destruct L as [a [Ea Ec]]. cbn in Ea, Ec. subst v.
      intros b [<-|[]]. cbn. split; [left; rewrite Ec; reflexivity|exact Ec].
    - intros r B rhs kids Hg Hd IH Ht HL Hv d v d' H. rewrite perform_node in H. destruct (perform_list action kids d) as [x|[vs d1]] eqn:E; [discriminate|].
      eapply value_good; try eassumption. eapply IH; eassumption.
    - intros _ _ d vs d' H. cbn in H. injection H as <- <-. constructor.
    - intros X rhs t kids _ IH1 _ IH2 Ht HL d vs d' E. cbn [perform_list] in E. cbn [flat_map] in Ht, HL. apply Forall_app in Ht. apply Forall_app in HL.
      destruct Ht as [T1 T2]. destruct HL as [L1 L2].
      destruct (perform t d) as [x|[v d1]] eqn:E1; [discriminate|]. destruct (perform_list action kids d1) as [x|[ws d2]] eqn:E2; [discriminate|].
      injection E as <- <-. constructor; [intros Hv; eapply IH1; eassumption|eapply IH2; eassumption].
  Qed.

  Definition found (l : list (Z * ptoken)) (k : reason) (a : token) : Prop := In (t_code a, of_token A a) l /\ blamed k a.
  Lemma of_built_fails : forall p t d b k a, of_built A p t d b = inl (ParserErr k a) -> a = p_atom A p /\ k = UnknownVariable /\ exists x, b = Failed x /\ x = UndefinedVariable.
  Proof. intros p t d [e|[]] k a H; cbn in H; try discriminate; injection H as <- <-; eauto 6. Qed.
  Lemma evaluate_fails : forall d tok e k a, evaluate_new A funs d tok e = inl (ParserErr k a) -> a = tok /\ k = EmptyExpression.
  Proof.
    intros d tok [e|] k a H; cbn in H; [|injection H as <- <-; auto].
    destruct (is_constant (store_of A funs d) e); [|discriminate H]. destruct (eval (store_of A funs d) e); discriminate H.
  Qed.
  Lemma store_fails : forall p decl d k a l l1 l2, good (N DeclList) l1 p -> good (N TypeDecl) l2 decl -> incl l1 l -> incl l2 l ->
    store_variable A funs p decl d = inl (ParserErr k a) -> found l k a.
  Proof.
    fix IH 1. intros [x t e c] decl d k a l l1 l2 Gp Gd H1 H2 H.
    destruct (Gp x (or_introl eq_refl)) as [P1 P2]. destruct (Gd _ (atom_in decl)) as [D1 D2]. cbn in P2. cbn [code_ok] in D2.
    cbn [store_variable p_data p_atom] in H. destruct (evaluate_new A funs d x e) as [f|v] eqn:Ev.
    { injection H as ->. apply evaluate_fails in Ev. destruct Ev as [-> ->]. split; [apply H1, P1|exact P2]. }
    destruct (ensure_variable A (PTok A x t e c) decl v (d_nextid d + 1)) as [f|w] eqn:En.
    { injection H as ->. unfold ensure_variable in En. cbn [p_type p_atom] in En.
      repeat match type of En with context [match ?x with _ => _ end] => destruct x; try discriminate En end;
        injection En as <- <-; split; try (cbn [blamed]; first [exact I|exact D2]); first [apply H1, P1|apply H2, D1]. }
    destruct (block_add (d_blocks d) (d_cursor d) (text A (PTok A x t e c)) (Datatypes.length (d_vars d))) as [bs|].
    2: { injection H as <- <-. split; [apply H1, P1|exact P2]. }
    destruct c as [q|]; [|discriminate H]. refine (IH q decl _ k a l l1 l2 _ Gd H1 H2 H). intros b Hb. apply Gp. right. exact Hb.
  Qed.
  Ltac inc' := cbn [flat_map]; let z := fresh "z" in let Hz := fresh "Hz" in intros z Hz; repeat (apply in_or_app; first [left; exact Hz|right]); try exact Hz; fail.
  Ltac lookups l := repeat match l with
    | _ => match goal with G : good _ _ ?p |- _ =>
        let I1 := fresh "I" in let C1 := fresh "C" in destruct (G _ (atom_in p)) as [I1 C1]; cbn [code_ok] in C1; clear G end end.
  Ltac inn := cbn [flat_map]; first [assumption|apply in_or_app; left; assumption|apply in_or_app; right; inn].
  Ltac at_first := unfold update_variable, act_end, act_block, act_assignment, act_binary, act_unary, act_function, act_function0, act_list, act_identifier, act_integer, act_float, act_string, check_atom, fail in *; lookups tt.
  Ltac at_built := repeat match goal with
    | H : context [match ?x with _ => _ end] |- _ => match type of H with _ = inl (ParserErr _ _) => let E := fresh "E" in destruct x eqn:E; try discriminate H end end.
  Ltac at_fail := match goal with
    | H : inl (ParserErr _ _) = inl (ParserErr ?k ?a) |- _ => injection H as <- <-; split; [inn|cbn [blamed]; first [exact I|assumption]]
    | H : inl _ = inl _, E : evaluate_new _ _ _ _ _ = inl _ |- _ => injection H as ->; apply evaluate_fails in E; destruct E as [-> ->]; split; [inn|cbn [blamed]; assumption]
    | H : of_built _ _ _ _ _ = inl (ParserErr ?k ?a) |- _ => apply of_built_fails in H; destruct H as [-> [-> [y [Eb ->]]]]; try discriminate Eb; split; [inn|cbn [blamed]; assumption]
    end.
  Lemma error_found : forall r B rhs kids vs d k a, nth_error grammar r = Some (B, rhs) -> token_list (flat_map yield kids) -> derives_all rhs kids ->
    (2 < r)%nat -> r <> 6%nat -> all_good rhs kids vs -> action r vs d = inl (ParserErr k a) -> found (flat_map yield kids) k a.
  Proof.
    intros r B rhs kids vs d k a Hg Ht Hd H2 H6 Ha H.
    do 48 (try (destruct r as [|r]; [try lia; clear H2 H6; cbn in Hg; injection Hg as <- <-; kids Ha; cbn [DeckModel.action] in H; try discriminate H|])).
    all: try solve [match goal with r : nat |- _ => destruct r; discriminate Hg end].
    all: try solve [eapply store_fails; [eassumption|eassumption|inc'|inc'|exact H]].
    all: try solve [at_first; at_built; at_fail].
    - unfold act_function in H. destruct (chain_data A v1) as [l|]; [|discriminate H]. apply of_built_fails in H. destruct H as [_ [_ [y [Eb ->]]]].
      unfold assign_function, get_expression in Eb. repeat match type of Eb with context [match ?x with _ => _ end] => destruct x; try discriminate Eb end.
    - at_first. at_built; try at_fail. apply Z.eqb_eq in E0. rewrite C in E0. discriminate E0.
    - at_first. at_built; try at_fail. apply of_built_fails in H. destruct H as [_ [_ [y [Eb ->]]]]. unfold assign_integer in Eb. repeat match type of Eb with context [match ?x with _ => _ end] => destruct x; try discriminate Eb end.
    - at_first. at_built; try at_fail. apply of_built_fails in H. destruct H as [_ [_ [y [Eb ->]]]]. unfold assign_float in Eb. repeat match type of Eb with context [match ?x with _ => _ end] => destruct x; try discriminate Eb end.
  Qed.

  (** The rules of lists of statements report nothing. *)
  Lemma outer_silent : forall r B rhs vs d k a, nth_error grammar r = Some (B, rhs) -> List.length vs = List.length rhs -> action r vs d = inl (ParserErr k a) -> (2 < r)%nat /\ r <> 6%nat.
  Proof.
    intros r B rhs vs d k a Hg Hl H.
    do 7 (destruct r as [|r]; [cbn in Hg; injection Hg as <- <-; destruct vs as [|v1 [|v2 [|v3 [|v4 vs]]]]; try discriminate Hl; cbn in H; try discriminate H; lia|]). lia.
  Qed.

  Lemma tokens_in : forall toks a, In (t_code a, of_token A a) (tokens A toks) -> In a toks.
  Proof. intros toks a H. unfold tokens in H. apply in_map_iff in H. destruct H as [b [E H]]. injection E as _ <-. exact H. Qed.

  (** The statement of an error. *)
  Theorem error_place : forall toks d k a, plain (tokens A toks) -> parses_to A reg funs restricted toks d (Rejected A (ParserErr k a)) ->
    exists lost before st after p, toks = (lost ++ before ++ st ++ after)%list /\ one_statement st /\ In a st /\ blamed k a /\ written before p /\
      (lost = [] /\ (exists d', run p (start A d) = inr d') \/ (100 <= List.length lost)%nat /\ ~ shallow 99 (tokens A toks)).
  Proof.
    intros toks d k a Hp [n HR]. specialize (HR n (le_n n)). unfold parse_deck in HR.
    assert (E : parse (no_token A) action YYSTACKDEPTH n (tokens A toks) (start A d) = ActionError (ParserErr k a)).
    { destruct (parse (no_token A) action YYSTACKDEPTH n (tokens A toks) (start A d)) as [d'|f| | | | |] eqn:E; try discriminate HR.
      - exfalso. unfold finish in HR. destruct (dep_map _ _ _ _ _) as [m0|]; [|discriminate HR]. destruct (update_all _ _ _ _) as [[? []]|]; discriminate HR.
      - destruct f; try discriminate HR; injection HR as -> ->; reflexivity. }
    assert (HT : token_list (tokens A toks)) by (eapply Forall_impl; [|exact Hp]; intros x [H _]; exact H).
    unfold parse in E. change YYSTACKDEPTH with 100%nat in E.
    assert (H0 : empty_or_built (no_token A) action 100 new_parser (start A d) (start A d) []) by (left; auto).
    destruct (tokens_thrown (no_token A) action 100 ltac:(lia) (tokens A toks) n _ (start A d) (start A d) [] (ParserErr k a) HT H0 E)
      as [front [mid [q [s1 [El [Th Hf]]]]]]. cbn [app] in El.
    apply thrown_place in Th; [|intros; eapply outer_silent; eassumption].
    destruct Th as [p [m [kids [r [B [rhs [vs [sb [s2 [Em [Hp0 [Hn [He [Hg [Hd [Hy [Hpl Ha]]]]]]]]]]]]]]]]].
    subst mid. rewrite <- !app_assoc in El. destruct (app_tokens A _ _ _ El) as [lost [t1 [-> [E1 El1]]]]. destruct (app_tokens A _ _ _ El1) as [before [t2 [-> [E2 El2]]]].
    rewrite app_assoc in El2. destruct (app_tokens A _ _ _ El2) as [st [after [-> [E3 E4]]]].
    assert (HL : forall l, Forall lexed (tokens A l)) by (apply tokens_lexed).
    assert (HL3 : Forall lexed (m ++ flat_map yield kids)) by (rewrite <- E3; apply HL). apply Forall_app in HL3. destruct HL3 as [_ HLk].
    destruct (outer_silent _ _ _ _ _ _ _ Hg ltac:(rewrite (perform_list_length _ _ _ _ _ Hpl); symmetry; apply derives_all_length; exact Hd) Ha) as [R2 R6].
    destruct (error_found r B rhs kids vs s2 k a Hg Hy Hd R2 R6 (proj2 perform_good rhs kids Hd Hy HLk _ _ _ Hpl) Ha) as [F1 F2].
    assert (HW : exists p0, written before p0 /\ exists d', run p0 s1 = inr d').
    { destruct Hp0 as [->|[t [v [s [D1 [Y1 P1]]]]]].
      - exists []. split; [|eexists; reflexivity]. destruct before; [constructor|discriminate E2].
      - subst p. assert (HPl : plain (yield t)) by (rewrite <- E2; unfold tokens in Hp; rewrite !map_app in Hp; apply Forall_app in Hp; destruct Hp as [_ Hp]; apply Forall_app in Hp; exact (proj1 Hp)).
        destruct (proj1 (reads_all (text A)) (N StatementList) t D1 HPl) as [p0 R]. exists p0.
        split. { unfold written. apply (tokens_words A). rewrite E2. apply r_stmts_words. exact R. }
        pose proof (stmts_agree A reg funs restricted t p0 R ltac:(rewrite <- E2; apply HL) s1) as F. rewrite P1 in F. unfold follows in F.
        destruct (run p0 s1) as [f|d1]; [destruct F as [f' [F _]]; discriminate|]. eauto. }
    destruct HW as [p0 [W1 W2]]. exists lost, before, st, after, p0.
    split; [reflexivity|]. split.
    { intros u t v Est Hc. apply (f_equal (tokens A)) in Est. rewrite E3 in Est. unfold tokens in Est at 1. rewrite map_app in Est. cbn [map] in Est.
      specialize (He _ _ _ Est Hc). destruct v; [reflexivity|discriminate He]. }
    split. { apply tokens_in. rewrite E3. apply in_or_app. right. exact F1. }
    split; [exact F2|]. split; [exact W1|].
    destruct Hf as [[-> ->]|[Hf1 Hf2]].
    - left. split; [destruct lost; [reflexivity|discriminate E1]|exact W2].
    - right. split; [|exact Hf2]. rewrite <- E1 in Hf1. unfold tokens in Hf1. rewrite map_length in Hf1. exact Hf1.
  Qed.
End Place.
