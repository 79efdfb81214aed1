(** Required parameters are initialised by assignments only. *)
From Coq Require Import ZArith List Bool String Ascii Lia Arith.
From Verif Require Import ScanModel ParseModel ExprModel ExprSyntax DeckModel DeckSyntax DeckMeaning DeckSpec
  DeckRunProofs DeckInvProofs DeckLookupProofs DeckEffectProofs DeckObjectProofs DeckBraceProofs BlockModel BlockSpec BlockParamProofs BlockEvalProofs.
Import ListNotations.
Local Open Scope nat_scope.

Section Required.
  Variable A : arith.
  Variable reg : string -> option fsig.
  Variable funs : fsig -> list (value A) -> result (value A).
  Variable restricted : bool.
  Hypothesis funs_typed : typed_functions A funs.
  Variable classes : list (string * class A).
  Hypothesis once : NoDup (map fst classes).
  Hypothesis typed : typed_classes A classes.
  Hypothesis distinct : distinct_params A classes.
  Notation run := (run A reg funs restricted).

  Lemma sput_sub : forall (X : Type) (m : list (string * X)) k x q, In q (sput m k x) -> q = (k, x) \/ In q m.
  Proof.
    intros X. induction m as [|[k' x'] m IH]; intros k x q H; cbn in H.
    - destruct H as [<-|[]]. auto.
    - destruct (String.compare k k'); destruct H as [<-|H]; cbn; auto. destruct (IH _ _ _ H); auto.
  Qed.
  Lemma add_param_vars : forall b d n k, exists v, d_vars (fst (add_param A b d (n, k))) = d_vars d ++ [v] /\ fst (snd (add_param A b d (n, k))) = n /\
    p_var (snd (snd (add_param A b d (n, k)))) = List.length (d_vars d) /\ forall t, k = Required A t -> v_init v = false.
  Proof. intros b d n k. eexists. split; [reflexivity|]. split; [reflexivity|]. split; [reflexivity|]. intros t ->. reflexivity. Qed.
  Lemma add_params_vars : forall b l d ps, exists vs, d_vars (fst (add_params A b d l ps)) = d_vars d ++ vs.
  Proof.
    intros b. induction l as [|[n k] l IH]; intros d ps; cbn [add_params]; [exists []; cbn; rewrite app_nil_r; reflexivity|].
    destruct (add_param_vars b d n k) as [v [V _]]. destruct (add_param A b d (n, k)) as [d1 np]. cbn [fst snd] in V. destruct (IH d1 (sput ps (fst np) (snd np))) as [vs E]. exists (v :: vs). rewrite E, V, <- app_assoc. reflexivity.
  Qed.
  Lemma add_params_fresh : forall b l d ps n p, In (n, p) (snd (add_params A b d l ps)) ->
    In (n, p) ps \/ exists k v, In (n, k) l /\ nth_error (d_vars (fst (add_params A b d l ps))) (p_var p) = Some v /\ forall t, k = Required A t -> v_init v = false.
  Proof.
    intros b. induction l as [|[n0 k0] l IH]; intros d ps n p H; cbn [add_params] in *; [left; exact H|].
    destruct (add_param_vars b d n0 k0) as [v [V [N [X I]]]]. destruct (add_param A b d (n0, k0)) as [d1 [n1 p1]]. cbn [fst snd] in *. subst n1.
    destruct (IH d1 _ n p H) as [Q|[k [w [Q1 [Q2 Q3]]]]].
    - apply sput_sub in Q. destruct Q as [Q|Q]; [|left; exact Q]. right. inversion Q; subst p1 n. exists k0, v. split; [left; reflexivity|]. split; [|exact I].
      destruct (add_params_vars b l d1 (sput ps n0 p)) as [vs ->]. rewrite V, X. apply nth_app_l. rewrite nth_snoc, Nat.eqb_refl. reflexivity.
    - right. exists k, w. split; [right; exact Q1|]. auto.
  Qed.
  Lemma make_object_sigs : forall d name cls, classes_of A classes d ->
    (map sig (d_objs (make_object A d name cls)) = map sig (d_objs d)) \/
    exists c l ps, In (cls, c) classes /\ c_impl A c = Some l /\ map sig (d_objs (make_object A d name cls)) = map sig (d_objs d) ++ [(cls, d_cursor d, ps)] /\
      forall n p, In (n, p) ps -> exists k v, In (n, k) l /\ nth_error (d_vars (make_object A d name cls)) (p_var p) = Some v /\ forall t, k = Required A t -> v_init v = false.
  Proof.
    intros d name cls Cl. unfold make_object. destruct (get_class_found A classes d cls Cl) as [[c [l [H1 [H2 H3]]]]|H].
    - right. rewrite H3, H2. exists c, l. pose proof (add_params_fresh (d_cursor d) l d []) as F.
      assert (O2 : d_objs (fst (add_params A (d_cursor d) d l [])) = d_objs d).
      { generalize ([] : list (string * param)). generalize (d_cursor d). clear. intros b. revert d. induction l as [|[n k] l IH]; intros d ps; cbn [add_params]; [reflexivity|]. change (add_param A b d (n, k)) with (fst (add_param A b d (n, k)), snd (add_param A b d (n, k))). cbv beta iota. rewrite IH. reflexivity. }
      destruct (add_params A (d_cursor d) d l []) as [d2 ps]. cbn [fst snd] in *. exists ps. split; [exact H1|]. split; [exact H2|]. split.
      + unfold tree_add. cbn [d_cur d_objs set_tree]. rewrite O2. assert (B : map sig (d_objs d ++ [mkObj name cls (d_cursor d) None [] ps]) = map sig (d_objs d) ++ [(cls, d_cursor d, ps)]) by (rewrite map_app; reflexivity).
        destruct (d_cur d2) as [cu|]; [|exact B]. set (objs := d_objs d ++ _) in *. destruct (nth_error objs cu) as [oc|] eqn:Eoc; [|exact B]. destruct (nth_error objs (List.length (d_objs d))) as [oo|] eqn:Eoo; [|exact B].
        rewrite map_update, map_update; [exact B| |].
        * intros x Hx. rewrite Eoc in Hx. inversion Hx; subst. reflexivity.
        * intros x Hx. rewrite nth_update in Hx. destruct (Nat.eqb_spec (List.length (d_objs d)) cu) as [Hq|_].
          -- destruct (Nat.ltb _ _); [|discriminate]. rewrite Hq, Eoc in Eoo. inversion Eoo; subst oo. inversion Hx; subst x. reflexivity.
          -- rewrite Eoo in Hx. inversion Hx; subst. reflexivity.
      + intros n p Hp. destruct (F n p Hp) as [[]|K]. exact K.
    - left. pose proof (get_class_rest A d cls) as [R1 [R2 [R3 R4]]]. destruct (get_class A d cls) as [c d1]. cbn [fst snd] in *. rewrite H. cbn. congruence.
  Qed.

  (** Only assigned required parameters are initialised. *)
  Definition unset (T : nat -> Prop) (d : deck A) : Prop :=
    forall i o c l n t p v, nth_error (d_objs d) i = Some o -> In (o_class o, c) classes -> c_impl A c = Some l -> In (n, Required A t) l -> In (n, p) (o_params o) ->
      nth_error (d_vars d) (p_var p) = Some v -> v_init v = true -> T (p_var p).
  Lemma unset_object : forall T d name cls, wf A d -> classes_of A classes d -> pinv A classes d -> unset T d -> unset T (make_object A d name cls).
  Proof.
    intros T d name cls W Cl P U i o c l n t p v Ho Hc Hl Hn Hp Hv Hi.
    assert (Old : forall o' i', nth_error (d_objs d) i' = Some o' -> sig o = sig o' -> T (p_var p)).
    { intros o' i' Ho' S. unfold sig in S. inversion S as [[S1 S2 S3]]. rewrite S3 in Hp. rewrite S1 in Hc. destruct (p_good _ _ _ P i' o' Ho') as [c' [l' [_ [_ [_ [H4 _]]]]]]. destruct (H4 n p Hp) as [k [_ [_ [v0 [Hv0 _]]]]].
      pose proof (make_object_vars A d name cls _ _ Hv0) as Q. assert (v0 = v) by congruence. subst v0. eapply U; eauto. }
    assert (Ms : nth_error (map sig (d_objs (make_object A d name cls))) i = Some (sig o)) by (rewrite nth_error_map, Ho; reflexivity).
    destruct (make_object_sigs d name cls Cl) as [E|[c' [l' [ps [H1 [H2 [E F]]]]]]]; rewrite E in Ms.
    - rewrite nth_error_map in Ms. destruct (nth_error (d_objs d) i) as [o'|] eqn:Eo; [|discriminate]. cbn in Ms. eapply Old; [exact Eo|congruence].
    - rewrite nth_snoc, map_length in Ms. destruct (Nat.eqb i (List.length (d_objs d))).
      + assert (S : sig o = (cls, d_cursor d, ps)) by congruence. unfold sig in S. inversion S as [[S1 S2 S3]]. rewrite S3 in Hp. destruct (F n p Hp) as [k [v0 [K1 [K2 K3]]]].
        assert (v0 = v) by congruence. subst v0. rewrite S1 in Hc.
        assert (c' = c) by (apply in_sfind in Hc; [|exact once]; apply in_sfind in H1; [|exact once]; congruence). subst c'. assert (l' = l) by congruence. subst l'.
        pose proof (distinct _ _ _ H1 H2) as N. apply in_sfind in K1; [|exact N]. apply in_sfind in Hn; [|exact N]. assert (Q : k = Required A t) by congruence. specialize (K3 t Q). congruence.
      + rewrite nth_error_map in Ms. destruct (nth_error (d_objs d) i) as [o'|] eqn:Eo; [|discriminate]. cbn in Ms. eapply Old; [exact Eo|congruence].
  Qed.
  Definition assigned_by (prog : list statement) (d0 : deck A) (x : nat) : Prop :=
    exists p1 name e p2 d1 path, prog = p1 ++ SAssign name e :: p2 /\ run p1 d0 = inr d1 /\ components ":"%char name path /\ means (d_blocks d1) (d_cursor d1) path x.
  Lemma assigned_snoc : forall p s d0 x, assigned_by p d0 x -> assigned_by (p ++ [s]) d0 x.
  Proof. intros p s d0 x [p1 [name [e [p2 [d1 [path [-> H]]]]]]]. exists p1, name, e, (p2 ++ [s]), d1, path. rewrite <- app_assoc. auto. Qed.
  Variables root rootclass : string.
  Notation d0 := (start A (new_deck A root rootclass classes)).
  Lemma start_history : DeckSpec.history A reg funs restricted d0.
  Proof. apply h_start. apply h_new. exact typed. Qed.

  Lemma open_object : forall d c name d', open_block A restricted d c name = inr d' -> exists d1, create_block A d name c = Some d1 /\ d' = make_object A d1 name c.
  Proof.
    intros d c name d' Eo. unfold open_block in Eo. destruct (nth_error (d_blocks d) (d_cursor d)) as [cur|]; [|discriminate].
    assert (Hgo : match create_block A d name c with None => inl (error DuplicateBlock) | Some d' => inr (make_object A d' name c) end = inr d').
    { destruct restricted; [|exact Eo]. destruct (has_child A d (b_class cur) c) as [[|]|]; try discriminate. exact Eo. }
    destruct (create_block A d name c) as [d1|]; [|discriminate]. inversion Hgo. eauto.
  Qed.
  Lemma unset_exec : forall prog s d d', run prog d0 = inr d -> exec A reg funs restricted s d = inr d' -> classes_of A classes d -> unset (assigned_by prog d0) d -> unset (assigned_by (prog ++ [s]) d0) d'.
  Proof.
    intros prog s d d' R E Cl U. destruct (deck_pinv A reg funs restricted funs_typed classes once typed distinct root rootclass prog d R) as [W P].
    assert (H : DeckSpec.history A reg funs restricted d) by (eapply history_run; [exact start_history|exact R]).
    assert (U1 : unset (assigned_by (prog ++ [s]) d0) d) by (intros i o c l n t p v H1 H2 H3 H4 H5 H6 H7; apply assigned_snoc; eapply U; eauto).
    assert (Old : d_objs d' = d_objs d -> unset (assigned_by (prog ++ [s]) d0) d').
    { intros O i o c l n t p v Ho Hc Hl Hn Hp Hv Hi. rewrite O in Ho. destruct (p_good _ _ _ P i o Ho) as [c' [l' [_ [_ [_ [H4 _]]]]]]. destruct (H4 n p Hp) as [k [_ [_ [v0 [Hv0 _]]]]].
      destruct (initialised A reg funs restricted funs_typed s d d' _ _ H E Hv0) as [v' [Hv' [[name [e [path [-> [K1 [K2 _]]]]]]|[_ K]]]].
      - exists prog, name, e, [], d, path. auto.
      - subst v'. assert (v0 = v) by congruence. subst v0. eapply U1; eauto. }
    destruct s as [t x rest|name e|file|c n|].
    - apply Old. destruct (declaration A reg funs restricted funs_typed d t x rest d' H E) as [new [_ [_ [_ [[_ [S _]] _]]]]]. exact S.
    - apply Old. cbn [exec] in E. destruct (expression A reg d e); [discriminate|]. cbn [bind] in E. unfold assign in E. destruct (get_variable _ _ _); [|discriminate].
      destruct (if v_fixed _ then _ else _); [|discriminate]. destruct (content _ _ _ _); [discriminate|]. cbn [bind] in E. destruct (negb _); [discriminate|]. destruct (v_ro _); [discriminate|]. inversion E. reflexivity.
    - apply Old. cbn in E. inversion E. reflexivity.
    - assert (Eo : open_block A restricted d c (block_name c n) = inr d') by (destruct n; exact E). destruct (open_object _ _ _ _ Eo) as [d1 [Ec ->]].
      destruct (create_block_spec A d _ _ d1 W Ec) as [W1 [G1 [C1 [r [R1 R2]]]]]. destruct (create_block_rest _ _ _ _ _ Ec) as [T1 [T2 [T3 [T4 [T5 T6]]]]].
      assert (V1 : d_vars d1 = d_vars d).
      { clear - Ec. unfold create_block in Ec. destruct (nth_error (d_blocks d) (d_cursor d)); [|discriminate]. destruct (sfind _ _); [discriminate|]. inversion Ec. reflexivity. }
      assert (P1 : pinv A classes d1).
      { eapply pinv_mono; [exact W|exact G1| |exact T1|rewrite V1; apply P|exact P]. intros y v v' Hy Hy'; rewrite V1 in Hy'; congruence. }
      apply unset_object; [exact W1|unfold classes_of; rewrite T5; exact Cl|exact P1|]. unfold unset. rewrite T1, V1. exact U1.
    - apply Old. cbn in E. unfold close_block in E. destruct (nth_error (d_blocks d) (d_cursor d)) as [cur|]; [|discriminate]. destruct (b_parent cur); [|discriminate].
      destruct (tree_up _ _) eqn:Et; [|discriminate]. apply tree_up_same in Et. destruct Et as [r [cu [l ->]]]. inversion E; subst. reflexivity.
  Qed.
  Lemma deck_classes : forall prog d, run prog d0 = inr d -> classes_of A classes d.
  Proof.
    intros prog d R. destruct (objects A reg funs restricted funs_typed classes once typed root rootclass prog d R) as [st [ns [_ I]]]. apply I.
  Qed.
  Lemma unset_run : forall prog d, run prog d0 = inr d -> unset (assigned_by prog d0) d.
  Proof.
    intros prog. induction prog as [|s prog IH] using rev_ind; intros d R.
    - cbn in R. inversion R; subst d. unfold start. set (d1 := set_tree A (new_deck A root rootclass classes) (d_objs (new_deck A root rootclass classes)) None None []).
      change (nth_error (d_blocks d1) 0) with (Some (mkBlock root rootclass None [] [])). cbn [b_name b_class].
      apply unset_object; [|split; auto| |].
      + apply wf_tree. apply wf_new. apply typed_classes_ok. exact typed.
      + constructor; cbn; [intros [|x]; discriminate|intros [|x]; discriminate|intros [|x]; discriminate|intros [|x]; discriminate].
      + intros [|i]; cbn; discriminate.
    - rewrite run_app in R. destruct (run prog d0) as [f|d1] eqn:E1; [discriminate|]. cbn [bind] in R. rewrite run_one in R. eapply unset_exec; [exact E1|exact R|eapply deck_classes; exact E1|apply IH; reflexivity].
  Qed.
  Lemma init_kept : forall q d d' x v, DeckSpec.history A reg funs restricted d -> run q d = inr d' -> nth_error (d_vars d) x = Some v -> v_init v = true ->
    exists v', nth_error (d_vars d') x = Some v' /\ v_init v' = true.
  Proof.
    induction q as [|s q IH]; intros d d' x v H R Hx Hi; cbn [DeckMeaning.run] in R; [inversion R; subst; eauto|].
    destruct (exec A reg funs restricted s d) as [f|d1] eqn:E; [discriminate|]. cbn [bind] in R.
    destruct (initialised A reg funs restricted funs_typed s d d1 x v H E Hx) as [v' [Hv' [[_ [_ [_ [_ [_ [_ K]]]]]]|[_ ->]]]]; (eapply (IH d1); [eapply h_exec; eauto|exact R|exact Hv'|assumption]).
  Qed.
  Lemma required_assigned : forall prog d, run prog d0 = inr d -> forall i o c l n t x m v,
    nth_error (d_objs d) i = Some o -> In (o_class o, c) classes -> c_impl A c = Some l -> In (n, Required A t) l -> binds A d i n x m -> nth_error (d_vars d) x = Some v ->
    (v_init v = true <-> exists before name e after d1 path, prog = before ++ SAssign name e :: after /\ run before d0 = inr d1 /\ components ":"%char name path /\ means (d_blocks d1) (d_cursor d1) path x).
  Proof.
    intros prog d R i o c l n t x m v Ho Hc Hl Hn [o' [p [Ho' [Hp [<- _]]]]] Hv. assert (o' = o) by congruence. subst o'. split.
    - intros Hi. exact (unset_run prog d R i o c l n t p v Ho Hc Hl Hn Hp Hv Hi).
    - intros [p1 [name [e [p2 [d1 [path [-> [R1 [C M]]]]]]]]]. rewrite run_app, R1 in R. cbn [bind DeckMeaning.run] in R. destruct (exec A reg funs restricted (SAssign name e) d1) as [f|d2] eqn:E2; [discriminate|]. cbn [bind] in R.
      assert (H1 : DeckSpec.history A reg funs restricted d1) by (eapply history_run; [exact start_history|exact R1]).
      assert (K : exists v2, nth_error (d_vars d2) (p_var p) = Some v2 /\ v_init v2 = true).
      { pose proof (history_wf A reg funs restricted funs_typed d1 H1) as W1.
        assert (Eg : get_variable (d_blocks d1) (d_cursor d1) name = Some (p_var p)) by (eapply get_variable_means; [apply W1|exact C|exact M]).
        pose proof (found A d1 name _ W1 Eg) as F.
        destruct (initialised A reg funs restricted funs_typed _ d1 d2 _ _ H1 E2 F) as [v' [Hv' [[name' [e' [path' [_ [_ [_ K]]]]]]|[K _]]]]; [eauto|]. exfalso. exact (K name e path eq_refl C M). }
      destruct K as [v2 [K1 K2]]. destruct (init_kept p2 d2 d _ _ (h_exec _ _ _ _ _ _ _ H1 E2) R K1 K2) as [v' [Q1 Q2]]. congruence.
  Qed.
End Required.
