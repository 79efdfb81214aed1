(** Statements about lists of statements, for decks given as text. *)
From Coq Require Import ZArith List Bool String Ascii Lia Arith.
From Verif Require Import ScanModel ScanCommentProofs ParseModel ParseSpec ExprModel ExprSyntax DepModel DepSpec DeckModel DeckSyntax DeckMeaning DeckSpec
  DeckRunProofs DeckStageProofs DeckInvProofs DeckFinishProofs DeckLookupProofs DeckEffectProofs DeckObjectProofs DeckExamples
  BlockModel BlockSpec BlockTreeProofs BlockDataProofs BlockContainerProofs BlockParamProofs BlockEvalProofs BlockInitProofs BlockExamples TextSpec.
Import ListNotations.
Local Open Scope nat_scope.
Local Open Scope string_scope.

Lemma read_unique : forall text toks toks', read text toks -> read text toks' -> toks' = toks.
Proof.
  intros text toks toks' [f1 [b1 E1]] [f2 [b2 E2]]. assert (E : (toks', b2) = (toks, b1)) by (eapply buffer_independent; [| |exact E2|exact E1]; unfold BUFSIZE; lia). injection E; auto.
Qed.

Section Text.
  Variable A : arith.
  Variable reg : string -> option fsig.
  Variable funs : fsig -> list (value A) -> result (value A).
  Variable restricted : bool.
  Hypothesis funs_typed : typed_functions A funs.
  Notation accepts := (accepts A reg funs restricted).
  Notation history := (history A reg funs restricted).
  Notation run := (run A reg funs restricted).

  Lemma accepts_run : forall text d d', history d -> accepts text d d' -> exists p d1, stands_for text p /\ run p (start A d) = inr d1 /\ history d1 /\ finish A funs d1 = Accepted A d'.
  Proof.
    intros text d d' H [toks [R P]]. destruct (ended_history A reg funs restricted text toks d _ H R P) as [p [d1 [P1 [P2 [P3 P4]]]]]; [left; eauto|].
    exists p, d1. split; [exists toks; auto|auto].
  Qed.
  Lemma accepts_consists : forall text d d' p, history d -> accepts text d d' -> p <> [] -> consists text p -> exists d1, run p (start A d) = inr d1 /\ history d1 /\ finish A funs d1 = Accepted A d'.
  Proof.
    intros text d d' p H [toks [R P]] Hn [toks' [R' W]]. assert (toks' = toks) by (eapply read_unique; eauto). subst toks'.
    destruct (written_executed A reg funs restricted toks p d _ Hn W P) as [d1 [P1 P2]]; [left; eauto|]. exists d1. split; [exact P1|]. split; [|symmetry; exact P2].
    eapply history_run; [apply h_start; exact H|exact P1].
  Qed.
  Lemma run_later : forall p d d', run p d = inr d' -> later A reg funs restricted d d'.
  Proof.
    induction p as [|s p IH]; intros d d' H; cbn in H; [inversion H; constructor|]. destruct (exec A reg funs restricted s d) as [f|d1] eqn:E; [discriminate|]. econstructor; [exact E|]. apply IH. exact H.
  Qed.
  (** C46 *)
  Lemma text_never_changes : forall text d d', history d -> accepts text d d' ->
    (forall b n x, declares (d_blocks (start A d)) b n x -> declares (d_blocks d') b n x) /\
    forall x v, nth_error (d_vars (start A d)) x = Some v -> v_ro v = true ->
      exists v', nth_error (d_vars d') x = Some v' /\ v_type v' = v_type v /\ v_ro v' = true /\ v_expr v' = v_expr v /\ (v_fixed v = true -> v' = v).
  Proof.
    intros text d d' H Ac. destruct (accepts_run text d d' H Ac) as [p [d1 [_ [R [H1 F]]]]].
    destruct (never_changes A reg funs restricted funs_typed (start A d) d1 (h_start _ _ _ _ d H) (run_later _ _ _ R)) as [N1 N2].
    destruct (finish_keeps A reg funs restricted funs_typed d1 d' H1 F) as [K1 K2]. split.
    - intros b n x Hd. rewrite K1. apply N1. exact Hd.
    - intros x v Hx Hr. destruct (N2 x v Hx) as [v1 [X1 [X2 [X3 X4]]]]. specialize (X4 Hr). subst v1. destruct (K2 x v X1) as [v' [Y1 [Y2 [Y3 [Y4 Y5]]]]]. exists v'. split; [exact Y1|]. split; [exact Y2|]. split; [congruence|]. auto.
  Qed.
  (** C48 *)
  Lemma text_values : forall text d d', history d -> accepts text d d' -> forall x e, defined_by A d' x e ->
    eval (store_of A funs d') e = Ok (v_val (var_at A d' x)) \/ eval (store_of A funs d') e = BadCast \/ eval (store_of A funs d') e = BadGet.
  Proof.
    intros text d d' H Ac x e De. destruct (accepts_run text d d' H Ac) as [p [d1 [_ [R [H1 F]]]]].
    destruct (accepted_spec A funs d1 (history_wf A reg funs restricted funs_typed d1 H1) d' F) as [_ [_ [_ [_ [_ [_ [_ [_ [_ [D1 [D2 _]]]]]]]]]]]. apply (D2 x e). apply D1. exact De.
  Qed.

  Variable classes : list (string * class A).
  Hypothesis once : NoDup (map fst classes).
  Hypothesis typed : typed_classes A classes.
  Variables root rootclass : string.
  Notation fresh := (new_deck A root rootclass classes).

  Lemma fresh_run : forall text d', accepts text fresh d' -> exists p d1, stands_for text p /\ run p (start A fresh) = inr d1 /\ finish A funs d1 = Accepted A d' /\
    d_objs d' = d_objs d1 /\ d_blocks d' = d_blocks d1 /\ d_root d' = d_root d1.
  Proof.
    intros text d' Ac. destruct (accepts_run text fresh d' (h_new _ _ _ _ root rootclass classes typed) Ac) as [p [d1 [C [R [H1 F]]]]].
    destruct (accepted_spec A funs d1 (history_wf A reg funs restricted funs_typed d1 H1) d' F) as [_ [B [_ [O [Ro _]]]]]. exists p, d1. auto 8.
  Qed.
  Lemma fresh_consists : forall text d' p, accepts text fresh d' -> p <> [] -> consists text p -> exists d1, run p (start A fresh) = inr d1 /\ finish A funs d1 = Accepted A d' /\
    d_objs d' = d_objs d1 /\ d_blocks d' = d_blocks d1 /\ d_root d' = d_root d1.
  Proof.
    intros text d' p Ac Hn C. destruct (accepts_consists text fresh d' p (h_new _ _ _ _ root rootclass classes typed) Ac Hn C) as [d1 [R [H1 F]]].
    destruct (accepted_spec A funs d1 (history_wf A reg funs restricted funs_typed d1 H1) d' F) as [_ [B [_ [O [Ro _]]]]]. exists d1. auto 8.
  Qed.
  (** C47 *)
  Lemma text_objects : forall text d' p, accepts text fresh d' -> p <> [] -> consists text p ->
    exists stack objs, nesting A classes root rootclass p stack objs /\
      List.length (d_objs d') = List.length objs /\ NoDup (map o_vars (d_objs d')) /\
      forall i o, nth_error (d_objs d') i = Some o ->
        nth_error objs i = Some (o_name o, o_class o, o_parent o) /\ o_children o = inside objs i /\
        exists blk, nth_error (d_blocks d') (o_vars o) = Some blk /\ b_name blk = o_name o /\ b_class blk = o_class o.
  Proof.
    intros text d' p Ac Hn C. destruct (fresh_consists text d' p Ac Hn C) as [d1 [R [F [O [B Ro]]]]]. rewrite O, B. exact (objects_spec A reg funs restricted funs_typed root rootclass classes p d1 once typed R).
  Qed.
  Lemma text_objects_any : forall text d', accepts text fresh d' ->
    exists p stack objs, stands_for text p /\ nesting A classes root rootclass p stack objs /\
      List.length (d_objs d') = List.length objs /\ NoDup (map o_vars (d_objs d')) /\
      forall i o, nth_error (d_objs d') i = Some o ->
        nth_error objs i = Some (o_name o, o_class o, o_parent o) /\ o_children o = inside objs i /\
        exists blk, nth_error (d_blocks d') (o_vars o) = Some blk /\ b_name blk = o_name o /\ b_class blk = o_class o.
  Proof.
    intros text d' Ac. destruct (fresh_run text d' Ac) as [p [d1 [C [R [F [O [B Ro]]]]]]]. destruct (objects_spec A reg funs restricted funs_typed root rootclass classes p d1 once typed R) as [stack [objs X]].
    exists p, stack, objs. rewrite O, B. split; [exact C|exact X].
  Qed.
  (** C73 *)
  Lemma text_allowed : restricted = true -> forall text d', accepts text fresh d' ->
    forall i blk o outer, nth_error (d_blocks d') i = Some blk -> b_parent blk = Some o -> nth_error (d_blocks d') o = Some outer ->
    exists c, In (b_class outer, c) classes /\ In (b_class blk) (c_allowed A c).
  Proof.
    intros Re text d' Ac. destruct (fresh_run text d' Ac) as [p [d1 [C [R [F [O [B Ro]]]]]]]. rewrite B. apply (blocks_allowed A reg funs restricted funs_typed classes once typed Re root rootclass p d1 R).
  Qed.
  (** C74 *)
  Lemma text_reachable : forall text d', accepts text fresh d' -> implemented A classes rootclass ->
    d_root d' = Some 0 /\ forall j, j < List.length (d_objs d') -> reachable A d' 0 j.
  Proof.
    intros text d' Ac Im. destruct (fresh_run text d' Ac) as [p [d1 [C [R [F [O [B Ro]]]]]]]. destruct (all_reachable A reg funs restricted funs_typed classes once typed root rootclass p d1 R Im) as [X Y]. rewrite Ro, O. split; [exact X|].
    intros j Hj. specialize (Y j Hj). clear - Y O. induction Y as [|j o k Hj IH Eo Hk]; [constructor|]. econstructor; [exact IH| |exact Hk]. rewrite O. exact Eo.
  Qed.
  Hypothesis distinct : distinct_params A classes.
  (** C55, C75 *)
  Lemma text_tree : forall text d', accepts text fresh d' -> linked (d_objs d') /\
    (implemented A classes rootclass -> is_root (d_objs d') 0 /\ forall j, j < List.length (d_objs d') -> within (d_objs d') 0 j).
  Proof. intros text d' Ac. destruct (fresh_run text d' Ac) as [p [d1 [C [R [F _]]]]]. eapply final_tree; eauto. Qed.
  Lemma text_registered : forall text d', accepts text fresh d' -> forall i o, nth_error (d_objs d') i = Some o ->
    exists c l, In (o_class o, c) classes /\ c_impl A c = Some l /\
      (forall n, (exists x m, binds A d' i n x m) <-> In n (map fst l)) /\
      forall n k, In (n, k) l -> exists x m v, binds A d' i n x m /\ declares (d_blocks d') (o_vars o) n x /\
        nth_error (d_vars d') x = Some v /\ param_state A (d_mem d') k m v.
  Proof. intros text d' Ac. destruct (fresh_run text d' Ac) as [p [d1 [C [R [F _]]]]]. eapply final_registered; eauto. Qed.
  Lemma text_evaluated : forall text d', accepts text fresh d' -> forall i, i < List.length (d_objs d') ->
    (forall d1, evaluate_all A funs i d' = inr d1 ->
       same_but_memory A d' d1 /\
       (forall n v c, receives A d' i n v c -> ready A funs d' v /\ nth_error (d_mem d1) c = Some (v_val v)) /\
       (forall c, (forall n v, ~ receives A d' i n v c) -> nth_error (d_mem d1) c = nth_error (d_mem d') c)) /\
    (forall e, evaluate_all A funs i d' = inl e ->
       e <> EvalUndefined /\
       exists n v c, receives A d' i n v c /\ ~ ready A funs d' v /\ (forall m, e = NotInitialised m -> m = n /\ v_init v = false)).
  Proof. intros text d' Ac. destruct (fresh_run text d' Ac) as [p [d1 [C [R [F _]]]]]. eapply final_evaluated; eauto. Qed.
  Lemma text_required : forall text d' p, accepts text fresh d' -> p <> [] -> consists text p ->
    forall i o c l n t x m v, nth_error (d_objs d') i = Some o -> In (o_class o, c) classes -> c_impl A c = Some l -> In (n, Required A t) l ->
    binds A d' i n x m -> nth_error (d_vars d') x = Some v ->
    (v_init v = true <->
     exists before name e after d1 path, p = (before ++ SAssign name e :: after)%list /\
       run before (start A fresh) = inr d1 /\
       components ":"%char name path /\ means (d_blocks d1) (d_cursor d1) path x).
  Proof. intros text d' p Ac Hn C. destruct (fresh_consists text d' p Ac Hn C) as [d1 [R [F _]]]. eapply final_required; eauto. Qed.
End Text.
Example deck1_accepted : accepts deck_arith no_fun no_eval true deck1 (new_deck deck_arith "main" "main" bodies) deck1_end.
Proof. destruct deck1_parsed as [R [_ [P _]]]. exists (toks_of deck1). auto. Qed.
Example three_accepted : accepts deck_arith no_fun no_eval false three (new_deck deck_arith "main" "main" bodies) three_end.
Proof. destruct three_parsed as [R [_ [P _]]]. exists (toks_of three). auto. Qed.
