(** Parameters of the objects of a deck. *)
From Coq Require Import ZArith List Bool String Ascii Lia Arith.
From Verif Require Import ScanModel ParseModel ExprModel ExprSyntax ExprBuildModel ExprSpec ExprProofs ExprRefProofs DepModel DepSpec DepProofs DeckModel DeckSyntax DeckMeaning DeckSpec
  DeckInvProofs DeckFinishProofs DeckEffectProofs DeckObjectProofs DeckBraceProofs BlockModel BlockSpec.
Import ListNotations.
Local Open Scope nat_scope.

Lemma map_update : forall {X Y} (f : X -> Y) l n y, (forall x, nth_error l n = Some x -> f y = f x) -> map f (update_nth l n y) = map f l.
Proof.
  intros X Y f. induction l as [|x l IH]; intros [|n] y H; cbn; [reflexivity|reflexivity| |]; f_equal.
  - apply H. reflexivity.
  - apply IH. exact H.
Qed.
Lemma update_same : forall {X} (l : list X) n x, nth_error l n = Some x -> update_nth l n x = l.
Proof. intros X. induction l as [|y l IH]; intros [|n] x H; cbn in *; try discriminate; [congruence|]. f_equal. apply IH. exact H. Qed.

Section Params.
  Variable A : arith.
  Variable reg : string -> option fsig.
  Variable funs : fsig -> list (value A) -> result (value A).
  Variable restricted : bool.
  Hypothesis funs_typed : typed_functions A funs.
  Notation deck := (deck A).
  Variable classes : list (string * class A).
  Hypothesis once : NoDup (map fst classes).
  Hypothesis typed : typed_classes A classes.
  Hypothesis distinct : distinct_params A classes.

  (** Expressions written in a deck read no C++ variable directly. *)
  Definition pure (e : expr A) : Prop := only A (fun _ _ => True) (fun _ _ => False) e.
  Lemma pure_refs : forall e, pure e -> forall x, ~ In x (ext_refs e).
  Proof.
    apply (expr_ind' A (fun e => pure e -> forall x, ~ In x (ext_refs e))).
    - intros v _ x [].
    - intros t y _ x [].
    - intros t y H. destruct H.
    - intros o t e IH H. exact (IH H).
    - intros o t l IH H x Hx. apply only_bin in H. cbn in Hx. apply in_flat_map in Hx. destruct Hx as [pe [Hp Hx]].
      rewrite Forall_forall in IH, H. exact (IH pe Hp (H pe Hp) x Hx).
    - intros a b e IH H. exact (IH H).
    - intros f l IH H x Hx. apply only_fun in H. cbn in Hx. apply in_flat_map in Hx. destruct Hx as [e [Hp Hx]].
      rewrite Forall_forall in IH, H. exact (IH e Hp (H e Hp) x Hx).
  Qed.
  Definition pure_vars (vs : list (vrec A)) : Prop :=
    forall x v e, nth_error vs x = Some v -> v_ro v = false -> v_fixed v = false -> v_expr v = Some e -> pure e.
  Definition pure_var (v : vrec A) : Prop := forall e, v_ro v = false -> v_fixed v = false -> v_expr v = Some e -> pure e.
  Lemma pure_snoc : forall vs v, pure_vars vs -> pure_var v -> pure_vars (vs ++ [v]).
  Proof.
    intros vs v H Hv x w e Hx. rewrite nth_snoc in Hx. destruct (Nat.eqb x (List.length vs)); [|exact (H x w e Hx)]. inversion Hx; subst. apply Hv.
  Qed.
  Lemma content_pure : forall d e v, pure e -> content A funs d e = inr v -> pure_var v.
  Proof.
    intros d e v He E. unfold content in E. destruct (is_constant (store_of A funs d) e).
    - destruct (eval (store_of A funs d) e); try discriminate. inversion E; subst. intros e' _ F. discriminate.
    - inversion E; subst. intros e' _ _ Q. cbn in Q. inversion Q; subst. exact He.
  Qed.
  Lemma expression_pure : forall d s e, expression A reg d s = inr e -> pure e.
  Proof.
    intros d s e E. unfold expression in E. destruct (build_sum A (lookup A d) reg s) as [x|x] eqn:Eb; [|discriminate]. inversion E; subst.
    eapply built_only; [|exact Eb]. auto.
  Qed.
  Definition pure_init (x : string * option (expr A)) : Prop := match snd x with Some e => pure e | None => True end.
  Lemma expressions_pure : forall d l r, expressions A reg d l = inr r -> Forall pure_init r.
  Proof.
    intros d. induction l as [|[x [e|]] l IH]; intros r E; cbn [expressions] in E.
    - inversion E; constructor.
    - destruct (expression A reg d e) as [f|a] eqn:Ea; [discriminate|]. cbn [bind] in E. destruct (expressions A reg d l) as [f|r'] eqn:Er; [discriminate|]. cbn [bind] in E. inversion E; subst.
      constructor; [exact (expression_pure d e a Ea)|apply IH; reflexivity].
    - destruct (expressions A reg d l) as [f|r'] eqn:Er; [discriminate|]. cbn [bind] in E. inversion E; subst. constructor; [exact I|apply IH; reflexivity].
  Qed.
  Lemma declare_all_pure : forall t l d d', pure_vars (d_vars d) -> Forall pure_init l -> declare_all A funs t d l = inr d' -> pure_vars (d_vars d').
  Proof.
    intros t. induction l as [|[x oe] l IH]; intros d d' H Hl E; cbn [declare_all] in E; [inversion E; subst; exact H|].
    destruct (declare A funs t d (x, oe)) as [f|d1] eqn:E1; [discriminate|]. cbn [bind] in E. inversion Hl as [|? ? L1 L2]; subst. eapply IH; [|exact L2|exact E].
    unfold declare in E1. cbn [snd fst] in E1. destruct oe as [e|]; [|discriminate]. destruct (content A funs d e) as [f|v] eqn:Ec; [discriminate|]. cbn [bind] in E1.
    destruct (ty_eqb t (v_type v)); [|discriminate]. destruct (block_add _ _ _ _); [|discriminate]. inversion E1; subst; cbn. apply pure_snoc; [exact H|]. eapply content_pure; [|exact Ec]. exact L1.
  Qed.

  (** ** Registration *)
  Definition registered (d : deck) (b : nat) (n : string) (k : pkind A) (p : param) : Prop :=
    declares (d_blocks d) b n (p_var p) /\ exists v, nth_error (d_vars d) (p_var p) = Some v /\ param_state A (d_mem d) k (p_mem p) v.
  Lemma nth_app_l : forall {X} (l l' : list X) n x, nth_error l n = Some x -> nth_error (l ++ l') n = Some x.
  Proof. intros X l l' n x H. rewrite nth_error_app1; [exact H|eapply nth_lt; eauto]. Qed.
  Lemma param_state_mono : forall mem mem' k m v v', (exists l, mem' = mem ++ l) -> v_type v' = v_type v -> v_ro v' = v_ro v -> (v_ro v = true -> v' = v) -> (v_init v = true -> v_init v' = true) ->
    param_state A mem k m v -> param_state A mem' k m v'.
  Proof.
    intros mem mem' k m v v' [l ->] T R K I H. destruct k as [t|t w|t o|w]; cbn in *.
    - destruct H as [H1 [H2 [c [H3 H4]]]]. split; [congruence|]. split; [congruence|]. exists c. split; [exact H3|apply nth_app_l; exact H4].
    - destruct H as [H1 [H2 [H5 [c [H3 H4]]]]]. split; [congruence|]. split; [congruence|]. split; [auto|]. exists c. split; [exact H3|apply nth_app_l; exact H4].
    - destruct H as [H1 [H2 [H3 [c [H4 [H5 H6]]]]]]. rewrite (K H1). repeat split; auto. exists c. repeat split; auto. apply nth_app_l; exact H6.
    - destruct H as [H1 H2]. rewrite (K H1). auto.
  Qed.
  Definition inits_grow (d d' : deck) : Prop := forall x v v', nth_error (d_vars d) x = Some v -> nth_error (d_vars d') x = Some v' -> v_init v = true -> v_init v' = true.
  Lemma registered_mono : forall d d' b n k p, wf A d -> grows A d d' -> inits_grow d d' -> registered d b n k p -> registered d' b n k p.
  Proof.
    intros d d' b n k p W G IG [[blk [E1 E2]] [v [E3 E4]]]. destruct (gr_b _ _ _ G b blk E1) as [blk' [E1' [_ [_ [_ [_ S]]]]]]. destruct (gr_v _ _ _ G _ _ E3) as [v' [E3' [T [R K]]]]. split.
    - exists blk'. split; [exact E1'|]. apply sfind_in. apply S. apply in_sfind; [|exact E2]. eapply wb_names; [apply (wf_b A d W)|exact E1].
    - exists v'. split; [exact E3'|]. eapply param_state_mono; [apply (gr_m _ _ _ G)|exact T|exact R|exact K| |exact E4]. exact (IG _ _ _ E3 E3').
  Qed.

  Definition sig (o : bobj) := (o_class o, o_vars o, o_params o).
  Definition good (d : deck) (s : string * nat * list (string * param)) : Prop :=
    let '(cls, b, ps) := s in
    exists c l, In (cls, c) classes /\ c_impl A c = Some l /\ NoDup (map fst ps) /\
      (forall n p, In (n, p) ps -> exists k, In (n, k) l /\ registered d b n k p) /\
      (forall n k, In (n, k) l -> exists p, In (n, p) ps).
  Definition cell_of (ps : list (string * param)) (n : string) (p : param) (c : nat) : Prop := In (n, p) ps /\ p_mem p = Some c.
  Definition own_cells (lo hi : nat) (ps : list (string * param)) : Prop :=
    (forall n p c, cell_of ps n p c -> lo <= c < hi) /\ (forall n p n' p' c, cell_of ps n p c -> cell_of ps n' p' c -> n = n').
  Definition cells_distinct (ss : list (string * nat * list (string * param))) : Prop :=
    forall i j s s' n n' p p' c, nth_error ss i = Some s -> nth_error ss j = Some s' -> cell_of (snd s) n p c -> cell_of (snd s') n' p' c -> i = j /\ n = n'.
  Record pinv (d : deck) : Prop := {
    p_pure : pure_vars (d_vars d);
    p_good : forall i o, nth_error (d_objs d) i = Some o -> good d (sig o);
    p_cells : cells_distinct (map sig (d_objs d));
    p_bound : forall i o n p c, nth_error (d_objs d) i = Some o -> cell_of (o_params o) n p c -> c < List.length (d_mem d)
  }.
  Lemma good_mono : forall d d' s, wf A d -> grows A d d' -> inits_grow d d' -> good d s -> good d' s.
  Proof.
    intros d d' [[cls b] ps] W G IG [c [l [H1 [H2 [H3 [H4 H5]]]]]]. exists c, l. repeat split; auto. intros n p Hp. destruct (H4 n p Hp) as [k [K1 K2]]. exists k. split; [exact K1|]. eapply registered_mono; eauto.
  Qed.
  Lemma pinv_mono : forall d d', wf A d -> grows A d d' -> inits_grow d d' -> d_objs d' = d_objs d -> pure_vars (d_vars d') -> pinv d -> pinv d'.
  Proof.
    intros d d' W G IG O P [P1 P2 P3 P4]. constructor; rewrite ?O; auto.
    - intros i o Ho. eapply good_mono; eauto.
    - intros i o n p c Ho Hc. specialize (P4 i o n p c Ho Hc). destruct (gr_m _ _ _ G) as [l ->]. rewrite app_length. lia.
  Qed.

  (** ** New objects *)
  Lemma add_param_effect : forall b d n k blk, wf A d -> kind_ok A k -> nth_error (d_blocks d) b = Some blk -> sfind (b_vars blk) n = None -> pure_vars (d_vars d) ->
    let d1 := fst (add_param A b d (n, k)) in let np := snd (add_param A b d (n, k)) in
    fst np = n /\ registered d1 b n k (snd np) /\ pure_vars (d_vars d1) /\ inits_grow d d1 /\ d_objs d1 = d_objs d /\
    (forall c, p_mem (snd np) = Some c -> List.length (d_mem d) <= c < List.length (d_mem d1)) /\
    exists blk1, nth_error (d_blocks d1) b = Some blk1 /\ forall n', n' <> n -> sfind (b_vars blk1) n' = sfind (b_vars blk) n'.
  Proof.
    intros b d n k blk W Hk Hb Hn P. cbn [add_param fst snd]. unfold block_add. rewrite Hb, Hn. pose proof (nth_lt _ _ _ Hb) as Hl.
    split; [reflexivity|]. split; [|split; [|split; [|split; [reflexivity|split]]]].
    - split; cbn [d_blocks d_vars d_mem set_nextid set_mem set_blocks set_vars p_var p_mem].
      + eexists. split; [apply nth_update_same; exact Hl|]. cbn. apply sput_in; auto.
      + eexists. split; [rewrite nth_snoc, Nat.eqb_refl; reflexivity|].
        destruct k as [t|t w|t [w|]|w]; cbn; repeat split; try (eexists; repeat split; rewrite nth_snoc, Nat.eqb_refl; reflexivity); auto.
        destruct t; reflexivity.
    - cbn [d_vars set_nextid set_mem set_blocks set_vars]. apply pure_snoc; [exact P|]. intros e R F X. destruct k as [t|t w|t [w|]|w]; cbn in *; discriminate.
    - intros x v v' Hx Hx'. cbn [d_vars set_nextid set_mem set_blocks set_vars] in Hx'. rewrite nth_error_app1 in Hx' by (eapply nth_lt; eauto). congruence.
    - cbn. destruct k as [t|t w|t [w|]|w]; cbn; intros c Hc; inversion Hc; subst; rewrite ?app_length; cbn; lia.
    - cbn [d_blocks set_nextid set_mem set_blocks set_vars]. eexists. split; [apply nth_update_same; exact Hl|]. cbn. intros n' Hn'. rewrite sfind_sput_new by exact Hn.
      destruct (String.eqb_spec n' n); [contradiction|reflexivity].
  Qed.
  Lemma inits_trans : forall a b c, grows A a b -> inits_grow a b -> inits_grow b c -> inits_grow a c.
  Proof. intros a b c G H1 H2 x v v' Hx Hx' Hv. destruct (gr_v _ _ _ G _ _ Hx) as [w [Hw _]]. eauto. Qed.
  Lemma inits_refl : forall d, inits_grow d d.
  Proof. intros d x v v' H1 H2. congruence. Qed.
  Lemma add_params_effect : forall l0 b lo l d ps blk, wf A d -> pure_vars (d_vars d) -> Forall (fun p => kind_ok A (snd p)) l -> NoDup (map fst l) ->
    nth_error (d_blocks d) b = Some blk -> (forall n, In n (map fst l) -> sfind (b_vars blk) n = None /\ sfind ps n = None) -> incl l l0 ->
    NoDup (map fst ps) -> (forall n p, In (n, p) ps -> exists k, In (n, k) l0 /\ registered d b n k p) -> own_cells lo (List.length (d_mem d)) ps -> lo <= List.length (d_mem d) ->
    let d' := fst (add_params A b d l ps) in let ps' := snd (add_params A b d l ps) in
    wf A d' /\ grows A d d' /\ inits_grow d d' /\ pure_vars (d_vars d') /\ d_objs d' = d_objs d /\ NoDup (map fst ps') /\
    (forall n p, In (n, p) ps' -> exists k, In (n, k) l0 /\ registered d' b n k p) /\ own_cells lo (List.length (d_mem d')) ps' /\
    (forall n k, In (n, k) l -> exists p, In (n, p) ps') /\ incl ps ps'.
  Proof.
    intros l0 b lo. induction l as [|[n k] l IH]; intros d ps blk W P Hk Nl Hb Hf Hi Np Hr Hc Hlo; cbn [add_params].
    - cbn [fst snd]. split; [exact W|]. split; [apply grows_refl|]. split; [apply inits_refl|]. split; [exact P|]. split; [reflexivity|]. split; [exact Np|]. split; [exact Hr|]. split; [exact Hc|].
      split; [intros n k []|intros q Hq; exact Hq].
    - inversion Hk as [|? ? K1 K2]; subst. inversion Nl as [|? ? N1 N2]; subst. cbn in K1. destruct (Hf n (or_introl eq_refl)) as [F1 F2].
      pose proof (add_param_effect b d n k blk W K1 Hb F1 P) as E. pose proof (add_param_keeps A b d (n, k) W K1) as [W1 [G1 _]].
      destruct (add_param A b d (n, k)) as [d1 [n1 p1]]. cbn [fst snd] in *. destruct E as [-> [R1 [P1 [I1 [O1 [C1 [blk1 [B1 B2]]]]]]]].
      assert (Lm : List.length (d_mem d) <= List.length (d_mem d1)) by (destruct (gr_m _ _ _ G1) as [ml ->]; rewrite app_length; lia).
      specialize (IH d1 (sput ps n p1) blk1 W1 P1 K2 N2 B1).
      assert (Hf1 : forall m, In m (map fst l) -> sfind (b_vars blk1) m = None /\ sfind (sput ps n p1) m = None).
      { intros m Hm. assert (m <> n) by (intros ->; contradiction). destruct (Hf m (or_intror Hm)) as [Q1 Q2]. split; [rewrite B2 by assumption; exact Q1|].
        rewrite sfind_sput_new by exact F2. destruct (String.eqb_spec m n); [contradiction|exact Q2]. }
      assert (Hr1 : forall m p, In (m, p) (sput ps n p1) -> exists k', In (m, k') l0 /\ registered d1 b m k' p).
      { intros m p Hp. apply sput_in in Hp; [|exact F2]. destruct Hp as [[-> ->]|Hp].
        - exists k. split; [apply Hi; left; reflexivity|exact R1].
        - destruct (Hr m p Hp) as [k' [Q1 Q2]]. exists k'. split; [exact Q1|]. eapply registered_mono; [exact W|exact G1|exact I1|exact Q2]. }
      assert (Hc1 : own_cells lo (List.length (d_mem d1)) (sput ps n p1)).
      { destruct Hc as [C2 C3]. assert (S : forall m p c, cell_of (sput ps n p1) m p c -> (m = n /\ p = p1 /\ List.length (d_mem d) <= c < List.length (d_mem d1)) \/ (cell_of ps m p c /\ c < List.length (d_mem d))).
        { intros m p c [Q1 Q2]. apply sput_in in Q1; [|exact F2]. destruct Q1 as [[-> ->]|Q1]; [left; repeat split; try apply C1; exact Q2|]. right. split; [split; assumption|]. apply (C2 m p c). split; assumption. }
        split.
        - intros m p c Q. destruct (S _ _ _ Q) as [[_ [_ Q1]]|[Q1 Q2]]; [lia|]. specialize (C2 _ _ _ Q1). lia.
        - intros m p m' p' c Q Q'. destruct (S _ _ _ Q) as [[-> [_ Q1]]|[Q1 Q2]], (S _ _ _ Q') as [[-> [_ Q1']]|[Q1' Q2']]; [reflexivity|lia|lia|]. eapply C3; eauto. }
      destruct (IH Hf1 ltac:(intros q Hq; apply Hi; right; exact Hq) ltac:(apply sput_nodup; assumption) Hr1 Hc1 ltac:(lia)) as [W2 [G2 [I2 [P2 [O2 [N3 [R3 [C4 [A2 L2]]]]]]]]].
      split; [exact W2|]. split; [eapply grows_trans; eauto|]. split; [eapply inits_trans; eauto|]. split; [exact P2|]. split; [congruence|]. split; [exact N3|]. split; [exact R3|]. split; [exact C4|]. split.
      + intros m k' [Q|Q]; [|eauto]. inversion Q; subst. exists p1. apply L2. apply sput_in; auto.
      + intros [m p] Q. apply L2. apply sput_in; auto.
  Qed.

  Lemma get_class_found : forall d cls, classes_of A classes d ->
    (exists c l, In (cls, c) classes /\ c_impl A c = Some l /\ get_class A d cls = (c, d)) \/ c_impl A (fst (get_class A d cls)) = None.
  Proof.
    intros d cls [C1 C2]. unfold get_class. destruct (sfind (d_classes d) cls) as [c|] eqn:E; [|right; reflexivity]. cbn [fst]. destruct (c_impl A c) as [l|] eqn:Ei; [left|right; reflexivity].
    exists c, l. destruct (C2 _ _ E) as [Q|[_ Q]]; [|subst c; discriminate]. split; [apply sfind_in; exact Q|]. auto.
  Qed.
  Lemma get_class_rest : forall d cls, d_vars (snd (get_class A d cls)) = d_vars d /\ d_objs (snd (get_class A d cls)) = d_objs d /\ d_mem (snd (get_class A d cls)) = d_mem d /\ d_blocks (snd (get_class A d cls)) = d_blocks d.
  Proof. intros d cls. unfold get_class. destruct (sfind (d_classes d) cls); cbn; auto. Qed.
  Lemma make_object_pinv : forall d name cls blk, wf A d -> classes_of A classes d -> nth_error (d_blocks d) (d_cursor d) = Some blk -> b_vars blk = [] -> pinv d ->
    pinv (make_object A d name cls) /\ inits_grow d (make_object A d name cls).
  Proof.
    intros d name cls blk W Cl Hb Hv P. unfold make_object. destruct (get_class_found d cls Cl) as [[c [l [H1 [H2 H3]]]]|H].
    - rewrite H3, H2. destruct P as [P1 P2 P3 P4]. assert (K : Forall (fun p => kind_ok A (snd p)) l).
      { apply Forall_forall. intros [n k] Hnk. cbn. pose proof (typed cls c l n k H1 H2 Hnk) as T. destruct k as [t|t w|t [w|]|w]; cbn; auto. }
      pose proof (add_params_effect l (d_cursor d) (List.length (d_mem d)) l d [] blk W P1 K (distinct cls c l H1 H2) Hb) as E.
      destruct (add_params A (d_cursor d) d l []) as [d2 ps]. cbn [fst snd] in E.
      destruct E as [W2 [G2 [I2 [P5 [O2 [N3 [R3 [C4 [A2 _]]]]]]]]].
      { intros n _. rewrite Hv. auto. }
      { apply incl_refl. }
      { constructor. }
      { intros n p []. }
      { split; [intros n p c0 [[] _]|intros n p n' p' c0 [[] _]]. }
      { lia. }
      set (d3 := tree_add A _ _). assert (S : map sig (d_objs d3) = map sig (d_objs d) ++ [(cls, d_cursor d, ps)]).
      { subst d3. unfold tree_add. cbn [d_cur d_objs set_tree]. rewrite O2. assert (B : map sig (d_objs d ++ [mkObj name cls (d_cursor d) None [] ps]) = map sig (d_objs d) ++ [(cls, d_cursor d, ps)]) by (rewrite map_app; reflexivity).
        destruct (d_cur d2) as [cu|]; [|exact B]. set (objs := d_objs d ++ _) in *. destruct (nth_error objs cu) as [oc|] eqn:Eoc; [|exact B]. destruct (nth_error objs (List.length (d_objs d))) as [oo|] eqn:Eoo; [|exact B].
        rewrite map_update, map_update; [exact B| |].
        - intros x Hx. rewrite Eoc in Hx. inversion Hx; subst. reflexivity.
        - intros x Hx. rewrite nth_update in Hx. destruct (Nat.eqb_spec (List.length (d_objs d)) cu) as [Hq|_].
          + destruct (Nat.ltb _ _); [|discriminate]. rewrite Hq, Eoc in Eoo. inversion Eoo; subst oo. inversion Hx; subst x. reflexivity.
          + rewrite Eoo in Hx. inversion Hx; subst. reflexivity. }
      assert (V3 : d_vars d3 = d_vars d2) by reflexivity. assert (M3 : d_mem d3 = d_mem d2) by reflexivity. assert (B3 : d_blocks d3 = d_blocks d2) by reflexivity.
      assert (G3 : forall s, good d2 s -> good d3 s) by (intros s; unfold good, registered; rewrite V3, M3, B3; auto).
      assert (Q : forall i o, nth_error (d_objs d3) i = Some o -> (i = List.length (d_objs d) /\ sig o = (cls, d_cursor d, ps)) \/ (exists o', nth_error (d_objs d) i = Some o' /\ sig o = sig o')).
      { intros i o Ho. assert (Ms : nth_error (map sig (d_objs d3)) i = Some (sig o)) by (rewrite nth_error_map, Ho; reflexivity). rewrite S, nth_snoc, map_length in Ms.
        destruct (Nat.eqb_spec i (List.length (d_objs d))) as [->|_]; [left; split; congruence|right]. rewrite nth_error_map in Ms. destruct (nth_error (d_objs d) i) as [o'|]; [|discriminate]. cbn in Ms. exists o'. split; congruence. }
      split; [|intros x v v' Hx Hx'; rewrite V3 in Hx'; eapply I2; eauto].
      constructor.
      + rewrite V3. exact P5.
      + intros i o Ho. apply G3. destruct (Q i o Ho) as [[_ ->]|[o' [Ho' ->]]].
        * exists c, l. auto 10.
        * eapply good_mono; [exact W|exact G2|exact I2|]. eapply P2; eauto.
      + rewrite S. intros i j s s' n n' p p' c0 Hi Hj Hc Hc'. rewrite nth_snoc in Hi, Hj. rewrite map_length in Hi, Hj.
        assert (Old : forall i s n p, nth_error (map sig (d_objs d)) i = Some s -> cell_of (snd s) n p c0 -> c0 < List.length (d_mem d)).
        { intros i0 s0 n0 p0 E0 E1. rewrite nth_error_map in E0. destruct (nth_error (d_objs d) i0) as [o0|] eqn:Eo; [|discriminate]. inversion E0; subst. eapply P4; eauto. }
        destruct (Nat.eqb_spec i (List.length (d_objs d))) as [->|Hi'], (Nat.eqb_spec j (List.length (d_objs d))) as [->|Hj'].
        * inversion Hi; inversion Hj; subst. cbn [snd] in *. split; [reflexivity|]. eapply (proj2 C4); eauto.
        * inversion Hi; subst. cbn [snd] in *. specialize (Old _ _ _ _ Hj Hc'). apply (proj1 C4) in Hc. lia.
        * inversion Hj; subst. cbn [snd] in *. specialize (Old _ _ _ _ Hi Hc). apply (proj1 C4) in Hc'. lia.
        * eapply P3; eauto.
      + intros i o n p c0 Ho Hc. rewrite M3. destruct (Q i o Ho) as [[_ E]|[o' [Ho' E]]].
        * unfold sig in E. inversion E as [[E1 E2 E3]]. rewrite E3 in Hc. apply (proj1 C4) in Hc. lia.
        * unfold sig in E. inversion E as [[E1 E2 E3]]. rewrite E3 in Hc. specialize (P4 i o' n p c0 Ho' Hc). destruct (gr_m _ _ _ G2) as [ml ->]. rewrite app_length. lia.
    - pose proof (get_class_rest d cls) as [R1 [R2 [R3 R4]]]. destruct (get_class A d cls) as [c d1]. cbn [fst snd] in *. rewrite H. unfold tree_down.
      split; [|intros x v v' Hx Hx'; cbn in Hx'; rewrite R1 in Hx'; congruence].
      destruct P as [P1 P2 P3 P4]. constructor; cbn [d_vars d_objs d_mem set_tree]; rewrite ?R1, ?R2, ?R3; auto.
      intros i o Ho. specialize (P2 i o Ho). unfold good, registered in *. cbn [d_vars d_blocks d_mem set_tree]. rewrite R1, R3, R4. exact P2.
  Qed.

  (** ** Statements *)
  Lemma declare_all_vars : forall t l d d', declare_all A funs t d l = inr d' -> exists new, d_vars d' = d_vars d ++ new.
  Proof.
    intros t. induction l as [|[x oe] l IH]; intros d d' E; cbn [declare_all] in E; [inversion E; subst; exists []; rewrite app_nil_r; reflexivity|].
    destruct (declare A funs t d (x, oe)) as [f|d1] eqn:E1; [discriminate|]. cbn [bind] in E. destruct (IH _ _ E) as [new Hn].
    unfold declare in E1. cbn [snd fst] in E1. destruct oe as [e|]; [|discriminate]. destruct (content A funs d e) as [f|v]; [discriminate|]. cbn [bind] in E1.
    destruct (ty_eqb t (v_type v)); [|discriminate]. destruct (block_add _ _ _ _); [|discriminate]. inversion E1; subst. cbn in Hn. exists (v :: new). rewrite Hn, <- app_assoc. reflexivity.
  Qed.
  Lemma exec_pinv : forall s d d', wf A d -> classes_of A classes d -> pinv d -> exec A reg funs restricted s d = inr d' -> pinv d' /\ inits_grow d d'.
  Proof.
    intros s d d' W Cl P E. pose proof (exec_keeps A reg funs restricted funs_typed s d d' W E) as [W' G].
    destruct s as [t x rest|name e|file|c n|].
    - cbn [exec] in E. destruct (expressions A reg d (x :: rest)) as [f|r] eqn:El; [discriminate|]. cbn [bind] in E.
      assert (IG : inits_grow d d').
      { destruct (declare_all_vars _ _ _ _ E) as [new Hn]. intros y v v' Hy Hy'. rewrite Hn, nth_error_app1 in Hy' by (eapply nth_lt; eauto). congruence. }
      split; [|exact IG]. eapply pinv_mono; [exact W|exact G|exact IG| | |exact P].
      + destruct (declare_all_effect A reg funs funs_typed t (rev r) d d' W) as [new [_ [_ [_ [H4 _]]]]]; [apply Forall_rev; eapply expressions_good; eauto|exact E|apply H4].
      + eapply declare_all_pure; [apply P| |exact E]. apply Forall_rev. eapply expressions_pure; eauto.
    - cbn [exec] in E. destruct (expression A reg d e) as [f|a] eqn:Ea; [discriminate|]. cbn [bind] in E. pose proof (expression_pure _ _ _ Ea) as Pa. unfold assign in E. destruct (get_variable _ _ _) as [x|] eqn:Ex; [|discriminate].
      destruct (if v_fixed _ then _ else _) as [t|]; [|discriminate]. destruct (content _ _ _ _) as [f|v] eqn:Ec; [discriminate|]. cbn [bind] in E. destruct (negb _); [discriminate|]. destruct (v_ro _); [discriminate|].
      inversion E; subst d'; clear E. assert (IG : inits_grow d (set_nextid A (set_vars A d (update_nth (d_vars d) x (mkVar A (v_val v) (v_expr v) (v_type (var_at A d x)) (v_fixed v) (v_init v) false (v_id v)))) (d_nextid d + 1))).
      { intros y w w' Hy Hy'. cbn in Hy'. rewrite nth_update in Hy'. destruct (Nat.eqb y x); [|congruence]. destruct (Nat.ltb _ _); [|discriminate]. inversion Hy'; subst. cbn. intros _. eapply content_new; eauto. }
      split; [|exact IG]. eapply pinv_mono; [exact W|exact G|exact IG|reflexivity| |exact P]. cbn. intros y w e' Hy. rewrite nth_update in Hy. destruct (Nat.eqb y x); [|exact (p_pure _ P y w e' Hy)].
      destruct (Nat.ltb _ _); [|discriminate]. inversion Hy; subst. cbn. intros _ F V. eapply (content_pure d _ v); [|exact Ec|eapply content_new; eauto|exact F|exact V]. apply only_promote. exact Pa.
    - cbn in E. inversion E; subst. split; [exact P|apply inits_refl].
    - assert (Eo : open_block A restricted d c (block_name c n) = inr d') by (destruct n; exact E). clear E.
      assert (Ec : exists d1, create_block A d (block_name c n) c = Some d1 /\ d' = make_object A d1 (block_name c n) c).
      { unfold open_block in Eo. destruct (nth_error (d_blocks d) (d_cursor d)) as [cur|]; [|discriminate].
        assert (Hgo : match create_block A d (block_name c n) c with None => inl (error DuplicateBlock) | Some d' => inr (make_object A d' (block_name c n) c) end = inr d').
        { destruct restricted; [|exact Eo]. destruct (has_child A d (b_class cur) c) as [[|]|]; try discriminate. exact Eo. }
        destruct (create_block A d (block_name c n) c) as [d1|]; [|discriminate]. inversion Hgo. eauto. }
      destruct Ec as [d1 [Ec ->]]. destruct (create_block_spec A d _ _ d1 W Ec) as [W1 [G1 [C1 [r [R1 R2]]]]]. destruct (create_block_rest _ _ _ _ _ Ec) as [T1 [T2 [T3 [T4 [T5 T6]]]]].
      assert (V1 : d_vars d1 = d_vars d).
      { unfold create_block in Ec. destruct (nth_error (d_blocks d) (d_cursor d)); [|discriminate]. destruct (sfind _ _); [discriminate|]. inversion Ec. reflexivity. }
      assert (IG1 : inits_grow d d1) by (intros y v v' Hy Hy'; rewrite V1 in Hy'; congruence).
      assert (P1 : pinv d1) by (eapply pinv_mono; [exact W|exact G1|exact IG1|exact T1|rewrite V1; apply P|exact P]).
      destruct (make_object_pinv d1 (block_name c n) c r W1 ltac:(unfold classes_of; rewrite T5; exact Cl) R1 ltac:(rewrite R2; reflexivity) P1) as [Q1 Q2].
      split; [exact Q1|]. eapply inits_trans; eauto.
    - cbn in E. unfold close_block in E. destruct (nth_error (d_blocks d) (d_cursor d)) as [cur|]; [|discriminate]. destruct (b_parent cur); [|discriminate].
      destruct (tree_up _ _) eqn:Et; [|discriminate]. apply tree_up_same in Et. destruct Et as [r [cu [l ->]]]. inversion E; subst.
      split; [|intros y v v' Hy Hy'; cbn in Hy'; congruence]. eapply pinv_mono; [exact W|exact G| |reflexivity|apply P|exact P]. intros y v v' Hy Hy'; cbn in Hy'; congruence.
  Qed.
  Lemma run_pinv : forall q d d' st ns p root rootclass, wf A d -> inv A classes d st ns -> (exists k, depth A d k /\ List.length st = S k) -> nesting A classes root rootclass p st ns -> pinv d ->
    run A reg funs restricted q d = inr d' -> pinv d'.
  Proof.
    induction q as [|s q IH]; intros d d' st ns p root rootclass W I K N P E; cbn [run] in E; [inversion E; subst; exact P|].
    destruct (exec A reg funs restricted s d) as [f|d1] eqn:E1; [discriminate|]. cbn [bind] in E. destruct (exec_inv A reg funs restricted funs_typed classes once s d d1 st ns p root rootclass W I K N E1) as [st1 [ns1 [N1 [I1 K1]]]].
    eapply (IH d1 d' st1 ns1); eauto; [eapply exec_keeps; eauto|]. eapply exec_pinv; eauto. apply I.
  Qed.
  Lemma start_pinv : forall root rootclass, pinv (start A (new_deck A root rootclass classes)).
  Proof.
    intros root rootclass. unfold start. set (d0 := set_tree A (new_deck A root rootclass classes) (d_objs (new_deck A root rootclass classes)) None None []).
    change (nth_error (d_blocks d0) 0) with (Some (mkBlock root rootclass None [] [])). cbn [b_name b_class].
    eapply (make_object_pinv d0 root rootclass (mkBlock root rootclass None [] [])); [|split; auto|reflexivity|reflexivity|].
    - apply wf_tree. apply wf_new. apply typed_classes_ok. exact typed.
    - constructor; cbn; [intros [|x]; discriminate|intros [|x]; discriminate|intros [|x]; discriminate|intros [|x]; discriminate].
  Qed.
  Lemma deck_pinv : forall root rootclass p d, run A reg funs restricted p (start A (new_deck A root rootclass classes)) = inr d -> wf A d /\ pinv d.
  Proof.
    intros root rootclass p d E. destruct (start_inv A reg classes once typed root rootclass) as [st [ns [N [I L]]]]. pose proof (new_depth A root rootclass classes) as D.
    assert (W0 : wf A (new_deck A root rootclass classes)) by (apply wf_new; apply typed_classes_ok; exact typed). destruct (start_keeps A _ W0) as [W _].
    split; [eapply run_keeps; eauto|]. eapply (run_pinv p _ d st ns [] root rootclass W I); eauto. apply start_pinv.
  Qed.
  Lemma finish_pinv : forall d d', wf A d -> pinv d -> finish A funs d = Accepted A d' ->
    wf A d' /\ pinv d' /\ d_objs d' = d_objs d /\
    (forall i o n p v e, nth_error (d_objs d') i = Some o -> In (n, p) (o_params o) -> nth_error (d_vars d') (p_var p) = Some v -> v_fixed v = false -> v_expr v = Some e ->
       eval (store_of A funs d') e = Ok (v_val v) \/ eval (store_of A funs d') e = BadCast \/ eval (store_of A funs d') e = BadGet).
  Proof.
    intros d d' W P E. destruct (accepted_spec A funs d W d' E) as [_ [B [_ [O [_ [_ [_ [M [V [_ [F W']]]]]]]]]]].
    assert (Inv : forall x v', nth_error (d_vars d') x = Some v' -> exists v w, nth_error (d_vars d) x = Some v /\ v' = mkVar A w (v_expr v) (v_type v) (v_fixed v) (v_init v) (v_ro v) (v_id v) /\ (v_fixed v = true -> w = v_val v) \/ (nth_error (d_vars d) x = None)).
    { intros x v' Hx. destruct (nth_error (d_vars d) x) as [v|] eqn:Ev.
      - destruct (V x v Ev) as [w [W1 W2]]. exists v, w. left. split; [reflexivity|]. split; [congruence|exact W2].
      - exists v', (v_val v'). right. reflexivity. }
    assert (Len : List.length (d_vars d') = List.length (d_vars d)).
    { clear - E W. pose proof (finish_cases A funs d W) as FC. rewrite E in FC. destruct FC as [_ [st' [-> _]]]. cbn. apply restore_length. }
    assert (Inv' : forall x v', nth_error (d_vars d') x = Some v' -> exists v w, nth_error (d_vars d) x = Some v /\ v' = mkVar A w (v_expr v) (v_type v) (v_fixed v) (v_init v) (v_ro v) (v_id v) /\ (v_fixed v = true -> w = v_val v)).
    { intros x v' Hx. destruct (Inv x v' Hx) as [v [w [H|H]]]; [exists v, w; exact H|]. apply nth_error_None in H. apply nth_lt in Hx. lia. }
    assert (RG : forall b n k p, registered d b n k p -> registered d' b n k p).
    { intros b n k p [[blk [E1 E2]] [v [E3 E4]]]. split; [exists blk; rewrite B; auto|]. destruct (V _ _ E3) as [w [W1 W2]]. eexists. split; [exact W1|]. rewrite M.
      destruct k as [t|t u|t o|u]; cbn in *; auto. destruct E4 as [Q1 [Q2 [Q3 [Q4 Q5]]]]. rewrite (W2 Q3). auto. }
    split; [exact W'|]. split; [|split; [exact O|]].
    - destruct P as [P1 P2 P3 P4]. constructor; rewrite ?O, ?M; auto.
      + intros x v' e Hx. destruct (Inv' x v' Hx) as [v [w [Hv [-> _]]]]. cbn. apply (P1 x v e Hv).
      + intros i o Ho. destruct (P2 i o Ho) as [c [l [H1 [H2 [H3 [H4 H5]]]]]]. exists c, l. repeat split; auto. intros n p Hp. destruct (H4 n p Hp) as [k [K1 K2]]. exists k. auto.
    - intros i o n p v' e Ho Hp Hx Hf He. destruct (Inv' _ _ Hx) as [v [w [Hv [-> _]]]]. cbn in Hf, He. rewrite O in Ho. destruct (p_good _ P i o Ho) as [c [l [_ [_ [_ [H4 _]]]]]].
      destruct (H4 n p Hp) as [k [_ [D _]]]. destruct (F (p_var p) e) as [_ Q].
      + split; [exists (o_vars o), n; exact D|]. exists v. auto.
      + erewrite (var_at_nth A d' (p_var p)) in Q by exact Hx. exact Q.
  Qed.
End Params.
