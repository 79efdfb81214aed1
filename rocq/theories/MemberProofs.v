(** Proofs about groups of variables. *)
From Coq Require Import ZArith List Bool String Ascii Lia Arith.
From Verif Require Import ScanModel ParseModel ExprModel ExprSyntax ExprBuildModel ExprSpec DepModel DeckModel DeckSyntax DeckMeaning DeckSpec
  DeckRunProofs DeckInvProofs DeckFinishProofs DeckLookupProofs DeckEffectProofs DeckObjectProofs ValueSpec ValueProofs MemberModel MemberSpec.
Import ListNotations.
Local Open Scope nat_scope.

Section Members.
  Variable A : arith.
  Variable reg : string -> option fsig.
  Variable funs : fsig -> list (value A) -> result (value A).
  Variable restricted : bool.
  Hypothesis funs_typed : typed_functions A funs.
  Notation deck := (deck A).
  Notation exec := (exec A reg funs restricted).
  Notation run := (run A reg funs restricted).
  Notation writes := (writes A).
  Notation kept := (kept A reg funs restricted).
  Notation history := (history A reg funs restricted).
  Notation happen := (happen A reg funs restricted).
  Notation happen_all := (happen_all A reg funs restricted).
  Notation added_since := (added_since A reg funs restricted).
  Notation is_element := (is_element A).

  Lemma content_id : forall d e v, content A funs d e = inr v -> v_id v = d_nextid d.
  Proof. intros d e v E. pose proof (evaluate_content A funs d nowhere e) as H. rewrite E in H. apply H. Qed.

  (** *** New ids *)
  Definition fresh (d d1 : deck) : Prop :=
    (d_nextid d <= d_nextid d1)%Z /\ exists new, d_vars d1 = d_vars d ++ new /\ forall v, In v new -> (d_nextid d <= v_id v)%Z.
  Lemma fresh_refl : forall d d1, d_vars d1 = d_vars d -> d_nextid d1 = d_nextid d -> fresh d d1.
  Proof. intros d d1 V N. split; [lia|]. exists []. rewrite app_nil_r. split; [exact V|intros v []]. Qed.
  Lemma fresh_trans : forall a b c, fresh a b -> fresh b c -> fresh a c.
  Proof.
    intros a b c [L1 [n1 [V1 F1]]] [L2 [n2 [V2 F2]]]. split; [lia|]. exists (n1 ++ n2). split; [rewrite V2, V1, app_assoc; reflexivity|].
    intros v I. apply in_app_or in I. destruct I as [I|I]; [apply F1; exact I|]. specialize (F2 v I). lia.
  Qed.
  Lemma declare_all_fresh : forall t l d d1, declare_all A funs t d l = inr d1 -> fresh d d1.
  Proof.
    intros t. induction l as [|[n oe] l IH]; intros d d1 E; cbn [declare_all] in E; [inversion E; apply fresh_refl; reflexivity|].
    destruct (declare A funs t d (n, oe)) as [f|d2] eqn:E1; [discriminate|]. cbn [bind] in E. eapply fresh_trans; [|exact (IH _ _ E)].
    unfold declare in E1. cbn [snd fst] in E1. destruct oe as [e|]; [|discriminate]. destruct (content A funs d e) as [f|v] eqn:Ec; [discriminate|]. cbn [bind] in E1.
    destruct (ty_eqb t (v_type v)); [|discriminate]. destruct (block_add _ _ _ _) as [bs|]; [|discriminate]. inversion E1; subst d2. split; [cbn; lia|]. exists [v]. split; [reflexivity|].
    intros w [<-|[]]. rewrite (content_id _ _ _ Ec). lia.
  Qed.
  Lemma add_params_fresh : forall b l d ps, fresh d (fst (add_params A b d l ps)).
  Proof.
    intros b. induction l as [|[n k] l IH]; intros d ps; cbn [add_params]; [apply fresh_refl; reflexivity|].
    assert (F : fresh d (fst (add_param A b d (n, k)))).
    { split; [cbn; lia|]. eexists. split; [reflexivity|]. intros v [<-|[]]. destruct k; cbn; lia. }
    destruct (add_param A b d (n, k)) as [d2 np]. eapply fresh_trans; [exact F|]. apply IH.
  Qed.
  Lemma open_fresh : forall d c n d1, open_block A restricted d c n = inr d1 -> fresh d d1.
  Proof.
    intros d c n d1 E. unfold open_block in E. destruct (nth_error (d_blocks d) (d_cursor d)) as [cur|]; [|discriminate].
    assert (G : match create_block A d n c with None => inl (error DuplicateBlock) | Some d' => inr (make_object A d' n c) end = inr d1 -> fresh d d1).
    { clear E. unfold create_block. intros E. destruct (nth_error (d_blocks d) (d_cursor d)) as [blk|]; [|discriminate]. destruct (sfind (b_children blk) n); [discriminate|]. inversion E; subst d1; clear E.
      unfold make_object, get_class. destruct (sfind _ _) as [cl|]; cbn [fst snd].
      all: match goal with |- context [c_impl A ?c] => destruct (c_impl A c) as [l|] end; [|apply fresh_refl; reflexivity].
      all: match goal with |- context [add_params A ?b ?dd ?l ?ps] => pose proof (add_params_fresh b l dd ps) as F; destruct (add_params A b dd l ps) as [d2 ps2] end; cbn [fst] in F.
      all: eapply fresh_trans; [|eapply fresh_trans; [exact F|]]; apply fresh_refl; reflexivity. }
    destruct restricted; [|exact (G E)]. destruct (has_child A d (b_class cur) c) as [[|]|]; try discriminate. exact (G E).
  Qed.

  Lemma exec_fresh : forall s d d1, wf A d -> exec s d = inr d1 -> (d_nextid d <= d_nextid d1)%Z /\
    forall x v, nth_error (d_vars d1) x = Some v -> nth_error (d_vars d) x = Some v \/ (d_nextid d <= v_id v)%Z.
  Proof.
    intros s d d1 W E.
    assert (App : fresh d d1 -> (d_nextid d <= d_nextid d1)%Z /\ forall x v, nth_error (d_vars d1) x = Some v -> nth_error (d_vars d) x = Some v \/ (d_nextid d <= v_id v)%Z).
    { intros [L [new [V F]]]. split; [exact L|]. intros x v Hx. rewrite V in Hx. destruct (Nat.lt_ge_cases x (List.length (d_vars d))) as [Lx|Lx].
      - left. rewrite nth_error_app1 in Hx by exact Lx. exact Hx.
      - right. rewrite nth_error_app2 in Hx by exact Lx. apply F. eapply nth_error_In; eauto. }
    destruct s as [t y rest|n e|file|c n|]; cbn [DeckMeaning.exec] in E.
    - apply App. destruct (expressions A reg d (y :: rest)) as [f|r]; [discriminate|]. eapply declare_all_fresh; exact E.
    - clear App. destruct (expression A reg d e) as [f|a]; [discriminate|]. cbn [bind] in E. unfold assign in E. destruct (get_variable (d_blocks d) (d_cursor d) n) as [x|] eqn:Eg; [|discriminate].
      pose proof (found A d n x W Eg) as F. match type of E with match ?tt with _ => _ end = _ => destruct tt as [t|] end; [|discriminate].
      destruct (content A funs d (promote_assign t a)) as [f|v] eqn:Ec; [discriminate|]. cbn [bind] in E.
      destruct (negb (ty_eqb _ _)); [discriminate|]. destruct (v_ro _); [discriminate|]. inversion E; subst d1; clear E. split; [cbn; lia|]. cbn [d_vars set_nextid set_vars].
      intros y w Hy. destruct (Nat.eq_dec y x) as [->|N]; [|rewrite nth_update_other in Hy by exact N; left; exact Hy].
      rewrite nth_update_same in Hy by (eapply nth_lt; eauto). inversion Hy; subst w. right. cbn. rewrite (content_id _ _ _ Ec). lia.
    - inversion E; subst. split; [lia|auto].
    - apply App. destruct n; eapply open_fresh; eauto.
    - apply App. apply fresh_refl; [exact (close_vars A d d1 E)|]. unfold close_block in E. destruct (nth_error (d_blocks d) (d_cursor d)) as [cur|]; [|discriminate]. destruct (b_parent cur); [|discriminate].
      destruct (tree_up _ _) eqn:Et; [|discriminate]. apply tree_up_same in Et. destruct Et as [r [cu [l ->]]]. inversion E; subst. reflexivity.
  Qed.

  (** Who is written gets a new id. *)
  Lemma written_fresh : forall s d d1 x e v, wf A d -> exec s d = inr d1 -> writes d d1 s x e -> nth_error (d_vars d) x = Some v -> nth_error (d_vars d1) x = Some v -> False.
  Proof.
    intros s d d1 x e v W E Wr Hx Hx1. destruct s as [t y rest|n e'|file|c n|]; try exact Wr.
    - destruct (decl_cases A reg funs restricted funs_typed d t y rest d1 x W E) as [D _]. eapply (D (nth_lt _ _ _ Hx)). exact Wr.
    - destruct Wr as [_ [path [C M]]]. apply (get_variable_means (d_blocks d) _ (wf_b A d W) (d_cursor d) n path x C) in M.
      cbn [DeckMeaning.exec] in E. destruct (expression A reg d e') as [f|a]; [discriminate|]. cbn [bind] in E. unfold assign in E. rewrite M in E.
      match type of E with match ?tt with _ => _ end = _ => destruct tt as [t|] end; [|discriminate].
      destruct (content A funs d (promote_assign t a)) as [f|w] eqn:Ec; [discriminate|]. cbn [bind] in E.
      destruct (negb (ty_eqb _ _)); [discriminate|]. destruct (v_ro _); [discriminate|]. inversion E; subst d1; clear E. cbn [d_vars set_nextid set_vars] in Hx1.
      rewrite nth_update_same in Hx1 by (eapply nth_lt; eauto). inversion Hx1 as [Q]. pose proof (wv_ids _ _ _ _ (wf_v A d W) x v Hx) as I. rewrite <- Q in I. cbn in I. rewrite (content_id _ _ _ Ec) in I. lia.
  Qed.

  (** *** Adding *)
  Lemma is_element_in : forall g v, is_element g v = true <-> In (v_id v) g.
  Proof.
    intros g v. unfold MemberModel.is_element. rewrite existsb_exists. split.
    - intros [i [I E]]. apply Z.eqb_eq in E. congruence.
    - intros I. exists (v_id v). split; [exact I|apply Z.eqb_refl].
  Qed.
  Lemma add_array_in : forall d xs g g', wf A d -> add_array A d g xs = inr g' ->
    (forall i, In i g' -> In i g \/ (i < d_nextid d)%Z) /\ forall x v, nth_error (d_vars d) x = Some v -> (In (v_id v) g' <-> In (v_id v) g \/ In x xs).
  Proof.
    intros d. induction xs as [|y xs IH]; intros g g' W E; cbn [add_array] in E; [inversion E; subst; split; [auto|intros x v _; cbn; tauto]|].
    destruct (nth_error (d_vars d) y) as [w|] eqn:Ey; [|discriminate]. destruct (IH _ _ W E) as [I1 I2]. split.
    - intros i I. destruct (I1 i I) as [[<-|I']|I']; auto. right. apply (wv_ids _ _ _ _ (wf_v A d W) y w Ey).
    - intros x v Hx. rewrite (I2 x v Hx). cbn. split.
      + intros [[Q|I]|I]; auto. right. left. exact (wv_distinct _ _ _ _ (wf_v A d W) y x w v Ey Hx Q).
      + intros [I|[->|I]]; auto. left. left. congruence.
  Qed.

  (** *** Histories *)
  Lemma statements_app : forall p q, statements (p ++ q) = statements p ++ statements q.
  Proof. induction p as [|[xs|s] p IH]; intros q; cbn; [reflexivity|apply IH|rewrite IH; reflexivity]. Qed.
  Lemma happen_all_app : forall p q d g, happen_all (p ++ q) d g = match happen_all p d g with inl f => inl f | inr (d', g') => happen_all q d' g' end.
  Proof. induction p as [|ev p IH]; intros q d g; cbn; [reflexivity|]. destruct (happen d g ev) as [f|[d' g']]; [reflexivity|apply IH]. Qed.
  Lemma happen_all_run : forall p d g d' g', happen_all p d g = inr (d', g') -> run (statements p) d = inr d'.
  Proof.
    induction p as [|[xs|s] p IH]; intros d g d' g' E; cbn in E |- *; [inversion E; reflexivity| |].
    - destruct (add_array A d g xs); [discriminate|]. eapply IH; eauto.
    - destruct (exec s d) as [f|d1]; [discriminate|]. cbn. eapply IH; eauto.
  Qed.
  Lemma kept_app : forall x l1 l2 d d1, run l1 d = inr d1 -> (kept x (l1 ++ l2) d <-> kept x l1 d /\ kept x l2 d1).
  Proof.
    intros x. induction l1 as [|s l1 IH]; intros l2 d d1 R; cbn in R |- *; [inversion R; tauto|]. destruct (exec s d) as [f|d2] eqn:E; [discriminate|]. cbn in R. specialize (IH l2 d2 d1 R). split.
    - intros K. split; [|apply IH; apply (K d2 eq_refl)]. intros d3 Q. inversion Q; subst d3. destruct (K d2 eq_refl) as [K1 K2]. split; [exact K1|apply IH; exact K2].
    - intros [K1 K2] d3 Q. inversion Q; subst d3. destruct (K1 d2 eq_refl) as [K3 K4]. split; [exact K3|]. apply IH. split; assumption.
  Qed.
  Lemma snoc_split : forall {X} (l l1 l2 : list X) a b, l ++ [a] = l1 ++ b :: l2 -> (l2 = [] /\ l = l1 /\ a = b) \/ (exists l3, l2 = l3 ++ [a] /\ l = l1 ++ b :: l3).
  Proof.
    intros X l l1 l2 a b E. destruct l2 as [|c l2 _] using rev_ind.
    - left. apply app_inj_tail in E. tauto.
    - right. exists l2. rewrite app_comm_cons, app_assoc in E. apply app_inj_tail in E. destruct E as [-> ->]. auto.
  Qed.

  Section Run.
    Variable d0 : deck.
    Hypothesis H0 : history d0.
    Lemma run_wf : forall p d g, happen_all p d0 [] = inr (d, g) -> history d /\ wf A d.
    Proof.
      intros p d g E. apply happen_all_run in E. pose proof (history_run A reg funs restricted _ _ _ H0 E) as H. split; [exact H|]. eapply history_wf; eauto.
    Qed.
    Lemma members_all : forall p d g, happen_all p d0 [] = inr (d, g) ->
      (forall i, In i g -> (i < d_nextid d)%Z) /\ forall x v, nth_error (d_vars d) x = Some v -> (In (v_id v) g <-> added_since p d0 x).
    Proof.
      induction p as [|ev p IH] using rev_ind; intros d g E.
      - inversion E; subst. split; [intros i []|]. intros x v _. split; [intros []|]. intros [p1 [xs [p2 [d1 [Q _]]]]]. destruct p1; discriminate.
      - rewrite happen_all_app in E. destruct (happen_all p d0 []) as [f|[d1 g1]] eqn:E1; [discriminate|]. destruct (IH _ _ eq_refl) as [I1 I2]. destruct (run_wf _ _ _ E1) as [H1 W1].
        pose proof (happen_all_run _ _ _ _ _ E1) as R1. destruct ev as [xs|s]; cbn in E.
        + destruct (add_array A d1 g1 xs) as [f|g2] eqn:Ea; [discriminate|]. inversion E; subst d g2; clear E. destruct (add_array_in d1 xs g1 g W1 Ea) as [A1 A2]. split.
          * intros i I. destruct (A1 i I) as [I'|I']; auto.
          * intros x v Hx. rewrite (A2 x v Hx), (I2 x v Hx). split.
            -- intros [[p1 [ys [p2 [d2 [-> [Iy [R K]]]]]]]|I].
               ++ exists p1, ys, (p2 ++ [Added xs]), d2. split; [rewrite <- app_assoc; reflexivity|]. split; [exact Iy|]. split; [exact R|]. rewrite statements_app. cbn. rewrite app_nil_r. exact K.
               ++ exists p, xs, [], d1. cbn. auto.
            -- intros [p1 [ys [p2 [d2 [Q [Iy [R K]]]]]]]. apply snoc_split in Q. destruct Q as [[-> [-> Q]]|[l3 [-> ->]]].
               ++ inversion Q; subst ys. right. exact Iy.
               ++ left. exists p1, ys, l3, d2. rewrite statements_app in K. cbn in K. rewrite app_nil_r in K. auto.
        + destruct (exec s d1) as [f|d2] eqn:Es; [discriminate|]. inversion E; subst d2 g1; clear E. destruct (exec_fresh s d1 d W1 Es) as [N F]. split; [intros i I; specialize (I1 i I); lia|].
          intros x v Hx. split.
          * intros I. destruct (F x v Hx) as [Hx1|Lt]; [|specialize (I1 _ I); lia]. apply (I2 x v Hx1) in I. destruct I as [p1 [ys [p2 [d2 [-> [Iy [R K]]]]]]].
            exists p1, ys, (p2 ++ [Statement s]), d2. split; [rewrite <- app_assoc; reflexivity|]. split; [exact Iy|]. split; [exact R|]. rewrite statements_app.
            rewrite statements_app in R1. cbn in R1. rewrite (run_app A reg funs restricted) in R1. rewrite R in R1. cbn in R1. apply (kept_app x _ _ _ _ R1). split; [exact K|].
            cbn. intros d3 Q. rewrite Es in Q. inversion Q; subst d3. split; [|exact I]. intros e Wr. eapply written_fresh; eauto.
          * intros [p1 [ys [p2 [d2 [Q [Iy [R K]]]]]]]. apply snoc_split in Q. destruct Q as [[_ [_ Q]]|[l3 [-> ->]]]; [discriminate|].
            rewrite statements_app in K, R1. cbn in R1. rewrite (run_app A reg funs restricted) in R1. rewrite R in R1. cbn in R1. apply (kept_app x _ _ _ _ R1) in K. destruct K as [K1 K2]. cbn in K2.
            destruct (K2 d Es) as [K3 _].
            assert (Hx1 : exists w, nth_error (d_vars d1) x = Some w).
            { rewrite happen_all_app in E1. destruct (happen_all p1 d0 []) as [f|[d3 g3]] eqn:E3; [discriminate|]. cbn in E1. destruct (add_array A d3 g3 ys) as [f|g4] eqn:Ea; [discriminate|].
              pose proof (happen_all_run _ _ _ _ _ E3) as R3. rewrite R in R3. inversion R3; subst d3. destruct (run_wf _ _ _ E3) as [H3 W3].
              assert (Lx : forall ys g g', add_array A d2 g ys = inr g' -> In x ys -> x < List.length (d_vars d2)).
              { clear. induction ys as [|y ys IHy]; intros g g' Ea Ix; [destruct Ix|]. destruct Ix as [->|I]; cbn in Ea.
                - destruct (nth_error (d_vars d2) x) as [w|] eqn:Ex; [eapply nth_lt; eauto|discriminate].
                - destruct (nth_error (d_vars d2) y) as [w|]; [|discriminate]. eapply IHy; eauto. }
              specialize (Lx _ _ _ Ea Iy).
              assert (Ln : forall l a b, history a -> run l a = inr b -> List.length (d_vars a) <= List.length (d_vars b)).
              { clear - funs_typed. induction l as [|s l IHl]; intros a b H R; cbn in R; [inversion R; lia|]. destruct (exec s a) as [f|c] eqn:Ec; [discriminate|]. cbn in R.
                pose proof (exec_length A reg funs restricted funs_typed s a c (history_wf A reg funs restricted funs_typed a H) Ec). specialize (IHl c b (h_exec A reg funs restricted s a c H Ec) R). lia. }
              specialize (Ln _ _ _ H3 R1). destruct (nth_error (d_vars d1) x) as [w|] eqn:Ew; [eauto|]. apply nth_error_None in Ew. lia. }
            destruct Hx1 as [w Hw]. pose proof (exec_keeps_var A reg funs restricted funs_typed s d1 d x w W1 Es K3 Hw) as Hw2. rewrite Hx in Hw2. inversion Hw2; subst w. apply (I2 x v Hw).
            exists p1, ys, l3, d2. auto.
    Qed.
    Lemma members : forall p d g, happen_all p d0 no_members = inr (d, g) -> run (statements p) d0 = inr d /\
      forall x v, nth_error (d_vars d) x = Some v ->
      (is_element g v = true <-> added_since p d0 x) /\
      forall d' v', finish A funs d = Accepted A d' -> nth_error (d_vars d') x = Some v' -> is_element g v' = is_element g v.
    Proof.
      intros p d g E. split; [eapply happen_all_run; eauto|]. intros x v Hx. split; [rewrite is_element_in; apply (proj2 (members_all p d g E)); exact Hx|].
      intros d' v' F Hx'. destruct (run_wf _ _ _ E) as [_ W]. destruct (accepted_spec A funs d W d' F) as [_ [_ [_ [_ [_ [_ [_ [_ [V _]]]]]]]]].
      destruct (V x v Hx) as [w [Hw _]]. rewrite Hx' in Hw. inversion Hw; subst v'. reflexivity.
    Qed.
  End Run.
  Lemma has_elements_cases : forall g ids,
    (g = no_members -> has_elements g ids = Some (match ids with [] => true | _ => false end, ids)) /\ (g <> no_members -> has_elements g ids = None).
  Proof. intros [|i g] ids; cbn; split; intros H; try reflexivity; try discriminate. elim H. reflexivity. Qed.
End Members.
