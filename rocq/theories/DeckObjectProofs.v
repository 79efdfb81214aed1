(** The objects made for the blocks of a deck, and the classes allowed in a block. *)
From Coq Require Import ZArith List Bool String Ascii Lia Arith.
From Verif Require Import ScanModel ParseModel ExprModel ExprSyntax ExprSpec ExprProofs DepModel DeckModel DeckSyntax DeckMeaning DeckSpec DeckInvProofs DeckBraceProofs DeckEffectProofs.
Import ListNotations.
Local Open Scope nat_scope.

Notation onode := (string * string * option nat)%type.

Section Objects.
  Variable A : arith.
  Variable reg : string -> option fsig.
  Variable funs : fsig -> list (value A) -> result (value A).
  Variable restricted : bool.
  Hypothesis funs_typed : typed_functions A funs.
  Notation deck := (deck A).
  Variable classes : list (string * class A).
  Hypothesis once : NoDup (map fst classes).
  Hypothesis typed : typed_classes A classes.

  (** The registered classes are the given ones and others without children or implementation. *)
  Definition classes_of (d : deck) : Prop :=
    (forall n c, sfind classes n = Some c -> sfind (d_classes d) n = Some c) /\
    (forall n c, sfind (d_classes d) n = Some c -> sfind classes n = Some c \/ (sfind classes n = None /\ c = mkClass A [] None)).
  Lemma implemented_spec : forall n, implemented A classes n <-> exists c l, sfind classes n = Some c /\ c_impl A c = Some l.
  Proof.
    intros n. split; intros [c [l [H1 H2]]]; exists c, l; split; auto. apply in_sfind; auto. apply sfind_in. exact H1.
  Qed.

  Definition same_tree (d d' : deck) : Prop :=
    d_cursor d' = d_cursor d /\ d_objs d' = d_objs d /\ d_root d' = d_root d /\ d_cur d' = d_cur d /\ d_depth d' = d_depth d.
  Lemma add_params_tree : forall b l d ps, same_tree d (fst (add_params A b d l ps)) /\ d_classes (fst (add_params A b d l ps)) = d_classes d /\
    forall i blk, nth_error (d_blocks (fst (add_params A b d l ps))) i = Some blk -> exists blk', nth_error (d_blocks d) i = Some blk' /\ b_name blk' = b_name blk /\ b_class blk' = b_class blk /\ b_parent blk' = b_parent blk.
  Proof.
    intros b. induction l as [|[n k] l IH]; intros d ps; cbn [add_params]; [repeat split; eauto|].
    destruct (add_param A b d (n, k)) as [d1 np] eqn:E. specialize (IH d1 (sput ps (fst np) (snd np))). destruct IH as [I1 [I2 I3]].
    assert (B : same_tree d d1 /\ d_classes d1 = d_classes d /\ forall i blk, nth_error (d_blocks d1) i = Some blk -> exists blk', nth_error (d_blocks d) i = Some blk' /\ b_name blk' = b_name blk /\ b_class blk' = b_class blk /\ b_parent blk' = b_parent blk).
    { cbn [add_param] in E. inversion E; subst d1 np; clear. split; [repeat split|]. split; [reflexivity|]. cbn. intros i blk. unfold block_add.
      destruct (nth_error (d_blocks d) b) as [ob|] eqn:Eo; [|eauto]. destruct (sfind (b_vars ob) n); [eauto|]. rewrite nth_update. destruct (Nat.eqb_spec i b) as [->|]; [|eauto].
      destruct (Nat.ltb_spec b (List.length (d_blocks d))) as [Hlt|Hge]; [|rewrite Eo; intros Q; inversion Q; subst; eauto]. intros Q; inversion Q; subst. eauto. }
    destruct B as [B1 [B2 B3]]. split; [unfold same_tree in *; intuition congruence|]. split; [congruence|].
    intros i blk H. destruct (I3 i blk H) as [b1 [E1 [Q1 [Q2 Q3]]]]. destruct (B3 i b1 E1) as [b2 [E2 [R1 [R2 R3]]]]. exists b2. repeat split; congruence.
  Qed.

  Lemma sfind_sput_new : forall {X} (m : list (string * X)) k x k', sfind m k = None -> sfind (sput m k x) k' = if String.eqb k' k then Some x else sfind m k'.
  Proof.
    intros X m k x k'. induction m as [|[q y] l IH]; cbn; intros E; [reflexivity|].
    destruct (String.eqb_spec k q) as [->|Hk]; [discriminate|]. destruct (String.compare k q) eqn:Ec.
    - apply String.compare_eq_iff in Ec. contradiction.
    - cbn. reflexivity.
    - cbn. rewrite (IH E). destruct (String.eqb_spec k' q) as [->|]; [|reflexivity]. destruct (String.eqb_spec q k); [congruence|reflexivity].
  Qed.
  Lemma get_class_spec : forall d cls, classes_of d -> classes_of (snd (get_class A d cls)) /\ same_tree d (snd (get_class A d cls)) /\ d_blocks (snd (get_class A d cls)) = d_blocks d /\
    ((implemented A classes cls /\ exists l, c_impl A (fst (get_class A d cls)) = Some l) \/ (~ implemented A classes cls /\ c_impl A (fst (get_class A d cls)) = None)).
  Proof.
    intros d cls [C1 C2]. rewrite implemented_spec. unfold get_class. destruct (sfind (d_classes d) cls) as [c|] eqn:E; cbn [fst snd].
    - split; [split; assumption|]. split; [repeat split|]. split; [reflexivity|]. destruct (C2 _ _ E) as [Q|[Q ->]].
      + destruct (c_impl A c) as [l|] eqn:Ei; [left; eauto 8|right]. split; [|reflexivity]. intros [c' [l [Q1 Q2]]]. congruence.
      + right. split; [|reflexivity]. intros [c' [l [Q1 Q2]]]. congruence.
    - assert (N : sfind classes cls = None) by (destruct (sfind classes cls) eqn:Q; [apply C1 in Q; congruence|reflexivity]).
      split; [|split; [repeat split|split; [reflexivity|]]].
      + split; intros n c; cbn [d_classes set_classes]; rewrite sfind_sput_new by exact E; destruct (String.eqb_spec n cls) as [->|]; auto; try congruence.
        intros Q. inversion Q. auto.
      + right. split; [|reflexivity]. intros [c [l [Q1 Q2]]]. congruence.
  Qed.

  (** ** The shape of the objects *)
  Definition onodes (objs : list bobj) (ns : list onode) : Prop :=
    List.length objs = List.length ns /\
    forall i o, nth_error objs i = Some o -> nth_error ns i = Some (o_name o, o_class o, o_parent o) /\ o_children o = inside ns i.
  Fixpoint enc (st : list (option nat)) : list nat :=
    match st with
    | [] => []
    | Some _ :: st' => 0 :: enc st'
    | None :: st' => match enc st' with [] => [] | n :: l => S n :: l end
    end.
  Fixpoint stack_ok (ns : list onode) (st : list (option nat)) : Prop :=
    match st with
    | [] => True
    | Some o :: st' => (exists q, nth_error ns o = Some (q, innermost st')) /\ stack_ok ns st'
    | None :: st' => stack_ok ns st'
    end.
  Definition parents_lt (ns : list onode) : Prop := forall j q k, nth_error ns j = Some (q, Some k) -> k < j.
  Definition ctx (bs : list bvar) (objs : list bobj) : Prop :=
    (forall i o, nth_error objs i = Some o -> exists blk, nth_error bs (o_vars o) = Some blk /\ b_name blk = o_name o /\ b_class blk = o_class o) /\
    NoDup (map o_vars objs).
  Record inv (d : deck) (st : list (option nat)) (ns : list onode) : Prop := {
    i_classes : classes_of d;
    i_shape : onodes (d_objs d) ns;
    i_depth : d_depth d = enc st;
    i_cur : d_cur d = innermost st;
    i_root : d_root d = match ns with [] => None | _ => Some 0 end;
    i_stack : stack_ok ns st;
    i_lt : parents_lt ns;
    i_ctx : ctx (d_blocks d) (d_objs d)
  }.
  Lemma innermost_lt : forall ns st o, stack_ok ns st -> innermost st = Some o -> o < List.length ns.
  Proof.
    intros ns. induction st as [|[c|] st IH]; intros o H E; cbn in *; [discriminate| |auto]. inversion E; subst. destruct H as [[q H] _]. eapply nth_lt; eauto.
  Qed.
  Lemma stack_snoc : forall ns n st, stack_ok ns st -> stack_ok (ns ++ [n]) st.
  Proof.
    intros ns n. induction st as [|[c|] st IH]; cbn; auto. intros [[q H] K]. split; [|auto]. exists q. rewrite nth_error_app1; [exact H|eapply nth_lt; eauto].
  Qed.
  Lemma filter_ext_in' : forall {X} (f g : X -> bool) l, (forall x, In x l -> f x = g x) -> filter f l = filter g l.
  Proof. intros X f g l H. induction l as [|x l IH]; [reflexivity|]. cbn. rewrite H by (left; reflexivity). rewrite IH by (intros; apply H; right; assumption). reflexivity. Qed.
  Lemma inside_snoc : forall ns q p i, inside (ns ++ [(q, p)]) i = inside ns i ++ (match p with Some k => if Nat.eqb k i then [List.length ns] else [] | None => [] end).
  Proof.
    intros ns q p i. unfold inside. rewrite app_length. cbn [List.length]. rewrite seq_app, filter_app. f_equal.
    - apply filter_ext_in'. intros j Hj. apply in_seq in Hj. rewrite nth_error_app1 by lia. reflexivity.
    - cbn. rewrite nth_error_app2, Nat.sub_diag by lia. cbn. destruct p as [k|]; [destruct (Nat.eqb k i)|]; reflexivity.
  Qed.
  Lemma inside_none : forall ns i, parents_lt ns -> List.length ns <= i -> inside ns i = [].
  Proof.
    intros ns i H L. unfold inside. assert (K : forall l, (forall j, In j l -> j < List.length ns) -> filter (fun j => match nth_error ns j with Some (_, Some k) => Nat.eqb k i | _ => false end) l = []).
    { induction l as [|j l IH]; intros Hj; [reflexivity|]. cbn. rewrite IH by (intros; apply Hj; right; assumption). destruct (nth_error ns j) as [[q [k|]]|] eqn:E; try reflexivity.
      specialize (H j q k E). specialize (Hj j (or_introl eq_refl)). destruct (Nat.eqb_spec k i); [lia|reflexivity]. }
    apply K. intros j Hj. apply in_seq in Hj. lia.
  Qed.

  Lemma ctx_blocks : forall bs bs' objs, blocks_grow bs bs' -> ctx bs objs -> ctx bs' objs.
  Proof.
    intros bs bs' objs G [H N]. split; [|exact N]. intros i o E. destruct (H i o E) as [blk [Eb [Q1 Q2]]]. destruct (G _ _ Eb) as [blk' [E' [R1 [R2 _]]]]. exists blk'. repeat split; congruence.
  Qed.

  Lemma make_object_inv : forall d st ns name cls blk, wf A d -> inv d st ns -> nth_error (d_blocks d) (d_cursor d) = Some blk -> b_name blk = name -> b_class blk = cls ->
    (forall o, In o (d_objs d) -> o_vars o <> d_cursor d) ->
    (implemented A classes cls -> inv (make_object A d name cls) (Some (List.length ns) :: st) (ns ++ [((name, cls), innermost st)])) /\
    (~ implemented A classes cls -> inv (make_object A d name cls) (None :: st) ns).
  Proof.
    intros d st ns name cls blk W I Eb Hn Hc Fresh. destruct I as [Cl [Sh1 Sh2] De Cu Ro St Lt Cx].
    pose proof (make_object_keeps A d name cls W) as [_ [Gr _]].
    destruct (get_class_spec d cls Cl) as [Cl1 [Tr1 [Bl1 Im]]].
    destruct Im as [[Im [l El]]|[Im El]]; (split; intros Hi; [try contradiction|try contradiction]).
    - unfold make_object in *. destruct (get_class A d cls) as [c d1]. cbn [fst snd] in *. rewrite El in *.
      pose proof (add_params_tree (d_cursor d1) l d1 []) as [Tr2 [Cl2 _]]. destruct (add_params A (d_cursor d1) d1 l []) as [d2 ps]. cbn [fst] in *.
      assert (Tr : same_tree d d2) by (unfold same_tree in *; intuition congruence). destruct Tr as [T1 [T2 [T3 [T4 T5]]]].
      assert (T0 : d_cursor d1 = d_cursor d) by (apply Tr1). clear Tr1 Tr2.
      unfold tree_add in *. cbn [d_cur d_objs d_root d_depth set_tree] in *. set (new := mkObj name cls (d_cursor d1) None [] ps) in *.
      rewrite T2, T3, T4, T5, Cu, De, Ro in *. rewrite !nth_error_app2, Nat.sub_diag in * by lia. cbn [nth_error] in *.
      set (objs' := match innermost st with Some c0 => _ | None => _ end).
      assert (O : onodes objs' (ns ++ [((name, cls), innermost st)]) /\ map o_vars objs' = map o_vars (d_objs d) ++ [d_cursor d] /\ map o_name objs' = map o_name (d_objs d) ++ [name] /\ map o_class objs' = map o_class (d_objs d) ++ [cls]).
      { subst objs'. destruct (innermost st) as [c0|] eqn:Ei.
        - pose proof (innermost_lt ns st c0 St Ei) as Hlt. rewrite nth_error_app1 by lia. destruct (nth_error (d_objs d) c0) as [oc|] eqn:Eo; [|apply nth_error_None in Eo; lia].
          assert (Mp : forall {X} (f : bobj -> X) oc', f oc' = f oc -> map f (update_nth (update_nth (d_objs d ++ [new]) c0 oc') (List.length (d_objs d)) (mkObj name cls (d_cursor d1) (Some c0) [] ps)) = map f (d_objs d) ++ [f (mkObj name cls (d_cursor d1) (Some c0) [] ps)]).
          { clear - Eo. intros X f oc' Hf. generalize (mkObj name cls (d_cursor d1) (Some c0) [] ps) as z. intros z. revert c0 Eo. induction (d_objs d) as [|x l0 IH]; intros c0 Eo; [destruct c0; discriminate|]. destruct c0 as [|c0]; cbn in *.
            - inversion Eo; subst. rewrite Hf. f_equal. clear. induction l0 as [|y l1 IH1]; [reflexivity|]. cbn. f_equal. exact IH1.
            - f_equal. apply IH. exact Eo. }
          split; [|repeat split; rewrite Mp; cbn; rewrite ?T0; reflexivity].
          split; [rewrite !length_update, !app_length; cbn; lia|]. intros i o. rewrite nth_update. destruct (Nat.eqb_spec i (List.length (d_objs d))) as [->|Hi'].
          + rewrite length_update, app_length. cbn [List.length]. destruct (Nat.ltb_spec (List.length (d_objs d)) (List.length (d_objs d) + 1)); [|lia]. intros Q. inversion Q; subst o. cbn.
            rewrite Sh1. rewrite nth_error_app2, Nat.sub_diag by lia. split; [reflexivity|]. rewrite inside_snoc, inside_none by (auto; lia). destruct (Nat.eqb_spec c0 (List.length ns)); [lia|reflexivity].
          + rewrite nth_update. rewrite app_length. cbn [List.length]. destruct (Nat.eqb_spec i c0) as [->|Hic].
            * destruct (Nat.ltb_spec c0 (List.length (d_objs d) + 1)); [|lia]. intros Q. inversion Q; subst o. cbn. destruct (Sh2 c0 oc Eo) as [S1 S2].
              rewrite nth_error_app1 by lia. split; [exact S1|]. rewrite inside_snoc, S2, Nat.eqb_refl, Sh1. reflexivity.
            * intros Q. assert (i < List.length (d_objs d)). { apply nth_lt in Q. rewrite app_length in Q. cbn in Q. lia. }
              rewrite nth_error_app1 in Q by lia. destruct (Sh2 i o Q) as [S1 S2]. rewrite nth_error_app1 by lia. split; [exact S1|]. rewrite inside_snoc. destruct (Nat.eqb_spec c0 i); [congruence|]. rewrite app_nil_r. exact S2.
        - split; [|repeat split; rewrite map_app; cbn; rewrite ?T0; reflexivity]. split; [rewrite !app_length; cbn; lia|]. intros i o Q. rewrite nth_snoc in Q. destruct (Nat.eqb_spec i (List.length (d_objs d))) as [->|Hi'].
          + inversion Q; subst o. cbn. rewrite Sh1. rewrite nth_error_app2, Nat.sub_diag by lia. split; [reflexivity|]. rewrite inside_snoc, inside_none by (auto; lia). reflexivity.
          + destruct (Sh2 i o Q) as [S1 S2]. rewrite nth_error_app1 by (eapply nth_lt; eauto). split; [exact S1|]. rewrite inside_snoc, app_nil_r. exact S2. }
      destruct O as [O1 [O2 [O3 O4]]]. constructor; cbn [d_classes d_objs d_depth d_cur d_root d_blocks set_tree].
      + unfold classes_of in *. cbn [d_classes set_tree]. rewrite Cl2. exact Cl1.
      + exact O1.
      + cbn. reflexivity.
      + cbn. rewrite Sh1. reflexivity.
      + destruct ns; cbn; [rewrite Sh1; reflexivity|reflexivity].
      + cbn. split; [|apply stack_snoc; exact St]. exists (name, cls). rewrite nth_error_app2, Nat.sub_diag by lia. reflexivity.
      + intros j q k. rewrite nth_snoc. destruct (Nat.eqb_spec j (List.length ns)) as [->|]; [|apply Lt]. intros Q. inversion Q; subst. eapply innermost_lt; eauto.
      + apply ctx_blocks with (bs' := d_blocks d2) in Cx; [|apply Gr]. destruct Cx as [X1 X2]. destruct (gr_b A _ _ Gr _ _ Eb) as [blk2 [Eb2 [Q1 [Q2 _]]]]. cbn [d_blocks set_tree] in Eb2. split.
        * intros i o Q. assert (G : forall {Y} (f : bobj -> Y) y, map f objs' = map f (d_objs d) ++ [y] -> (i = List.length (d_objs d) -> f o = y) /\ (i <> List.length (d_objs d) -> exists o', nth_error (d_objs d) i = Some o' /\ f o' = f o)).
          { intros Y f y Hf. assert (M : nth_error (map f objs') i = Some (f o)) by (rewrite nth_error_map, Q; reflexivity). rewrite Hf, nth_snoc, map_length in M. split.
            - intros ->. rewrite Nat.eqb_refl in M. congruence.
            - intros Hne. destruct (Nat.eqb_spec i (List.length (d_objs d))); [contradiction|]. rewrite nth_error_map in M. destruct (nth_error (d_objs d) i) as [o'|]; [|discriminate]. exists o'. split; [reflexivity|]. cbn in M. congruence. }
          destruct (Nat.eq_dec i (List.length (d_objs d))) as [Hi'|Hi'].
          -- rewrite (proj1 (G _ _ _ O2) Hi'), (proj1 (G _ _ _ O3) Hi'), (proj1 (G _ _ _ O4) Hi'). exists blk2. repeat split; congruence.
          -- destruct (proj2 (G _ _ _ O2) Hi') as [o' [E' V1]]. destruct (proj2 (G _ _ _ O3) Hi') as [o'' [E'' V2]]. destruct (proj2 (G _ _ _ O4) Hi') as [o3 [E3 V3]].
             assert (o'' = o') by congruence. assert (o3 = o') by congruence. subst. rewrite <- V1, <- V2, <- V3. apply (X1 i o' E').
        * rewrite O2. apply DeckFinishProofs.NoDup_app_intro; [exact X2|constructor; [intros []|constructor]|]. intros x Hx [<-|[]]. apply in_map_iff in Hx. destruct Hx as [o [Q Ho]]. apply (Fresh o Ho Q).
    - unfold make_object in *. destruct (get_class A d cls) as [c d1]. cbn [fst snd] in *. rewrite El in *. destruct Tr1 as [T1 [T2 [T3 [T4 T5]]]].
      unfold tree_down. constructor; cbn [d_classes d_objs d_depth d_cur d_root d_blocks set_tree].
      + exact Cl1.
      + rewrite T2. split; assumption.
      + rewrite T5, De. reflexivity.
      + rewrite T4. exact Cu.
      + rewrite T3. exact Ro.
      + exact St.
      + exact Lt.
      + rewrite Bl1, T2. exact Cx.
  Qed.

  Lemma inv_same : forall d d' st ns, same_rest A d d' -> blocks_grow (d_blocks d) (d_blocks d') -> inv d st ns -> inv d' st ns.
  Proof.
    intros d d' st ns [S1 [S2 [S3 [S4 [S5 [S6 S7]]]]]] G [Cl Sh De Cu Ro St Lt Cx]. constructor; rewrite ?S2, ?S3, ?S4, ?S5; auto.
    - unfold classes_of. rewrite S6. exact Cl.
    - eapply ctx_blocks; eauto.
  Qed.

  Lemma create_block_rest : forall d name cls d', create_block A d name cls = Some d' ->
    d_objs d' = d_objs d /\ d_root d' = d_root d /\ d_cur d' = d_cur d /\ d_depth d' = d_depth d /\ d_classes d' = d_classes d /\ d_mem d' = d_mem d.
  Proof.
    intros d name cls d' E. unfold create_block in E. destruct (nth_error (d_blocks d) (d_cursor d)) as [blk|]; [|discriminate]. destruct (sfind (b_children blk) name); [discriminate|]. inversion E; subst. repeat split.
  Qed.

  Lemma exec_inv : forall s d d' st ns p root rootclass, wf A d -> inv d st ns -> (exists k, depth A d k /\ List.length st = S k) -> nesting A classes root rootclass p st ns ->
    exec A reg funs restricted s d = inr d' ->
    exists st' ns', nesting A classes root rootclass (p ++ [s]) st' ns' /\ inv d' st' ns' /\ exists k, depth A d' k /\ List.length st' = S k.
  Proof.
    intros s d d' st ns p root rootclass W I [k [Dk Lk]] N E.
    pose proof (exec_keeps A reg funs restricted funs_typed s d d' W E) as [W' G].
    destruct (exec_depth A reg funs restricted funs_typed s d d' k W E Dk) as [k' [L' D']].
    destruct s as [t x rest|name e|file|c n|]; cbn [level] in L'.
    - inversion L'; subst k'. exists st, ns. split; [apply n_other; auto|]. split; [|eauto]. eapply inv_same; [|apply G|exact I].
      cbn [exec] in E. destruct (expressions A reg d (x :: rest)) as [f|r] eqn:El; [discriminate|]. cbn [bind] in E.
      destruct (declare_all_effect A reg funs funs_typed t (rev r) d d' W) as [new [_ [_ [_ [H4 _]]]]]; [apply Forall_rev; eapply expressions_good; eauto|exact E|exact H4].
    - inversion L'; subst k'. exists st, ns. split; [apply n_other; auto|]. split; [|eauto]. eapply inv_same; [|apply G|exact I].
      cbn [exec] in E. destruct (expression A reg d e) as [f|a]; [discriminate|]. cbn [bind] in E. unfold assign in E. destruct (get_variable _ _ _); [|discriminate].
      destruct (if v_fixed _ then _ else _) as [t|]; [|discriminate]. destruct (content _ _ _ _); [discriminate|]. cbn [bind] in E. destruct (negb _); [discriminate|]. destruct (v_ro _); [discriminate|]. inversion E; subst. repeat split.
    - inversion L'; subst k'. exists st, ns. split; [apply n_other; auto|]. split; [|eauto]. cbn in E. inversion E; subst. exact I.
    - inversion L'; subst k'. assert (Eo : open_block A restricted d c (block_name c n) = inr d') by (destruct n; exact E). clear E.
      assert (Ec : exists d1, create_block A d (block_name c n) c = Some d1 /\ d' = make_object A d1 (block_name c n) c).
      { unfold open_block in Eo. destruct (nth_error (d_blocks d) (d_cursor d)) as [cur|]; [|discriminate].
        assert (Hgo : match create_block A d (block_name c n) c with None => inl (error DuplicateBlock) | Some d' => inr (make_object A d' (block_name c n) c) end = inr d').
        { destruct restricted; [|exact Eo]. destruct (has_child A d (b_class cur) c) as [[|]|]; try discriminate. exact Eo. }
        destruct (create_block A d (block_name c n) c) as [d1|]; [|discriminate]. inversion Hgo. eauto. }
      destruct Ec as [d1 [Ec ->]]. destruct (create_block_spec A d _ _ d1 W Ec) as [W1 [G1 [C1 [r [R1 R2]]]]]. destruct (create_block_rest _ _ _ _ Ec) as [T1 [T2 [T3 [T4 [T5 _]]]]].
      assert (I1 : inv d1 st ns).
      { destruct I as [Cl Sh De Cu Ro St Lt Cx]. constructor; rewrite ?T1, ?T2, ?T3, ?T4; auto; [unfold classes_of; rewrite T5; exact Cl|]. eapply ctx_blocks; [apply G1|exact Cx]. }
      assert (Fr : forall o, In o (d_objs d1) -> o_vars o <> d_cursor d1).
      { rewrite T1, C1. intros o Ho Q. apply In_nth_error in Ho. destruct Ho as [i Ho]. destruct (proj1 (i_ctx _ _ _ I) i o Ho) as [blk [Hb _]]. apply nth_lt in Hb. lia. }
      destruct (make_object_inv d1 st ns (block_name c n) c r W1 I1 R1 ltac:(rewrite R2; reflexivity) ltac:(rewrite R2; reflexivity) Fr) as [M1 M2].
      assert (Dec : implemented A classes c \/ ~ implemented A classes c).
      { rewrite implemented_spec. destruct (sfind classes c) as [cl|] eqn:Es; [|right; intros [? [? [Q _]]]; discriminate]. destruct (c_impl A cl) as [l|] eqn:Ei; [left; eauto|right; intros [? [? [Q1 Q2]]]; congruence]. }
      destruct Dec as [Hi|Hi].
      + exists (Some (List.length ns) :: st), (ns ++ [((block_name c n, c), innermost st)]). split; [apply n_open; auto|]. split; [auto|]. exists (S k). split; [exact D'|cbn; congruence].
      + exists (None :: st), ns. split; [apply n_plain; auto|]. split; [auto|]. exists (S k). split; [exact D'|cbn; congruence].
    - destruct k as [|k]; [discriminate|]. inversion L'; subst k'. destruct st as [|o st]; [discriminate|]. cbn in Lk. exists st, ns. split; [destruct st; [discriminate|]; eapply n_close; exact N|]. split; [|exists k; split; [exact D'|congruence]].
      cbn [exec] in E. unfold close_block in E. destruct (nth_error (d_blocks d) (d_cursor d)) as [cur|]; [|discriminate]. destruct (b_parent cur) as [b|]; [|discriminate].
      destruct I as [Cl Sh De Cu Ro St Lt Cx]. unfold tree_up in E. cbn [d_depth d_cur d_objs d_root set_blocks] in E. rewrite De, Cu in E. destruct o as [o|]; cbn [enc innermost stack_ok] in *.
      + destruct (nth_error (d_objs d) o) as [oc|] eqn:Eo; [|discriminate]. inversion E; subst; clear E. constructor; cbn [d_depth d_cur d_objs d_root d_blocks d_classes set_blocks set_tree]; auto; try tauto.
        destruct St as [[q St] _]. destruct (proj2 Sh o oc Eo) as [S1 _]. congruence.
      + destruct (enc st) as [|m l] eqn:Ee; inversion E; subst; clear E; constructor; cbn [d_depth d_cur d_objs d_root d_blocks d_classes set_blocks set_tree]; auto; congruence.
  Qed.

  Lemma run_inv : forall q d d' st ns p root rootclass, wf A d -> inv d st ns -> (exists k, depth A d k /\ List.length st = S k) -> nesting A classes root rootclass p st ns ->
    run A reg funs restricted q d = inr d' ->
    exists st' ns', nesting A classes root rootclass (p ++ q) st' ns' /\ inv d' st' ns'.
  Proof.
    induction q as [|s q IH]; intros d d' st ns p root rootclass W I K N E; cbn [run] in E.
    - inversion E; subst. exists st, ns. rewrite app_nil_r. auto.
    - destruct (exec A reg funs restricted s d) as [f|d1] eqn:E1; [discriminate|]. cbn [bind] in E. destruct (exec_inv s d d1 st ns p root rootclass W I K N E1) as [st1 [ns1 [N1 [I1 K1]]]].
      destruct (IH d1 d' st1 ns1 (p ++ [s]) root rootclass) as [st2 [ns2 [N2 I2]]]; auto; [eapply exec_keeps; eauto|]. rewrite <- app_assoc in N2. eauto.
  Qed.

  Lemma start_inv : forall root rootclass, exists st ns, nesting A classes root rootclass [] st ns /\ inv (start A (new_deck A root rootclass classes)) st ns /\ List.length st = 1.
  Proof.
    intros root rootclass. unfold start. set (d0 := set_tree A (new_deck A root rootclass classes) (d_objs (new_deck A root rootclass classes)) None None []).
    change (nth_error (d_blocks d0) 0) with (Some (mkBlock root rootclass None [] [])). cbn [b_name b_class].
    assert (W : wf A d0) by (apply wf_tree; apply wf_new; apply typed_classes_ok; exact typed).
    assert (I : inv d0 [] []).
    { constructor; try reflexivity; try exact I.
      - split; auto.
      - split; [reflexivity|]. intros [|i] o Q; discriminate.
      - intros [|j] q k Q; discriminate.
      - split; [intros [|i] o Q; discriminate|constructor]. }
    destruct (make_object_inv d0 [] [] root rootclass (mkBlock root rootclass None [] []) W I eq_refl eq_refl eq_refl ltac:(intros o [])) as [M1 M2].
    assert (Dec : implemented A classes rootclass \/ ~ implemented A classes rootclass).
    { rewrite implemented_spec. destruct (sfind classes rootclass) as [cl|] eqn:Es; [|right; intros [? [? [Q _]]]; discriminate]. destruct (c_impl A cl) as [l|] eqn:Ei; [left; eauto|right; intros [? [? [Q1 Q2]]]; congruence]. }
    destruct Dec as [Hi|Hi].
    - exists [Some 0], [((root, rootclass), None)]. split; [apply n_root; exact Hi|]. split; [apply (M1 Hi)|reflexivity].
    - exists [None], []. split; [apply n_no_root; exact Hi|]. split; [apply (M2 Hi)|reflexivity].
  Qed.

  Lemma objects : forall root rootclass p d, run A reg funs restricted p (start A (new_deck A root rootclass classes)) = inr d ->
    exists st ns, nesting A classes root rootclass p st ns /\ inv d st ns.
  Proof.
    intros root rootclass p d E. destruct (start_inv root rootclass) as [st [ns [N [I L]]]]. pose proof (new_depth A root rootclass classes) as D.
    assert (W : wf A (start A (new_deck A root rootclass classes))) by (apply start_keeps; apply wf_new; apply typed_classes_ok; exact typed).
    destruct (run_inv p _ d st ns [] root rootclass W I) as [st' [ns' [N' I']]]; eauto.
  Qed.

  (** With an implementation of the root class, every object can be reached from the root. *)
  Lemma innermost_app : forall st, innermost (st ++ [Some 0]) <> None.
  Proof. induction st as [|[o|] st IH]; cbn; [discriminate|discriminate|exact IH]. Qed.
  Lemma nesting_rooted : forall root rootclass p st ns, nesting A classes root rootclass p st ns -> implemented A classes rootclass ->
    (exists st', st = st' ++ [Some 0]) /\ (forall j q, nth_error ns j = Some (q, None) -> j = 0).
  Proof.
    intros root rootclass p st ns N R. induction N as [_|N|p st ns c n _ [[st' ->] IH] _|p st ns c n _ [[st' ->] IH] _|p o o' st ns _ [[st' E] IH]|p st ns s _ IH _].
    - split; [exists []; reflexivity|]. intros [|[|j]] q E; [reflexivity|discriminate|discriminate].
    - contradiction.
    - split; [exists (Some (List.length ns) :: st'); reflexivity|]. intros j q. rewrite nth_snoc. destruct (Nat.eqb_spec j (List.length ns)) as [->|]; [|apply IH]. intros E. inversion E. exfalso. eapply innermost_app; eauto.
    - split; [exists (None :: st'); reflexivity|exact IH].
    - split; [|exact IH]. destruct st' as [|x [|y st']]; inversion E; subst; [exists []; reflexivity|exists (y :: st'); reflexivity].
    - exact IH.
  Qed.
  Lemma all_reachable : forall root rootclass p d, run A reg funs restricted p (start A (new_deck A root rootclass classes)) = inr d -> implemented A classes rootclass ->
    d_root d = Some 0 /\ forall j, j < List.length (d_objs d) -> reachable A d 0 j.
  Proof.
    intros root rootclass p d E R. destruct (objects root rootclass p d E) as [st [ns [N I]]]. destruct (nesting_rooted _ _ _ _ _ N R) as [[st' ->] T].
    destruct I as [Cl [Sh1 Sh2] De Cu Ro St Lt Cx]. split.
    - rewrite Ro. destruct ns; [|reflexivity]. exfalso. clear - St. induction st' as [|[o|] st' IH]; cbn in St; [|destruct St as [_ St]; auto|auto]. destruct St as [[q St] _]. discriminate.
    - intros j. induction j as [j IH] using lt_wf_ind. intros Hj. destruct (nth_error (d_objs d) j) as [o|] eqn:Eo; [|apply nth_error_None in Eo; lia]. destruct (Sh2 j o Eo) as [S1 _].
      destruct (o_parent o) as [k|] eqn:Ek.
      + pose proof (Lt _ _ _ S1) as Hk. destruct (nth_error (d_objs d) k) as [ok|] eqn:Eok; [|apply nth_error_None in Eok; lia]. eapply r_child; [apply (IH k Hk); lia|exact Eok|]. destruct (Sh2 k ok Eok) as [_ ->].
        unfold inside. apply filter_In. split; [apply in_seq; lia|]. rewrite S1. apply Nat.eqb_refl.
      + rewrite (T j _ S1). constructor.
  Qed.

  (** ** Restricted blocks *)
  Lemma declare_all_length : forall t l d d', wf A d -> Forall (good_init A d) l -> declare_all A funs t d l = inr d' -> List.length (d_blocks d') = List.length (d_blocks d).
  Proof.
    induction l as [|x l IH]; intros d d' W G E; cbn [declare_all] in E; [inversion E; reflexivity|]. destruct (declare A funs t d x) as [f|d1] eqn:E1; [discriminate|]. cbn [bind] in E. inversion G as [|? ? G1 G2]; subst.
    destruct x as [n [e|]]; [|discriminate]. destruct (declare_keeps A funs funs_typed t d n e d1 W G1 E1) as [W1 [Gr _]]. rewrite (IH d1 d' W1); [|eapply Forall_impl; [|exact G2]; intros [m [e'|]] K; [eapply good_expr_mono; [apply Gr|apply Gr|exact K]|exact I]|exact E].
    unfold declare in E1. cbn [snd fst] in E1. destruct (content A funs d e); [discriminate|]. cbn [bind] in E1. destruct (ty_eqb _ _); [|discriminate]. destruct (block_add _ _ _ _) as [bs|] eqn:Eb; [|discriminate]. inversion E1; subst. cbn. 
    eapply block_add_spec; [apply W|exact Eb].
  Qed.
  Definition allowed (bs : list bvar) : Prop := forall i blk p pb, nth_error bs i = Some blk -> b_parent blk = Some p -> nth_error bs p = Some pb ->
    exists c, In (b_class pb, c) classes /\ In (b_class blk) (c_allowed A c).
  Lemma allowed_grow : forall bs bs', blocks_grow bs bs' -> List.length bs' = List.length bs -> allowed bs -> allowed bs'.
  Proof.
    intros bs bs' G L H i blk p pb E1 E2 E3. assert (K : forall j b, nth_error bs' j = Some b -> exists b0, nth_error bs j = Some b0 /\ b_class b = b_class b0 /\ b_parent b = b_parent b0).
    { intros j b E. destruct (nth_error bs j) as [b0|] eqn:E0; [|apply nth_lt in E; apply nth_error_None in E0; lia]. destruct (G j b0 E0) as [b1 [Q1 [_ [Q2 [Q3 _]]]]]. exists b0. assert (b1 = b) by congruence. subst b1. auto. }
    destruct (K i blk E1) as [b0 [K1 [K2 K3]]]. destruct (K p pb E3) as [p0 [K4 [K5 K6]]]. rewrite K2, K5. eapply H; [exact K1| |exact K4]. congruence.
  Qed.
  Lemma exec_allowed : restricted = true -> forall s d d', wf A d -> classes_of d -> allowed (d_blocks d) -> exec A reg funs restricted s d = inr d' -> allowed (d_blocks d').
  Proof.
    intros Hr s d d' W Cl H E. pose proof (exec_keeps A reg funs restricted funs_typed s d d' W E) as [W' G]. destruct s as [t x rest|name e|file|c n|].
    - eapply allowed_grow; [apply G| |exact H]. cbn [exec] in E. destruct (expressions A reg d (x :: rest)) as [f|r] eqn:El; [discriminate|]. cbn [bind] in E. eapply declare_all_length; [exact W| |exact E]. apply Forall_rev. eapply expressions_good; eauto.
    - eapply allowed_grow; [apply G| |exact H]. cbn [exec] in E. destruct (expression A reg d e) as [f|a]; [discriminate|]. cbn [bind] in E. unfold assign in E. destruct (get_variable _ _ _); [|discriminate].
      destruct (if v_fixed _ then _ else _) as [t|]; [|discriminate]. destruct (content _ _ _ _); [discriminate|]. cbn [bind] in E. destruct (negb _); [discriminate|]. destruct (v_ro _); [discriminate|]. inversion E; subst. reflexivity.
    - cbn in E. inversion E; subst. exact H.
    - assert (Eo : open_block A restricted d c (block_name c n) = inr d') by (destruct n; exact E). clear E. unfold open_block in Eo. destruct (nth_error (d_blocks d) (d_cursor d)) as [cur|] eqn:Ecur; [|discriminate]. rewrite Hr in Eo.
      destruct (has_child A d (b_class cur) c) as [[|]|] eqn:Eh; try discriminate. destruct (create_block A d (block_name c n) c) as [d1|] eqn:Ec; [|discriminate]. inversion Eo; subst d'; clear Eo.
      destruct (create_block_spec A d _ _ d1 W Ec) as [W1 [G1 [C1 [r [R1 R2]]]]]. destruct (make_object_keeps A d1 (block_name c n) c W1) as [_ [G2 [_ L2]]].
      eapply allowed_grow; [apply G2|exact L2|]. unfold create_block in Ec. rewrite Ecur in Ec. destruct (sfind (b_children cur) (block_name c n)); [discriminate|]. inversion Ec; subst d1; clear Ec. cbn [d_blocks d_cursor set_blocks] in *.
      assert (Hc : exists cl, In (b_class cur, cl) classes /\ In c (c_allowed A cl)).
      { unfold has_child in Eh. destruct (sfind (d_classes d) (b_class cur)) as [cl|] eqn:Es; [|discriminate]. inversion Eh as [Q]. apply existsb_exists in Q. destruct Q as [c' [Q1 Q2]]. apply String.eqb_eq in Q2. subst c'.
        destruct (proj2 Cl _ _ Es) as [Q|[_ Q]]; [|subst cl; destruct Q1]. exists cl. split; [apply sfind_in; exact Q|exact Q1]. }
      set (bs1 := update_nth (d_blocks d) (d_cursor d) (mkBlock (b_name cur) (b_class cur) (b_parent cur) (b_children cur ++ [(block_name c n, List.length (d_blocks d))]) (b_vars cur))) in *.
      assert (K : forall j b, nth_error (bs1 ++ [mkBlock (block_name c n) c (Some (d_cursor d)) [] []]) j = Some b ->
        (j = List.length (d_blocks d) /\ b_class b = c /\ b_parent b = Some (d_cursor d)) \/ exists b0, nth_error (d_blocks d) j = Some b0 /\ b_class b = b_class b0 /\ b_parent b = b_parent b0).
      { intros j b E. rewrite nth_snoc in E. unfold bs1 in E. rewrite length_update in E. destruct (Nat.eqb_spec j (List.length (d_blocks d))) as [->|]; [inversion E; subst; left; auto|right].
        rewrite nth_update in E. destruct (Nat.eqb_spec j (d_cursor d)) as [->|]; [|exists b; auto]. destruct (Nat.ltb_spec (d_cursor d) (List.length (d_blocks d))); [|discriminate]. inversion E; subst. exists cur. auto. }
      intros i blk p pb E1 E2 E3. destruct (K i blk E1) as [[-> [K1 K2]]|[b0 [K0 [K1 K2]]]].
      + assert (p = d_cursor d) by congruence. subst p. destruct (K _ _ E3) as [[Q _]|[b1 [Q1 [Q2 _]]]]; [pose proof (wf_c A d W); lia|]. assert (b1 = cur) by congruence. subst b1. rewrite K1, Q2. exact Hc.
      + destruct (K _ _ E3) as [[Q _]|[b1 [Q1 [Q2 _]]]].
        * exfalso. pose proof (wb_parent _ _ (wf_b A d W) i b0 K0) as P. rewrite <- K2, E2 in P. destruct P as [P _]. apply nth_lt in K0. lia.
        * rewrite K1, Q2. eapply H; [exact K0| |exact Q1]. congruence.
    - cbn in E. pose proof (close_keeps A d d' W E) as [_ [_ _]]. unfold close_block in E. destruct (nth_error (d_blocks d) (d_cursor d)) as [cur|]; [|discriminate]. destruct (b_parent cur); [|discriminate].
      destruct (tree_up _ _) eqn:Et; [|discriminate]. apply tree_up_same in Et. destruct Et as [r [cu [l ->]]]. inversion E; subst. exact H.
  Qed.
  Lemma run_allowed : restricted = true -> forall q d d' st ns p root rootclass, wf A d -> inv d st ns -> (exists k, depth A d k /\ List.length st = S k) -> nesting A classes root rootclass p st ns -> allowed (d_blocks d) ->
    run A reg funs restricted q d = inr d' -> allowed (d_blocks d').
  Proof.
    intros Hr. induction q as [|s q IH]; intros d d' st ns p root rootclass W I K N H E; cbn [run] in E; [inversion E; subst; exact H|].
    destruct (exec A reg funs restricted s d) as [f|d1] eqn:E1; [discriminate|]. cbn [bind] in E. destruct (exec_inv s d d1 st ns p root rootclass W I K N E1) as [st1 [ns1 [N1 [I1 K1]]]].
    eapply (IH d1 d' st1 ns1); eauto; [eapply exec_keeps; eauto|]. eapply exec_allowed; eauto. apply I.
  Qed.
  Lemma blocks_allowed : restricted = true -> forall root rootclass p d, run A reg funs restricted p (start A (new_deck A root rootclass classes)) = inr d -> allowed (d_blocks d).
  Proof.
    intros Hr root rootclass p d E. destruct (start_inv root rootclass) as [st [ns [N [I L]]]]. pose proof (new_depth A root rootclass classes) as D.
    assert (W0 : wf A (new_deck A root rootclass classes)) by (apply wf_new; apply typed_classes_ok; exact typed).
    destruct (start_keeps A _ W0) as [W [G _]].
    eapply (run_allowed Hr p _ d st ns [] root rootclass W I); eauto.
    eapply allowed_grow with (bs := [mkBlock root rootclass None [] []]); [apply G| |].
    - unfold start. set (d0 := set_tree A (new_deck A root rootclass classes) _ None None []). change (nth_error (d_blocks d0) 0) with (Some (mkBlock root rootclass None [] [])). cbn [b_name b_class].
      apply (make_object_keeps A d0 root rootclass). apply wf_tree. exact W0.
    - intros [|[|i]] blk q pb E1 E2; inversion E1; subst; discriminate.
  Qed.
End Objects.
