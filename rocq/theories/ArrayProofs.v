(** Proofs about arrays and array expressions. *)
From Verif Require Import Vec GridModel GridProofs ShareModel ShareProofs ArrayModel ArraySpec.

Section P.
  Context {F : Type}.
  Variable fo : fops F.

  Lemma conv_same : forall t (v : num F), num_ty v = t -> conv fo t v = v.
  Proof. intros t [z|f] <-; reflexivity. Qed.

  Lemma ty_eqb_refl : forall t, ty_eqb t t = true.
  Proof. intros []; reflexivity. Qed.

  Lemma cpp_op_same : forall op t (a b : num F), num_ty a = t -> num_ty b = t ->
    cpp_op fo op a b = op_apply fo op t a b.
  Proof. intros op t [x|x] [y|y] <- H; simpl in *; try discriminate H; reflexivity. Qed.

  Lemma arith_ty : forall op t (a b v : num F), num_ty a = t -> num_ty b = t ->
    arith fo op a b = Some v -> num_ty v = t.
  Proof.
    intros op t [x|x] [y|y] v <- H; simpl in *; try discriminate H.
    - destruct op; try (intros E; injection E as <-; reflexivity).
      destruct (y =? 0); [discriminate|]. intros E; injection E as <-; reflexivity.
    - intros E; injection E as <-; reflexivity.
  Qed.

  Lemma cpp_op_ty : forall op t (a b v : num F), num_ty a = t -> num_ty b = t ->
    cpp_op fo op a b = Some v -> num_ty v = t.
  Proof.
    intros op t a b v Ha Hb. rewrite (cpp_op_same op t) by assumption. unfold op_apply.
    rewrite !conv_same by assumption. apply arith_ty; assumption.
  Qed.

  Lemma quot_abs : forall x y, y <> 0 -> Z.quot x y = Z.sgn x * Z.sgn y * (Z.abs x / Z.abs y).
  Proof.
    intros x y Hy.
    destruct (Z.lt_total x 0) as [Hx|[->|Hx]]; [|simpl; destruct y; reflexivity|];
      (destruct (Z.lt_total y 0) as [Hy'|[E|Hy']]; [|contradiction|]).
    - rewrite (Z.sgn_neg x), (Z.sgn_neg y), (Z.abs_neq x), (Z.abs_neq y), <- Z.quot_div_nonneg by lia.
      rewrite Z.quot_opp_opp by assumption. lia.
    - rewrite (Z.sgn_neg x), (Z.sgn_pos y), (Z.abs_neq x), (Z.abs_eq y), <- Z.quot_div_nonneg by lia.
      rewrite Z.quot_opp_l by assumption. lia.
    - rewrite (Z.sgn_pos x), (Z.sgn_neg y), (Z.abs_eq x), (Z.abs_neq y), <- Z.quot_div_nonneg by lia.
      rewrite Z.quot_opp_r by assumption. lia.
    - rewrite (Z.sgn_pos x), (Z.sgn_pos y), (Z.abs_eq x), (Z.abs_eq y), <- Z.quot_div_nonneg by lia. lia.
  Qed.

  (** The built-in operators of the model are those of the specification. *)
  Lemma scalar_op_cpp : forall op (a b : num F), scalar_op fo op a b = cpp_op fo op a b.
  Proof.
    intros op [x|x] [y|y]; destruct op; try reflexivity.
    unfold scalar_op, cpp_op, arith, conv, common, num_ty.
    destruct (Z.eqb_spec y 0) as [->|Hy]; [reflexivity|]. rewrite quot_abs by assumption.
    destruct y; [contradiction Hy; reflexivity| |]; reflexivity.
  Qed.
  Lemma scalar_op_same : forall op t (a b : num F), num_ty a = t -> num_ty b = t ->
    scalar_op fo op a b = op_apply fo op t a b.
  Proof. intros op t a b Ha Hb. rewrite scalar_op_cpp. apply cpp_op_same; assumption. Qed.
  Lemma scalar_op_ty : forall op t (a b v : num F), num_ty a = t -> num_ty b = t ->
    scalar_op fo op a b = Some v -> num_ty v = t.
  Proof. intros op t a b v Ha Hb. rewrite scalar_op_cpp. apply cpp_op_ty; assumption. Qed.
  Lemma scalar_neg_model : forall a : num F, scalar_neg fo a = neg fo a.
  Proof. intros []; reflexivity. Qed.

  Lemma neg_ty : forall v : num F, num_ty (scalar_neg fo v) = num_ty v.
  Proof. intros []; reflexivity. Qed.

  Lemma sarg_get_holds : forall t N c s a, holds fo t N c s -> sarg_ok t N a ->
    sarg_get c a = Some (sscal s a) /\ num_ty (sscal s a) = t.
  Proof.
    intros t N c s a [Ha _] Ok. destruct a as [v|x i]; simpl in *; [split; [reflexivity|exact Ok]|].
    destruct (Ha x) as (_ & _ & H). apply (H i Ok).
  Qed.

  (** Building an expression object: its components are the denotation. *)
  Definition obj_den (t : ty) (N : nat) (o : aobj F) (g : nat -> option (num F)) : Prop :=
    otype o = t /\ forall i, (i < N)%nat -> obj_get fo o i = g i /\ (forall v, g i = Some v -> num_ty v = t).

  Lemma build_holds : forall t N c s e, holds fo t N c s -> aexp_ok t N e -> objs_exist s e ->
    exists o, build c e = Some o /\ obj_den t N o (denote fo s e).
  Proof.
    intros t N c s e H. induction e as [x|k|op a e IH|op e IH a|m x|op e1 IH1 e2 IH2]; simpl; intros Ok Ex.
    - eexists; split; [reflexivity|]. destruct (proj1 H x) as (Ht & Hl & Hc). split; [exact Ht|].
      intros i Hi. simpl. destruct (Hc i Hi) as [E Et]. split; [exact E|]. intros v Ev; injection Ev as <-; exact Et.
    - pose proof (proj2 H k) as Hk. destruct (a_obj c k) as [o|], (s_exp s k) as [g|]; try contradiction; try congruence.
      exists o. split; [reflexivity|]. exact Hk.
    - destruct Ok as [Oa Oe]. destruct (IH Oe Ex) as (o & Eo & To & Co).
      destruct (sarg_get_holds _ _ _ _ _ H Oa) as [Es Ts]. rewrite Es. simpl. rewrite Eo. simpl.
      rewrite Ts, To, ty_eqb_refl, andb_false_r. eexists; split; [reflexivity|]. split; [reflexivity|].
      intros i Hi. destruct (Co i Hi) as [Ei Ti]. simpl. rewrite Ei.
      destruct (denote fo s e i) as [b|]; simpl; [|split; [reflexivity|discriminate]].
      specialize (Ti b eq_refl). split; [symmetry; apply scalar_op_same; assumption|].
      intros v. apply scalar_op_ty; assumption.
    - destruct Ok as [Oa Oe]. destruct (IH Oe Ex) as (o & Eo & To & Co).
      destruct (sarg_get_holds _ _ _ _ _ H Oa) as [Es Ts]. rewrite Es. simpl. rewrite Eo. simpl.
      rewrite Ts, To, ty_eqb_refl, andb_false_r. eexists; split; [reflexivity|]. split; [reflexivity|].
      intros i Hi. destruct (Co i Hi) as [Ei Ti]. simpl. rewrite Ei.
      destruct (denote fo s e i) as [b|]; simpl; [|split; [reflexivity|discriminate]].
      specialize (Ti b eq_refl). split; [symmetry; apply scalar_op_same; assumption|].
      intros v. apply scalar_op_ty; assumption.
    - destruct (proj1 H x) as (Ht & Hl & Hc). eexists; split; [reflexivity|]. split; [exact Ht|].
      intros i Hi. simpl. destruct (Hc i Hi) as [E Et]. rewrite E. simpl. rewrite Ht. unfold un_apply.
      rewrite conv_same by exact Et. split; [destruct m; reflexivity|].
      intros v Ev; injection Ev as <-. destruct m; [rewrite neg_ty|]; exact Et.
    - destruct Ok as [O1 O2], Ex as [E1 E2].
      destruct (IH1 O1 E1) as (o1 & B1 & T1 & C1). destruct (IH2 O2 E2) as (o2 & B2 & T2 & C2).
      rewrite B1; simpl; rewrite B2; simpl. rewrite T1, T2, ty_eqb_refl, andb_false_r.
      eexists; split; [reflexivity|]. split; [simpl; destruct (is_arr e2 && negb (is_arr e1)); reflexivity|].
      intros i Hi. destruct (C1 i Hi) as [Ei Ti]. destruct (C2 i Hi) as [Ej Tj]. simpl. rewrite Ei, Ej.
      destruct (denote fo s e1 i) as [a|]; simpl; [|split; [reflexivity|discriminate]].
      destruct (denote fo s e2 i) as [b|]; simpl; [|split; [reflexivity|discriminate]].
      specialize (Ti a eq_refl). specialize (Tj b eq_refl).
      replace (if is_arr e2 && negb (is_arr e1) then t else t) with t by (destruct (is_arr e2 && negb (is_arr e1)); reflexivity).
      split; [symmetry; apply scalar_op_same; assumption|]. intros v. apply scalar_op_ty; assumption.
  Qed.

  Lemma build_objs : forall t N c s e o, holds fo t N c s -> build c e = Some o -> objs_exist s e.
  Proof.
    intros t N c s e o H. revert o. induction e as [x|k|op a e IH|op e IH a|m x|op e1 IH1 e2 IH2]; simpl; intros o B; auto.
    - pose proof (proj2 H k) as Hk. rewrite B in Hk. destruct (s_exp s k); [discriminate|contradiction].
    - destruct (sarg_get c a); [|discriminate]. simpl in B. destruct (build c e) eqn:E; [|discriminate]. eapply IH; reflexivity.
    - destruct (sarg_get c a); [|discriminate]. simpl in B. destruct (build c e) eqn:E; [|discriminate]. eapply IH; reflexivity.
    - destruct (build c e1) eqn:E1; [|discriminate]. simpl in B. destruct (build c e2) eqn:E2; [|discriminate]. eauto.
  Qed.

  (** The in-place loop.  [f i] is the value the body stores at component [i]; the body may read
      the current state as long as the result is [f i] whenever components [>= i] of the target and
      all other arrays are untouched and the components below [i] hold their new values. *)
  Lemma iloop_exact : forall (body : nat -> ast_ F -> option (ast_ F)) x t (f : nat -> option (num F)) c N l0,
    a_arr c x = (t, l0) -> length l0 = N ->
    (forall i c', (i < N)%nat ->
       a_obj c' = a_obj c -> fst (a_arr c' x) = t -> length (snd (a_arr c' x)) = N ->
       (forall y, y <> x -> a_arr c' y = a_arr c y) ->
       (forall j, (j < i)%nat -> nth_error (snd (a_arr c' x)) j = f j) ->
       (forall j, (i <= j)%nat -> nth_error (snd (a_arr c' x)) j = nth_error l0 j) ->
       body i c' = obind (f i) (set_elem fo c' x i)) ->
    (forall i v, (i < N)%nat -> f i = Some v -> num_ty v = t) ->
    match iloop N 0 body c with
    | Some c' => a_obj c' = a_obj c /\ (forall y, y <> x -> a_arr c' y = a_arr c y) /\
                 fst (a_arr c' x) = t /\ length (snd (a_arr c' x)) = N /\
                 forall j, (j < N)%nat -> f j <> None /\ nth_error (snd (a_arr c' x)) j = f j
    | None => exists j, (j < N)%nat /\ f j = None
    end.
  Proof.
    intros body x t f c N l0 Ex El Hb Hf.
    assert (G : forall n i c', (i + n = N)%nat ->
       a_obj c' = a_obj c -> fst (a_arr c' x) = t -> length (snd (a_arr c' x)) = N ->
       (forall y, y <> x -> a_arr c' y = a_arr c y) ->
       (forall j, (j < i)%nat -> f j <> None /\ nth_error (snd (a_arr c' x)) j = f j) ->
       (forall j, (i <= j)%nat -> nth_error (snd (a_arr c' x)) j = nth_error l0 j) ->
       match iloop n i body c' with
       | Some c' => a_obj c' = a_obj c /\ (forall y, y <> x -> a_arr c' y = a_arr c y) /\
                 fst (a_arr c' x) = t /\ length (snd (a_arr c' x)) = N /\
                 forall j, (j < N)%nat -> f j <> None /\ nth_error (snd (a_arr c' x)) j = f j
       | None => exists j, (j < N)%nat /\ f j = None
       end).
    { induction n as [|n IH]; intros i c' Hin Ho Ht Hl Hy Hlt Hge; simpl.
      - split; [exact Ho|]. split; [exact Hy|]. split; [exact Ht|]. split; [exact Hl|]. intros j Hj. apply Hlt. lia.
      - rewrite Hb; auto; [|lia|intros j Hj; apply (Hlt j Hj)].
        destruct (f i) as [v|] eqn:Ef; simpl; [|exists i; split; [lia|exact Ef]].
        unfold set_elem. destruct (a_arr c' x) as [t' l] eqn:Ea. simpl in Ht, Hl. subst t'.
        replace (i <? length l)%nat with true by (symmetry; apply Nat.ltb_lt; lia). simpl.
        rewrite (conv_same t v) by (apply (Hf i); [lia|exact Ef]).
        apply IH; simpl.
        + lia.
        + exact Ho.
        + rewrite upd_same. reflexivity.
        + rewrite upd_same. simpl. rewrite list_set_length. exact Hl.
        + intros y Ny. rewrite upd_other by exact Ny. apply Hy, Ny.
        + intros j Hj. rewrite upd_same. simpl. destruct (Nat.eq_dec j i) as [->|Nj].
          * split; [congruence|]. rewrite list_set_same by lia. symmetry; exact Ef.
          * destruct (Hlt j) as [A B]; [lia|]. split; [exact A|]. rewrite list_set_other by congruence. exact B.
        + intros j Hj. rewrite upd_same. simpl. rewrite list_set_other by lia. apply Hge; lia. }
    apply (G N 0%nat c); auto.
    - rewrite Ex; reflexivity.
    - rewrite Ex; exact El.
    - intros j Hj; lia.
    - intros j _. rewrite Ex; reflexivity.
  Qed.

  Lemma len_holds : forall t N c s x, holds fo t N c s -> len_of c x = N.
  Proof. intros t N c s x H. apply (proj1 H x). Qed.

  Definition objs_ok (s : sst (F:=F)) (st : astmt F) : Prop :=
    match stmt_exp st with Some e => objs_exist s e | None => True end.

  Lemma new_comp_ty : forall t N c s st i v, holds fo t N c s -> stmt_ok t N st -> objs_ok s st ->
    (i < N)%nat -> new_comp fo s st i = Some v -> num_ty v = t.
  Proof.
    intros t N c s st i v H Ok Ex Hi. destruct st as [x e|op x e|op x a|x a|k e]; simpl in *.
    - destruct (build_holds _ _ _ _ _ H Ok Ex) as (o & _ & _ & C). apply (C i Hi).
    - destruct (build_holds _ _ _ _ _ H Ok Ex) as (o & _ & _ & C). destruct (C i Hi) as [_ T].
      destruct (denote fo s e i) as [b|]; [|discriminate]. simpl. apply scalar_op_ty; [|apply T; reflexivity].
      apply (proj1 H x), Hi.
    - destruct (sarg_get_holds _ _ _ _ _ H Ok) as [_ T]. apply scalar_op_ty; [apply (proj1 H x), Hi|exact T].
    - destruct (sarg_get_holds _ _ _ _ _ H Ok) as [_ T]. intros E; injection E as <-; exact T.
    - discriminate.
  Qed.

  (** A statement that writes array [x]. *)
  Lemma stmt_loop : forall t N c s st x, holds fo t N c s -> stmt_ok t N st -> objs_ok s st ->
    target st = Some x ->
    match step_a fo c st with
    | Some c' => a_obj c' = a_obj c /\ (forall y, y <> x -> a_arr c' y = a_arr c y) /\
                 fst (a_arr c' x) = t /\ length (snd (a_arr c' x)) = N /\
                 forall j, (j < N)%nat -> new_comp fo s st j <> None /\
                                          nth_error (snd (a_arr c' x)) j = new_comp fo s st j
    | None => exists j, (j < N)%nat /\ new_comp fo s st j = None
    end.
  Proof.
    intros t N c s st x H Ok Ex Tg.
    assert (Old : forall y i, (i < N)%nat -> nth_error (snd (a_arr c y)) i = Some (s_arr s y i))
      by (intros y i Hi; apply (proj1 H y), Hi).
    destruct (proj1 H x) as (Ht & Hl & _).
    assert (K : forall body, (forall i c', (i < N)%nat ->
       a_obj c' = a_obj c -> fst (a_arr c' x) = t -> length (snd (a_arr c' x)) = N ->
       (forall y, y <> x -> a_arr c' y = a_arr c y) ->
       (forall j, (j < i)%nat -> nth_error (snd (a_arr c' x)) j = new_comp fo s st j) ->
       (forall j, (i <= j)%nat -> nth_error (snd (a_arr c' x)) j = nth_error (snd (a_arr c x)) j) ->
       body i c' = obind (new_comp fo s st i) (set_elem fo c' x i)) ->
       match iloop (len_of c x) 0 body c with
       | Some c' => a_obj c' = a_obj c /\ (forall y, y <> x -> a_arr c' y = a_arr c y) /\
                 fst (a_arr c' x) = t /\ length (snd (a_arr c' x)) = N /\
                 forall j, (j < N)%nat -> new_comp fo s st j <> None /\
                                          nth_error (snd (a_arr c' x)) j = new_comp fo s st j
       | None => exists j, (j < N)%nat /\ new_comp fo s st j = None
       end).
    { intros body Hb. rewrite (len_holds _ _ _ _ x H).
      apply (iloop_exact body x t (new_comp fo s st) c N (snd (a_arr c x))).
      - rewrite <- Ht. apply surjective_pairing.
      - exact Hl.
      - exact Hb.
      - intros i v Hi. apply (new_comp_ty t N c); assumption. }
    (* reading the source at step i *)
    assert (Src : forall e o i c', build c e = Some o -> obj_den t N o (denote fo s e) -> (i < N)%nat ->
       (forall y, y <> x -> a_arr c' y = a_arr c y) ->
       (forall j, (i <= j)%nat -> nth_error (snd (a_arr c' x)) j = nth_error (snd (a_arr c x)) j) ->
       src_get fo c' e o i = denote fo s e i).
    { intros e o i c' B [_ C] Hi Hy Hge. destruct e as [y|k|op a e|op e a|m y|op e1 e2];
        try exact (proj1 (C i Hi)).
      cbn [src_get denote]. destruct (Nat.eq_dec y x) as [->|Ny].
      - rewrite Hge by lia. apply Old, Hi.
      - rewrite Hy by exact Ny. apply Old, Hi. }
    destruct st as [x' e|op x' e|op x' a|x' a|k e]; simpl in Tg; try discriminate Tg; injection Tg as ->;
      unfold step_a.
    - destruct (build_holds _ _ _ _ _ H Ok Ex) as (o & B & C). rewrite B. cbn [obind]. apply K.
      intros i c' Hi Ho Ht' Hl' Hy Hlt Hge. rewrite (Src e o i c') by assumption. reflexivity.
    - destruct (build_holds _ _ _ _ _ H Ok Ex) as (o & B & C). rewrite B. cbn [obind]. apply K.
      intros i c' Hi Ho Ht' Hl' Hy Hlt Hge. rewrite (Src e o i c') by assumption. cbn [new_comp].
      destruct (denote fo s e i) as [b|]; [|reflexivity]. cbn [obind].
      rewrite Hge by lia. rewrite Old by exact Hi. rewrite scalar_op_cpp. reflexivity.
    - destruct (sarg_get_holds _ _ _ _ _ H Ok) as [Es _]. rewrite Es. cbn [obind]. apply K.
      intros i c' Hi Ho Ht' Hl' Hy Hlt Hge. rewrite Hge by lia. rewrite Old by exact Hi.
      cbn [new_comp]. rewrite scalar_op_cpp. reflexivity.
    - apply K. intros i c' Hi Ho Ht' Hl' Hy Hlt Hge. cbn [new_comp obind].
      destruct a as [v|y j]; [reflexivity|]. cbn [sarg_get sscal]. simpl in Ok.
      destruct (Nat.eq_dec y x) as [->|Ny].
      + destruct (Nat.lt_ge_cases j i) as [L|L].
        * rewrite Hlt by exact L. reflexivity.
        * rewrite Hge by exact L. rewrite Old by exact Ok. reflexivity.
      + rewrite Hy by exact Ny. rewrite Old by exact Ok. reflexivity.
  Qed.

  Lemma step_forward : forall t N c s st c', holds fo t N c s -> stmt_ok t N st ->
    step_a fo c st = Some c' -> exists s', spec_step fo N s st s' /\ holds fo t N c' s'.
  Proof.
    intros t N c s st c' H Ok E.
    assert (Ex : objs_ok s st).
    { unfold objs_ok. destruct st as [x e|op x e|op x a|x a|k e]; simpl in *; auto;
        (destruct (build c e) eqn:B; [|discriminate E]; eapply build_objs; eassumption). }
    destruct (target st) as [x|] eqn:Tg.
    - pose proof (stmt_loop _ _ _ _ _ x H Ok Ex Tg) as L. rewrite E in L.
      destruct L as (Ho & Hy & Ht & Hl & Hc).
      exists (mkSst (fun y i => if Nat.eqb y x then match new_comp fo s st i with Some v => v | None => s_arr s x i end
                                else s_arr s y i) (s_exp s)).
      split.
      + split; [exact Ex|].
        assert (G : s_exp (mkSst (fun y i => if Nat.eqb y x then match new_comp fo s st i with Some v => v | None => s_arr s x i end
                                else s_arr s y i) (s_exp s)) = s_exp s /\
          forall x0 i, (i < N)%nat -> if match target st with Some y => Nat.eqb x0 y | None => false end
            then new_comp fo s st i = Some (if Nat.eqb x0 x then match new_comp fo s st i with Some v => v | None => s_arr s x i end
                                else s_arr s x0 i)
            else (if Nat.eqb x0 x then match new_comp fo s st i with Some v => v | None => s_arr s x i end
                                else s_arr s x0 i) = s_arr s x0 i).
        { split; [reflexivity|]. rewrite Tg. intros y i Hi. destruct (Nat.eqb y x); [|reflexivity].
          destruct (Hc i Hi) as [N0 _]. destruct (new_comp fo s st i); [reflexivity|congruence]. }
        destruct st as [x' e|op x' e|op x' a|x' a|k e]; try exact G. discriminate Tg.
      + split; cbn [s_arr s_exp].
        * intros y. destruct (Nat.eqb_spec y x) as [->|Ny].
          -- split; [exact Ht|]. split; [exact Hl|]. intros i Hi. destruct (Hc i Hi) as [N0 En]. rewrite En.
             destruct (new_comp fo s st i) as [v|] eqn:Ev; [|congruence]. split; [reflexivity|].
             exact (new_comp_ty _ _ _ _ _ _ _ H Ok Ex Hi Ev).
          -- rewrite Hy by exact Ny. apply (proj1 H y).
        * intros k. rewrite Ho. apply (proj2 H k).
    - destruct st as [x e|op x e|op x a|x a|k e]; try discriminate Tg. simpl in E.
      destruct (build_holds _ _ _ _ _ H Ok Ex) as (o & B & C). rewrite B in E. simpl in E. injection E as <-.
      exists (mkSst (s_arr s) (upd (s_exp s) k (Some (denote fo s e)))). split.
      + split; [exact Ex|]. split; reflexivity.
      + split; [apply (proj1 H)|]. intros k'. simpl. unfold upd. destruct (Nat.eqb k' k); [exact C|apply (proj2 H k')].
  Qed.

  Lemma step_backward : forall t N c s st s', holds fo t N c s -> stmt_ok t N st ->
    spec_step fo N s st s' -> exists c', step_a fo c st = Some c' /\ holds fo t N c' s'.
  Proof.
    intros t N c s st s' H Ok [Ex Sp]. change (objs_ok s st) in Ex.
    destruct (target st) as [x|] eqn:Tg.
    - assert (Sp' : s_exp s' = s_exp s /\
          forall x0 i, (i < N)%nat -> if Nat.eqb x0 x then new_comp fo s st i = Some (s_arr s' x0 i)
                                      else s_arr s' x0 i = s_arr s x0 i).
      { destruct st as [x' e|op x' e|op x' a|x' a|k e]; simpl in Tg; try discriminate Tg; injection Tg as ->; exact Sp. }
      clear Sp. destruct Sp' as [Se Sa].
      pose proof (stmt_loop _ _ _ _ _ x H Ok Ex Tg) as L.
      destruct (step_a fo c st) as [c'|].
      + exists c'. split; [reflexivity|]. destruct L as (Ho & Hy & Ht & Hl & Hc). split.
        * intros y. destruct (Nat.eq_dec y x) as [->|Ny].
          -- split; [exact Ht|]. split; [exact Hl|]. intros i Hi. specialize (Sa x i Hi).
             rewrite Nat.eqb_refl in Sa. destruct (Hc i Hi) as [_ En]. rewrite En. split; [exact Sa|].
             exact (new_comp_ty _ _ _ _ _ _ _ H Ok Ex Hi Sa).
          -- rewrite Hy by exact Ny. destruct (proj1 H y) as (A & B & C). split; [exact A|]. split; [exact B|].
             intros i Hi. specialize (Sa y i Hi). destruct (Nat.eqb_spec y x); [congruence|]. rewrite Sa. apply C, Hi.
        * intros k. rewrite Ho, Se. apply (proj2 H k).
      + destruct L as (j & Hj & En). specialize (Sa x j Hj). rewrite Nat.eqb_refl in Sa. congruence.
    - destruct st as [x e|op x e|op x a|x a|k e]; try discriminate Tg.
      destruct (build_holds _ _ _ _ _ H Ok Ex) as (o & B & C). destruct Sp as [Sa Se].
      eexists. split; [simpl; rewrite B; reflexivity|]. split; cbn [a_arr a_obj].
      + rewrite Sa. apply (proj1 H).
      + rewrite Se. intros k'. unfold upd. destruct (Nat.eqb k' k); [exact C|apply (proj2 H k')].
  Qed.

  Lemma run_forward : forall t N p c s c', holds fo t N c s -> Forall (stmt_ok t N) p ->
    run_a fo c p = Some c' -> exists s', spec_run fo N s p s' /\ holds fo t N c' s'.
  Proof.
    intros t N p. induction p as [|st p IH]; simpl; intros c s c' H Ok E.
    - injection E as <-. exists s. split; [reflexivity|exact H].
    - inversion Ok as [|? ? O1 O2]; subst. destruct (step_a fo c st) as [c1|] eqn:E1; [|discriminate E]. simpl in E.
      destruct (step_forward _ _ _ _ _ _ H O1 E1) as (s1 & S1 & H1).
      destruct (IH _ _ _ H1 O2 E) as (s' & S' & H'). exists s'. split; [exists s1; split; assumption|exact H'].
  Qed.

  Lemma run_backward : forall t N p c s s', holds fo t N c s -> Forall (stmt_ok t N) p ->
    spec_run fo N s p s' -> exists c', run_a fo c p = Some c' /\ holds fo t N c' s'.
  Proof.
    intros t N p. induction p as [|st p IH]; simpl; intros c s s' H Ok Sp.
    - subst. exists c. split; [reflexivity|exact H].
    - inversion Ok as [|? ? O1 O2]; subst. destruct Sp as (s1 & S1 & S2).
      destruct (step_backward _ _ _ _ _ _ H O1 S1) as (c1 & E1 & H1). rewrite E1. simpl. eapply IH; eassumption.
  Qed.
End P.

(** ** Comparisons *)

Lemma scan_false_iff : forall T (test : T -> T -> bool) a b, length a = length b ->
  scan_false test a b = true <-> Forall2 (fun x y => test x y = false) a b.
Proof.
  intros T test a. induction a as [|x a IH]; intros [|y b] L; simpl in *; try discriminate L.
  - split; [constructor|reflexivity].
  - injection L as L. destruct (test x y) eqn:E.
    + split; [discriminate|]. intros H; inversion H; congruence.
    + rewrite IH by exact L. split; [intros H; constructor; assumption|]. intros H; inversion H; assumption.
Qed.

Lemma scan_true_neg : forall T (test : T -> T -> bool) a b, scan_true test a b = negb (scan_false test a b).
Proof. intros T test a. induction a as [|x a IH]; intros [|y b]; simpl; try reflexivity. destruct (test x y); [reflexivity|apply IH]. Qed.

Lemma Forall2_impl' : forall A (P Q : A -> A -> Prop) l1 l2, (forall x y, P x y -> Q x y) -> Forall2 P l1 l2 -> Forall2 Q l1 l2.
Proof. intros A P Q l1 l2 H F. induction F; constructor; auto. Qed.

Lemma Forall2_eq_iff : forall A (l1 l2 : list A), Forall2 eq l1 l2 <-> l1 = l2.
Proof.
  intros A l1 l2. split.
  - intros H; induction H; congruence.
  - intros <-. induction l1; constructor; auto.
Qed.

(** [product], [sum], [sqr] *)
Lemma arr_product_acc : forall a p, fold_left (fun p x => p * x) a p = p * fold_right Z.mul 1 a.
Proof. induction a as [|x a IH]; intros p; cbn [fold_left fold_right]; [lia|]. rewrite IH. lia. Qed.
Lemma arr_sum_acc : forall a s, fold_left (fun s x => s + x) a s = s + fold_right Z.add 0 a.
Proof. induction a as [|x a IH]; intros p; cbn [fold_left fold_right]; [lia|]. rewrite IH. lia. Qed.
Lemma arr_sqr_acc : forall a s, fold_left (fun s v => s + v * v) a s = s + fold_right Z.add 0 (map (fun v => v * v) a).
Proof. induction a as [|x a IH]; intros p; cbn [fold_left fold_right map]; [lia|]. rewrite IH. lia. Qed.
