(** Proofs about expression trees. *)
From Coq Require Import ZArith List Bool String Lia.
From Verif Require Import ExprModel ExprSyntax ExprSpec ExprBuildModel.
Import ListNotations.

(** ** Induction over the syntax *)
Section Induction.
  Variables (Pa : atom -> Prop) (Pf : factor -> Prop) (Pt : term -> Prop) (Ps : sum -> Prop).
  Hypothesis HInt : forall s, Pa (AInt s).
  Hypothesis HFloat : forall s, Pa (AFloat s).
  Hypothesis HStr : forall s, Pa (AStr s).
  Hypothesis HId : forall s, Pa (AId s).
  Hypothesis HPar : forall e, Ps e -> Pa (APar e).
  Hypothesis HCall : forall f args, Forall Ps args -> Pa (ACall f args).
  Hypothesis HAtom : forall a, Pa a -> Pf (FAtom a).
  Hypothesis HPow : forall a s b, Pa a -> Pa b -> Pf (FPow a s b).
  Hypothesis HTerm : forall f rest, Pf f -> Forall (fun x => Pf (snd x)) rest -> Pt (Term f rest).
  Hypothesis HSum : forall sg t rest, Pt t -> Forall (fun x => Pt (snd x)) rest -> Ps (Sum sg t rest).

  Fixpoint ind_atom (a : atom) : Pa a :=
    match a with
    | AInt s => HInt s
    | AFloat s => HFloat s
    | AStr s => HStr s
    | AId s => HId s
    | APar e => HPar e (ind_sum e)
    | ACall f args => HCall f args
        ((fix all (l : list sum) : Forall Ps l :=
            match l with [] => Forall_nil _ | e :: l' => Forall_cons e (ind_sum e) (all l') end) args)
    end
  with ind_factor (f : factor) : Pf f :=
    match f with
    | FAtom a => HAtom a (ind_atom a)
    | FPow a s b => HPow a s b (ind_atom a) (ind_atom b)
    end
  with ind_term (t : term) : Pt t :=
    match t with
    | Term f rest => HTerm f rest (ind_factor f)
        ((fix all (l : list (bool * factor)) : Forall (fun x => Pf (snd x)) l :=
            match l with [] => Forall_nil _ | e :: l' => Forall_cons e (ind_factor (snd e)) (all l') end) rest)
    end
  with ind_sum (s : sum) : Ps s :=
    match s with
    | Sum sg t rest => HSum sg t rest (ind_term t)
        ((fix all (l : list (bool * term)) : Forall (fun x => Pt (snd x)) l :=
            match l with [] => Forall_nil _ | e :: l' => Forall_cons e (ind_term (snd e)) (all l') end) rest)
    end.

  Lemma syntax_ind : (forall a, Pa a) /\ (forall f, Pf f) /\ (forall t, Pt t) /\ (forall s, Ps s).
  Proof. split; [exact ind_atom|]. split; [exact ind_factor|]. split; [exact ind_term|exact ind_sum]. Qed.
End Induction.

(** ** Induction over expression trees *)
Section TreeInduction.
  Variable A : arith.
  Variable P : expr A -> Prop.
  Hypothesis HV : forall v, P (EValue v).
  Hypothesis HR : forall t x, P (ERef t x).
  Hypothesis HE : forall t x, P (EExt t x).
  Hypothesis HU : forall o t e, P e -> P (EUn o t e).
  Hypothesis HB : forall o t l, Forall (fun pe => P (snd pe)) l -> P (EBin o t l).
  Hypothesis HC : forall t t0 e, P e -> P (ECast t t0 e).
  Hypothesis HF : forall f args, Forall P args -> P (EFun f args).
  Fixpoint expr_ind' (e : expr A) : P e :=
    match e with
    | EValue v => HV v
    | ERef t x => HR t x
    | EExt t x => HE t x
    | EUn o t e => HU o t e (expr_ind' e)
    | EBin o t l => HB o t l
        ((fix all (l : list (bool * expr A)) : Forall (fun pe => P (snd pe)) l :=
            match l with [] => Forall_nil _ | e :: l' => Forall_cons e (expr_ind' (snd e)) (all l') end) l)
    | ECast t t0 e => HC t t0 e (expr_ind' e)
    | EFun f args => HF f args
        ((fix all (l : list (expr A)) : Forall P l :=
            match l with [] => Forall_nil _ | e :: l' => Forall_cons e (expr_ind' e) (all l') end) args)
    end.
End TreeInduction.

(** ** Types *)
Lemma ty_eqb_eq a b : ty_eqb a b = true <-> a = b.
Proof. destruct a, b; simpl; intuition congruence. Qed.
Lemma ty_eqb_refl a : ty_eqb a a = true.
Proof. destruct a; reflexivity. Qed.

Lemma ty_max_assoc a b c : ty_max a (ty_max b c) = ty_max (ty_max a b) c.
Proof. destruct a, b, c; reflexivity. Qed.
Lemma ty_max_comm a b : ty_max a b = ty_max b a.
Proof. destruct a, b; reflexivity. Qed.
Lemma ty_max_le_l a b : ty_le a (ty_max a b).
Proof. destruct a, b; unfold ty_le; simpl; lia. Qed.
Lemma ty_max_le_r a b : ty_le b (ty_max a b).
Proof. destruct a, b; unfold ty_le; simpl; lia. Qed.
Lemma ty_max_absorb a b : ty_le a b -> ty_max a b = b.
Proof. destruct a, b; unfold ty_le; simpl; intros; try reflexivity; lia. Qed.
Lemma ty_le_antisym a b : ty_le a b -> ty_le b a -> a = b.
Proof. destruct a, b; unfold ty_le; simpl; intros; try reflexivity; lia. Qed.
Lemma ty_le_trans a b c : ty_le a b -> ty_le b c -> ty_le a c.
Proof. unfold ty_le. lia. Qed.
Lemma ty_le_refl a : ty_le a a.
Proof. unfold ty_le. lia. Qed.
Lemma ty_le_total a b : ty_le a b \/ ty_le b a.
Proof. unfold ty_le. lia. Qed.

(** Largest type of a non-empty list. *)
Fixpoint tmax (x : ty) (l : list ty) : ty := match l with [] => x | y :: l' => ty_max x (tmax y l') end.

Lemma fold_max_out l : forall x y, fold_left ty_max l (ty_max x y) = ty_max x (fold_left ty_max l y).
Proof. induction l as [|z l IH]; intros x y; simpl; [reflexivity|]. rewrite <- ty_max_assoc. apply IH. Qed.
Lemma fold_tmax l : forall x, fold_left ty_max l x = tmax x l.
Proof. induction l as [|y l IH]; intros x; simpl; [reflexivity|]. rewrite fold_max_out, IH. reflexivity. Qed.
Lemma tmax_ge l : forall x a, In a (x :: l) -> ty_le a (tmax x l).
Proof.
  induction l as [|y l IH]; intros x a H.
  - destruct H as [->|[]]. apply ty_le_refl.
  - simpl. destruct H as [->|H]; [apply ty_max_le_l|]. eapply ty_le_trans; [apply IH, H|apply ty_max_le_r].
Qed.
Section Proofs.
Variable A : arith.
Notation value := (value A).
Notation expr := (expr A).
Implicit Types st : store A.
Implicit Types e : expr.

Lemma rbind_assoc {X Y W} (x : result X) (f : X -> result Y) (g : Y -> result W) :
  rbind (rbind x f) g = rbind x (fun a => rbind (f a) g).
Proof. destruct x; reflexivity. Qed.
Lemma rbind_ok {X} (x : result X) : rbind x Ok = x.
Proof. destruct x; reflexivity. Qed.
Lemma rbind_ext {X Y} (x : result X) (f g : X -> result Y) : (forall a, x = Ok a -> f a = g a) -> rbind x f = rbind x g.
Proof. destruct x; simpl; auto. Qed.
Lemma rbind_inv {X Y} (x : result X) (f : X -> result Y) v : rbind x f = Ok v -> exists a, x = Ok a /\ f a = Ok v.
Proof. destruct x; simpl; try discriminate. eauto. Qed.

(** ** The operators on values *)
Lemma un_apply_type o (v w : value) : un_apply o v = Ok w -> type_of w = type_of v.
Proof.
  destruct o, v; simpl; unfold int32; intros H; repeat match type of H with context [if ?b then _ else _] => destruct b end;
    try discriminate; inversion H; reflexivity.
Qed.
Lemma bin_apply_type o (v w x : value) : bin_apply o v w = Ok x -> type_of x = type_of v.
Proof.
  destruct v, w; simpl; try discriminate; destruct o; unfold int32, of_opt_int; intros H;
    repeat match type of H with
      | context [if ?b then _ else _] => destruct b
      | context [match ?b with Some _ => _ | None => _ end] => destruct b
      end; try discriminate; inversion H; reflexivity.
Qed.
Lemma cast_to_type t (v w : value) : cast_to t v = Ok w -> type_of w = t.
Proof.
  destruct t, v; simpl; unfold of_opt_int; intros H;
    repeat match type of H with context [match ?b with Some _ => _ | None => _ end] => destruct b end;
    try discriminate; inversion H; reflexivity.
Qed.
Lemma cast_to_same (v : value) : cast_to (type_of v) v = Ok v.
Proof. destruct v; reflexivity. Qed.
(** Promotion to a larger type cannot fail. *)
Lemma cast_up t (v : value) : ty_le (type_of v) t -> exists w, cast_to t v = Ok w.
Proof. destruct t, v; unfold ty_le; simpl; intros H; try lia; eauto. Qed.

Lemma op_value_eq o (v w : value) : op_value A o v w = bin_apply o v w.
Proof.
  destruct v, w, o; try reflexivity; simpl; unfold an_int, int32, of_opt_int;
    repeat match goal with |- context [Z.eqb ?a ?b] => destruct (Z.eqb a b) end; try reflexivity;
    match goal with |- (if (?a && _)%bool then _ else _) = _ => change (Z.leb (-2147483648)) with (Z.leb (- 2 ^ 31)) end;
    match goal with |- (if (_ && Z.leb ?z _)%bool then _ else _) = _ =>
      replace (Z.leb z 2147483647) with (Z.ltb z (2 ^ 31)); [reflexivity|];
      destruct (Z.ltb_spec z (2 ^ 31)), (Z.leb_spec z 2147483647); try reflexivity; lia end.
Qed.
Lemma minus_eq (v : value) : minus A v = un_apply ONeg v.
Proof.
  destruct v as [z| |]; try reflexivity. simpl. unfold an_int, int32. change (Z.leb (-2147483648)) with (Z.leb (- 2 ^ 31)).
  replace (Z.leb (- z) 2147483647) with (Z.ltb (- z) (2 ^ 31)); [reflexivity|].
  destruct (Z.ltb_spec (- z) (2 ^ 31)), (Z.leb_spec (- z) 2147483647); try reflexivity; lia.
Qed.
Lemma converted_eq t (v : value) : converted A t v = cast_to t v.
Proof. destruct t, v; reflexivity. Qed.
Lemma of_type_eq t (v : value) : of_type A t v = get t v.
Proof. destruct t, v; reflexivity. Qed.

(** ** Trees *)

(** The parts of [eval] as separate functions. *)
Section Eval.
  Variable st : store A.
  Definition eval_fold (o : bop) : list (bool * expr) -> value -> result value :=
    fix fold (l : list (bool * expr)) (v : value) : result value :=
    match l with
    | [] => Ok v
    | (p, e) :: l' => rbind (eval st e) (fun w =>
        rbind (bin_apply (if p : bool then positive_op o else negative_op o) v w) (fold l'))
    end.
  Fixpoint evals (l : list expr) : result (list value) :=
    match l with
    | [] => Ok []
    | e :: l' => rbind (eval st e) (fun v => rbind (evals l') (fun r => Ok (v :: r)))
    end.
  Lemma eval_bin o t p e0 l : eval st (EBin o t ((p, e0) :: l)) = rbind (eval st e0) (eval_fold o l).
  Proof. reflexivity. Qed.
  Lemma eval_fun f args : eval st (EFun f args) = rbind (evals args) (s_fun st f).
  Proof. reflexivity. Qed.
End Eval.

(** Well typed trees. *)
Fixpoint wt (e : expr) : Prop :=
  match e with
  | EValue _ | ERef _ _ | EExt _ _ => True
  | EUn _ t e => etype e = t /\ wt e
  | EBin _ t l => (fix all (l : list (bool * expr)) : Prop :=
                     match l with [] => True | e :: l' => (etype (snd e) = t /\ wt (snd e)) /\ all l' end) l
  | ECast _ t0 e => etype e = t0 /\ wt e
  | EFun f args => map etype args = fs_params f /\
      (fix all (l : list expr) : Prop := match l with [] => True | e :: l' => wt e /\ all l' end) args
  end.

Lemma wt_bin o t l : wt (EBin o t l) <-> Forall (fun pe => etype (snd pe) = t /\ wt (snd pe)) l.
Proof.
  simpl. induction l as [|x l IH]; [split; auto|]. split.
  - intros [H1 H2]. constructor; [exact H1|]. apply IH, H2.
  - intros H. inversion H; subst. split; [assumption|]. apply IH; assumption.
Qed.
Lemma wt_fun f args : wt (EFun f args) <-> map etype args = fs_params f /\ Forall wt args.
Proof.
  simpl. assert (E : forall l, (fix all (l : list expr) : Prop := match l with [] => True | e :: l' => wt e /\ all l' end) l <-> Forall wt l).
  { induction l as [|x l IH]; [split; auto|]. split.
    - intros [H1 H2]. constructor; [exact H1|]. apply IH, H2.
    - intros H. inversion H; subst. split; [assumption|]. apply IH; assumption. }
  rewrite E. tauto.
Qed.

Lemma eval_type st : functions_typed st -> forall e, wt e -> forall v, eval st e = Ok v -> type_of v = etype e.
Proof.
  intros HF. apply (expr_ind' A (fun e => wt e -> forall v, eval st e = Ok v -> type_of v = etype e)).
  - intros v _ w H. inversion H. reflexivity.
  - intros t x _ v H. simpl in H. unfold get in H. destruct (ty_eqb _ _) eqn:E; [|discriminate].
    inversion H; subst. apply ty_eqb_eq, E.
  - intros t x _ v H. simpl in H. unfold get in H. destruct (ty_eqb _ _) eqn:E; [|discriminate].
    inversion H; subst. apply ty_eqb_eq, E.
  - intros o t e IH [Ht Hw] v H. simpl in H. apply rbind_inv in H. destruct H as (a & E & H).
    apply un_apply_type in H. simpl. rewrite H. rewrite (IH Hw a E). exact Ht.
  - intros o t l IH Hw v H. apply wt_bin in Hw. destruct l as [|[p e0] l]; [discriminate|].
    rewrite eval_bin in H. apply rbind_inv in H. destruct H as (a & E & H).
    inversion IH as [|? ? I0 _]; subst. inversion Hw as [|? ? [W1 W2] _]; subst. simpl in *.
    assert (Ha : type_of a = etype e0) by (apply I0; assumption).
    rewrite <- Ha. clear - H. revert a H. induction l as [|[q e] l IHl]; intros a H; simpl in H.
    + inversion H. reflexivity.
    + apply rbind_inv in H. destruct H as (w & _ & H). apply rbind_inv in H. destruct H as (b & Eb & H).
      apply bin_apply_type in Eb. rewrite <- Eb. apply IHl, H.
  - intros t t0 e IH Hw v H. simpl in H. apply rbind_inv in H. destruct H as (a & E & H).
    apply cast_to_type in H. exact H.
  - intros f args IH Hw v H. rewrite eval_fun in H. apply rbind_inv in H. destruct H as (a & E & H).
    apply HF in H. exact H.
Qed.

(** ** Constants and dependencies *)
Definition fun_agree (st st' : store A) : Prop := forall f, fs_always f = false -> s_fun st f = s_fun st' f.

Lemma eval_fold_ext st st' o l :
  Forall (fun pe => eval st (snd pe) = eval st' (snd pe)) l -> forall v, eval_fold st o l v = eval_fold st' o l v.
Proof.
  intros H. induction H as [|[p e] l He _ IH]; intros v; [reflexivity|]. simpl in *. rewrite He.
  apply rbind_ext. intros w _. apply rbind_ext. intros x _. apply IH.
Qed.
Lemma evals_ext st st' l : Forall (fun e => eval st e = eval st' e) l -> evals st l = evals st' l.
Proof. intros H. induction H as [|e l He _ IH]; [reflexivity|]. simpl. rewrite He, IH. reflexivity. Qed.

Lemma eval_bin_ext st st' o t l :
  Forall (fun pe => eval st (snd pe) = eval st' (snd pe)) l -> eval st (EBin o t l) = eval st' (EBin o t l).
Proof.
  intros H. destruct l as [|[p e] l]; [reflexivity|]. rewrite !eval_bin. inversion H; subst. simpl in *.
  rewrite H2. apply rbind_ext. intros v _. apply eval_fold_ext. assumption.
Qed.

Lemma constant_sound st st' :
  (forall x, s_fixed st x = true -> s_val st' x = s_val st x) -> fun_agree st st' ->
  forall e, is_constant st e = true -> eval st' e = eval st e.
Proof.
  intros Hv Hf. apply (expr_ind' A (fun e => is_constant st e = true -> eval st' e = eval st e)).
  - reflexivity.
  - intros t x H. simpl in *. rewrite Hv by exact H. reflexivity.
  - intros t x H. discriminate.
  - intros o t e IH H. simpl in *. rewrite IH by exact H. reflexivity.
  - intros o t l IH H. apply eval_bin_ext. simpl in H. rewrite forallb_forall in H. rewrite Forall_forall in *.
    intros pe Hin. apply IH; [exact Hin|]. apply H, Hin.
  - intros t t0 e IH H. simpl in *. rewrite IH by exact H. reflexivity.
  - intros f args IH H. simpl in H. destruct (fs_always f) eqn:E; [discriminate|].
    rewrite !eval_fun, <- (Hf f E). f_equal. apply evals_ext. rewrite forallb_forall in H. rewrite Forall_forall in *.
    intros e Hin. apply IH; [exact Hin|]. apply H, Hin.
Qed.

Lemma dependencies_sound st st' :
  (forall x, s_ext st' x = s_ext st x) -> fun_agree st st' ->
  forall e, (forall x, In (s_id st x) (dependencies st e) -> s_val st' x = s_val st x) ->
  (In (-1)%Z (dependencies st e) -> s_fun st' = s_fun st) ->
  eval st' e = eval st e.
Proof.
  intros Hx Hf. apply (expr_ind' A (fun e => (forall x, In (s_id st x) (dependencies st e) -> s_val st' x = s_val st x) ->
    (In (-1)%Z (dependencies st e) -> s_fun st' = s_fun st) -> eval st' e = eval st e)).
  - reflexivity.
  - intros t x H _. simpl in *. rewrite H by (left; reflexivity). reflexivity.
  - intros t x _ _. simpl. rewrite Hx. reflexivity.
  - intros o t e IH H H'. simpl in *. rewrite IH by assumption. reflexivity.
  - intros o t l IH H H'. apply eval_bin_ext. simpl in H, H'. rewrite Forall_forall in *.
    intros pe Hin. apply IH; [exact Hin| |].
    + intros x Hi. apply H. apply in_flat_map. exists pe. auto.
    + intros Hi. apply H'. apply in_flat_map. exists pe. auto.
  - intros t t0 e IH H H'. simpl in *. rewrite IH by assumption. reflexivity.
  - intros f args IH H H'. simpl in H, H'.
    assert (E : s_fun st' f = s_fun st f).
    { destruct (fs_always f) eqn:E.
      - rewrite H'; [reflexivity|]. apply in_or_app. right. left. reflexivity.
      - symmetry. apply Hf, E. }
    rewrite !eval_fun, E. f_equal. apply evals_ext. rewrite Forall_forall in *.
    intros e Hin. apply IH; [exact Hin| |].
    + intros x Hi. apply H. apply in_or_app. left. apply in_flat_map. exists e. auto.
    + intros Hi. apply H'. apply in_or_app. left. apply in_flat_map. exists e. auto.
Qed.

Lemma constant_only st st' e : is_constant st e = true -> same_constants st st' -> eval st' e = eval st e.
Proof. intros H [H1 H2]. apply constant_sound; auto. intros f Hf. symmetry. auto. Qed.

Lemma dependencies_only st st' e : agree_on (dependencies st e) st st' -> (forall x, s_ext st' x = s_ext st x) ->
  eval st' e = eval st e.
Proof. intros (H1 & H2 & H3) Hx. apply dependencies_sound; auto. intros f Hf. symmetry. auto. Qed.

(** Trees that do not read external memory themselves. *)
Fixpoint no_ext (e : expr) : Prop :=
  match e with
  | EValue _ | ERef _ _ => True
  | EExt _ _ => False
  | EUn _ _ e | ECast _ _ e => no_ext e
  | EBin _ _ l => (fix all (l : list (bool * expr)) : Prop :=
                     match l with [] => True | e :: l' => no_ext (snd e) /\ all l' end) l
  | EFun _ args => (fix all (l : list expr) : Prop := match l with [] => True | e :: l' => no_ext e /\ all l' end) args
  end.
Lemma all_Forall {X} (P : X -> Prop) l :
  (fix all (l : list X) : Prop := match l with [] => True | e :: l' => P e /\ all l' end) l <-> Forall P l.
Proof.
  induction l as [|x l IH]; [split; auto|]. split.
  - intros [H1 H2]. constructor; [exact H1|]. apply IH, H2.
  - intros H. inversion H; subst. split; [assumption|]. apply IH; assumption.
Qed.
Lemma no_ext_bin o t l : no_ext (EBin o t l) <-> Forall (fun pe => no_ext (snd pe)) l.
Proof. apply (all_Forall (fun pe : bool * expr => no_ext (snd pe))). Qed.
Lemma no_ext_fun f l : no_ext (EFun f l) <-> Forall no_ext l.
Proof. apply (all_Forall no_ext). Qed.

(** The external memory of another state. *)
Definition with_ext st st' : store A := mkStore A (s_val st) (s_fixed st) (s_id st) (s_ext st') (s_fun st).
Lemma no_ext_eval st st' : forall e, no_ext e -> eval (with_ext st st') e = eval st e.
Proof.
  apply (expr_ind' A (fun e => no_ext e -> eval (with_ext st st') e = eval st e)).
  - reflexivity.
  - reflexivity.
  - intros t x [].
  - intros o t e IH H. simpl. rewrite IH by exact H. reflexivity.
  - intros o t l IH H. apply eval_bin_ext. apply no_ext_bin in H. rewrite Forall_forall in *. auto.
  - intros t t0 e IH H. simpl. rewrite IH by exact H. reflexivity.
  - intros f args IH H. rewrite !eval_fun. simpl. f_equal. apply evals_ext. apply no_ext_fun in H. rewrite Forall_forall in *. auto.
Qed.

Lemma no_ext_only st st' e : no_ext e -> agree_on (dependencies st e) st st' -> eval st' e = eval st e.
Proof.
  intros Hn (H1 & H2 & H3). rewrite <- (no_ext_eval st' st e Hn). apply dependencies_only; [|reflexivity].
  split; [exact H1|]. split; [exact H2|exact H3].
Qed.

(** ** Promotion *)
(** Convert to type [t] if necessary. *)
Definition up (t : ty) (e : expr) : expr := if ty_eqb (etype e) t then e else ECast t (etype e) e.

Lemma promote_up (e1 e2 : expr) : promote e1 e2 = (up (ty_max (etype e1) (etype e2)) e1, up (ty_max (etype e1) (etype e2)) e2).
Proof. unfold promote, up. destruct (etype e1) eqn:E1, (etype e2) eqn:E2; simpl; reflexivity. Qed.

Lemma up_type t e : etype (up t e) = t.
Proof. unfold up. destruct (ty_eqb _ _) eqn:E; [apply ty_eqb_eq, E|reflexivity]. Qed.
Lemma up_wt t e : wt e -> wt (up t e).
Proof. unfold up. destruct (ty_eqb _ _); simpl; auto. Qed.
Lemma up_eval st t e : functions_typed st -> wt e -> eval st (up t e) = rbind (eval st e) (cast_to t).
Proof.
  intros HF Hw. unfold up. destruct (ty_eqb _ _) eqn:E; [|reflexivity]. apply ty_eqb_eq in E.
  destruct (eval st e) as [v| | |] eqn:Ev; try reflexivity. simpl.
  apply (eval_type st HF e Hw) in Ev. rewrite <- E, <- Ev. symmetry. apply cast_to_same.
Qed.

Lemma assign_binary_eq o (e1 e2 : expr) :
  let t := ty_max (etype e1) (etype e2) in
  assign_binary o e1 e2 = Some (binary_op o t (up t e1) (up t e2)).
Proof. intros t. unfold assign_binary. rewrite promote_up. fold t. rewrite !up_type, ty_eqb_refl. reflexivity. Qed.

(** The family ([+ -], [* /], [^]) of the operator at the top of a tree. *)
Definition fam (e : expr) : option bop := match e with EBin o _ _ => Some (positive_op o) | _ => None end.

Lemma chain_of_fam o t e : fam e <> Some (positive_op o) -> chain_of o t e = None.
Proof. destruct e; try reflexivity. simpl. destruct o0, o; simpl; try reflexivity; intros H; exfalso; apply H; reflexivity. Qed.
Lemma up_fam t e : fam (up t e) = fam e \/ fam (up t e) = None.
Proof. unfold up. destruct (ty_eqb _ _); simpl; auto. Qed.
Lemma up_fam_neq t e o : fam e <> Some o -> fam (up t e) <> Some o.
Proof. intros H. destruct (up_fam t e) as [->| ->]; congruence. Qed.

(** ** Trees for chains *)

(** What the chain [x op y op z ...] becomes when its last two operands have the largest type. *)
Definition flat (t : ty) (x : expr) (rest : list (bop * expr)) : list (bool * expr) :=
  (true, up t x) :: map (fun oy => (is_positive (fst oy), up t (snd oy))) rest.

Definition rest_types (rest : list (bop * expr)) : list ty := map (fun oy => etype (snd oy)) rest.

Lemma last_two_cons {X} (x y z : X) l : firstn 2 (rev (x :: y :: z :: l)) = firstn 2 (rev (y :: z :: l)).
Proof.
  cbn [rev]. rewrite <- app_assoc. change ([y] ++ [x]) with [y; x]. rewrite !firstn_app.
  assert (L : (1 <= List.length (rev l ++ [z]))%nat) by (rewrite app_length; simpl; lia).
  rewrite (app_length _ [z]) in *. simpl in *.
  destruct (List.length (rev l) + 1)%nat as [|n]; [lia|]. destruct n as [|n]; simpl; reflexivity.
Qed.

Lemma late_tail x y z l : late_largest (x :: y :: z :: l) -> late_largest (y :: z :: l).
Proof. unfold late_largest. rewrite last_two_cons. intros H a Ha. apply H. right. exact Ha. Qed.

Lemma late_head x y z l : late_largest (x :: y :: z :: l) -> ty_le x (tmax y (z :: l)).
Proof.
  intros H. destruct (H x ltac:(left; reflexivity)) as (b & Hb & Hle).
  rewrite last_two_cons in Hb. eapply ty_le_trans; [exact Hle|]. apply tmax_ge.
  apply in_rev. rewrite <- (firstn_skipn 2 (rev _)). apply in_or_app. left. exact Hb.
Qed.

Lemma build_right_flat (f : bop) : positive_op f = f -> forall rest x,
  rest <> [] ->
  (forall o y, In (o, y) rest -> positive_op o = f /\ fam y <> Some f) -> fam x <> Some f ->
  late_largest (etype x :: rest_types rest) ->
  let t := tmax (etype x) (rest_types rest) in
  exists o, positive_op o = f /\ build_right A x rest = Built (EBin o t (flat t x rest)).
Proof.
  intros Hf. induction rest as [|[o y] rest IH]; intros x Hn Hr Hx Hl; [contradiction|].
  destruct (Hr o y ltac:(left; reflexivity)) as [Ho Hy].
  destruct rest as [|[o2 z] rest].
  - cbn zeta. exists o. split; [exact Ho|]. cbn [build_right bbind of_option rest_types map tmax snd].
    rewrite assign_binary_eq. unfold of_option, binary_op.
    rewrite !chain_of_fam by (rewrite Ho; apply up_fam_neq; assumption). reflexivity.
  - assert (Hl' := late_head _ _ _ _ Hl). apply late_tail in Hl.
    destruct (IH y ltac:(discriminate)) as (o' & Ho' & E).
    { intros p q Hpq. apply Hr. right. exact Hpq. }
    { exact Hy. }
    { exact Hl. }
    cbn zeta. remember (tmax (etype y) (rest_types ((o2, z) :: rest))) as t eqn:Et.
    cbn [build_right] in E |- *. rewrite E. cbn [bbind]. rewrite assign_binary_eq. cbn [etype].
    assert (Hl2 : ty_le (etype x) t) by (rewrite Et; exact Hl').
    assert (Et2 : tmax (etype x) (rest_types ((o, y) :: (o2, z) :: rest)) = t).
    { change (ty_max (etype x) (tmax (etype y) (rest_types ((o2, z) :: rest))) = t). rewrite <- Et. apply ty_max_absorb, Hl2. }
    rewrite Et2. rewrite (ty_max_absorb _ _ Hl2).
    exists o. split; [exact Ho|]. unfold of_option. f_equal. unfold binary_op.
    assert (Eu : up t (EBin o' t (flat t y ((o2, z) :: rest))) = EBin o' t (flat t y ((o2, z) :: rest))).
    { unfold up. cbn [etype]. rewrite ty_eqb_refl. reflexivity. }
    rewrite Eu.
    rewrite (chain_of_fam o t (up t x)) by (rewrite Ho; apply up_fam_neq; exact Hx).
    assert (Ec : chain_of o t (EBin o' t (flat t y ((o2, z) :: rest))) = Some (flat t y ((o2, z) :: rest))).
    { simpl. rewrite ty_eqb_refl. rewrite <- Ho in Ho'. destruct o, o'; simpl in *; try discriminate; reflexivity. }
    rewrite Ec. unfold flat. cbn [map fst snd app]. destruct (is_positive o) eqn:Ep; reflexivity.
Qed.

Lemma build_right_total rest : forall x, exists e, build_right A x rest = Built e /\
  etype e = tmax (etype x) (rest_types rest) /\
  (wt x -> Forall (fun oy => wt (snd oy)) rest -> wt e) /\
  (rest = [] -> e = x) /\
  (forall o y r, rest = (o, y) :: r -> exists t l, e = EBin o t l).
Proof.
  induction rest as [|[o y] rest IH]; intros x.
  - exists x. simpl. repeat split; auto. discriminate.
  - destruct (IH y) as (e & E & T & W & _ & _). simpl. rewrite E. simpl. rewrite assign_binary_eq. rewrite T. simpl.
    eexists. split; [reflexivity|]. cbn [etype]. split; [reflexivity|]. split; [|split].
    + intros Wx Wr. inversion Wr; subst. simpl in *. specialize (W H1 H2).
      set (t := ty_max (etype x) (tmax (etype y) (rest_types rest))).
      apply (proj2 (wt_bin o t _)).
      assert (G : forall e, wt e -> etype e = t -> forall l, chain_of o t e = Some l -> Forall (fun pe => etype (snd pe) = t /\ wt (snd pe)) l).
      { intros e' We Te l. destruct e'; simpl; try discriminate. simpl in Te. subst t0.
        destruct (_ && _); [|discriminate]. intros E'. inversion E'; subst. apply wt_bin in We. exact We. }
      apply Forall_app. split.
      * destruct (chain_of o t (up t x)) eqn:Ec.
        -- apply (G _ (up_wt _ _ Wx) (up_type _ _) _ Ec).
        -- constructor; [|constructor]. simpl. split; [apply up_type|apply up_wt, Wx].
      * destruct (chain_of o t (up t e)) as [l|] eqn:Ec.
        -- pose proof (G _ (up_wt _ _ W) (up_type _ _) _ Ec) as Hl. destruct (is_positive o); [exact Hl|].
           destruct l as [|[p q] l]; [constructor|]. inversion Hl; subst. constructor; assumption.
        -- constructor; [|constructor]. simpl. split; [apply up_type|apply up_wt, W].
    + discriminate.
    + intros o0 y0 r H. inversion H; subst. eexists _, _. reflexivity.
Qed.

(** Evaluating the flattened chain. *)
Lemma eval_flat st o t x rest f : functions_typed st -> positive_op o = f ->
  wt x -> Forall (fun oy => wt (snd oy)) rest -> (forall p y, In (p, y) rest -> positive_op p = f) ->
  eval st (EBin o t (flat t x rest)) =
  chain A t (eval st x) (map (fun oy => (fst oy, eval st (snd oy))) rest).
Proof.
  intros HF Ho Wx Wr Hr. unfold flat. rewrite eval_bin, up_eval by assumption. unfold chain. rewrite rbind_assoc.
  apply rbind_ext. intros v _. rewrite converted_eq. apply rbind_ext. intros w _. clear v Wx. revert w.
  induction rest as [|[p y] rest IH]; intros w; [reflexivity|]. inversion Wr; subst. simpl in H1.
  cbn [map eval_fold chain_value fst snd]. rewrite up_eval by assumption. rewrite rbind_assoc.
  apply rbind_ext. intros v _. rewrite converted_eq. apply rbind_ext. intros u _. rewrite op_value_eq.
  assert (E : (if is_positive p then positive_op o else negative_op o) = p).
  { assert (Hp := Hr p y ltac:(left; reflexivity)). clear - Hp. destruct p, o; simpl in *; try discriminate; reflexivity. }
  rewrite E. apply rbind_ext. intros v' _. apply IH; [assumption|]. intros q z Hq. apply (Hr q z). right. exact Hq.
Qed.

Lemma chain_single st t x : functions_typed st -> wt x -> etype x = t -> chain A t (eval st x) [] = eval st x.
Proof.
  intros HF W T. unfold chain. simpl. destruct (eval st x) as [v| | |] eqn:E; try reflexivity. simpl.
  apply (eval_type st HF x W) in E. rewrite converted_eq, <- T, <- E, cast_to_same. reflexivity.
Qed.

(** The value of a right-recursively built chain. *)
Lemma build_right_value st (f : bop) x rest e : functions_typed st -> positive_op f = f ->
  (forall o y, In (o, y) rest -> positive_op o = f /\ fam y <> Some f) -> fam x <> Some f ->
  late_largest (etype x :: rest_types rest) -> wt x -> Forall (fun oy => wt (snd oy)) rest ->
  build_right A x rest = Built e ->
  eval st e = chain A (tmax (etype x) (rest_types rest)) (eval st x) (map (fun oy => (fst oy, eval st (snd oy))) rest).
Proof.
  intros HF Hf Hr Hx Hl Wx Wr E. destruct rest as [|p rest].
  - simpl in E. inversion E; subst. symmetry. apply chain_single; auto.
  - destruct (build_right_flat f Hf (p :: rest) x ltac:(discriminate) Hr Hx Hl) as (o & Ho & E').
    cbn zeta in E'. rewrite E' in E. inversion E; subst. eapply eval_flat; eauto. intros q y Hq. apply (Hr q y Hq).
Qed.

(** ** Function calls *)
Lemma function_args_rev (chain : list expr) : function_args chain = rev chain.
Proof.
  unfold function_args. enough (H : forall l acc, fold_left (fun l e => e :: l) l acc = rev l ++ acc) by (rewrite H, app_nil_r; reflexivity).
  clear. induction l as [|x l IH]; intros acc; [reflexivity|]. simpl. rewrite IH, <- app_assoc. reflexivity.
Qed.

Lemma make_list_spec params : forall args : list expr,
  (List.length args = List.length params /\ exists l, make_list params args = Some l /\
     map etype l = params /\ (Forall wt args -> Forall wt l) /\
     forall st, functions_typed st -> Forall wt args -> evals st l = arg_values A params (map (eval st) args)) \/
  (List.length args <> List.length params /\ make_list params args = None).
Proof.
  induction params as [|t params IH]; intros [|e args].
  - left. split; [reflexivity|]. exists []. simpl. auto.
  - right. simpl. split; [discriminate|reflexivity].
  - right. simpl. split; [discriminate|reflexivity].
  - destruct (IH args) as [(L & l & E & T & W & V)|(L & E)].
    + left. split; [simpl; lia|]. exists (convert_arg t e :: l). simpl. rewrite E.
      assert (U : convert_arg t e = up t e).
      { unfold convert_arg, up. destruct (etype e), t; reflexivity. }
      rewrite U. split; [reflexivity|]. split; [rewrite up_type, T; reflexivity|]. split.
      * intros H. inversion H; subst. constructor; [apply up_wt; assumption|auto].
      * intros st HF H. inversion H; subst. rewrite up_eval by assumption. rewrite rbind_assoc.
        apply rbind_ext. intros v _. rewrite converted_eq. apply rbind_ext. intros w _. rewrite V by assumption. reflexivity.
    + right. split; [simpl; lia|]. simpl. rewrite E. reflexivity.
Qed.

(** ** Whole expressions *)
Section Whole.
  Variable vars : string -> option (nat * ty).
  Variable reg : string -> option fsig.
  Notation build_atom := (build_atom A vars reg).
  Notation build_factor := (build_factor A vars reg).
  Notation build_term := (build_term A vars reg).
  Notation build_sum := (build_sum A vars reg).

  Fixpoint factors (l : list (bool * factor)) : built (list (bop * expr)) :=
    match l with
    | [] => Built []
    | (o, y) :: l' => bbind (build_factor y) (fun e => bbind (factors l') (fun r => Built ((binop_mul o, e) :: r)))
    end.
  Fixpoint terms (l : list (bool * term)) : built (list (bop * expr)) :=
    match l with
    | [] => Built []
    | (o, y) :: l' => bbind (build_term y) (fun e => bbind (terms l') (fun r => Built ((binop_add o, e) :: r)))
    end.
  Fixpoint arg_chain (chain : list expr) (l : list sum) : built (list expr) :=
    match l with
    | [] => Built chain
    | e :: l' => bbind (build_sum e) (fun e => arg_chain (append_token chain e) l')
    end.
  Lemma build_term_eq f rest : build_term (Term f rest) = bbind (build_factor f) (fun x => bbind (factors rest) (build_right A x)).
  Proof. reflexivity. Qed.
  Lemma build_sum_eq sg t rest : build_sum (Sum sg t rest) =
    bbind (build_term t) (fun x => bbind (terms rest) (build_right A (build_signed A sg x))).
  Proof. reflexivity. Qed.
  Lemma build_pow_eq a s b : build_factor (FPow a s b) =
    bbind (build_atom a) (fun x => bbind (build_atom b) (fun y => of_option A (assign_binary OExp x (build_signed A s y)))).
  Proof. reflexivity. Qed.
  Lemma build_call_eq f args : build_atom (ACall f args) = bbind (arg_chain [] args) (assign_function reg f).
  Proof. reflexivity. Qed.

  Lemma bbind_inv {X Y} (x : built X) (f : X -> built Y) v : bbind x f = Built v -> exists a, x = Built a /\ f a = Built v.
  Proof. destruct x; simpl; try discriminate. eauto. Qed.

  (** The value of the whole in terms of the parts. *)
  Definition Good (e : expr) (t : ty) (chains : Prop) (val : store A -> result value) (fams : list (option bop)) : Prop :=
    wt e /\ etype e = t /\ In (fam e) fams /\ forall st, functions_typed st -> chains -> eval st e = val st.

  Lemma factors_spec rest l : Forall (fun x => forall e, build_factor (snd x) = Built e ->
        Good e (ftype vars reg (snd x)) (fchains vars reg late_largest (snd x)) (fun st => fvalue A vars reg st (snd x)) [None; Some OExp]) rest ->
    factors rest = Built l ->
    Forall2 (fun x oe => fst oe = mul_op (fst x) /\
        Good (snd oe) (ftype vars reg (snd x)) (fchains vars reg late_largest (snd x)) (fun st => fvalue A vars reg st (snd x)) [None; Some OExp]) rest l.
  Proof.
    intros H. revert l. induction H as [|[o y] rest Hy _ IH]; intros l E; simpl in E.
    - inversion E. constructor.
    - apply bbind_inv in E. destruct E as (e & Ee & E). apply bbind_inv in E. destruct E as (r & Er & E). inversion E; subst.
      constructor; [|apply IH, Er]. simpl. split; [destruct o; reflexivity|]. apply Hy, Ee.
  Qed.
  Lemma terms_spec rest l : Forall (fun x => forall e, build_term (snd x) = Built e ->
        Good e (ttype vars reg (snd x)) (tchains vars reg late_largest (snd x)) (fun st => tvalue A vars reg st (snd x)) [None; Some OExp; Some OMul]) rest ->
    terms rest = Built l ->
    Forall2 (fun x oe => fst oe = add_op (fst x) /\
        Good (snd oe) (ttype vars reg (snd x)) (tchains vars reg late_largest (snd x)) (fun st => tvalue A vars reg st (snd x)) [None; Some OExp; Some OMul]) rest l.
  Proof.
    intros H. revert l. induction H as [|[o y] rest Hy _ IH]; intros l E; simpl in E.
    - inversion E. constructor.
    - apply bbind_inv in E. destruct E as (e & Ee & E). apply bbind_inv in E. destruct E as (r & Er & E). inversion E; subst.
      constructor; [|apply IH, Er]. simpl. split; [destruct o; reflexivity|]. apply Hy, Ee.
  Qed.

  Lemma args_spec args : Forall (fun s => forall e, build_sum s = Built e ->
        Good e (stype vars reg s) (schains vars reg late_largest s) (fun st => svalue A vars reg st s) [None; Some OExp; Some OMul; Some OAdd]) args ->
    forall chain l, arg_chain chain args = Built l ->
    exists es, l = rev es ++ chain /\
    Forall2 (fun s e => Good e (stype vars reg s) (schains vars reg late_largest s) (fun st => svalue A vars reg st s) [None; Some OExp; Some OMul; Some OAdd]) args es.
  Proof.
    intros H. induction H as [|s args Hs _ IH]; intros chain l E; simpl in E.
    - inversion E. exists []. split; [reflexivity|constructor].
    - apply bbind_inv in E. destruct E as (e & Ee & E). apply IH in E. destruct E as (es & -> & F).
      exists (e :: es). split.
      + simpl. rewrite <- app_assoc. reflexivity.
      + constructor; [apply Hs, Ee|exact F].
  Qed.

  Lemma Forall2_wt {X} (f : X -> ty) ch va fa (rest : list X) (l : list (bop * expr)) op :
    Forall2 (fun x oe => fst oe = op x /\ Good (snd oe) (f x) (ch x) (va x) fa) rest l ->
    Forall (fun oy => wt (snd oy)) l /\ rest_types l = map f rest.
  Proof.
    induction 1 as [|x oe rest l (_ & W & T & _) _ [IH1 IH2]]; [split; [constructor|reflexivity]|].
    split; [constructor; assumption|]. simpl. rewrite T, IH2. reflexivity.
  Qed.

  Lemma build_correct :
    (forall a e, build_atom a = Built e ->
       Good e (atype vars reg a) (achains vars reg late_largest a) (fun st => avalue A vars reg st a) [None]) /\
    (forall f e, build_factor f = Built e ->
       Good e (ftype vars reg f) (fchains vars reg late_largest f) (fun st => fvalue A vars reg st f) [None; Some OExp]) /\
    (forall t e, build_term t = Built e ->
       Good e (ttype vars reg t) (tchains vars reg late_largest t) (fun st => tvalue A vars reg st t) [None; Some OExp; Some OMul]) /\
    (forall s e, build_sum s = Built e ->
       Good e (stype vars reg s) (schains vars reg late_largest s) (fun st => svalue A vars reg st s) [None; Some OExp; Some OMul; Some OAdd]).
  Proof.
    apply syntax_ind.
    - intros s e E. cbn in E. unfold assign_integer in E. destruct (str_to_int A s) as [z|] eqn:Es; simpl in E; [|discriminate].
      simpl in E. inversion E; subst. unfold Good. cbn. rewrite Es. intuition.
    - intros s e E. cbn in E. unfold assign_float in E. destruct (str_to_float A s) as [z|] eqn:Es; simpl in E; [|discriminate].
      simpl in E. inversion E; subst. unfold Good. cbn. rewrite Es. intuition.
    - intros s e E. cbn in E. inversion E; subst. unfold Good. cbn. intuition.
    - intros s e E. cbn in E. unfold assign_identifier in E. destruct (vars s) as [[x t]|] eqn:Es; simpl in E; [|discriminate].
      simpl in E. inversion E; subst. unfold Good. cbn. rewrite Es. intuition. rewrite of_type_eq, rbind_ext with (g := Ok) by reflexivity.
      apply rbind_ok.
    - intros s IH e E. cbn in E. apply bbind_inv in E. destruct E as (x & Ex & E). inversion E; subst.
      destruct (IH x Ex) as (W & T & _ & V). unfold Good, assign_unary. cbn. rewrite T. intuition.
      rewrite rbind_ext with (g := Ok) by reflexivity. rewrite rbind_ok. apply V; assumption.
    - intros f args IH e E. rewrite build_call_eq in E. apply bbind_inv in E. destruct E as (l & El & E).
      apply (args_spec _ IH) in El. destruct El as (es & -> & F). rewrite app_nil_r in E.
      unfold assign_function in E. rewrite function_args_rev, rev_involutive in E. unfold get_expression in E.
      destruct (reg f) as [s|] eqn:Es; [|discriminate].
      assert (We : Forall wt es) by (clear - F; induction F as [|? ? ? ? (W & _)]; constructor; auto).
      destruct (make_list_spec (fs_params s) es) as [(L & l & Ml & T & W & V)|(L & Ml)]; rewrite Ml in E; [|discriminate].
      inversion E; subst. unfold Good. split; [apply wt_fun; auto|]. split; [cbn; rewrite Es; reflexivity|].
      split; [left; reflexivity|]. intros st HF Hc. rewrite eval_fun. cbn. rewrite Es. rewrite V by assumption.
      do 2 f_equal. cbn in Hc. apply all_Forall in Hc. clear - F HF Hc.
      induction F as [|s e args es (_ & _ & _ & V) _ IH]; [reflexivity|]. inversion Hc; subst. simpl. rewrite V by assumption.
      rewrite IH by assumption. reflexivity.
    - intros a IH e E. cbn in E. destruct (IH e E) as (W & T & F & V). unfold Good. cbn in *. intuition.
    - intros a s b IHa IHb e E. cbn in E. apply bbind_inv in E. destruct E as (x & Ex & E).
      apply bbind_inv in E. destruct E as (y & Ey & E).
      destruct (IHa x Ex) as (Wx & Tx & Fx & Vx). destruct (IHb y Ey) as (Wy & Ty & Fy & Vy).
      set (y' := build_signed A s y) in *.
      assert (Ey' : wt y' /\ etype y' = etype y /\ fam y' = None /\
                    forall st, eval st y' = signed A s (eval st y)).
      { unfold y', build_signed, signed. destruct s as [[|]|]; simpl; repeat split; auto;
          first [intros; symmetry; apply rbind_ext; intros; apply minus_eq|destruct Fy as [<-|[]]; reflexivity]. }
      destruct Ey' as (Wy' & Ty' & Fy' & Vy').
      assert (R : build_right A x [(OExp, y')] = Built e).
      { simpl. exact E. }
      destruct (build_right_total [(OExp, y')] x) as (e' & E' & T' & W' & _ & B'). rewrite R in E'. inversion E'; subst e'.
      unfold Good. split; [apply W'; [exact Wx|constructor; [exact Wy'|constructor]]|].
      split; [rewrite T'; simpl; rewrite Tx, Ty', Ty; reflexivity|].
      split. { destruct (B' OExp y' [] eq_refl) as (t & l & ->). simpl. auto. }
      intros st HF (_ & Ca & Cb).
      rewrite (build_right_value st OExp x [(OExp, y')] e HF eq_refl); try assumption.
      + cbn [rest_types map snd tmax fst]. rewrite Vy', Tx, Ty', Ty. rewrite Vx, Vy by assumption. reflexivity.
      + intros o z [H|[]]. inversion H; subst. split; [reflexivity|]. rewrite Fy'. discriminate.
      + destruct Fx as [<-|[]]. discriminate.
      + intros c Hc. exists c. split; [|apply ty_le_refl]. simpl in *. tauto.
      + constructor; [exact Wy'|constructor].
    - intros f rest IHf IHr e E. rewrite build_term_eq in E. apply bbind_inv in E. destruct E as (x & Ex & E).
      apply bbind_inv in E. destruct E as (l & El & E). destruct (IHf x Ex) as (Wx & Tx & Fx & Vx).
      pose proof (factors_spec _ _ IHr El) as F2. destruct (Forall2_wt _ _ _ _ _ _ _ F2) as [Wl Tl].
      destruct (build_right_total l x) as (e' & E' & T' & W' & N' & B'). rewrite E in E'. inversion E'; subst e'.
      assert (HT : ttype vars reg (Term f rest) = tmax (etype x) (rest_types l)).
      { cbn [ttype stype]. rewrite fold_tmax, Tl, Tx. reflexivity. }
      unfold Good. split; [apply W'; assumption|]. split; [rewrite HT; exact T'|].
      split.
      { destruct l as [|[o y] l]; [rewrite (N' eq_refl); simpl in *; tauto|]. destruct (B' o y l eq_refl) as (t & l' & ->).
        inversion F2 as [|b0 oe0 r0 l0 [Ho _] F20]; subst. simpl in Ho. subst o. simpl. destruct (fst b0); simpl; auto. }
      intros st HF (P1 & Cf & Cr). apply all_Forall in Cr. cbn [tvalue]. rewrite HT.
      assert (Hfam : forall o y, In (o, y) l -> positive_op o = OMul /\ fam y <> Some OMul).
      { intros o y Hin. clear - F2 Hin. induction F2 as [|b oe rest l (Ho & _ & _ & Fm & _) _ IH]; [destruct Hin|].
        destruct Hin as [->|Hin]; [|apply IH, Hin]. simpl in *. split; [subst o; destruct (fst b); reflexivity|].
        destruct Fm as [<-|[<-|[]]]; discriminate. }
      rewrite (build_right_value st OMul x l e HF eq_refl); try assumption.
      + rewrite (Vx st HF Cf). f_equal. clear - F2 Cr HF. induction F2 as [|b oe rest l (Ho & _ & _ & _ & V) _ IH]; [reflexivity|].
        inversion Cr; subst. simpl. rewrite Ho, V by assumption. rewrite IH by assumption. reflexivity.
      + destruct Fx as [<-|[<-|[]]]; discriminate.
      + rewrite Tl, Tx. exact P1.
    - intros sg t rest IHt IHr e E. rewrite build_sum_eq in E. apply bbind_inv in E. destruct E as (x0 & Ex & E).
      apply bbind_inv in E. destruct E as (l & El & E). destruct (IHt x0 Ex) as (Wx0 & Tx0 & Fx0 & Vx0).
      set (x := build_signed A sg x0) in *.
      assert (Hx : wt x /\ etype x = ttype vars reg t /\ In (fam x) [None; Some OExp; Some OMul] /\
                   forall st, eval st x = signed A sg (eval st x0)).
      { unfold x, build_signed, signed. destruct sg as [[|]|]; simpl; repeat split; auto.
        intros; symmetry; apply rbind_ext; intros; apply minus_eq. }
      destruct Hx as (Wx & Tx & Fx & Vx).
      pose proof (terms_spec _ _ IHr El) as F2. destruct (Forall2_wt _ _ _ _ _ _ _ F2) as [Wl Tl].
      destruct (build_right_total l x) as (e' & E' & T' & W' & N' & B'). rewrite E in E'. inversion E'; subst e'.
      assert (HT : stype vars reg (Sum sg t rest) = tmax (etype x) (rest_types l)).
      { cbn [ttype stype]. rewrite fold_tmax, Tl, Tx. reflexivity. }
      unfold Good. split; [apply W'; assumption|]. split; [rewrite HT; exact T'|].
      split.
      { destruct l as [|[o y] l]; [rewrite (N' eq_refl); simpl in *; tauto|]. destruct (B' o y l eq_refl) as (t' & l' & ->).
        inversion F2 as [|b0 oe0 r0 l0 [Ho _] F20]; subst. simpl in Ho. subst o. simpl. destruct (fst b0); simpl; auto 6. }
      intros st HF (P1 & Cf & Cr). apply all_Forall in Cr. cbn [svalue]. rewrite HT.
      assert (Hfam : forall o y, In (o, y) l -> positive_op o = OAdd /\ fam y <> Some OAdd).
      { intros o y Hin. clear - F2 Hin. induction F2 as [|b oe rest l (Ho & _ & _ & Fm & _) _ IH]; [destruct Hin|].
        destruct Hin as [->|Hin]; [|apply IH, Hin]. simpl in *. split; [subst o; destruct (fst b); reflexivity|].
        destruct Fm as [<-|[<-|[<-|[]]]]; discriminate. }
      rewrite (build_right_value st OAdd x l e HF eq_refl); try assumption.
      + rewrite Vx, (Vx0 st HF Cf). f_equal. clear - F2 Cr HF. induction F2 as [|b oe rest l (Ho & _ & _ & _ & V) _ IH]; [reflexivity|].
        inversion Cr; subst. simpl. rewrite Ho, V by assumption. rewrite IH by assumption. reflexivity.
      + destruct Fx as [<-|[<-|[<-|[]]]]; discriminate.
      + rewrite Tl, Tx. exact P1.
  Qed.

  (** An expression is accepted iff every name is known, every call has the right number of
      arguments and every literal is in range. *)
  Lemma build_right_built x l : exists e, build_right A x l = Built e.
  Proof. destruct (build_right_total l x) as (e & E & _). eauto. Qed.

  Lemma bbind_built {X Y} (x : built X) (f : X -> built Y) (P : Prop) :
    ((exists a, x = Built a) <-> P) -> (forall a, exists b, f a = Built b) -> (exists b, bbind x f = Built b) <-> P.
  Proof.
    intros H Hf. rewrite <- H. split.
    - intros [b E]. apply bbind_inv in E. destruct E as (a & E & _). eauto.
    - intros [a ->]. simpl. apply Hf.
  Qed.

  Lemma build_accepts :
    (forall a, (exists e, build_atom a = Built e) <-> awf A vars reg a) /\
    (forall f, (exists e, build_factor f = Built e) <-> fwf A vars reg f) /\
    (forall t, (exists e, build_term t = Built e) <-> twf A vars reg t) /\
    (forall s, (exists e, build_sum s = Built e) <-> swf A vars reg s).
  Proof.
    apply syntax_ind.
    - intros s. cbn [ExprBuildModel.build_atom awf]. apply bbind_built; [|eauto]. unfold assign_integer.
      destruct (str_to_int A s); split; intros [x E]; try discriminate; eauto.
    - intros s. cbn [ExprBuildModel.build_atom awf]. apply bbind_built; [|eauto]. unfold assign_float.
      destruct (str_to_float A s); split; intros [x E]; try discriminate; eauto.
    - intros s. cbn. split; eauto.
    - intros s. cbn [ExprBuildModel.build_atom awf]. apply bbind_built; [|eauto]. unfold assign_identifier.
      destruct (vars s) as [[x t]|]; split; intros [y E]; try discriminate; eauto.
    - intros s IH. cbn [ExprBuildModel.build_atom awf]. apply bbind_built; [exact IH|eauto].
    - intros f args IH. rewrite build_call_eq. cbn [awf].
      assert (H : (fix all (l : list sum) : Prop := match l with [] => True | e :: l' => swf A vars reg e /\ all l' end) args <->
                  exists es, List.length es = List.length args /\ arg_chain [] args = Built (rev es)).
      { rewrite (all_Forall (swf A vars reg)). clear f.
        assert (G : forall chain, Forall (swf A vars reg) args <-> exists es, List.length es = List.length args /\ arg_chain chain args = Built (rev es ++ chain)).
        { induction IH as [|s args Hs _ IHl]; intros chain.
          - split; [intros _; exists []; auto|constructor].
          - cbn [arg_chain]. split.
            + intros H. inversion H; subst. apply Hs in H2. destruct H2 as [e Ee]. rewrite Ee. cbn [bbind].
              destruct (proj1 (IHl (append_token chain e)) H3) as (es & L & E). exists (e :: es). split; [simpl; lia|].
              rewrite E. simpl. rewrite <- app_assoc. reflexivity.
            + intros (es & L & E). destruct (build_sum s) as [e|err] eqn:Es; [|discriminate]. cbn [bbind] in E.
              constructor; [apply Hs; eauto|]. apply (IHl (append_token chain e)).
              destruct es as [|e0 es]; [discriminate|]. exists es. split; [simpl in L; lia|].
              rewrite E. clear - E.
              assert (K : forall l c r, arg_chain c l = Built r -> exists x, r = x ++ c).
              { induction l as [|s' l IHl']; intros c r; simpl.
                - intros H. inversion H. exists []. reflexivity.
                - destruct (build_sum s'); simpl; [|discriminate]. intros H. apply IHl' in H. destruct H as [y ->].
                  exists (y ++ [x]). rewrite <- app_assoc. reflexivity. }
              apply K in E. destruct E as [y E]. simpl in E. rewrite <- app_assoc in E. simpl in E.
              simpl. rewrite <- app_assoc. simpl. unfold append_token in *.
              assert (E2 : rev es ++ [e0] = y ++ [e]).
              { change (e0 :: chain) with ([e0] ++ chain) in E. change (e :: chain) with ([e] ++ chain) in E.
                rewrite !app_assoc in E. apply app_inv_tail in E. exact E. }
              apply app_inj_tail in E2. destruct E2 as [_ ->]. reflexivity. }
        rewrite (G []). split; intros (es & L & E); exists es; rewrite ?app_nil_r in *; auto. }
      rewrite H. split.
      + intros [e E]. apply bbind_inv in E. destruct E as (l & El & E).
        unfold assign_function, get_expression in E. destruct (reg f) as [s|] eqn:Es; [|discriminate].
        rewrite function_args_rev in E.
        destruct (make_list_spec (fs_params s) (rev l)) as [(L & l' & Ml & _)|(L & Ml)]; rewrite Ml in E; [|discriminate].
        assert (Ll : List.length l = List.length args).
        { clear - El. assert (K : forall a c r, arg_chain c a = Built r -> List.length r = (List.length a + List.length c)%nat).
          { induction a as [|s' a IH]; intros c r; simpl; [intros H; inversion H; reflexivity|].
            destruct (build_sum s'); simpl; [|discriminate]. intros H. apply IH in H. simpl in H. lia. }
          apply K in El. simpl in El. lia. }
        split.
        * exists s. split; [reflexivity|]. rewrite rev_length in L. lia.
        * exists (rev l). rewrite rev_length, rev_involutive. auto.
      + intros ((s & Es & L) & es & Le & E). rewrite E. cbn [bbind]. unfold assign_function, get_expression.
        rewrite Es, function_args_rev, rev_involutive.
        destruct (make_list_spec (fs_params s) es) as [(_ & l' & Ml & _)|(L' & Ml)]; [rewrite Ml; eauto|lia].
    - intros a IH. exact IH.
    - intros a s b IHa IHb. rewrite build_pow_eq. cbn [fwf]. rewrite <- IHa, <- IHb. split.
      + intros [e E]. apply bbind_inv in E. destruct E as (x & Ex & E). apply bbind_inv in E. destruct E as (y & Ey & _). eauto.
      + intros [[x Ex] [y Ey]]. eexists. rewrite Ex, Ey. cbn [bbind]. rewrite assign_binary_eq. reflexivity.
    - intros f rest IHf IHr. rewrite build_term_eq. cbn [twf]. rewrite (all_Forall (fun x => fwf A vars reg (snd x))).
      assert (H : Forall (fun x => fwf A vars reg (snd x)) rest <-> exists l, factors rest = Built l).
      { clear IHf. induction IHr as [|[o y] rest Hy _ IH]; [split; [simpl; eauto|constructor]|]. split.
        - intros H. inversion H; subst. simpl in *. apply Hy in H2. destruct H2 as [e ->]. simpl.
          apply IH in H3. destruct H3 as [l ->]. simpl. eauto.
        - intros [l E]. simpl in E. apply bbind_inv in E. destruct E as (e & Ee & E). apply bbind_inv in E.
          destruct E as (r & Er & E). constructor; [apply Hy; eauto|apply IH; eauto]. }
      rewrite H, <- IHf. split.
      + intros [e E]. apply bbind_inv in E. destruct E as (x & Ex & E). apply bbind_inv in E. destruct E as (l & El & _). eauto.
      + intros [[x Ex] [l El]]. rewrite Ex, El. cbn [bbind]. apply build_right_built.
    - intros sg t rest IHf IHr. rewrite build_sum_eq. cbn [swf]. rewrite (all_Forall (fun x => twf A vars reg (snd x))).
      assert (H : Forall (fun x => twf A vars reg (snd x)) rest <-> exists l, terms rest = Built l).
      { clear IHf. induction IHr as [|[o y] rest Hy _ IH]; [split; [simpl; eauto|constructor]|]. split.
        - intros H. inversion H; subst. simpl in *. apply Hy in H2. destruct H2 as [e ->]. simpl.
          apply IH in H3. destruct H3 as [l ->]. simpl. eauto.
        - intros [l E]. simpl in E. apply bbind_inv in E. destruct E as (e & Ee & E). apply bbind_inv in E.
          destruct E as (r & Er & E). constructor; [apply Hy; eauto|apply IH; eauto]. }
      rewrite H, <- IHf. split.
      + intros [e E]. apply bbind_inv in E. destruct E as (x & Ex & E). apply bbind_inv in E. destruct E as (l & El & _). eauto.
      + intros [[x Ex] [l El]]. rewrite Ex, El. cbn [bbind]. apply build_right_built.
  Qed.

  (** *** Trees built from deck expressions do not read external memory. *)
  Lemma up_no_ext t e : no_ext e -> no_ext (up t e).
  Proof. unfold up. destruct (ty_eqb _ _); auto. Qed.
  Lemma binary_no_ext o t e1 e2 : no_ext e1 -> no_ext e2 -> no_ext (binary_op o t e1 e2).
  Proof.
    intros H1 H2. unfold binary_op. apply no_ext_bin. apply Forall_app.
    assert (G : forall e l, no_ext e -> chain_of o t e = Some l -> Forall (fun pe => no_ext (snd pe)) l).
    { intros e l He. destruct e; simpl; try discriminate. destruct (_ && _); [|discriminate].
      intros E. inversion E; subst. exact (proj1 (no_ext_bin o0 t0 l) He). }
    split.
    - destruct (chain_of o t e1) eqn:E; [apply (G _ _ H1 E)|]. constructor; [exact H1|constructor].
    - destruct (chain_of o t e2) as [l|] eqn:E; [|constructor; [exact H2|constructor]].
      pose proof (G _ _ H2 E) as Hl. destruct (is_positive o); [exact Hl|].
      destruct l as [|[p q] l]; [constructor|]. inversion Hl; subst. constructor; assumption.
  Qed.
  Lemma build_right_no_ext rest : forall x e, build_right A x rest = Built e -> no_ext x ->
    Forall (fun oy => no_ext (snd oy)) rest -> no_ext e.
  Proof.
    induction rest as [|[o y] rest IH]; intros x e E Hx Hr; simpl in E; [inversion E; subst; exact Hx|].
    apply bbind_inv in E. destruct E as (e' & E' & E). inversion Hr; subst. rewrite assign_binary_eq in E. inversion E; subst.
    apply binary_no_ext; apply up_no_ext; [exact Hx|]. eapply IH; eauto.
  Qed.
  Lemma signed_no_ext s e : no_ext e -> no_ext (build_signed A s e).
  Proof. destruct s as [[|]|]; simpl; auto. Qed.

  Lemma built_no_ext :
    (forall a e, build_atom a = Built e -> no_ext e) /\ (forall f e, build_factor f = Built e -> no_ext e) /\
    (forall t e, build_term t = Built e -> no_ext e) /\ (forall s e, build_sum s = Built e -> no_ext e).
  Proof.
    apply syntax_ind.
    - intros s e E. cbn in E. unfold assign_integer in E. destruct (str_to_int A s) as [z|]; simpl in E; [|discriminate].
      inversion E; subst. exact Logic.I.
    - intros s e E. cbn in E. unfold assign_float in E. destruct (str_to_float A s) as [z|]; simpl in E; [|discriminate].
      inversion E; subst. exact Logic.I.
    - intros s e E. cbn in E. inversion E; subst. exact Logic.I.
    - intros s e E. cbn in E. unfold assign_identifier in E. destruct (vars s) as [[x t]|]; simpl in E; [|discriminate].
      inversion E; subst. exact Logic.I.
    - intros s IH e E. cbn in E. apply bbind_inv in E. destruct E as (x & Ex & E). inversion E; subst. exact (IH x Ex).
    - intros f args IH e E. rewrite build_call_eq in E. apply bbind_inv in E. destruct E as (l & El & E).
      assert (Hl : forall c l, Forall no_ext c -> arg_chain c args = Built l -> Forall no_ext l).
      { clear - IH. induction IH as [|s args Hs _ IHl]; intros c l Hc E; simpl in E; [inversion E; subst; exact Hc|].
        apply bbind_inv in E. destruct E as (x & Ex & E). apply (IHl _ _ (Forall_cons _ (Hs x Ex) Hc) E). }
      specialize (Hl [] l (Forall_nil _) El). unfold assign_function, get_expression in E. destruct (reg f); [|discriminate].
      rewrite function_args_rev in E. apply Forall_rev in Hl.
      destruct (make_list _ _) as [l'|] eqn:Em; [|discriminate]. inversion E; subst. apply no_ext_fun.
      clear - Em Hl. revert l' Em Hl. generalize (rev l), (fs_params f0). clear. intros l ps. revert l.
      induction ps as [|t ps IHp]; intros [|x l] l' Em Hl; simpl in Em; try discriminate; [inversion Em; constructor|].
      destruct (make_list ps l) eqn:E; [|discriminate]. inversion Em; subst. inversion Hl; subst.
      constructor; [|eapply IHp; eauto]. unfold convert_arg. destruct (ty_eqb _ _); auto.
    - intros a IH e E. exact (IH e E).
    - intros a s b IHa IHb e E. rewrite build_pow_eq in E. apply bbind_inv in E. destruct E as (x & Ex & E).
      apply bbind_inv in E. destruct E as (y & Ey & E). rewrite assign_binary_eq in E. inversion E; subst.
      apply binary_no_ext; apply up_no_ext; [apply IHa, Ex|apply signed_no_ext, IHb, Ey].
    - intros f rest IHf IHr e E. rewrite build_term_eq in E. apply bbind_inv in E. destruct E as (x & Ex & E).
      apply bbind_inv in E. destruct E as (l & El & E). eapply build_right_no_ext; [exact E|apply IHf, Ex|].
      clear - IHr El. revert l El. induction IHr as [|[o y] rest Hy _ IH]; intros l E; simpl in E; [inversion E; constructor|].
      apply bbind_inv in E. destruct E as (e & Ee & E). apply bbind_inv in E. destruct E as (r & Er & E). inversion E; subst.
      constructor; [apply Hy, Ee|apply IH, Er].
    - intros sg f rest IHf IHr e E. rewrite build_sum_eq in E. apply bbind_inv in E. destruct E as (x & Ex & E).
      apply bbind_inv in E. destruct E as (l & El & E). eapply build_right_no_ext; [exact E|apply signed_no_ext, IHf, Ex|].
      clear - IHr El. revert l El. induction IHr as [|[o y] rest Hy _ IH]; intros l E; simpl in E; [inversion E; constructor|].
      apply bbind_inv in E. destruct E as (e & Ee & E). apply bbind_inv in E. destruct E as (r & Er & E). inversion E; subst.
      constructor; [apply Hy, Ee|apply IH, Er].
  Qed.

  (** *** Statements for the properties *)
  Lemma one_type_late l : one_type l -> late_largest l.
  Proof.
    intros H a Ha. destruct (rev l) as [|b r] eqn:E.
    - apply in_rev in Ha. rewrite E in Ha. destruct Ha.
    - exists b. split; [simpl; auto|]. rewrite (H a b); [apply ty_le_refl|exact Ha|]. apply in_rev. rewrite E. left. reflexivity.
  Qed.

  Lemma chains_mono (P Q : list ty -> Prop) : (forall l, P l -> Q l) ->
    (forall a, achains vars reg P a -> achains vars reg Q a) /\ (forall f, fchains vars reg P f -> fchains vars reg Q f) /\
    (forall t, tchains vars reg P t -> tchains vars reg Q t) /\ (forall s, schains vars reg P s -> schains vars reg Q s).
  Proof.
    intros HPQ. apply syntax_ind; try (intros; exact Logic.I).
    - intros e IH H. exact (IH H).
    - intros f args IH H. apply (all_Forall (schains vars reg P)) in H. apply (all_Forall (schains vars reg Q)).
      rewrite Forall_forall in *. auto.
    - intros a IH H. exact (IH H).
    - intros a s b IHa IHb (H1 & H2 & H3). split; [apply HPQ, H1|]. split; [apply IHa, H2|apply IHb, H3].
    - intros f rest IHf IHr (H1 & H2 & H3). split; [apply HPQ, H1|]. split; [apply IHf, H2|].
      apply (all_Forall (fun x => fchains vars reg P (snd x))) in H3. apply (all_Forall (fun x => fchains vars reg Q (snd x))).
      rewrite Forall_forall in *. auto.
    - intros sg f rest IHf IHr (H1 & H2 & H3). split; [apply HPQ, H1|]. split; [apply IHf, H2|].
      apply (all_Forall (fun x => tchains vars reg P (snd x))) in H3. apply (all_Forall (fun x => tchains vars reg Q (snd x))).
      rewrite Forall_forall in *. auto.
  Qed.

  Lemma value_mixed st s e : functions_typed st -> schains vars reg late_largest s -> build_sum s = Built e ->
    eval st e = svalue A vars reg st s.
  Proof. intros HF H E. apply (proj2 (proj2 (proj2 build_correct)) s e E); assumption. Qed.
  Lemma value_uniform st s e : functions_typed st -> schains vars reg one_type s -> build_sum s = Built e ->
    eval st e = svalue A vars reg st s.
  Proof.
    intros HF H E. apply value_mixed; auto.
    apply (proj2 (proj2 (proj2 (chains_mono one_type late_largest one_type_late)))), H.
  Qed.
  Lemma accepted s : (exists e, build_sum s = Built e) <-> swf A vars reg s.
  Proof. apply build_accepts. Qed.
  Lemma built_type s e : build_sum s = Built e -> etype e = stype vars reg s.
  Proof. intros E. apply (proj2 (proj2 (proj2 build_correct)) s e E). Qed.
  Lemma built_value_type st s e v : functions_typed st -> build_sum s = Built e -> eval st e = Ok v -> type_of v = stype vars reg s.
  Proof.
    intros HF E H. destruct (proj2 (proj2 (proj2 build_correct)) s e E) as (W & T & _). rewrite <- T.
    eapply eval_type; eauto.
  Qed.
  Lemma built_dependencies st st' s e : build_sum s = Built e -> agree_on (dependencies st e) st st' -> eval st' e = eval st e.
  Proof. intros E. apply no_ext_only. apply (proj2 (proj2 (proj2 built_no_ext)) s e E). Qed.

  (** Joining two deck expressions by an operator. *)
  Lemma promotion_total st s1 s2 e1 e2 v1 v2 : functions_typed st -> build_sum s1 = Built e1 -> build_sum s2 = Built e2 ->
    eval st e1 = Ok v1 -> eval st e2 = Ok v2 ->
    exists w1 w2, converted A (ty_max (type_of v1) (type_of v2)) v1 = Ok w1 /\
                  converted A (ty_max (type_of v1) (type_of v2)) v2 = Ok w2 /\
                  eval st (fst (promote e1 e2)) = Ok w1 /\ eval st (snd (promote e1 e2)) = Ok w2.
  Proof.
    intros HF E1 E2 H1 H2.
    destruct (proj2 (proj2 (proj2 build_correct)) s1 e1 E1) as (W1 & T1 & _).
    destruct (proj2 (proj2 (proj2 build_correct)) s2 e2 E2) as (W2 & T2 & _).
    pose proof (eval_type st HF e1 W1 v1 H1) as Y1. pose proof (eval_type st HF e2 W2 v2 H2) as Y2.
    rewrite promote_up. cbn [fst snd]. rewrite !up_eval, H1, H2 by assumption. rewrite !converted_eq, Y1, Y2. simpl.
    destruct (cast_up (ty_max (etype e1) (etype e2)) v1) as [w1 C1]; [rewrite Y1; apply ty_max_le_l|].
    destruct (cast_up (ty_max (etype e1) (etype e2)) v2) as [w2 C2]; [rewrite Y2; apply ty_max_le_r|].
    exists w1, w2. auto.
  Qed.

  Lemma assignment_converts st s e t : functions_typed st -> build_sum s = Built e ->
    etype (promote_assign t e) = t /\ eval st (promote_assign t e) = rbind (eval st e) (converted A t).
  Proof.
    intros HF E. destruct (proj2 (proj2 (proj2 build_correct)) s e E) as (W & T & _).
    assert (U : promote_assign t e = up t e) by (unfold promote_assign, up; destruct (etype e), t; reflexivity).
    rewrite U, up_type, up_eval by assumption. split; [reflexivity|]. apply rbind_ext. intros. symmetry. apply converted_eq.
  Qed.

  (** Calls. *)
  Lemma call_outcome f args es : Forall2 (fun s e => build_sum s = Built e) args es ->
    match reg f with
    | None => build_atom (ACall f args) = Failed UndefinedFunction
    | Some sig =>
        (List.length args <> List.length (fs_params sig) -> build_atom (ACall f args) = Failed WrongArity) /\
        (List.length args = List.length (fs_params sig) ->
         exists e, build_atom (ACall f args) = Built e /\
         forall st, functions_typed st ->
           eval st e = rbind (arg_values A (fs_params sig) (map (eval st) es)) (s_fun st sig))
    end.
  Proof.
    intros F2. rewrite build_call_eq.
    assert (Ec : forall c, arg_chain c args = Built (rev es ++ c)).
    { induction F2 as [|s e args es Hs _ IH]; intros c; [reflexivity|]. simpl. rewrite Hs. simpl. rewrite IH, <- app_assoc. reflexivity. }
    rewrite (Ec []), app_nil_r. cbn [bbind]. unfold assign_function, get_expression. rewrite function_args_rev, rev_involutive.
    destruct (reg f) as [sig|]; [|reflexivity].
    assert (L : List.length args = List.length es) by (clear - F2; induction F2; simpl; congruence).
    assert (W : Forall wt es).
    { clear - F2. induction F2 as [|s e args es Hs _ IH]; constructor; [|exact IH]. apply (proj2 (proj2 (proj2 build_correct)) s e Hs). }
    rewrite L. destruct (make_list_spec (fs_params sig) es) as [(L' & l & E & _ & _ & V)|(L' & E)]; rewrite E; split; try congruence.
    intros _. eexists. split; [reflexivity|]. intros st HF. rewrite eval_fun, V by assumption. reflexivity.
  Qed.
End Whole.
End Proofs.
