(** Proofs about the function registry and the functions of BuiltinModel.v. *)
From Coq Require Import ZArith List Bool String Lia SpecFloat.
From Verif Require Import ExprModel ExprSyntax ExprSpec ExprBuildModel ExprProofs BuiltinModel BuiltinSpec.
Import ListNotations.

(** * Tables *)
Lemma t_get_put t n f m : t_get (t_put t n f) m = if String.eqb n m then Some f else t_get t m.
Proof.
  induction t as [|[k g] t IH]; cbn; [reflexivity|].
  destruct (String.eqb k n) eqn:E; cbn.
  - apply String.eqb_eq in E. subst k. destruct (String.eqb n m); reflexivity.
  - destruct (String.eqb k m) eqn:E2; [|exact IH]. apply String.eqb_eq in E2. subst k.
    rewrite String.eqb_sym, E. reflexivity.
Qed.

Lemma set_nth_length {X} (l : list X) i x : List.length (set_nth l i x) = List.length l.
Proof. revert i. induction l; intros [|i]; cbn; auto. Qed.
Lemma set_nth_error {X} (l : list X) i x j :
  nth_error (set_nth l i x) j = if Nat.eqb j i then match nth_error l j with Some _ => Some x | None => None end else nth_error l j.
Proof.
  revert i j. induction l as [|y l IH]; intros [|i] [|j]; cbn; try reflexivity.
  - destruct (Nat.eqb j i); reflexivity.
  - apply IH.
Qed.
Lemma nth_error_ext {X} (l1 l2 : list X) : (forall j, nth_error l1 j = nth_error l2 j) -> l1 = l2.
Proof.
  revert l2. induction l1 as [|x l1 IH]; intros [|y l2] H; [reflexivity|discriminate (H 0)|discriminate (H 0)|].
  f_equal; [injection (H 0) as ->; reflexivity|]. apply IH. intros j. exact (H (S j)).
Qed.
Lemma set_nth_map {X} (l : list X) i x d :
  set_nth l i x = map (fun j => if Nat.eqb j i then x else nth j l d) (seq 0 (List.length l)).
Proof.
  apply nth_error_ext. intros j. rewrite set_nth_error, nth_error_map.
  destruct (Nat.lt_ge_cases j (List.length l)) as [L|L].
  - replace (nth_error (seq 0 (List.length l)) j) with (Some j).
    2:{ symmetry. rewrite nth_error_nth' with (d := 0) by (rewrite seq_length; exact L). f_equal. apply seq_nth, L. }
    cbn. rewrite (nth_error_nth' l d L). destruct (Nat.eqb j i); reflexivity.
  - rewrite (proj2 (nth_error_None l j) L).
    replace (nth_error (seq 0 (List.length l)) j) with (@None nat) by (symmetry; apply nth_error_None; rewrite seq_length; exact L).
    destruct (Nat.eqb j i); reflexivity.
Qed.

(** * The registrations of a history *)
Definition reg_inv (h : list reg_op) (s : regs) : Prop :=
  handles s = groups h /\ List.length (tables s) = created h /\
  Forall (fun g => g < created h) (groups h) /\
  forall g t, nth_error (tables s) g = Some t -> forall name, t_get t name = last_registered h g name.

Lemma last_registered_fresh h g name : Forall (fun g => g < created h) (groups h) -> created h <= g ->
  (forall h', Forall (fun g => g < created h') (groups h')) -> last_registered h g name = None.
Proof.
  intros _ G All. induction h as [|op h IH]; [reflexivity|]. destruct op; cbn [last_registered created] in *; try (apply IH; lia).
  unfold group. destruct (nth_error (groups h) r) as [g'|] eqn:E.
  - pose proof (proj1 (Forall_forall _ _) (All h) g' (nth_error_In _ _ E)) as L. cbn in L.
    replace (Nat.eqb g' g) with false by (symmetry; apply Nat.eqb_neq; lia). rewrite andb_false_r. apply IH; lia.
  - rewrite andb_false_r. apply IH; lia.
Qed.

Lemma groups_bounded h : Forall (fun g => g < created h) (groups h).
Proof.
  induction h as [|op h IH]; [constructor|]. destruct op; cbn [groups created].
  - apply Forall_app. split; [|constructor; [lia|constructor]]. eapply Forall_impl; [|exact IH]. cbn. intros; lia.
  - apply Forall_app. split; [exact IH|]. destruct (nth_error (groups h) r) eqn:E; [|constructor]. constructor; [|constructor].
    apply (proj1 (Forall_forall _ _) IH). eapply nth_error_In. exact E.
  - destruct (nth_error (groups h) s) eqn:E; [|exact IH]. apply Forall_forall. intros x Hx. apply in_map_iff in Hx.
    destruct Hx as (j & Hj & Hin). apply in_seq in Hin. destruct (Nat.eqb j r); subst x.
    + apply (proj1 (Forall_forall _ _) IH). eapply nth_error_In. exact E.
    + apply (proj1 (Forall_forall _ _) IH). apply nth_In. lia.
  - exact IH.
Qed.

Lemma reg_inv_run ops : reg_inv (rev ops) (reg_run regs0 ops).
Proof.
  induction ops as [|op ops IH] using rev_ind.
  { unfold reg_inv. cbn. split; [reflexivity|]. split; [reflexivity|]. split; [constructor|]. intros [|g] t H; discriminate. }
  unfold reg_run. rewrite fold_left_app. fold (reg_run regs0 ops). rewrite rev_app_distr. cbn [rev app fold_left].
  set (s := reg_run regs0 ops) in *. set (h := rev ops) in *. destruct IH as (H1 & H2 & H3 & H4).
  assert (B := groups_bounded (op :: h)). destruct op; cbn [reg_step].
  - unfold reg_inv. cbn [groups created handles tables]. rewrite H1, H2, app_length, H2. cbn.
    split; [reflexivity|]. split; [lia|]. split; [exact B|]. intros g t E name.
    destruct (Nat.lt_ge_cases g (List.length (tables s))) as [L|L].
    + rewrite nth_error_app1 in E by exact L. apply H4. exact E.
    + rewrite nth_error_app2 in E by exact L. destruct (g - List.length (tables s)) eqn:Eg; cbn in E; [|destruct n; discriminate].
      injection E as <-. cbn. symmetry. apply last_registered_fresh; [exact H3|lia|exact groups_bounded].
  - unfold reg_inv. cbn [groups created last_registered]. rewrite H1.
    destruct (nth_error (groups h) r) as [g|] eqn:E; cbn [handles tables].
    + split; [reflexivity|]. split; [exact H2|]. split; [cbn [groups] in B; rewrite E in B; exact B|]. exact H4.
    + rewrite app_nil_r. split; [exact H1|]. split; [exact H2|]. split; [exact H3|]. exact H4.
  - unfold reg_inv. cbn [groups created last_registered]. rewrite H1.
    destruct (nth_error (groups h) s0) as [g|] eqn:E; cbn [handles tables].
    + split; [apply set_nth_map|]. split; [exact H2|]. split; [cbn [groups] in B; rewrite E in B; exact B|]. exact H4.
    + split; [exact H1|]. split; [exact H2|]. split; [exact H3|]. exact H4.
  - unfold reg_inv. cbn [groups created last_registered]. unfold group. rewrite H1.
    destruct (nth_error (groups h) r) as [g|] eqn:E.
    + pose proof (proj1 (Forall_forall _ _) H3 g (nth_error_In _ _ E)) as L. cbn in L.
      destruct (nth_error (tables s) g) as [t|] eqn:Et; [|apply nth_error_None in Et; lia].
      cbn [handles tables]. split; [reflexivity|]. split; [rewrite set_nth_length; exact H2|]. split; [exact H3|].
      intros g' t' E' nm. rewrite set_nth_error in E'. rewrite (Nat.eqb_sym g g').
      destruct (Nat.eqb g' g) eqn:Eg.
      * apply Nat.eqb_eq in Eg. subst g'. rewrite Et in E'. injection E' as <-. rewrite t_get_put, (H4 g t Et nm).
        rewrite andb_true_r. reflexivity.
      * rewrite andb_false_r. apply H4. exact E'.
    + split; [exact H1|]. split; [exact H2|]. split; [exact H3|]. intros g t Et nm. rewrite andb_false_r. apply H4. exact Et.
Qed.

Lemma lookup_history ops r name :
  reg_lookup (reg_run regs0 ops) r name =
  match group (rev ops) r with Some g => last_registered (rev ops) g name | None => None end.
Proof.
  destruct (reg_inv_run ops) as (H1 & H2 & H3 & H4). unfold reg_lookup, group. rewrite H1.
  destruct (nth_error (groups (rev ops)) r) as [g|] eqn:E; [|reflexivity].
  pose proof (proj1 (Forall_forall _ _) H3 g (nth_error_In _ _ E)) as L. cbn in L.
  destruct (nth_error (tables _) g) as [t|] eqn:Et; [|apply nth_error_None in Et; lia]. apply H4. exact Et.
Qed.

(** * The functions of the library *)
Definition valid (s : regs) (r : nat) : Prop :=
  exists h t, nth_error (handles s) r = Some h /\ nth_error (tables s) h = Some t.

Lemma reg_valid ops r : r < List.length (handles (reg_run regs0 ops)) -> valid (reg_run regs0 ops) r.
Proof.
  intros L. destruct (reg_inv_run ops) as (H1 & H2 & H3 & H4).
  destruct (nth_error (handles (reg_run regs0 ops)) r) as [g|] eqn:E; [|apply nth_error_None in E; lia].
  rewrite H1 in E. pose proof (proj1 (Forall_forall _ _) H3 g (nth_error_In _ _ E)) as Lg. cbn in Lg.
  destruct (nth_error (tables (reg_run regs0 ops)) g) as [t|] eqn:Et; [|apply nth_error_None in Et; lia].
  exists g, t. rewrite H1. split; assumption.
Qed.

Lemma register_step s r n f : valid s r ->
  valid (reg_step s (RRegister r n f)) r /\
  forall m, reg_lookup (reg_step s (RRegister r n f)) r m = if String.eqb n m then Some f else reg_lookup s r m.
Proof.
  intros (h & t & E1 & E2). cbn. rewrite E1, E2. split.
  - exists h, (t_put t n f). cbn. split; [exact E1|]. rewrite set_nth_error, Nat.eqb_refl, E2. reflexivity.
  - intros m. unfold reg_lookup. cbn. rewrite E1, set_nth_error, Nat.eqb_refl, E2. apply t_get_put.
Qed.

Fixpoint last_call (l : list (string * cfun)) (m : string) : option fsig :=
  match l with
  | [] => None
  | (n, f) :: l' => match last_call l' m with Some g => Some g | None => if String.eqb n m then Some (cfun_sig f) else None end
  end.
Lemma register_list l : forall s r, valid s r ->
  valid (reg_run s (register_calls r l)) r /\
  forall m, reg_lookup (reg_run s (register_calls r l)) r m =
            match last_call l m with Some g => Some g | None => reg_lookup s r m end.
Proof.
  induction l as [|[n f] l IH]; intros s r V; [split; [exact V|reflexivity]|].
  unfold register_calls, reg_run. cbn [map fold_left fst snd]. destruct (register_step s r n (cfun_sig f) V) as [V' L'].
  destruct (IH _ _ V') as [V2 L2]. split; [exact V2|]. intros m.
  change (fold_left reg_step _ _) with (reg_run (reg_step s (RRegister r n (cfun_sig f))) (register_calls r l)).
  rewrite L2, L'. cbn [last_call]. destruct (last_call l m); [reflexivity|]. destruct (String.eqb n m); reflexivity.
Qed.

Definition ty_dec (a b : ty) : {a = b} + {a <> b}.
Proof. decide equality. Defined.
Fixpoint table_matches (l : list (string * list ty * cfun)) (calls : list (string * cfun)) : bool :=
  match l with
  | [] => true
  | (n, ps, f) :: l' =>
      match last_call calls n with
      | Some g => Nat.eqb (fs_name g) (code f) && (if list_eq_dec ty_dec (fs_params g) ps then true else false)
                  && ty_eqb (fs_ret g) TFloat && negb (fs_always g)
      | None => false
      end && table_matches l' calls
  end.
Lemma table_matches_spec calls l : table_matches l calls = true ->
  forall n ps f, In (n, ps, f) l -> last_call calls n = Some (mkFsig (code f) ps TFloat false).
Proof.
  induction l as [|[[n' ps'] f'] l IH]; intros H n ps f I; [destruct I|]. cbn in H. apply andb_prop in H. destruct H as [H1 H2].
  destruct I as [I|I]; [|apply IH; assumption]. injection I as -> -> ->.
  destruct (last_call calls n) as [[a b c d]|]; [|discriminate]. cbn [fs_name fs_params fs_ret fs_always] in H1. apply andb_prop in H1. destruct H1 as [H1 Ha].
  apply andb_prop in H1. destruct H1 as [H1 Hr]. apply andb_prop in H1. destruct H1 as [Hn Hp]. apply Nat.eqb_eq in Hn.
  destruct (list_eq_dec ty_dec b ps); [|discriminate]. destruct c; try discriminate. destruct d; try discriminate. subst. reflexivity.
Qed.
Lemma last_call_none calls l m : map fst calls = names l -> ~ In m (names l) -> last_call calls m = None.
Proof.
  intros E H. rewrite <- E in H. clear E. induction calls as [|[n f] calls IH]; [reflexivity|]. cbn in *.
  rewrite IH by tauto. destruct (String.eqb n m) eqn:E; [|reflexivity]. apply String.eqb_eq in E. tauto.
Qed.

Lemma adds_calls s r calls l : valid s r -> table_matches l calls = true -> map fst calls = names l ->
  adds l (reg_lookup s r) (reg_lookup (reg_run s (register_calls r calls)) r).
Proof.
  intros V T N. destruct (register_list calls s r V) as [_ L]. split.
  - intros n ps f I. rewrite L, (table_matches_spec calls l T n ps f I). reflexivity.
  - intros n H. rewrite L, (last_call_none calls l n N H). reflexivity.
Qed.
Lemma registers s r : valid s r ->
  adds documented_cmath (reg_lookup s r) (reg_lookup (registerCMath s r) r) /\
  adds documented_utility (reg_lookup s r) (reg_lookup (registerUtilityFunctions s r) r) /\
  adds documented_special (reg_lookup s r) (reg_lookup (registerSpecialFunctions s r) r) /\
  adds documented (reg_lookup s r) (reg_lookup (registerAllFunctions s r) r).
Proof.
  intros V. split; [apply adds_calls; [exact V|reflexivity|reflexivity]|].
  split; [apply adds_calls; [exact V|reflexivity|reflexivity]|].
  split; [apply adds_calls; [exact V|reflexivity|reflexivity]|].
  replace (registerAllFunctions s r) with (reg_run s (register_calls r (cmath_calls ++ utility_calls ++ special_calls)%list)).
  - apply adds_calls; [exact V|reflexivity|reflexivity].
  - unfold registerAllFunctions, registerSpecialFunctions, registerUtilityFunctions, registerCMath, reg_run, register_calls.
    rewrite !map_app, !fold_left_app. reflexivity.
Qed.

(** * Calls *)
Section Calls.
  Variable A : arith.
  Variable M : mathlib A.
  Variable app : fsig -> list (value A) -> result (value A).
  Hypothesis app_typed : forall f args v, app f args = Ok v -> type_of v = fs_ret f.

  Lemma call_float f args v : call A M f args = Ok v -> type_of v = TFloat.
  Proof.
    destruct f; cbn; destruct args as [|[?|?|?] [|[?|?|?] [|[?|?|?] [|]]]]; intros E; try discriminate E; injection E as <-; reflexivity.
  Qed.
  Lemma builtin_typed f args v : builtin_fun A M app f args = Ok v -> type_of v = fs_ret f.
  Proof.
    unfold builtin_fun. destruct (decode (fs_name f)); [|apply app_typed].
    destruct (ty_eqb (fs_ret f) TFloat) eqn:E; [|apply app_typed]. apply ty_eqb_eq in E. rewrite E. apply call_float.
  Qed.
  Lemma decode_code f : decode (code f) = Some f.
  Proof. destruct f; reflexivity. Qed.
  Lemma builtin_call f ps args : builtin_fun A M app (mkFsig (code f) ps TFloat false) args = call A M f args.
  Proof. unfold builtin_fun. cbn [fs_name fs_ret]. rewrite decode_code. reflexivity. Qed.
End Calls.

Section Deck.
  Variable A : arith.
  Variable M : mathlib A.
  Variable vars : string -> option (nat * ty).
  Variable reg : string -> option fsig.

  Lemma built_args args es : Forall2 (fun s e => build_sum A vars reg s = Built e) args es ->
    forall c, arg_chain A vars reg c args = Built (rev es ++ c)%list.
  Proof. intros F2. induction F2 as [|s e args es Hs _ IH]; intros c; [reflexivity|]. simpl. rewrite Hs. simpl. rewrite IH, <- app_assoc. reflexivity. Qed.

  Lemma constant_args st ps es l : make_list (A := A) ps es = Some l -> forallb (is_constant st) l = forallb (is_constant st) es.
  Proof.
    revert es l. induction ps as [|t ps IH]; intros [|e es] l E; cbn in E; try discriminate; [injection E as <-; reflexivity|].
    destruct (make_list ps es) as [l'|] eqn:E'; [|discriminate]. injection E as <-. cbn. rewrite (IH _ _ E'). f_equal.
    unfold convert_arg. destruct (ty_eqb t (etype e)); reflexivity.
  Qed.

  Lemma converted_type t v w : converted A t v = Ok w -> type_of w = t.
  Proof. unfold converted. destruct t, v; repeat match goal with |- context [match ?o with Some _ => _ | None => _ end] => destruct o end; intros E; try discriminate; injection E as <-; reflexivity. Qed.
  Lemma arg_types ps : forall ws vs, List.length ws = List.length ps -> arg_values A ps ws = Ok vs -> map type_of vs = ps.
  Proof.
    induction ps as [|t ps IH]; intros [|w ws] vs L E; cbn in *; try discriminate.
    - injection E as <-. reflexivity.
    - destruct w as [v| | |]; try discriminate. cbn [rbind] in E. destruct (converted A t v) as [v'| | |] eqn:C; try discriminate.
      cbn [rbind] in E. destruct (arg_values A ps ws) as [r| | |] eqn:R; try discriminate. cbn [rbind] in E. injection E as <-.
      cbn. f_equal; [exact (converted_type _ _ _ C)|]. apply (IH ws); [congruence|exact R].
  Qed.
  Lemma call_gives name ps f vs : In (name, ps, f) documented -> map type_of vs = ps ->
    exists c, call A M f vs = Ok (VFloat c) /\ gives M f vs c.
  Proof.
    intros I T.
    assert (D : f <> Fatan2 /\ f <> Fldexp /\ f <> Fpow /\ f <> Ffmod /\ f <> Fmin /\ f <> Fmax /\ f <> FminI /\ f <> FmaxI /\
                f <> Fcyl_bessel_j /\ f <> Fcyl_neumann /\ f <> Fnormal /\ ps = [TFloat] \/
                ps = params f /\ In f [Fatan2; Fldexp; Fpow; Ffmod; Fmin; Fmax; FminI; FmaxI; Fcyl_bessel_j; Fcyl_neumann; Fnormal]).
    { cbn in I. repeat (destruct I as [I|I]; [injection I as <- <- <-; first [left; repeat split; discriminate|right; split; [reflexivity|cbn; tauto]]|]). destruct I. }
    destruct D as [D|[-> D]].
    - destruct D as (? & ? & ? & ? & ? & ? & ? & ? & ? & ? & ? & ->).
      destruct vs as [|[z|x|s] [|? ?]]; try discriminate. exists (m_one M f x).
      destruct f; try tauto; (split; [reflexivity|apply gives_one; cbn; tauto]).
    - cbn in D. repeat (destruct D as [<-|D]; [
        repeat (destruct vs as [|[?|?|?] vs]; try discriminate);
        (eexists; split; [reflexivity|]); unfold c_minI, c_maxI, c_min, c_max;
        try (match goal with |- gives _ FminI [VInt ?a; VInt ?b] _ => replace (if Z.ltb b a then b else a) with (Z.min a b)
               by (destruct (Z.ltb_spec b a); lia) end);
        try (match goal with |- gives _ FmaxI [VInt ?a; VInt ?b] _ => replace (if Z.ltb a b then b else a) with (Z.max a b)
               by (destruct (Z.ltb_spec a b); lia) end);
        unfold c_normal; cbv zeta; constructor; reflexivity|]). destruct D.
  Qed.

  Lemma documented_calls old name ps f args es :
    adds documented old reg -> In (name, ps, f) documented ->
    Forall2 (fun s e => build_sum A vars reg s = Built e) args es ->
    (List.length args <> List.length ps -> build_atom A vars reg (ACall name args) = Failed WrongArity) /\
    (List.length args = List.length ps ->
     exists e, build_atom A vars reg (ACall name args) = Built e /\ etype e = TFloat /\
     (forall st, is_constant st e = forallb (is_constant st) es) /\
     forall st app, (forall f args v, app f args = Ok v -> type_of v = fs_ret f) -> s_fun st = builtin_fun A M app ->
       eval st e = rbind (arg_values A ps (map (eval st) es)) (call A M f) /\
       forall vs, arg_values A ps (map (eval st) es) = Ok vs -> exists c, eval st e = Ok (VFloat c) /\ gives M f vs c).
  Proof.
    intros [Hd _] I F2. pose proof (Hd _ _ _ I) as R. pose proof (call_outcome A vars reg name args es F2) as C. rewrite R in C. cbn [fs_params] in C.
    destruct C as [C1 C2]. split; [exact C1|]. intros L. destruct (C2 L) as (e & B & V). exists e. split; [exact B|].
    assert (Bx := B). rewrite build_call_eq, (built_args args es F2 []), app_nil_r in Bx. cbn [bbind] in Bx.
    unfold assign_function, get_expression in Bx. rewrite R in Bx. rewrite function_args_rev, rev_involutive in Bx. cbn [fs_params] in Bx.
    destruct (make_list ps es) as [l|] eqn:E; [|discriminate]. injection Bx as <-.
    split; [reflexivity|]. split; [intros st; cbn; apply constant_args with (ps := ps); exact E|].
    intros st app T S.
    assert (W : eval st (EFun (mkFsig (code f) ps TFloat false) l) = rbind (arg_values A ps (map (eval st) es)) (call A M f)).
    2: { split; [exact W|]. intros vs Ev.
      assert (Le : List.length (map (eval st) es) = List.length ps) by (rewrite map_length; rewrite <- L; clear - F2; induction F2; cbn; congruence).
      destruct (call_gives _ _ _ vs I (arg_types _ _ _ Le Ev)) as (c & Ec & Gc). exists c. split; [|exact Gc]. rewrite W, Ev. exact Ec. }
    rewrite V.
    - destruct (arg_values A ps (map (eval st) es)); try reflexivity. cbn [rbind]. rewrite S. apply builtin_call.
    - intros g a v. rewrite S. apply builtin_typed. exact T.
  Qed.
End Deck.

(** * Minimum and maximum *)
Section MinMax.
  Context {X : Type} (lt : X -> X -> bool) (num : X -> bool).
  Hypothesis O : float_order lt num.
  Lemma lt_asym a b : lt a b = true -> lt b a = false.
  Proof. intros H. destruct (lt b a) eqn:E; [|reflexivity]. pose proof (fo_trans _ _ O _ _ _ H E) as K. rewrite (fo_irrefl _ _ O) in K. discriminate. Qed.
  Lemma lt_nan a b : num a && num b = false -> lt a b = false.
  Proof. intros H. destruct (lt a b) eqn:E; [|reflexivity]. destruct (fo_nan _ _ O _ _ E) as [Ha Hb]. rewrite Ha, Hb in H. discriminate. Qed.

  Lemma min_spec a b : num a = true -> num b = true ->
    (c_min lt a b = a \/ c_min lt a b = b) /\ at_most lt (c_min lt a b) a /\ at_most lt (c_min lt a b) b /\
    (forall c, at_most lt c a -> at_most lt c b -> at_most lt c (c_min lt a b)).
  Proof.
    intros _ _. unfold c_min, at_most. destruct (lt b a) eqn:E.
    - split; [right; reflexivity|]. split; [apply lt_asym; exact E|]. split; [apply (fo_irrefl _ _ O)|]. intros c _ H. exact H.
    - split; [left; reflexivity|]. split; [apply (fo_irrefl _ _ O)|]. split; [exact E|]. intros c H _. exact H.
  Qed.
  Lemma max_spec a b : num a = true -> num b = true ->
    (c_max lt a b = a \/ c_max lt a b = b) /\ at_most lt a (c_max lt a b) /\ at_most lt b (c_max lt a b) /\
    (forall c, at_most lt a c -> at_most lt b c -> at_most lt (c_max lt a b) c).
  Proof.
    intros _ _. unfold c_max, at_most. destruct (lt a b) eqn:E.
    - split; [right; reflexivity|]. split; [apply lt_asym; exact E|]. split; [apply (fo_irrefl _ _ O)|]. intros c _ H. exact H.
    - split; [left; reflexivity|]. split; [apply (fo_irrefl _ _ O)|]. split; [exact E|]. intros c H _. exact H.
  Qed.
  Lemma min_max_nan a b : num a && num b = false -> c_min lt a b = a /\ c_max lt a b = a.
  Proof. intros H. unfold c_min, c_max. rewrite (lt_nan b a) by (rewrite andb_comm; exact H). rewrite (lt_nan a b H). split; reflexivity. Qed.
  Lemma min_comm a b : num a = true -> num b = true ->
    at_most lt (c_min lt a b) (c_min lt b a) /\ at_most lt (c_max lt a b) (c_max lt b a).
  Proof.
    intros _ _. unfold c_min, c_max, at_most. destruct (lt b a) eqn:E1; destruct (lt a b) eqn:E2; rewrite ?E1, ?E2; split; try reflexivity; try (apply (fo_irrefl _ _ O)); try assumption; try (apply lt_asym; assumption).
    all: pose proof (lt_asym _ _ E1); congruence.
  Qed.
End MinMax.

Lemma order_Z : float_order Z.ltb (fun _ => true).
Proof.
  split; intros *; rewrite ?Z.ltb_lt, ?Z.ltb_ge; lia.
Qed.

Definition sf_num (x : spec_float) : bool := match x with S754_nan => false | _ => true end.
Lemma order_double : float_order SFltb sf_num.
Proof.
  assert (K : forall x y, SFltb x y = true <-> SFcompare x y = Some Lt).
  { intros. unfold SFltb. destruct (SFcompare x y) as [[| |]|]; split; congruence. }
  split.
  - intros a. unfold SFltb. destruct a as [[]|[]| |[] m e]; cbn; try reflexivity; rewrite Z.compare_refl, ?Pos.compare_cont_refl; reflexivity.
  - intros a b c. rewrite !K.
    destruct a as [[]|[]| |[] m e], b as [[]|[]| |[] m1 e1], c as [[]|[]| |[] m2 e2]; cbn; try congruence;
    change Pos.compare_cont with (Pos.compare_cont); 
    destruct (Z.compare_spec e e1), (Z.compare_spec e1 e2), (Z.compare_spec e e2); try congruence; try lia; subst;
    try (fold (Pos.compare m m1) (Pos.compare m1 m2) (Pos.compare m m2));
    change (Pos.compare_cont Eq m m1) with (Pos.compare m m1);
    change (Pos.compare_cont Eq m1 m2) with (Pos.compare m1 m2);
    change (Pos.compare_cont Eq m m2) with (Pos.compare m m2);
    destruct (Pos.compare_spec m m1), (Pos.compare_spec m1 m2), (Pos.compare_spec m m2); cbn; try congruence; try lia.
  - intros a b c. rewrite !K.
    destruct a as [[]|[]| |[] m e], b as [[]|[]| |[] m1 e1], c as [[]|[]| |[] m2 e2]; cbn; intros N H; try congruence; auto;
    revert H;
    destruct (Z.compare_spec e e1), (Z.compare_spec e1 e2), (Z.compare_spec e e2); try congruence; try lia; subst; auto;
    change (Pos.compare_cont Eq m m1) with (Pos.compare m m1);
    change (Pos.compare_cont Eq m1 m2) with (Pos.compare m1 m2);
    change (Pos.compare_cont Eq m m2) with (Pos.compare m m2);
    destruct (Pos.compare_spec m m1), (Pos.compare_spec m1 m2), (Pos.compare_spec m m2); cbn; try congruence; try lia; auto.
  - intros a b. rewrite K. destruct a as [[]|[]| |[] m e], b as [[]|[]| |[] m1 e1]; cbn; try congruence; split; reflexivity.
Qed.
