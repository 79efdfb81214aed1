(** What every statement of a deck keeps. *)
From Coq Require Import ZArith List Bool String Ascii Lia Arith.
From Verif Require Import ScanModel ParseModel ExprModel ExprSyntax ExprBuildModel ExprSpec ExprProofs ExprRefProofs DepModel
  DeckModel DeckSyntax DeckMeaning.
Import ListNotations.
Local Open Scope nat_scope.

(** ** Lists and maps *)
Lemma nth_update : forall {X} (l : list X) n x m,
  nth_error (update_nth l n x) m = if Nat.eqb m n then (if Nat.ltb n (List.length l) then Some x else None) else nth_error l m.
Proof.
  induction l as [|y l IH]; intros n x m.
  - cbn. destruct m, n; cbn; try reflexivity. destruct (Nat.eqb m n); reflexivity.
  - destruct n as [|n], m as [|m]; cbn [update_nth nth_error]; try reflexivity. rewrite IH. cbn [Nat.eqb]. reflexivity.
Qed.
Lemma length_update : forall {X} (l : list X) n x, List.length (update_nth l n x) = List.length l.
Proof. induction l as [|y l IH]; intros [|n] x; cbn; auto. Qed.
Lemma nth_update_same : forall {X} (l : list X) n x, n < List.length l -> nth_error (update_nth l n x) n = Some x.
Proof. intros. rewrite nth_update, Nat.eqb_refl. apply Nat.ltb_lt in H. rewrite H. reflexivity. Qed.
Lemma nth_update_other : forall {X} (l : list X) n x m, m <> n -> nth_error (update_nth l n x) m = nth_error l m.
Proof. intros. rewrite nth_update. apply Nat.eqb_neq in H. rewrite H. reflexivity. Qed.
Lemma nth_lt : forall {X} (l : list X) n x, nth_error l n = Some x -> n < List.length l.
Proof. intros. apply nth_error_Some. congruence. Qed.
Lemma nth_snoc : forall {X} (l : list X) x n, nth_error (l ++ [x]) n = if Nat.eqb n (List.length l) then Some x else nth_error l n.
Proof.
  intros X l x n. destruct (Nat.eqb_spec n (List.length l)) as [->|H].
  - rewrite nth_error_app2 by lia. rewrite Nat.sub_diag. reflexivity.
  - destruct (Nat.lt_ge_cases n (List.length l)) as [H1|H1].
    + apply nth_error_app1. exact H1.
    + rewrite (proj2 (nth_error_None l n)) by lia. apply nth_error_None. rewrite app_length. cbn. lia.
Qed.

Section Maps.
  Context {X : Type}.
  Implicit Types m : list (string * X).
  Lemma compare_eq : forall a b, String.compare a b = Eq -> a = b.
  Proof. exact String.compare_eq_iff. Qed.
  Lemma sfind_in : forall m k x, sfind m k = Some x -> In (k, x) m.
  Proof.
    induction m as [|[k' x'] m IH]; intros k x H; cbn in H; [discriminate|]. destruct (String.eqb_spec k k') as [->|Hn].
    - inversion H. left. reflexivity.
    - right. apply IH. exact H.
  Qed.
  Lemma sfind_none : forall m k, sfind m k = None <-> ~ In k (map fst m).
  Proof.
    induction m as [|[k' x'] m IH]; intros k; cbn; [tauto|]. destruct (String.eqb_spec k k') as [->|Hn].
    - split; [discriminate|]. intros H. exfalso. apply H. left. reflexivity.
    - rewrite IH. split; intros H; [intros [E|E]; [congruence|tauto]|tauto].
  Qed.
  Lemma in_sfind : forall m k x, NoDup (map fst m) -> In (k, x) m -> sfind m k = Some x.
  Proof.
    induction m as [|[k' x'] m IH]; intros k x Hn Hi; [contradiction|]. cbn in *. inversion Hn as [|? ? H1 H2]; subst. destruct Hi as [E|Hi].
    - inversion E; subst. rewrite String.eqb_refl. reflexivity.
    - destruct (String.eqb_spec k k') as [->|_]; [|apply IH; assumption]. exfalso. apply H1. apply in_map_iff. exists (k', x). auto.
  Qed.
  Lemma sput_in : forall m k x k' x', sfind m k = None -> In (k', x') (sput m k x) <-> (k' = k /\ x' = x) \/ In (k', x') m.
  Proof.
    induction m as [|[k0 x0] m IH]; intros k x k' x' H; cbn.
    - split; [intros [E|[]]; inversion E; auto|intros [[-> ->]|[]]; auto].
    - cbn in H. destruct (String.eqb_spec k k0) as [->|Hn]; [discriminate|]. destruct (String.compare k k0) eqn:Ec.
      + apply compare_eq in Ec. contradiction.
      + cbn. split; [intros [E|E]; [inversion E; auto|auto]|intros [[-> ->]|E]; auto].
      + cbn. rewrite IH by exact H. tauto.
  Qed.
  Lemma sput_fst : forall m k x k', sfind m k = None -> In k' (map fst (sput m k x)) <-> k' = k \/ In k' (map fst m).
  Proof.
    intros m k x k' H. rewrite !in_map_iff. split.
    - intros [[k0 x0] [<- Hi]]. cbn. apply sput_in in Hi; [|exact H]. destruct Hi as [[-> ->]|Hi]; [auto|]. right. exists (k0, x0). auto.
    - intros [->|[[k0 x0] [<- Hi]]]; [exists (k, x)|exists (k0, x0)]; (split; [reflexivity|apply sput_in; auto]).
  Qed.
  Lemma sput_nodup : forall m k x, sfind m k = None -> NoDup (map fst m) -> NoDup (map fst (sput m k x)).
  Proof.
    induction m as [|[k0 x0] m IH]; intros k x H Hn; cbn; [constructor; [tauto|constructor]|].
    cbn in H. destruct (String.eqb_spec k k0) as [->|Hk]; [discriminate|]. cbn in Hn. inversion Hn as [|? ? H1 H2]; subst.
    destruct (String.compare k k0) eqn:Ec.
    - apply compare_eq in Ec. contradiction.
    - cbn. constructor; [|exact Hn]. intros [E|E]; [congruence|]. apply sfind_none in H. contradiction.
    - cbn. constructor; [|apply IH; assumption]. intros E. apply sput_fst in E; [|exact H]. destruct E; [congruence|contradiction].
  Qed.
  Lemma sfind_sput : forall m k x k', sfind m k = None -> NoDup (map fst m) -> sfind (sput m k x) k' = if String.eqb k' k then Some x else sfind m k'.
  Proof.
    intros m k x k' H Hn. destruct (String.eqb_spec k' k) as [->|Hk].
    - apply in_sfind; [apply sput_nodup; assumption|]. apply sput_in; auto.
    - destruct (sfind m k') as [y|] eqn:E.
      + apply in_sfind; [apply sput_nodup; assumption|]. apply sput_in; [exact H|]. right. apply sfind_in. exact E.
      + apply sfind_none. apply sfind_none in E. rewrite sput_fst by exact H. tauto.
  Qed.
  Lemma sput_snd : forall m k x y, sfind m k = None -> In y (map snd (sput m k x)) <-> y = x \/ In y (map snd m).
  Proof.
    intros m k x y H. rewrite !in_map_iff. split.
    - intros [[k0 x0] [<- Hi]]. apply sput_in in Hi; [|exact H]. destruct Hi as [[-> ->]|Hi]; [auto|]. right. exists (k0, x0). auto.
    - intros [->|[[k0 x0] [<- Hi]]]; [exists (k, x)|exists (k0, x0)]; (split; [reflexivity|apply sput_in; auto]).
  Qed.
End Maps.

Section Inv.
  Variable A : arith.
  Variable reg : string -> option fsig.
  Variable funs : fsig -> list (value A) -> result (value A).
  Variable restricted : bool.
  Notation deck := (deck A).
  (** Functions return values of their type. *)
  Hypothesis funs_typed : forall f args v, funs f args = Ok v -> type_of v = fs_ret f.

  (** ** Well-formed blocks *)
  Record wf_blocks (bs : list bvar) (nvars : nat) : Prop := {
    wb_root : 0 < List.length bs;
    wb_parent : forall b blk, nth_error bs b = Some blk ->
      match b_parent blk with
      | None => b = 0
      | Some p => p < b /\ exists pb, nth_error bs p = Some pb /\ In (b_name blk, b) (b_children pb)
      end;
    wb_root_parent : forall blk, nth_error bs 0 = Some blk -> b_parent blk = None;
    wb_child : forall b blk n c, nth_error bs b = Some blk -> In (n, c) (b_children blk) ->
      exists cb, nth_error bs c = Some cb /\ b_parent cb = Some b /\ b_name cb = n;
    wb_names : forall b blk, nth_error bs b = Some blk -> NoDup (map fst (b_children blk)) /\ NoDup (map fst (b_vars blk));
    wb_entry : forall b blk n x, nth_error bs b = Some blk -> In (n, x) (b_vars blk) -> x < nvars;
    wb_once : forall b blk n b' blk' n' x, nth_error bs b = Some blk -> In (n, x) (b_vars blk) ->
      nth_error bs b' = Some blk' -> In (n', x) (b_vars blk') -> b = b' /\ n = n'
  }.

  (** ** Well-formed variables *)
  Definition ref_ok (vs : list (vrec A)) (t : ty) (x : nat) : Prop := exists v, nth_error vs x = Some v /\ v_type v = t.
  Definition ext_ok (mem : list (value A)) (t : ty) (m : nat) : Prop := exists w, nth_error mem m = Some w /\ type_of w = t.
  Definition typed_var (vs : list (vrec A)) (mem : list (value A)) (v : vrec A) : Prop :=
    if v_fixed v then type_of (v_val v) = v_type v
    else exists e, v_expr v = Some e /\ etype e = v_type v /\ wt A e /\ only A (ref_ok vs) (ext_ok mem) e.
  Record wf_vars (vs : list (vrec A)) (mem : list (value A)) (next : Z) : Prop := {
    wv_typed : forall x v, nth_error vs x = Some v -> typed_var vs mem v;
    wv_ids : forall x v, nth_error vs x = Some v -> (0 <= v_id v < next)%Z;
    wv_distinct : forall x y v w, nth_error vs x = Some v -> nth_error vs y = Some w -> v_id v = v_id w -> x = y;
    wv_next : (0 <= next)%Z
  }.

  (** The C++ type of a parameter is that of its default. *)
  Definition kind_ok (k : pkind A) : Prop :=
    match k with
    | Default _ m v | ReadOnly _ m (Some v) => type_of v = type_of m
    | _ => True
    end.
  Definition classes_ok (cs : list (string * class A)) : Prop :=
    forall name c l, sfind cs name = Some c -> c_impl A c = Some l -> Forall (fun p => kind_ok (snd p)) l.

  Record wf (d : deck) : Prop := {
    wf_b : wf_blocks (d_blocks d) (List.length (d_vars d));
    wf_c : d_cursor d < List.length (d_blocks d);
    wf_v : wf_vars (d_vars d) (d_mem d) (d_nextid d);
    wf_k : classes_ok (d_classes d)
  }.

  (** ** What never changes *)
  Definition blocks_grow (bs bs' : list bvar) : Prop :=
    forall b blk, nth_error bs b = Some blk -> exists blk', nth_error bs' b = Some blk' /\
      b_name blk' = b_name blk /\ b_class blk' = b_class blk /\ b_parent blk' = b_parent blk /\
      (exists l, b_children blk' = b_children blk ++ l) /\
      (forall n x, sfind (b_vars blk) n = Some x -> sfind (b_vars blk') n = Some x).
  Definition vars_grow (vs vs' : list (vrec A)) : Prop :=
    forall x v, nth_error vs x = Some v -> exists v', nth_error vs' x = Some v' /\
      v_type v' = v_type v /\ v_ro v' = v_ro v /\ (v_ro v = true -> v' = v).
  Record grows (d d' : deck) : Prop := {
    gr_b : blocks_grow (d_blocks d) (d_blocks d');
    gr_v : vars_grow (d_vars d) (d_vars d');
    gr_m : exists l, d_mem d' = d_mem d ++ l;
    gr_i : (d_nextid d <= d_nextid d')%Z
  }.
  Lemma blocks_grow_refl : forall bs, blocks_grow bs bs.
  Proof. intros bs b blk H. exists blk. repeat split; auto. exists []. rewrite app_nil_r. reflexivity. Qed.
  Lemma blocks_grow_trans : forall a b c, blocks_grow a b -> blocks_grow b c -> blocks_grow a c.
  Proof.
    intros a b c H1 H2 k blk Hk. destruct (H1 k blk Hk) as [blk1 [E1 [N1 [C1 [P1 [[l1 L1] V1]]]]]]. destruct (H2 k blk1 E1) as [blk2 [E2 [N2 [C2 [P2 [[l2 L2] V2]]]]]].
    exists blk2. repeat split; try congruence; auto. exists (l1 ++ l2). rewrite L2, L1, app_assoc. reflexivity.
  Qed.
  Lemma vars_grow_refl : forall vs, vars_grow vs vs.
  Proof. intros vs x v H. exists v. auto. Qed.
  Lemma vars_grow_trans : forall a b c, vars_grow a b -> vars_grow b c -> vars_grow a c.
  Proof.
    intros a b c H1 H2 x v Hx. destruct (H1 x v Hx) as [v1 [E1 [T1 [R1 K1]]]]. destruct (H2 x v1 E1) as [v2 [E2 [T2 [R2 K2]]]].
    exists v2. repeat split; try congruence. intros R. rewrite (K2 ltac:(congruence)). auto.
  Qed.
  Lemma grows_refl : forall d, grows d d.
  Proof. intros d. constructor; [apply blocks_grow_refl|apply vars_grow_refl|exists []; rewrite app_nil_r; reflexivity|lia]. Qed.
  Lemma grows_trans : forall a b c, grows a b -> grows b c -> grows a c.
  Proof.
    intros a b c [B1 V1 [m1 M1] I1] [B2 V2 [m2 M2] I2]. constructor; [eapply blocks_grow_trans; eauto|eapply vars_grow_trans; eauto| |lia].
    exists (m1 ++ m2). rewrite M2, M1, app_assoc. reflexivity.
  Qed.

  Lemma typed_var_mono : forall vs vs' mem mem' v, (forall t x, ref_ok vs t x -> ref_ok vs' t x) -> (forall t x, ext_ok mem t x -> ext_ok mem' t x) ->
    typed_var vs mem v -> typed_var vs' mem' v.
  Proof.
    intros vs vs' mem mem' v H1 H2. unfold typed_var. destruct (v_fixed v); [auto|]. intros [e [E1 [E2 [E3 E4]]]]. exists e. repeat split; try assumption.
    eapply only_impl; [exact H1|exact H2|exact E4].
  Qed.
  Lemma ref_ok_grow : forall vs vs', vars_grow vs vs' -> forall t x, ref_ok vs t x -> ref_ok vs' t x.
  Proof. intros vs vs' H t x [v [E1 E2]]. destruct (H x v E1) as [v' [E3 [E4 _]]]. exists v'. split; congruence. Qed.
  Lemma ext_ok_app : forall mem l t x, ext_ok mem t x -> ext_ok (mem ++ l) t x.
  Proof. intros mem l t x [w [E1 E2]]. exists w. split; [|exact E2]. rewrite nth_error_app1; [exact E1|]. eapply nth_lt; eauto. Qed.

  (** ** The single changes *)
  Lemma vars_app_grow : forall vs v, vars_grow vs (vs ++ [v]).
  Proof. intros vs v x w H. exists w. rewrite nth_error_app1 by (eapply nth_lt; eauto). auto. Qed.
  Lemma wf_vars_app : forall vs mem next v mem', wf_vars vs mem next -> (exists l, mem' = mem ++ l) ->
    typed_var (vs ++ [v]) mem' v -> (v_id v = next)%Z -> wf_vars (vs ++ [v]) mem' (next + 1).
  Proof.
    intros vs mem next v mem' H [l ->] Ht Hi. destruct H as [T I D N]. constructor.
    - intros x w Hx. rewrite nth_snoc in Hx. destruct (Nat.eqb x (List.length vs)); [inversion Hx; subst; exact Ht|].
      eapply typed_var_mono; [apply ref_ok_grow, vars_app_grow|intros; apply ext_ok_app; eassumption|]. eapply T; eauto.
    - intros x w Hx. rewrite nth_snoc in Hx. destruct (Nat.eqb x (List.length vs)); [inversion Hx; subst; lia|]. specialize (I x w Hx). lia.
    - intros x y w w' Hx Hy E. rewrite nth_snoc in Hx, Hy.
      destruct (Nat.eqb_spec x (List.length vs)) as [->|Nx], (Nat.eqb_spec y (List.length vs)) as [->|Ny]; [reflexivity| | |eapply D; eauto].
      + inversion Hx; subst. specialize (I y w' Hy). lia.
      + inversion Hy; subst. specialize (I x w Hx). lia.
    - lia.
  Qed.
  Lemma wf_vars_update : forall vs mem next x old v, wf_vars vs mem next -> nth_error vs x = Some old ->
    v_type v = v_type old -> typed_var vs mem v -> (v_id v = next)%Z -> wf_vars (update_nth vs x v) mem (next + 1).
  Proof.
    intros vs mem next x old v [T I D N] Hx Hty Hv Hi. pose proof (nth_lt _ _ _ Hx) as Hl.
    assert (HR : forall t y, ref_ok vs t y -> ref_ok (update_nth vs x v) t y).
    { intros t y [w [E1 E2]]. destruct (Nat.eq_dec y x) as [->|Hn].
      - exists v. rewrite nth_update_same by exact Hl. split; [reflexivity|]. congruence.
      - exists w. rewrite nth_update_other by exact Hn. auto. }
    constructor.
    - intros y w Hy. destruct (Nat.eq_dec y x) as [->|Hn].
      + rewrite nth_update_same in Hy by exact Hl. inversion Hy; subst. eapply typed_var_mono; [exact HR| |exact Hv]. auto.
      + rewrite nth_update_other in Hy by exact Hn. eapply typed_var_mono; [exact HR| |eapply T; eauto]. auto.
    - intros y w Hy. destruct (Nat.eq_dec y x) as [->|Hn].
      + rewrite nth_update_same in Hy by exact Hl. inversion Hy; subst. lia.
      + rewrite nth_update_other in Hy by exact Hn. specialize (I y w Hy). lia.
    - intros y z w w' Hy Hz E. destruct (Nat.eq_dec y x) as [->|Hn], (Nat.eq_dec z x) as [->|Hm]; [reflexivity| | |].
      + rewrite nth_update_same in Hy by exact Hl. rewrite nth_update_other in Hz by exact Hm. inversion Hy; subst. specialize (I z w' Hz). lia.
      + rewrite nth_update_same in Hz by exact Hl. rewrite nth_update_other in Hy by exact Hn. inversion Hz; subst. specialize (I y w Hy). lia.
      + rewrite nth_update_other in Hy by exact Hn. rewrite nth_update_other in Hz by exact Hm. eapply D; eauto.
    - lia.
  Qed.
  Lemma block_add_spec : forall bs n b name bs', wf_blocks bs n -> block_add bs b name n = Some bs' ->
    wf_blocks bs' (S n) /\ blocks_grow bs bs' /\ List.length bs' = List.length bs.
  Proof.
    intros bs n b name bs' H E. unfold block_add in E. destruct (nth_error bs b) as [blk|] eqn:Eb; [|discriminate]. destruct (sfind (b_vars blk) name) eqn:Ef; [discriminate|].
    inversion E; subst; clear E. pose proof (nth_lt _ _ _ Eb) as Hl. destruct H as [R P RP C N En O].
    set (blk' := mkBlock (b_name blk) (b_class blk) (b_parent blk) (b_children blk) (sput (b_vars blk) name n)).
    assert (HN : forall k kb, nth_error (update_nth bs b blk') k = Some kb ->
      exists kb0, nth_error bs k = Some kb0 /\ b_name kb = b_name kb0 /\ b_parent kb = b_parent kb0 /\ b_children kb = b_children kb0 /\
        ((k <> b /\ kb = kb0) \/ (k = b /\ kb0 = blk /\ kb = blk'))).
    { intros k kb Hk. destruct (Nat.eq_dec k b) as [->|Hn].
      - rewrite nth_update_same in Hk by exact Hl. inversion Hk; subst. exists blk. cbn. auto 10.
      - rewrite nth_update_other in Hk by exact Hn. exists kb. auto 10. }
    assert (HF : forall k kb, nth_error bs k = Some kb -> exists kb', nth_error (update_nth bs b blk') k = Some kb' /\ b_name kb' = b_name kb /\ b_class kb' = b_class kb /\
      b_parent kb' = b_parent kb /\ b_children kb' = b_children kb /\ (forall m x, sfind (b_vars kb) m = Some x -> sfind (b_vars kb') m = Some x)).
    { intros k kb Hk. destruct (Nat.eq_dec k b) as [->|Hn].
      - exists blk'. rewrite nth_update_same by exact Hl. rewrite Eb in Hk. inversion Hk; subst. cbn. repeat split. intros m x Hm.
        rewrite sfind_sput; [|exact Ef|apply (N _ _ Eb)]. destruct (String.eqb_spec m name) as [->|_]; [congruence|exact Hm].
      - exists kb. rewrite nth_update_other by exact Hn. auto 10. }
    split; [|split; [|apply length_update]].
    2:{ intros k kb Hk. destruct (HF k kb Hk) as [kb' [E1 [E2 [E3 [E4 [E5 E6]]]]]]. exists kb'. repeat split; auto. exists []. rewrite app_nil_r. exact E5. }
    constructor.
    - rewrite length_update. exact R.
    - intros k kb Hk. destruct (HN k kb Hk) as [kb0 [E0 [E1 [E2 [E3 _]]]]]. specialize (P k kb0 E0). rewrite E2. destruct (b_parent kb0) as [p|]; [|exact P].
      destruct P as [P1 [pb [P2 P3]]]. split; [exact P1|]. destruct (HF p pb P2) as [pb' [F1 [F2 [_ [_ [F3 _]]]]]]. exists pb'. split; [exact F1|]. rewrite F3, E1. exact P3.
    - intros kb Hk. destruct (HN 0 kb Hk) as [kb0 [E0 [E1 [E2 _]]]]. rewrite E2. apply RP. exact E0.
    - intros k kb m c Hk Hc. destruct (HN k kb Hk) as [kb0 [E0 [E1 [E2 [E3 _]]]]]. rewrite E3 in Hc. destruct (C k kb0 m c E0 Hc) as [cb [C1 [C2 C3]]].
      destruct (HF c cb C1) as [cb' [F1 [F2 [_ [F3 _]]]]]. exists cb'. repeat split; congruence.
    - intros k kb Hk. destruct (HN k kb Hk) as [kb0 [E0 [E1 [E2 [E3 [[_ ->]|[-> [-> ->]]]]]]]]; [eapply N; eauto|]. cbn. destruct (N b blk Eb) as [N1 N2]. split; [exact N1|]. apply sput_nodup; assumption.
    - intros k kb m x Hk Hi. destruct (HN k kb Hk) as [kb0 [E0 [E1 [E2 [E3 [[_ ->]|[-> [-> ->]]]]]]]].
      + specialize (En k kb0 m x E0 Hi). lia.
      + cbn in Hi. apply sput_in in Hi; [|exact Ef]. destruct Hi as [[-> ->]|Hi]; [lia|]. specialize (En b blk m x Eb Hi). lia.
    - intros k kb m k' kb' m' x Hk Hi Hk' Hi'.
      destruct (HN k kb Hk) as [k0 [E0 [_ [_ [_ S1]]]]]. destruct (HN k' kb' Hk') as [k0' [E0' [_ [_ [_ S2]]]]].
      assert (G : forall j jb mm, ((j <> b /\ jb = k0 /\ nth_error bs j = Some k0) \/ True) -> nth_error (update_nth bs b blk') j = Some jb -> In (mm, x) (b_vars jb) -> 
        (x = n /\ j = b /\ mm = name) \/ (exists jb0, nth_error bs j = Some jb0 /\ In (mm, x) (b_vars jb0) /\ x < n)).
      { intros j jb mm _ Hj Hjj. destruct (HN j jb Hj) as [jb0 [F0 [_ [_ [_ [[_ ->]|[-> [-> ->]]]]]]]].
        - right. exists jb0. repeat split; auto. eapply En; eauto.
        - cbn in Hjj. apply sput_in in Hjj; [|exact Ef]. destruct Hjj as [[-> ->]|Hjj]; [left; auto|]. right. exists blk. repeat split; auto. eapply En; eauto. }
      destruct (G k kb m (or_intror I) Hk Hi) as [[Gx [Gk Gm]]|[jb0 [G1 [G2 G3]]]]; destruct (G k' kb' m' (or_intror I) Hk' Hi') as [[Gx' [Gk' Gm']]|[jb0' [G1' [G2' G3']]]]; try lia.
      + subst. auto.
      + eapply O; eauto.
  Qed.
  Lemma wf_blocks_more : forall bs n, wf_blocks bs n -> wf_blocks bs (S n).
  Proof.
    intros bs n [R P RP C N En O]. constructor; try assumption. intros b blk m x H1 H2. specialize (En b blk m x H1 H2). lia.
  Qed.
  Lemma create_block_spec : forall d name cls d', wf d -> create_block A d name cls = Some d' ->
    wf d' /\ grows d d' /\ d_cursor d' = List.length (d_blocks d) /\
    exists r, nth_error (d_blocks d') (d_cursor d') = Some r /\ r = mkBlock name cls (Some (d_cursor d)) [] [].
  Proof.
    intros d name cls d' H E. unfold create_block in E. destruct (nth_error (d_blocks d) (d_cursor d)) as [blk|] eqn:Eb; [|discriminate].
    destruct (sfind (b_children blk) name) eqn:Ef; [discriminate|]. inversion E; subst; clear E. destruct H as [[R P RP C N En O] HC HV HK].
    pose proof (nth_lt _ _ _ Eb) as Hl. set (bs := d_blocks d) in *. set (cur := d_cursor d) in *. set (n := List.length bs) in *.
    set (blk' := mkBlock (b_name blk) (b_class blk) (b_parent blk) (b_children blk ++ [(name, n)]) (b_vars blk)).
    set (new := mkBlock name cls (Some cur) [] []).
    assert (HF : forall k kb, nth_error bs k = Some kb -> exists kb', nth_error (update_nth bs cur blk' ++ [new]) k = Some kb' /\ b_name kb' = b_name kb /\ b_class kb' = b_class kb /\
      b_parent kb' = b_parent kb /\ b_vars kb' = b_vars kb /\ b_children kb' = b_children kb ++ (if Nat.eqb k cur then [(name, n)] else [])).
    { intros k kb Hk. pose proof (nth_lt _ _ _ Hk) as Hkl. rewrite nth_error_app1 by (rewrite length_update; exact Hkl). destruct (Nat.eqb_spec k cur) as [->|Hn].
      - exists blk'. rewrite nth_update_same by exact Hl. rewrite Eb in Hk. inversion Hk; subst. cbn. auto 10.
      - exists kb. rewrite nth_update_other by exact Hn. rewrite app_nil_r. auto 10. }
    assert (HN : forall k kb, nth_error (update_nth bs cur blk' ++ [new]) k = Some kb -> (k = n /\ kb = new) \/
      exists kb0, nth_error bs k = Some kb0 /\ b_name kb = b_name kb0 /\ b_parent kb = b_parent kb0 /\ b_vars kb = b_vars kb0 /\
        b_children kb = b_children kb0 ++ (if Nat.eqb k cur then [(name, n)] else [])).
    { intros k kb Hk. rewrite nth_snoc in Hk. rewrite length_update in Hk. destruct (Nat.eqb_spec k (List.length bs)) as [->|Hn]; [inversion Hk; subst; left; auto|].
      right. destruct (Nat.eqb_spec k cur) as [->|Hm].
      - rewrite nth_update_same in Hk by exact Hl. inversion Hk; subst. exists blk. cbn. auto 10.
      - rewrite nth_update_other in Hk by exact Hm. exists kb. rewrite app_nil_r. auto 10. }
    split; [|split; [|split; [reflexivity|]]].
    - constructor; cbn.
      + constructor.
        * rewrite app_length, length_update. cbn. lia.
        * intros k kb Hk. destruct (HN k kb Hk) as [[-> ->]|[kb0 [E0 [E1 [E2 [E3 E4]]]]]].
          -- cbn. split; [exact Hl|]. destruct (HF cur blk Eb) as [pb [F1 [_ [_ [_ [_ F2]]]]]]. exists pb. split; [exact F1|]. rewrite F2, Nat.eqb_refl. apply in_or_app. right. left. reflexivity.
          -- specialize (P k kb0 E0). rewrite E2. destruct (b_parent kb0) as [p|]; [|exact P]. destruct P as [P1 [pb [P2 P3]]]. split; [exact P1|].
             destruct (HF p pb P2) as [pb' [F1 [_ [_ [_ [_ F2]]]]]]. exists pb'. split; [exact F1|]. rewrite F2, E1. apply in_or_app. left. exact P3.
        * intros kb Hk. destruct (HN 0 kb Hk) as [[E0 ->]|[kb0 [E0 [E1 [E2 _]]]]]; [lia|]. rewrite E2. apply RP. exact E0.
        * intros k kb m c Hk Hc. destruct (HN k kb Hk) as [[-> ->]|[kb0 [E0 [E1 [E2 [E3 E4]]]]]]; [contradiction|]. rewrite E4 in Hc. apply in_app_or in Hc. destruct Hc as [Hc|Hc].
          -- destruct (C k kb0 m c E0 Hc) as [cb [C1 [C2 C3]]]. destruct (HF c cb C1) as [cb' [F1 [F2 [_ [F3 _]]]]]. exists cb'. repeat split; congruence.
          -- destruct (Nat.eqb_spec k cur) as [->|_]; [|contradiction]. destruct Hc as [Hc|[]]. inversion Hc; subst. exists new. rewrite nth_snoc, length_update.
             unfold n. rewrite Nat.eqb_refl. auto.
        * intros k kb Hk. destruct (HN k kb Hk) as [[-> ->]|[kb0 [E0 [E1 [E2 [E3 E4]]]]]]; [cbn; split; constructor|]. destruct (N k kb0 E0) as [N1 N2]. rewrite E3, E4. split; [|exact N2].
          destruct (Nat.eqb_spec k cur) as [->|_]; [|rewrite app_nil_r; exact N1]. rewrite Eb in E0. inversion E0; subst kb0. rewrite map_app. cbn. apply sfind_none in Ef.
          apply NoDup_rev in N1. rewrite <- (rev_involutive (map fst (b_children blk) ++ [name])). apply NoDup_rev. rewrite rev_app_distr. cbn. constructor; [|exact N1]. rewrite <- in_rev. exact Ef.
        * intros k kb m x Hk Hi. destruct (HN k kb Hk) as [[-> ->]|[kb0 [E0 [E1 [E2 [E3 E4]]]]]]; [contradiction|]. rewrite E3 in Hi. eapply En; eauto.
        * intros k kb m k' kb' m' x Hk Hi Hk' Hi'.
          destruct (HN k kb Hk) as [[-> ->]|[kb0 [E0 [E1 [E2 [E3 E4]]]]]]; [contradiction|]. destruct (HN k' kb' Hk') as [[-> ->]|[kb0' [E0' [E1' [E2' [E3' E4']]]]]]; [contradiction|].
          rewrite E3 in Hi. rewrite E3' in Hi'. eapply O; eauto.
      + rewrite app_length, length_update. cbn. lia.
      + exact HV.
      + exact HK.
    - constructor; cbn.
      + intros k kb Hk. destruct (HF k kb Hk) as [kb' [F1 [F2 [F3 [F4 [F5 F6]]]]]]. exists kb'. repeat split; auto; [eexists; exact F6|]. intros m x. rewrite F5. auto.
      + apply vars_grow_refl.
      + exists []. rewrite app_nil_r. reflexivity.
      + lia.
    - exists new. split; [|reflexivity]. cbn. rewrite nth_snoc, length_update. fold bs n. rewrite Nat.eqb_refl. reflexivity.
  Qed.

  (** ** Looking names up *)
  Lemma get_down_lt : forall bs n path b x, wf_blocks bs n -> get_down bs b path = Some x -> x < n.
  Proof.
    intros bs n path. induction path as [|name path IH]; intros b x H E; cbn in E; destruct (nth_error bs b) as [blk|] eqn:Eb; try discriminate.
    destruct path as [|name' path].
    - eapply wb_entry; eauto. apply sfind_in. exact E.
    - destruct (sfind (b_children blk) name) as [c|]; [|discriminate]. eapply IH; eauto.
  Qed.
  Lemma get_up_lt : forall bs n k path b x, wf_blocks bs n -> get_up k bs b path = Some x -> x < n.
  Proof.
    intros bs n. induction k as [|k IH]; intros path b x H E; cbn in E; destruct (nth_error bs b) as [blk|] eqn:Eb; try discriminate; destruct path as [|name [|name' path]]; try discriminate.
    - destruct (sfind (b_vars blk) name) eqn:Ef; [|discriminate]. inversion E; subst. eapply wb_entry; eauto. apply sfind_in. exact Ef.
    - destruct (sfind (b_children blk) name) eqn:Ef; [|discriminate]. eapply get_down_lt; eauto.
    - destruct (sfind (b_vars blk) name) eqn:Ef.
      + inversion E; subst. eapply wb_entry; eauto. apply sfind_in. exact Ef.
      + destruct (b_parent blk); [|discriminate]. eapply IH; eauto.
    - destruct (sfind (b_children blk) name) eqn:Ef.
      + eapply get_down_lt; eauto.
      + destruct (b_parent blk); [|discriminate]. eapply IH; eauto.
  Qed.
  Lemma var_at_nth : forall (d : deck) x v, nth_error (d_vars d) x = Some v -> var_at A d x = v.
  Proof. intros d x v H. unfold var_at. apply nth_error_nth. exact H. Qed.
  Lemma found : forall d name x, wf d -> get_variable (d_blocks d) (d_cursor d) name = Some x -> nth_error (d_vars d) x = Some (var_at A d x).
  Proof.
    intros d name x H E. apply get_up_lt with (n := List.length (d_vars d)) in E; [|apply H]. destruct (nth_error (d_vars d) x) as [v|] eqn:Ev.
    - erewrite var_at_nth by exact Ev. reflexivity.
    - apply nth_error_None in Ev. lia.
  Qed.
  Lemma lookup_ok : forall d name x t, wf d -> lookup A d name = Some (x, t) -> ref_ok (d_vars d) t x.
  Proof.
    intros d name x t H E. unfold lookup in E. destruct (get_variable _ _ _) as [y|] eqn:Ey; [|discriminate]. inversion E; subst. exists (var_at A d x). split; [|reflexivity]. eapply found; eauto.
  Qed.

  (** ** Expressions *)
  Definition good_expr (d : deck) (e : expr A) : Prop := wt A e /\ only A (ref_ok (d_vars d)) (ext_ok (d_mem d)) e.
  Lemma good_expr_mono : forall d d' e, vars_grow (d_vars d) (d_vars d') -> (exists l, d_mem d' = d_mem d ++ l) -> good_expr d e -> good_expr d' e.
  Proof.
    intros d d' e H [l E] [H1 H2]. split; [exact H1|]. eapply only_impl; [apply ref_ok_grow; exact H| |exact H2]. intros t x Hx. rewrite E. apply ext_ok_app. exact Hx.
  Qed.
  Lemma expression_good : forall d s e, wf d -> expression A reg d s = inr e -> good_expr d e /\ etype e = stype (lookup A d) reg s.
  Proof.
    intros d s e H E. unfold expression in E. destruct (build_sum A (lookup A d) reg s) as [x|x] eqn:Eb; [|discriminate]. inversion E; subst.
    destruct (build_correct A (lookup A d) reg) as [_ [_ [_ G]]]. destruct (G s e Eb) as [G1 [G2 _]]. split; [|exact G2]. split; [exact G1|].
    eapply built_only; [|exact Eb]. intros name x t Hx. eapply lookup_ok; eauto.
  Qed.
  Lemma promote_good : forall d t e, good_expr d e -> good_expr d (promote_assign t e) /\ etype (promote_assign t e) = t.
  Proof.
    intros d t e [H1 H2]. assert (U : promote_assign t e = up A t e) by (unfold promote_assign, up; destruct (etype e), t; reflexivity).
    split; [split|].
    - rewrite U. apply up_wt. exact H1.
    - apply only_promote. exact H2.
    - rewrite U. apply up_type.
  Qed.
  Lemma typed_store : forall d, functions_typed (store_of A funs d).
  Proof. intros d f args v H. apply (funs_typed f args v). exact H. Qed.
  Lemma content_good : forall d e v, good_expr d e -> content A funs d e = inr v ->
    v_type v = etype e /\ typed_var (d_vars d) (d_mem d) v /\ v_id v = d_nextid d /\ v_ro v = false /\ v_init v = true.
  Proof.
    intros d e v [H1 H2] E. unfold content in E. destruct (is_constant (store_of A funs d) e).
    - destruct (eval (store_of A funs d) e) as [w| | |] eqn:Ee; try discriminate. inversion E; subst. cbn. repeat split. eapply eval_type; eauto. apply typed_store.
    - inversion E; subst. cbn. repeat split. unfold typed_var. cbn. exists e. auto.
  Qed.

  (** ** Statements *)
  Lemma declare_keeps : forall t d x e d', wf d -> good_expr d e -> declare A funs t d (x, Some e) = inr d' -> wf d' /\ grows d d' /\ d_cursor d' = d_cursor d.
  Proof.
    intros t d x e d' H He E. unfold declare in E. cbn [snd fst bind] in E. destruct (content A funs d e) as [f|v] eqn:Ec; [discriminate|]. cbn [bind] in E.
    destruct (ty_eqb t (v_type v)); [|discriminate]. destruct (block_add _ _ _ _) as [bs|] eqn:Eb; [|discriminate]. inversion E; subst; clear E.
    destruct (content_good d e v He Ec) as [C1 [C2 [C3 [C4 C5]]]]. destruct H as [HB HC HV HK]. apply block_add_spec in Eb; [|exact HB]. destruct Eb as [B1 [B2 B3]].
    split; [|split; [|reflexivity]].
    - constructor; cbn.
      + rewrite app_length. cbn. rewrite Nat.add_1_r. exact B1.
      + rewrite B3. exact HC.
      + eapply wf_vars_app; [exact HV|exists []; rewrite app_nil_r; reflexivity| |exact C3]. eapply typed_var_mono; [apply ref_ok_grow, vars_app_grow| |exact C2]. auto.
      + exact HK.
    - constructor; cbn; [exact B2|apply vars_app_grow|exists []; rewrite app_nil_r; reflexivity|lia].
  Qed.
  Definition good_init (d : deck) (x : string * option (expr A)) : Prop := match snd x with None => True | Some e => good_expr d e end.
  Lemma declare_all_keeps : forall t l d d', wf d -> Forall (good_init d) l -> declare_all A funs t d l = inr d' -> wf d' /\ grows d d' /\ d_cursor d' = d_cursor d.
  Proof.
    intros t. induction l as [|[x [e|]] l IH]; intros d d' H Hl E; cbn [declare_all] in E.
    - inversion E; subst. split; [exact H|split; [apply grows_refl|reflexivity]].
    - destruct (declare A funs t d (x, Some e)) as [f|d1] eqn:E1; [discriminate|]. cbn [bind] in E. inversion Hl as [|? ? L1 L2]; subst.
      apply declare_keeps in E1; [|exact H|exact L1]. destruct E1 as [W1 [G1 C1]]. apply IH in E; [|exact W1|].
      + destruct E as [W2 [G2 C2]]. split; [exact W2|]. split; [eapply grows_trans; eauto|congruence].
      + eapply Forall_impl; [|exact L2]. intros [y [a|]]; unfold good_init; cbn; [|auto]. apply good_expr_mono; apply G1.
    - discriminate.
  Qed.
  Lemma expressions_good : forall d l r, wf d -> expressions A reg d l = inr r -> Forall (good_init d) r.
  Proof.
    intros d. induction l as [|[x [e|]] l IH]; intros r H E; cbn [expressions] in E.
    - inversion E; subst. constructor.
    - destruct (expression A reg d e) as [f|a] eqn:Ea; [discriminate|]. cbn [bind] in E. destruct (expressions A reg d l) as [f|r'] eqn:Er; [discriminate|]. cbn [bind] in E. inversion E; subst.
      constructor; [|apply IH; auto]. cbn. eapply expression_good; eauto.
    - destruct (expressions A reg d l) as [f|r'] eqn:Er; [discriminate|]. cbn [bind] in E. inversion E; subst. constructor; [exact I|apply IH; auto].
  Qed.
  Lemma target_type : forall d x v, wf d -> nth_error (d_vars d) x = Some v ->
    (if v_fixed v then Some (type_of (v_val v)) else match v_expr v with Some e => Some (etype e) | None => None end) = Some (v_type v).
  Proof.
    intros d x v H Hx. pose proof (wv_typed _ _ _ (wf_v d H) x v Hx) as T. unfold typed_var in T. destruct (v_fixed v).
    - congruence.
    - destruct T as [e [-> [-> _]]]. reflexivity.
  Qed.
  Lemma assign_keeps : forall d name e d', wf d -> good_expr d e -> assign A funs d name e = inr d' -> wf d' /\ grows d d' /\ d_cursor d' = d_cursor d.
  Proof.
    intros d name e d' H He E. unfold assign in E. destruct (get_variable _ _ _) as [x|] eqn:Ex; [|discriminate]. pose proof (found d name x H Ex) as Hx.
    rewrite (target_type d x _ H Hx) in E. set (old := var_at A d x) in *. destruct (content A funs d (promote_assign (v_type old) e)) as [f|v] eqn:Ec; [discriminate|]. cbn [bind] in E.
    destruct (ty_eqb (v_type old) (v_type v)) eqn:Et; [|discriminate]. cbn [negb] in E. destruct (v_ro old) eqn:Er; [discriminate|]. inversion E; subst; clear E.
    destruct (promote_good d (v_type old) e He) as [P1 P2]. destruct (content_good d _ v P1 Ec) as [C1 [C2 [C3 [C4 C5]]]]. pose proof (nth_lt _ _ _ Hx) as Hl.
    destruct H as [HB HC HV HK]. split; [|split; [|reflexivity]].
    - constructor; cbn; [rewrite length_update; exact HB|exact HC| |exact HK]. eapply wf_vars_update; [exact HV|exact Hx|reflexivity| |exact C3].
      unfold typed_var in *. cbn. replace (v_type old) with (v_type v) by congruence. exact C2.
    - constructor; cbn; [apply blocks_grow_refl| |exists []; rewrite app_nil_r; reflexivity|lia].
      intros y w Hy. destruct (Nat.eq_dec y x) as [->|Hn].
      + rewrite Hx in Hy. inversion Hy; subst w. eexists. rewrite nth_update_same by exact Hl. split; [reflexivity|]. cbn. split; [reflexivity|]. split; [congruence|]. intros R. congruence.
      + exists w. rewrite nth_update_other by exact Hn. auto.
  Qed.

  (** ** Objects *)
  Lemma add_param_keeps : forall b d p, wf d -> kind_ok (snd p) -> wf (fst (add_param A b d p)) /\ grows d (fst (add_param A b d p)) /\
    d_cursor (fst (add_param A b d p)) = d_cursor d /\ List.length (d_blocks (fst (add_param A b d p))) = List.length (d_blocks d) /\ d_classes (fst (add_param A b d p)) = d_classes d.
  Proof.
    intros b d [name k] [HB HC HV HK] Hk. cbn [add_param fst snd] in *.
    set (var := match k with Required _ m0 => _ | _ => _ end). set (mem := match k with Required _ m0 => _ | _ => _ end).
    set (bs := match block_add _ _ _ _ with Some _ => _ | None => _ end).
    assert (Hb : wf_blocks bs (S (List.length (d_vars d))) /\ blocks_grow (d_blocks d) bs /\ List.length bs = List.length (d_blocks d)).
    { unfold bs. destruct (block_add (d_blocks d) b name (List.length (d_vars d))) as [bs'|] eqn:Eb.
      - eapply block_add_spec; eauto.
      - split; [apply wf_blocks_more; exact HB|]. split; [apply blocks_grow_refl|reflexivity]. }
    assert (Hm : exists l, mem = d_mem d ++ l).
    { unfold mem. destruct k as [m|m v|m [v|]|v]; eauto. exists []. rewrite app_nil_r. reflexivity. }
    assert (Ht : typed_var (d_vars d ++ [var]) mem var /\ v_id var = d_nextid d).
    { unfold var, mem. destruct k as [m|m v|m o|v]; cbn; (split; [|reflexivity]); unfold typed_var; cbn.
      - destruct m; reflexivity.
      - reflexivity.
      - eexists. split; [reflexivity|]. cbn. repeat split. destruct o as [v|]; [exists v|exists m]; rewrite nth_snoc, Nat.eqb_refl; (split; [reflexivity|]); [exact Hk|reflexivity].
      - reflexivity. }
    destruct Hb as [B1 [B2 B3]]. destruct Ht as [T1 T2].
    split; [|split; [|split; [reflexivity|split; [exact B3|reflexivity]]]].
    - constructor; cbn.
      + rewrite app_length. cbn. rewrite Nat.add_1_r. exact B1.
      + rewrite B3. exact HC.
      + eapply wf_vars_app; eauto.
      + exact HK.
    - constructor; cbn; [exact B2|apply vars_app_grow|exact Hm|lia].
  Qed.
  Lemma add_params_keeps : forall b l d ps, wf d -> Forall (fun p => kind_ok (snd p)) l -> wf (fst (add_params A b d l ps)) /\ grows d (fst (add_params A b d l ps)) /\
    d_cursor (fst (add_params A b d l ps)) = d_cursor d /\ List.length (d_blocks (fst (add_params A b d l ps))) = List.length (d_blocks d).
  Proof.
    intros b. induction l as [|p l IH]; intros d ps H Hl; cbn [add_params].
    - cbn. split; [exact H|split; [apply grows_refl|split; reflexivity]].
    - inversion Hl as [|? ? L1 L2]; subst. pose proof (add_param_keeps b d p H L1) as K. destruct (add_param A b d p) as [d1 np]. cbn [fst] in K.
      destruct K as [W1 [G1 [C1 [N1 _]]]]. destruct (IH d1 (sput ps (fst np) (snd np)) W1 L2) as [W2 [G2 [C2 N2]]]. split; [exact W2|]. split; [eapply grows_trans; eauto|]. split; congruence.
  Qed.
  Lemma wf_tree : forall d objs r c l, wf d -> wf (set_tree A d objs r c l).
  Proof. intros d objs r c l [HB HC HV HK]. constructor; assumption. Qed.
  Lemma grows_tree : forall d objs r c l, grows d (set_tree A d objs r c l).
  Proof. intros d objs r c l. constructor; cbn; [apply blocks_grow_refl|apply vars_grow_refl|exists []; rewrite app_nil_r; reflexivity|lia]. Qed.
  Lemma make_object_keeps : forall d name cls, wf d -> wf (make_object A d name cls) /\ grows d (make_object A d name cls) /\
    d_cursor (make_object A d name cls) = d_cursor d /\ List.length (d_blocks (make_object A d name cls)) = List.length (d_blocks d).
  Proof.
    intros d name cls H. unfold make_object. assert (HG : exists c d1, get_class A d cls = (c, d1) /\ wf d1 /\ grows d d1 /\ d_cursor d1 = d_cursor d /\ d_blocks d1 = d_blocks d /\
      (forall l, c_impl A c = Some l -> Forall (fun p => kind_ok (snd p)) l)).
    { unfold get_class. destruct (sfind (d_classes d) cls) as [c|] eqn:Ec.
      - exists c, d. split; [reflexivity|]. split; [exact H|]. split; [apply grows_refl|]. split; [reflexivity|]. split; [reflexivity|]. intros l Hl. eapply (wf_k d H); eauto.
      - eexists _, _. split; [reflexivity|]. cbn. split.
        + destruct H as [HB HC HV HK]. constructor; cbn; try assumption. intros n c l Hn Hc.
          assert (N : forall m : list (string * class A), sfind m cls = None -> forall n, sfind (sput m cls (mkClass A [] None)) n = Some c -> sfind m n = Some c \/ c = mkClass A [] None).
          { clear. induction m as [|[k x] m IH]; intros Hf n Hn; cbn in Hn.
            - destruct (String.eqb n cls); [|discriminate]. inversion Hn. auto.
            - cbn in Hf. destruct (String.eqb_spec cls k) as [->|Hk]; [discriminate|]. destruct (String.compare cls k) eqn:Ec.
              + apply compare_eq in Ec. contradiction.
              + cbn in Hn. destruct (String.eqb n cls); [inversion Hn; auto|]. left. exact Hn.
              + cbn in Hn |- *. destruct (String.eqb n k); [left; exact Hn|]. apply IH; assumption. }
          destruct (N _ Ec n Hn) as [E|E]; [eapply HK; eauto|]. subst c. discriminate.
        + split; [|split; [reflexivity|split; [reflexivity|discriminate]]]. constructor; cbn; [apply blocks_grow_refl|apply vars_grow_refl|exists []; rewrite app_nil_r; reflexivity|lia]. }
    destruct HG as [c [d1 [-> [W1 [G1 [C1 [B1 K1]]]]]]]. destruct (c_impl A c) as [l|].
    - pose proof (add_params_keeps (d_cursor d1) l d1 [] W1 (K1 l eq_refl)) as K. destruct (add_params A (d_cursor d1) d1 l []) as [d2 ps]. cbn [fst] in K. destruct K as [W2 [G2 [C2 N2]]].
      unfold tree_add. cbn. split; [apply wf_tree, wf_tree; exact W2|]. split; [|split; [congruence|congruence]]. eapply grows_trans; [exact G1|]. eapply grows_trans; [exact G2|].
      eapply grows_trans; [apply grows_tree|apply grows_tree].
    - unfold tree_down. split; [apply wf_tree; exact W1|]. split; [eapply grows_trans; [exact G1|apply grows_tree]|]. cbn. split; congruence.
  Qed.
  Lemma open_keeps : forall d cls name d', wf d -> open_block A restricted d cls name = inr d' -> wf d' /\ grows d d' /\ d_cursor d' = List.length (d_blocks d) /\
    exists blk, nth_error (d_blocks d') (d_cursor d') = Some blk /\ b_parent blk = Some (d_cursor d).
  Proof.
    intros d cls name d' H E. unfold open_block in E. destruct (nth_error _ _) as [cur|]; [|discriminate].
    assert (G : match create_block A d name cls with Some d' => inr (make_object A d' name cls) | None => inl (error DuplicateBlock) end = inr d' -> 
      wf d' /\ grows d d' /\ d_cursor d' = List.length (d_blocks d) /\ exists blk, nth_error (d_blocks d') (d_cursor d') = Some blk /\ b_parent blk = Some (d_cursor d)).
    { destruct (create_block A d name cls) as [d1|] eqn:E1; [|discriminate]. intros X. inversion X; subst. apply create_block_spec in E1; [|exact H]. destruct E1 as [W1 [G1 [C1 [r [R1 ->]]]]].
      destruct (make_object_keeps d1 name cls W1) as [W2 [G2 [C2 N2]]]. split; [exact W2|]. split; [eapply grows_trans; eauto|]. split; [congruence|].
      destruct (gr_b _ _ G2 _ _ R1) as [blk [E2 [_ [_ [E3 _]]]]]. exists blk. rewrite C2. split; [exact E2|]. rewrite E3. reflexivity. }
    destruct restricted; [|auto]. destruct (has_child _ _ _ _) as [[|]|]; [auto|discriminate|discriminate].
  Qed.
  Lemma tree_up_same : forall d d', tree_up A d = Some d' -> exists r c l, d' = set_tree A d (d_objs d) r c l.
  Proof.
    intros d d' E. unfold tree_up in E. destruct (d_depth d) as [|[|n] l].
    - inversion E; subst. exists (d_root d'), (d_cur d'), (d_depth d'). destruct d'; reflexivity.
    - destruct (d_cur d) as [c|]; [|discriminate]. destruct (nth_error _ _) as [oc|]; [|discriminate]. inversion E. eauto.
    - inversion E. eauto.
  Qed.
  Lemma close_keeps : forall d d', wf d -> close_block A d = inr d' -> wf d' /\ grows d d' /\ 
    exists blk, nth_error (d_blocks d) (d_cursor d) = Some blk /\ b_parent blk = Some (d_cursor d').
  Proof.
    intros d d' H E. unfold close_block in E. destruct (nth_error _ _) as [cur|] eqn:Ec; [|discriminate]. destruct (b_parent cur) as [b|] eqn:Eb; [|discriminate].
    destruct (tree_up _ _) as [d1|] eqn:Et; [|discriminate]. inversion E; subst; clear E. apply tree_up_same in Et. destruct Et as [r [c [l ->]]].
    destruct H as [HB HC HV HK]. pose proof (wb_parent _ _ HB _ _ Ec) as P. rewrite Eb in P. split; [|split].
    - apply wf_tree. constructor; cbn; try assumption. lia.
    - eapply grows_trans; [|apply grows_tree]. constructor; cbn; [apply blocks_grow_refl|apply vars_grow_refl|exists []; rewrite app_nil_r; reflexivity|lia].
    - exists cur. cbn. auto.
  Qed.

  Lemma exec_keeps : forall s d d', wf d -> exec A reg funs restricted s d = inr d' -> wf d' /\ grows d d'.
  Proof.
    intros s d d' H E. destruct s as [t x rest|name e|file|c [n|]|]; cbn [exec] in E.
    - destruct (expressions A reg d (x :: rest)) as [f|l] eqn:El; [discriminate|]. cbn [bind] in E. apply declare_all_keeps in E; [tauto|exact H|]. apply Forall_rev. eapply expressions_good; eauto.
    - destruct (expression A reg d e) as [f|a] eqn:Ea; [discriminate|]. cbn [bind] in E. apply assign_keeps in E; [tauto|exact H|]. eapply expression_good; eauto.
    - inversion E; subst. split; [exact H|apply grows_refl].
    - apply open_keeps in E; tauto.
    - apply open_keeps in E; tauto.
    - apply close_keeps in E; tauto.
  Qed.
  Lemma run_keeps : forall p d d', wf d -> run A reg funs restricted p d = inr d' -> wf d' /\ grows d d'.
  Proof.
    induction p as [|s p IH]; intros d d' H E; cbn [run] in E.
    - inversion E; subst. split; [exact H|apply grows_refl].
    - destruct (exec A reg funs restricted s d) as [f|d1] eqn:E1; [discriminate|]. cbn [bind] in E. apply exec_keeps in E1; [|exact H]. destruct E1 as [W1 G1].
      apply IH in E; [|exact W1]. destruct E as [W2 G2]. split; [exact W2|]. eapply grows_trans; eauto.
  Qed.
  Lemma wf_new : forall name cls classes, classes_ok classes -> wf (new_deck A name cls classes).
  Proof.
    intros name cls classes H. constructor; cbn; [|lia| |exact H].
    - constructor; cbn.
      + lia.
      + intros [|[|b]] blk E; try discriminate. inversion E; subst. reflexivity.
      + intros blk E. inversion E. reflexivity.
      + intros [|[|b]] blk n c E; try discriminate. inversion E; subst. contradiction.
      + intros [|[|b]] blk E; try discriminate. inversion E; subst. split; constructor.
      + intros [|[|b]] blk n x E; try discriminate. inversion E; subst. contradiction.
      + intros [|[|b]] blk n b' blk' n' x E; try discriminate. inversion E; subst. contradiction.
    - constructor; cbn; try lia; intros [|x]; discriminate.
  Qed.
  Lemma start_keeps : forall d, wf d -> wf (start A d) /\ grows d (start A d) /\ d_cursor (start A d) = d_cursor d.
  Proof.
    intros d H. unfold start. destruct (nth_error _ _) as [r|].
    - destruct (make_object_keeps (set_tree A d (d_objs d) None None []) (b_name r) (b_class r) (wf_tree _ _ _ _ _ H)) as [W [G [C _]]].
      split; [exact W|]. split; [eapply grows_trans; [apply grows_tree|exact G]|exact C].
    - split; [apply wf_tree; exact H|split; [apply grows_tree|reflexivity]].
  Qed.
End Inv.
