(** Proofs about fields that share their data. *)
From Verif Require Import Vec GridSpec StorageModel GridModel ShareModel ShareSpec ShareProofs AssignSpec AssignProofs
  FieldModel FieldSpec FieldProofs FieldShareSpec.
Open Scope Z_scope.

Section P.
  Context {V A : Type}.
  Variable junk : V.
  Variable avg0 : A.
  Variable rank : nat.
  Variable ord : order.
  Variable pol : policy A.
  Hypothesis pol_ok : forall next shrink extra, pol = Lazy next shrink extra -> forall a, 0 <= extra a.
  Notation ast := (@ast V).
  Notation fsp := (@fsp V).

  Lemma grid_ops_are o : @share_ops V o = grid_ops o.
  Proof.
    destruct o as [h|h size g|h lo hi g|h src|h src|h|h size g|h lo hi g|h]; try reflexivity; unfold grid_ops, sets, share_ops;
      destruct (field_bounds_size size g) as [-> ->]; reflexivity.
  Qed.

  Definition agrees (a : ast) (last : nat -> option request) (g : nat) : Prop :=
    match last g with
    | None => a_arr a g = None
    | Some r => exists m, a_arr a g = Some (fst (grown r), snd (grown r), m)
    end.

  Record J (s : @fst_ V A) (p : fsp) : Prop := {
    J_R : AssignProofs.R rank ord pol (f_share s) (fs_a p) (fs_t p);
    J_gh : forall h, f_ghost s h = option_map snd (fs_own p h);
    J_last : forall g, agrees (fs_a p) (fs_last p) g;
    J_own : forall h, In h (a_live (fs_a p)) -> fs_own p h <> None -> fs_last p (a_grp (fs_a p) h) <> None
  }.

  Lemma J_init : J (finit avg0) fs_init.
  Proof.
    constructor; cbn.
    - apply AssignProofs.R_init.
    - reflexivity.
    - reflexivity.
    - contradiction.
  Qed.

  Lemma ghosts o (gh : nat -> option Z) rq : (forall h, gh h = option_map snd (rq h)) ->
    forall h, ghost_after o gh h = option_map snd (request_after o rq h).
  Proof.
    intros E h. destruct o; cbn [ghost_after request_after]; auto; unfold upd, size_request; destruct (Nat.eqb _ _); auto.
  Qed.

  Lemma live_lt (s : @fst_ V A) (p : fsp) h : J s p -> In h (a_live (fs_a p)) -> (a_grp (fs_a p) h < a_n (fs_a p))%nat.
  Proof. intros HJ H. apply (AssignProofs.used_lt rank ord pol _ _ _ _ (J_R _ _ HJ)). exists h; auto. Qed.

  Lemma agrees_upd (a : ast) last k r lv gr n m : (forall g, agrees a last g) ->
    forall g, agrees (mkA lv gr (upd (a_arr a) k (Some (fst (grown r), snd (grown r), m))) n) (upd last k (Some r)) g.
  Proof.
    intros H g. unfold agrees, upd. cbn [a_arr]. destruct (Nat.eqb g k); [eauto|]. apply H.
  Qed.

  Lemma J_step s p o : J s p -> fs_legal ord (is_lazy pol) o p ->
    exists s', fstep junk avg0 rank ord pol o s = Some (s', fs_obs o p) /\ J s' (fs_after o p).
  Proof.
    intros HJ [Ho Hf]. unfold fstep. rewrite grid_ops_are.
    destruct (AssignProofs.orderly_run junk avg0 rank ord pol pol_ok (grid_ops o) _ _ _ (J_R _ _ HJ) Ho) as (s' & obs & -> & Ob & HR).
    assert (L : layout_obs o (f_ghost s) obs = Some (fs_obs o p)).
    { destruct o as [h|h size g|h lo hi g|h src|h src|h|h size g|h lo hi g|h]; try reflexivity.
      cbn [grid_ops aobs_run aobs] in Ob. destruct Ob as (o1 & o2 & -> & -> & ->). cbn [app].
      cbn [grid_ops orderly alegal] in Ho. destruct Ho as (Hl & _).
      pose proof (J_own _ _ HJ h Hl Hf) as Hs. pose proof (J_last _ _ HJ (a_grp (fs_a p) h)) as Ha. unfold agrees in Ha.
      unfold fs_obs, fs_shows. destruct (fs_last p (a_grp (fs_a p) h)) as [r|]; [|congruence].
      destruct Ha as [m ->]. cbn [layout_obs]. rewrite (J_gh _ _ HJ h).
      destruct (fs_own p h) as [[[lo hi] g]|]; [|congruence]. reflexivity. }
    rewrite L. eexists. split; [reflexivity|].
    unfold fs_after. destruct (end_of (grid_ops o) (fs_a p) (fs_t p)) as [a' t'] eqn:E. cbn [fst snd] in HR.
    constructor; cbn [fs_a fs_t fs_last fs_own f_share f_ghost].
    - exact HR.
    - apply ghosts, (J_gh _ _ HJ).
    - pose proof (J_last _ _ HJ) as Ha.
      destruct o as [h|h size g|h lo hi g|h src|h src|h|h size g|h lo hi g|h]; cbn [grid_ops end_of group_after] in *;
        injection E as <- _; unfold sets; cbn [astep a_arr a_grp a_live a_n].
      + intros x. unfold agrees, upd. cbn [a_arr]. destruct (Nat.eqb x (a_n (fs_a p))); [reflexivity|apply Ha].
      + rewrite upd_same. intros x. unfold agrees, upd. cbn [a_arr]. destruct (Nat.eqb x (a_n (fs_a p))); [eauto|apply Ha].
      + rewrite upd_same. intros x. unfold agrees, upd. cbn [a_arr]. destruct (Nat.eqb x (a_n (fs_a p))); [eauto|apply Ha].
      + exact Ha.
      + exact Ha.
      + exact Ha.
      + apply agrees_upd, Ha.
      + apply agrees_upd, Ha.
      + exact Ha.
    - pose proof (J_own _ _ HJ) as Hw. pose proof (live_lt s p) as Lt.
      destruct o as [h|h size g|h lo hi g|h src|h src|h|h size g|h lo hi g|h]; cbn [grid_ops end_of group_after request_after] in *;
        injection E as <- _; unfold sets; cbn [astep a_arr a_grp a_live a_n]; intros y Hy; unfold upd in *.
      + destruct (Nat.eqb_spec y h); [congruence|]. destruct Hy as [Hy|Hy]; [congruence|].
        specialize (Lt y HJ Hy). destruct (Nat.eqb_spec (a_grp (fs_a p) y) (a_n (fs_a p))); [lia|auto].
      + destruct (Nat.eqb_spec y h); [rewrite Nat.eqb_refl; discriminate|]. destruct Hy as [Hy|Hy]; [congruence|].
        specialize (Lt y HJ Hy). destruct (Nat.eqb_spec (a_grp (fs_a p) y) (a_n (fs_a p))); [lia|auto].
      + destruct (Nat.eqb_spec y h); [rewrite Nat.eqb_refl; discriminate|]. destruct Hy as [Hy|Hy]; [congruence|].
        specialize (Lt y HJ Hy). destruct (Nat.eqb_spec (a_grp (fs_a p) y) (a_n (fs_a p))); [lia|auto].
      + cbn [orderly alegal] in Ho. destruct (Nat.eqb_spec y h); [apply Hw, Ho|]. destruct Hy as [Hy|Hy]; [congruence|]. auto.
      + cbn [orderly alegal] in Ho. destruct (Nat.eqb_spec y h); [apply Hw, Ho|]. auto.
      + apply rem_In in Hy. apply Hw, Hy.
      + destruct (Nat.eqb_spec (a_grp (fs_a p) y) (a_grp (fs_a p) h)); [discriminate|].
        destruct (Nat.eqb_spec y h); [congruence|auto].
      + destruct (Nat.eqb_spec (a_grp (fs_a p) y) (a_grp (fs_a p) h)); [discriminate|].
        destruct (Nat.eqb_spec y h); [congruence|auto].
      + auto.
  Qed.

  Lemma J_run os : forall s p, J s p -> fs_legal_run ord (is_lazy pol) os p ->
    exists s', frun junk avg0 rank ord pol os s = Some (s', fs_obs_run os p) /\ J s' (fold_left (fun p o => fs_after o p) os p).
  Proof.
    induction os as [|o os IH]; intros s p HJ Hl; cbn [frun fs_legal_run fs_obs_run fold_left] in *.
    - eauto.
    - destruct Hl as (H1 & H2). destruct (J_step s p o HJ H1) as (s1 & -> & HJ1).
      destruct (IH _ _ HJ1 H2) as (s2 & -> & HJ2). eauto.
  Qed.

  Theorem shared_layout os : fs_legal_run ord (is_lazy pol) os (@fs_init V) ->
    exists s, frun junk avg0 rank ord pol os (finit avg0) = Some (s, fs_obs_run os (@fs_init V)).
  Proof. intros H. destruct (J_run os _ _ J_init H) as (s & E & _). eauto. Qed.
End P.

Lemma fs_obs_run_app {V} os1 os2 : forall p : @fsp V,
  fs_obs_run (os1 ++ os2) p = fs_obs_run os1 p ++ fs_obs_run os2 (fold_left (fun p o => fs_after o p) os1 p).
Proof. induction os1 as [|o os1 IH]; intros p; cbn [app fs_obs_run fold_left]; [reflexivity|]. now rewrite IH, app_assoc. Qed.

(** Taking away the ghost cells that were added gives the inner range back; any other number does not. *)
Lemma map_shift_inj (l : vec) : forall c d, map (fun x => x + c) l = map (fun x => x + d) l -> l = [] \/ c = d.
Proof. destruct l as [|x l]; intros c d; cbn [map]; [auto|]. intros E. injection E as E _. right. lia. Qed.

Lemma shrunk_grown lo hi g : shrunk (grown (lo, hi, g)) g = (lo, hi).
Proof.
  unfold shrunk, grown. cbn [fst snd]. rewrite !map_map.
  f_equal; (etransitivity; [|apply map_id]); apply map_ext; intros; lia.
Qed.

Lemma shows_asked {V} h (p : @fsp V) lo hi g : fs_last p (a_grp (fs_a p) h) = Some (lo, hi, g) -> lo <> [] ->
  forall lo' hi' g', fs_own p h = Some (lo', hi', g') ->
  (fs_shows h p = Some (grown (lo, hi, g), (lo, hi)) <-> g' = g).
Proof.
  intros E Hlo lo' hi' g' Eo. unfold fs_shows. rewrite E, Eo. split.
  - intros H. injection H as H1 _. unfold grown in H1. cbn [fst] in H1. rewrite map_map in H1.
    destruct lo as [|l lo]; [congruence|]. cbn [map] in H1. injection H1 as H1 _. lia.
  - intros ->. rewrite shrunk_grown. reflexivity.
Qed.

Lemma shown_exactly V A (junk : V) (avg0 : A) rank ord pol :
  (forall next shrink extra, pol = Lazy next shrink extra -> forall a, 0 <= extra a) ->
  forall os h lo hi g lo' hi' g', fs_legal_run ord (is_lazy pol) (os ++ [FLayout h]) (@fs_init V) ->
  fs_last (@fs_end V os) (a_grp (fs_a (@fs_end V os)) h) = Some (lo, hi, g) -> fs_own (@fs_end V os) h = Some (lo', hi', g') ->
  exists s obs ilo ihi,
    frun junk avg0 rank ord pol (os ++ [FLayout h]) (finit avg0) =
      Some (s, obs ++ [(fst (grown (lo, hi, g)), snd (grown (lo, hi, g)), ilo, ihi)]) /\
    (lo <> [] -> ((ilo, ihi) = (lo, hi) <-> g' = g)).
Proof.
  intros Hp os h lo hi g lo' hi' g' Hl E1 E2.
  destruct (shared_layout junk avg0 rank ord pol Hp _ Hl) as (s & E).
  rewrite fs_obs_run_app in E. change (fold_left _ os fs_init) with (@fs_end V os) in E. cbn [fs_obs_run fs_obs] in E.
  rewrite app_nil_r in E.
  unfold fs_shows in E. rewrite E1, E2 in E.
  exists s, (fs_obs_run os (@fs_init V)), (fst (shrunk (grown (lo, hi, g)) g')), (snd (shrunk (grown (lo, hi, g)) g')).
  split; [exact E|]. intros Hlo.
  pose proof (shows_asked h (@fs_end V os) lo hi g E1 Hlo lo' hi' g' E2) as K. unfold fs_shows in K. rewrite E1, E2 in K.
  rewrite <- K, <- surjective_pairing. split; intros Q; [now rewrite Q|congruence].
Qed.

(** A field, a copy, a resize of the original with another ghost width, a third field assigned from the copy, a resize of the
    copy; the layouts in between. *)
Definition ex_shared : list fop :=
  [FNewSize 1 [4] 1; FCopy 2 1; FResizeSize 1 [8] 3; FLayout 1; FLayout 2; FNewRange 3 [5] [6] 0; FLayout 3;
   FAssign 3 2; FLayout 3; FResizeRange 2 [1] [9] 1; FLayout 1; FLayout 2; FLayout 3].
