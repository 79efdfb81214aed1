(** Proofs about views of grids. *)
From Verif Require Import Vec GridSpec StorageModel GridModel ShareModel ShareSpec ShareProofs BoundaryModel SubGridProofs SubviewModel SubviewSpec.

Section Proofs.
  Context {V A : Type}.
  Variable junk : V.
  Variable avg0 : A.
  Variable rank : nat.
  Variable ord : order.
  Variable pol : policy A.
  Hypothesis pol_ok : forall next shrink extra, pol = Lazy next shrink extra -> forall a, 0 <= extra a.
  Variables cv cb : vcheck.
  Notation vstep := (vstep junk avg0 rank ord pol cv cb).
  Notation vrun := (vrun junk avg0 rank ord pol cv cb).
  Notation legal := (legal rank ord (is_lazy pol) (cv = CkAssert)).
  Notation legal_run := (legal_run rank ord (is_lazy pol) (cv = CkAssert)).

  Definition same_view (v : option view) (w : option window) : Prop :=
    match v, w with
    | None, None => True
    | Some v, Some (b, lo, hi) => v_base v = b /\ v_lo v = lo /\ v_hi v = hi
    | _, _ => False
    end.
  Record RV (s : @vst V A) (x : @world V) : Prop := {
    RV_g : ShareProofs.R rank ord pol (vs_grids s) (in_grids x);
    RV_v : forall w, same_view (vs_views s w) (in_views x w)
  }.

  Lemma RV_set s x w v u : RV s x -> same_view v u -> RV (set_view s w v) (with_view x w u).
  Proof.
    intros [G W] S. constructor; [exact G|]. intros y. cbn. unfold upd. destruct (Nat.eqb y w); [exact S|apply W].
  Qed.
  Lemma RV_none s x w : RV s x -> in_views x w = None -> vs_views s w = None.
  Proof. intros [_ W] E. specialize (W w). rewrite E in W. destruct (vs_views s w); [destruct W|reflexivity]. Qed.
  Lemma RV_some s x w b lo hi : RV s x -> in_views x w = Some (b, lo, hi) -> vs_views s w = Some (mkView b lo hi).
  Proof. intros [_ W] E. specialize (W w). rewrite E in W. destruct (vs_views s w) as [[? ? ?]|]; [|destruct W]. destruct W as (? & ? & ?). cbn in *. subst. reflexivity. Qed.
  Lemma RV_exists s x w : RV s x -> exists_view x w -> exists b lo hi, in_views x w = Some (b, lo, hi) /\ vs_views s w = Some (mkView b lo hi).
  Proof. intros R [[[b lo] hi] E]. exists b, lo, hi. split; [exact E|]. eapply RV_some; eauto. Qed.
  Lemma check_some c p lo hi : (c = CkAssert -> in_box lo hi p) -> exists q, run_check c p lo hi = Some q.
  Proof. intros H. destruct c; cbn [run_check]; eauto. exists p. exact (run_check_in CkAssert lo hi p (H eq_refl)). Qed.

  Lemma view_step s x o : RV s x -> legal o x -> exists s' obs, vstep o s = Some (s', obs) /\ observed rank o x obs /\ RV s' (effect rank o x).
  Proof.
    intros HR L. pose proof HR as [G W]. destruct o as [o|w|w lo hi h|w src|w src|w|w lo hi|w p|w p v|w]; cbn [SubviewSpec.legal] in L; cbn [SubviewModel.vstep observed effect].
    - destruct L as [L1 L2]. destruct (step_refines junk avg0 rank ord pol pol_ok _ _ o G L1 L2) as (g & obs & -> & Ho & Hg). exists (mkV g (vs_views s)), obs. split; [reflexivity|]. split; [exact Ho|]. constructor; [exact Hg|exact W].
    - rewrite (RV_none _ _ _ HR L). eexists _, _. split; [reflexivity|]. split; [reflexivity|]. apply RV_set; [exact HR|]. cbn. auto.
    - destruct L as (L1 & L2 & L3). unfold make_view. rewrite (RV_none _ _ _ HR L1). rewrite (R_live _ _ _ _ _ G). rewrite (proj2 (mem_In h (a_live (in_grids x))) L2).
      assert (B : bounds_of rank (in_grids x) h = (h_lo (s_h (vs_grids s) h), h_hi (s_h (vs_grids s) h))).
      { destruct (step_refines junk avg0 rank ord pol pol_ok _ _ (Bounds h) G) as (g & obs & E & Ho & _); [exact L2|exact I|]. cbn [step] in E. rewrite (R_live _ _ _ _ _ G) in E.
        rewrite (proj2 (mem_In h (a_live (in_grids x))) L2) in E. injection E as _ <-. cbn [aobs] in Ho. unfold bounds_of. destruct (a_arr (in_grids x) (a_grp (in_grids x) h)) as [[[? ?] ?]|]; inversion Ho; reflexivity. }
      rewrite B in L3. cbn [fst snd] in L3.
      destruct (check_some cv lo (h_lo (s_h (vs_grids s) h)) (h_hi (s_h (vs_grids s) h))) as [q1 ->]; [intros Q; apply (L3 Q)|].
      destruct (check_some cv hi (h_lo (s_h (vs_grids s) h)) (h_hi (s_h (vs_grids s) h))) as [q2 ->]; [intros Q; apply (L3 Q)|].
      eexists _, _. split; [reflexivity|]. split; [reflexivity|]. apply RV_set; [exact HR|]. cbn. auto.
    - destruct L as [L1 L2]. rewrite (RV_none _ _ _ HR L1). destruct (RV_exists _ _ _ HR L2) as (b & lo & hi & E1 & ->). rewrite E1. eexists _, _. split; [reflexivity|]. split; [reflexivity|]. apply RV_set; [exact HR|]. cbn. auto.
    - destruct L as [L1 L2]. destruct (RV_exists _ _ _ HR L1) as (b1 & lo1 & hi1 & _ & ->). destruct (RV_exists _ _ _ HR L2) as (b & lo & hi & E1 & ->). rewrite E1.
      eexists _, _. split; [reflexivity|]. split; [reflexivity|]. apply RV_set; [exact HR|]. cbn. auto.
    - destruct (RV_exists _ _ _ HR L) as (b & lo & hi & _ & ->). eexists _, _. split; [reflexivity|]. split; [reflexivity|]. apply RV_set; [exact HR|]. exact I.
    - destruct (RV_exists _ _ _ HR L) as (b & lo1 & hi1 & E1 & ->). rewrite E1. eexists _, _. split; [reflexivity|]. split; [reflexivity|]. apply RV_set; [exact HR|]. cbn. auto.
    - destruct L as (h & (lo & hi & E & Hp) & Hl). rewrite (RV_some _ _ _ _ _ _ HR E). cbn [v_base v_lo v_hi]. unfold base_index. cbn [v_lo v_hi]. rewrite !run_check_in by exact Hp.
      destruct (R_step_read rank ord pol _ _ h p G Hl) as (v & -> & Ho). exists s, [OVal v]. split; [reflexivity|]. split; [|exact HR]. exists h. split; [exists lo, hi; auto|exact Ho].
    - destruct L as (h & (lo & hi & E & Hp) & Hl). rewrite (RV_some _ _ _ _ _ _ HR E). cbn [v_base v_lo v_hi]. unfold base_index. cbn [v_lo v_hi]. rewrite !run_check_in by exact Hp. rewrite E.
      destruct (R_step_write rank ord pol _ _ h p v G Hl) as (g & -> & Hg). exists (mkV g (vs_views s)), []. split; [reflexivity|]. split; [reflexivity|]. constructor; [exact Hg|exact W].
    - destruct (RV_exists _ _ _ HR L) as (b & lo & hi & E1 & ->). cbn [v_lo v_hi]. eexists _, _. split; [reflexivity|]. split; [|exact HR]. eexists b, lo, hi. auto.
  Qed.
  Lemma view_run os : forall s x, RV s x -> legal_run os x ->
    exists s' obs, vrun os s = Some (s', obs) /\ observed_run rank os x obs /\ RV s' (effects rank os x).
  Proof.
    induction os as [|o os IH]; intros s x HR L; cbn in L |- *; [exists s, []; auto|]. destruct L as [L1 L2].
    destruct (view_step s x o HR L1) as (s1 & o1 & -> & Ho & HR1). destruct (IH s1 _ HR1 L2) as (s2 & o2 & -> & Ho2 & HR2). exists s2, (o1 ++ o2). split; [reflexivity|]. split; [exists o1, o2; auto|exact HR2].
  Qed.
  Lemma RV_init : RV (vinit avg0) nothing.
  Proof. constructor; [apply R_init|intros w; exact I]. Qed.
  Lemma views_hold os : legal_run os nothing -> exists s obs, vrun os (vinit avg0) = Some (s, obs) /\ observed_run rank os nothing obs.
  Proof. intros L. destruct (view_run os _ _ RV_init L) as (s & obs & E & Ho & _). eauto. Qed.

  (** *** Misuse *)
  Definition dangling (x : @world V) (w : nat) : Prop :=
    exists b lo hi, in_views x w = Some (b, lo, hi) /\ match b with Some h => ~ In h (a_live (in_grids x)) | None => True end.
  Lemma vrun_app os1 os2 s : vrun (os1 ++ os2) s = match vrun os1 s with
    | Some (s1, o1) => match vrun os2 s1 with Some (s2, o2) => Some (s2, o1 ++ o2) | None => None end
    | None => None end.
  Proof.
    revert s. induction os1 as [|o os1 IH]; intros s; cbn [app SubviewModel.vrun]; [destruct (vrun os2 s) as [[? ?]|]; reflexivity|].
    destruct (vstep o s) as [[s1 out1]|]; [|reflexivity]. rewrite IH. destruct (vrun os1 s1) as [[s2 out2]|]; [|reflexivity].
    destruct (vrun os2 s2) as [[s3 out3]|]; [|reflexivity]. rewrite app_assoc. reflexivity.
  Qed.
  Lemma misused os : legal_run os nothing -> forall w, dangling (effects rank os nothing) w ->
    forall p v, vrun (os ++ [ReadView w p]) (vinit avg0) = None /\ vrun (os ++ [WriteView w p v]) (vinit avg0) = None.
  Proof.
    intros L w (b & lo & hi & E & D) p v. destruct (view_run os _ _ RV_init L) as (s & obs & R & _ & HR). rewrite !vrun_app, R. cbn [SubviewModel.vrun SubviewModel.vstep].
    rewrite (RV_some _ _ _ _ _ _ HR E). cbn [v_base]. destruct b as [h|]; [|auto]. unfold op_read, op_write. rewrite (R_live _ _ _ _ _ (RV_g _ _ HR)).
    assert (N : mem h (a_live (in_grids (effects rank os nothing))) = false) by (apply mem_not_In; exact D). rewrite N. cbn [negb].
    destruct (base_index cv cb _ p); auto.
  Qed.
End Proofs.
