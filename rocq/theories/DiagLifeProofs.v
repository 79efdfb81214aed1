(** Words and proofs for the lifetime of diagnostics. *)
From Coq Require Import List Bool Arith Lia.
From Verif Require Import DiagLifeModel.
Import ListNotations.

(** The objects constructed (not copied) by some operations, [n] objects having been made before. *)
Fixpoint constructed (n : nat) (os : list dop) : list nat :=
  match os with
  | [] => []
  | Construct :: os' => n :: constructed (S n) os'
  | Copy _ :: os' => constructed (S n) os'
  | _ :: os' => constructed n os'
  end.

(** The calls made by a program: each [Execute] calls what was constructed before it ([before]). *)
Fixpoint called (before os : list dop) : list nat :=
  match os with
  | [] => []
  | o :: os' => match o with Execute => constructed 0 before | _ => [] end ++ called (before ++ [o]) os'
  end.

Lemma in_existsb i l : existsb (Nat.eqb i) l = true <-> In i l.
Proof. rewrite existsb_exists. split; [intros (x & I & E); apply Nat.eqb_eq in E; subst; exact I|intros I; exists i; split; [exact I|apply Nat.eqb_refl]]. Qed.

Lemma drun_registered os : forall st st' cs, drun st os = Some (st', cs) -> registered st' = registered st ++ constructed (made st) os.
Proof.
  induction os as [|o os IH]; intros st st' cs E; cbn [drun constructed] in *; [injection E as <- <-; rewrite app_nil_r; reflexivity|].
  destruct (dstep st o) as [[st1 c1]|] eqn:E1; [|discriminate]. destruct (drun st1 os) as [[st2 c2]|] eqn:E2; [|discriminate]. injection E as <- <-.
  rewrite (IH _ _ _ E2). destruct o as [|i|i|]; cbn [dstep] in E1.
  - injection E1 as <- <-. cbn [registered made]. rewrite <- app_assoc. reflexivity.
  - destruct (existsb (Nat.eqb i) (alive st)); [|discriminate]. injection E1 as <- <-. reflexivity.
  - destruct (existsb (Nat.eqb i) (alive st)); [|discriminate]. injection E1 as <- <-. reflexivity.
  - destruct (forallb _ (registered st)); [|discriminate]. injection E1 as <- <-. reflexivity.
Qed.
(** Which objects exist: every one made by now unless it was destroyed. *)
Lemma drun_alive os : forall st st' cs, (forall i, In i (alive st) -> i < made st) -> drun st os = Some (st', cs) ->
  (forall i, In i (alive st') -> i < made st') /\ made st <= made st' /\
  forall i, In i (alive st') <-> (In i (alive st) \/ made st <= i < made st') /\ ~ In (Destroy i) os.
Proof.
  induction os as [|o os IH]; intros st st' cs B E; cbn [drun] in *.
  - injection E as <- <-. split; [exact B|]. split; [lia|]. intros i. simpl. split; [auto|]. intros [[H|H] _]; [exact H|lia].
  - destruct (dstep st o) as [[st1 c1]|] eqn:E1; [|discriminate]. destruct (drun st1 os) as [[st2 c2]|] eqn:E2; [|discriminate]. injection E as <- <-.
    assert (New : forall reg, st1 = mkD (S (made st)) (made st :: alive st) reg -> (forall j, o <> Destroy j) ->
      (forall i, In i (alive st2) -> i < made st2) /\ made st <= made st2 /\ forall i, In i (alive st2) <-> (In i (alive st) \/ made st <= i < made st2) /\ ~ In (Destroy i) (o :: os)).
    { intros reg -> ND. assert (B1 : forall i, In i (made st :: alive st) -> i < S (made st)) by (intros i [<-|H]; [lia|specialize (B i H); lia]).
      pose proof (fun X => IH _ _ _ X E2) as K; cbn [alive made] in K; destruct (K B1) as (B2 & L & H). cbn [made alive] in *. split; [exact B2|]. split; [lia|].
      intros i. rewrite H. simpl. split.
      - intros [[[<-|H1]|H1] H2]; (split; [|intros [X|X]; [apply (ND _ X)|contradiction]]); [right; lia|left; exact H1|right; lia].
      - intros [[H1|H1] H2]; (split; [|tauto]); [left; right; exact H1|]. destruct (Nat.eq_dec (made st) i) as [<-|]; [left; left; reflexivity|right; lia]. }
    destruct o as [|i0|i0|]; cbn [dstep] in E1.
    + injection E1 as <- <-. eapply New; [reflexivity|discriminate].
    + destruct (existsb (Nat.eqb i0) (alive st)); [|discriminate]. injection E1 as <- <-. eapply New; [reflexivity|discriminate].
    + destruct (existsb (Nat.eqb i0) (alive st)) eqn:A; [|discriminate]. injection E1 as <- <-. apply in_existsb in A. 
      assert (B1 : forall i, In i (remove Nat.eq_dec i0 (alive st)) -> i < made st) by (intros i H; apply in_remove in H; apply B, H).
      pose proof (fun X => IH _ _ _ X E2) as K; cbn [alive made] in K; destruct (K B1) as (B2 & L & H). cbn [made alive] in *.
      split; [exact B2|]. split; [lia|]. intros i. rewrite H. simpl. split.
      * intros [[H1|H1] H2].
        -- apply in_remove in H1. split; [left; apply H1|]. intros [X|X]; [injection X as ->; apply H1; reflexivity|contradiction].
        -- split; [right; lia|]. intros [X|X]; [injection X as ->; specialize (B i A); lia|contradiction].
      * intros [[H1|H1] H2]; (split; [|tauto]); [left|right; lia]. apply in_in_remove; [intros ->; apply H2; left; reflexivity|exact H1].
    + destruct (forallb _ (registered st)); [|discriminate]. injection E1 as <- <-. destruct (IH _ _ _ B E2) as (B2 & L & H). split; [exact B2|]. split; [exact L|].
      intros i. rewrite H. simpl. split; (intros [H1 H2]; split; [exact H1|]); [intros [X|X]; [discriminate|contradiction]|tauto].
Qed.
Lemma constructed_range os : forall st st' cs, drun st os = Some (st', cs) -> forall i, In i (constructed (made st) os) -> made st <= i < made st'.
Proof.
  induction os as [|o os IH]; intros st st' cs E i I; cbn [drun constructed] in *; [destruct I|].
  destruct (dstep st o) as [[st1 c1]|] eqn:E1; [|discriminate]. destruct (drun st1 os) as [[st2 c2]|] eqn:E2; [|discriminate]. injection E as <- <-.
  assert (G : made st1 <= made st2).
  { clear -E2. revert st1 st2 c2 E2. induction os as [|o os IH]; intros st1 st2 c2 E; cbn [drun] in E; [injection E as <- <-; lia|].
    destruct (dstep st1 o) as [[st3 c3]|] eqn:E3; [|discriminate]. destruct (drun st3 os) as [[st4 c4]|] eqn:E4; [|discriminate]. injection E as <- <-. specialize (IH _ _ _ E4).
    destruct o; cbn [dstep] in E3; repeat match type of E3 with (if ?b then _ else _) = _ => destruct b end; try discriminate; injection E3 as <- <-; cbn [made] in *; lia. }
  destruct o as [|i0|i0|]; cbn [dstep] in E1; repeat match type of E1 with (if ?b then _ else _) = _ => destruct b end; try discriminate; injection E1 as <- <-; cbn [made] in *.
  - destruct I as [<-|I]; [lia|]. specialize (IH _ _ _ E2 i I). cbn [made] in IH. lia.
  - specialize (IH _ _ _ E2 i I). cbn [made] in IH. lia.
  - specialize (IH _ _ _ E2 i I). cbn [made] in IH. lia.
  - specialize (IH _ _ _ E2 i I). lia.
Qed.

Lemma execute_calls os st cs : drun dstart os = Some (st, cs) ->
  ((exists j, In j (constructed 0 os) /\ In (Destroy j) os) -> dstep st Execute = None) /\
  ((forall j, In j (constructed 0 os) -> ~ In (Destroy j) os) -> dstep st Execute = Some (st, constructed 0 os)).
Proof.
  intros E. pose proof (drun_registered _ _ _ _ E) as R. cbn [dstart registered made app] in R.
  destruct (drun_alive os dstart st cs) as (_ & _ & A); [intros i []|exact E|]. cbn [dstart alive made] in A.
  pose proof (constructed_range _ _ _ _ E) as C. cbn [dstart made] in C. cbn [dstep]. rewrite R. split.
  - intros (j & I & D). destruct (forallb (fun i => existsb (Nat.eqb i) (alive st)) (constructed 0 os)) eqn:F; [|reflexivity].
    rewrite forallb_forall in F. specialize (F j I). apply in_existsb, A in F. tauto.
  - intros H. replace (forallb (fun i => existsb (Nat.eqb i) (alive st)) (constructed 0 os)) with true; [reflexivity|]. symmetry. apply forallb_forall.
    intros j I. apply in_existsb, A. split; [right; apply C, I|apply H, I].
Qed.
Lemma drun_app os1 os2 : forall st st1 c1, drun st os1 = Some (st1, c1) ->
  drun st (os1 ++ os2) = match drun st1 os2 with None => None | Some (st2, c2) => Some (st2, c1 ++ c2) end.
Proof.
  induction os1 as [|o os IH]; intros st st1 c1 E; cbn [drun app] in *.
  - injection E as <- <-. destruct (drun st os2) as [[? ?]|]; reflexivity.
  - destruct (dstep st o) as [[st3 c3]|]; [|discriminate]. destruct (drun st3 os) as [[st4 c4]|] eqn:E4; [|discriminate]. injection E as <- <-.
    rewrite (IH _ _ _ E4). destruct (drun st4 os2) as [[? ?]|]; [rewrite app_assoc|]; reflexivity.
Qed.
Lemma drun_calls os : forall before st0 c0 st cs, drun dstart before = Some (st0, c0) -> drun st0 os = Some (st, cs) -> cs = called before os.
Proof.
  induction os as [|o os IH]; intros before st0 c0 st cs E0 E; cbn [drun called] in *; [injection E as <- <-; reflexivity|].
  destruct (dstep st0 o) as [[st1 c1]|] eqn:E1; [|discriminate]. destruct (drun st1 os) as [[st2 c2]|] eqn:E2; [|discriminate]. injection E as <- <-.
  assert (E3 : drun dstart (before ++ [o]) = Some (st1, c0 ++ c1)).
  { rewrite (drun_app before [o] _ _ _ E0). cbn [drun]. rewrite E1. rewrite app_nil_r. reflexivity. }
  rewrite (IH _ _ _ _ _ E3 E2). f_equal. pose proof (drun_registered _ _ _ _ E0) as R. cbn [dstart registered made app] in R.
  destruct o as [|i|i|]; cbn [dstep] in E1; repeat match type of E1 with (if ?b then _ else _) = _ => destruct b end; try discriminate; injection E1 as <- <-; congruence.
Qed.
Lemma history_calls os st cs : drun dstart os = Some (st, cs) -> cs = called [] os.
Proof. intros E. exact (drun_calls os [] dstart [] st cs eq_refl E). Qed.
Lemma ex_life : exists st cs, drun dstart [Construct; Copy 0; Construct; Destroy 1; Execute] = Some (st, cs) /\ cs = [0; 2] /\ constructed 0 [Construct; Copy 0; Construct; Destroy 1; Execute] = [0; 2] /\
  drun dstart [Construct; Construct; Destroy 0; Execute] = None.
Proof. do 2 eexists. repeat split. Qed.
