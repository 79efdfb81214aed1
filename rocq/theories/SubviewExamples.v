(** Views of grids: statements in the form of the properties, and a concrete program. *)
From Verif Require Import Vec GridSpec StorageModel GridModel ShareModel ShareSpec ShareProofs ShareExamples BoundaryModel SubviewModel SubviewSpec SubviewProofs.

Lemma views_follow V A (junk : V) (avg0 : A) rank ord pol cv cb : policy_ok pol ->
  forall os, legal_run rank ord (is_lazy pol) (cv = CkAssert) os nothing ->
  exists s obs, vrun junk avg0 rank ord pol cv cb os (vinit avg0) = Some (s, obs) /\ observed_run rank os nothing obs.
Proof. intros P os. exact (views_hold junk avg0 rank ord pol P cv cb os). Qed.
Lemma views_dangle V A (junk : V) (avg0 : A) rank ord pol cv cb : policy_ok pol ->
  forall os, legal_run rank ord (is_lazy pol) (cv = CkAssert) os nothing ->
  forall w b lo hi, in_views (effects rank os nothing) w = Some (b, lo, hi) ->
  (forall h, b = Some h -> ~ In h (a_live (in_grids (effects rank os nothing)))) ->
  forall p v, vrun junk avg0 rank ord pol cv cb (os ++ [ReadView w p]) (vinit avg0) = None /\
              vrun junk avg0 rank ord pol cv cb (os ++ [WriteView w p v]) (vinit avg0) = None.
Proof.
  intros P os L w b lo hi E D. apply (misused junk avg0 rank ord pol P cv cb os L). exists b, lo, hi. split; [exact E|]. destruct b as [h|]; [apply D; reflexivity|exact I].
Qed.

(** A view of a grid that is written, copied and resized through its copy; copies of the view; the
    grid is destroyed although its copy lives. *)
Definition view_prog : list (vop2 Z) :=
  [OnGrid (New 1); OnGrid (Resize 1 [0] [9]); MakeView 7 [2] [5] 1; WriteView 7 [3] 42; OnGrid (Read 1 [3]);
   OnGrid (Copy 2 1); OnGrid (Write 2 [4] 9); ReadView 7 [4]; OnGrid (Resize 2 [3] [20]); WriteView 7 [5] 8; OnGrid (Read 2 [5]);
   CopyView 8 7; ResizeView 8 [10] [12]; WriteView 8 [11] 6; OnGrid (Read 1 [11]); BoundsView 7; AssignView 7 8; BoundsView 7; NewView 9; OnGrid (Destroy 1)].
Ltac vlegal_tac := repeat match goal with
  | |- _ /\ _ => split
  | |- True => exact I
  | |- legal_run _ _ _ _ [] _ => exact I
  | |- legal_run _ _ _ _ (_ :: _) _ => cbn [legal_run]
  | |- legal _ _ _ _ _ _ => cbn [legal]
  | |- alegal _ _ _ => cbn [alegal]
  | |- assign_safe _ _ _ => exact I
  | |- shape_ok _ _ _ => split; [discriminate|split; [cbn; lia|split; [vm_compute; reflexivity|intros _; vm_compute; discriminate]]]
  | |- exists_view _ _ => eexists; vm_compute; reflexivity
  | |- looks_at _ _ _ _ => eexists _, _; split; [vm_compute; reflexivity|simpl; lia]
  | |- exists h, looks_at _ _ _ _ /\ _ => exists 1%nat
  | |- exists _ _ _, _ => eexists _, _, _; split; [lazy; reflexivity|simpl; lia]
  | |- in_views _ _ = None => vm_compute; reflexivity
  | |- In _ _ => vm_compute; tauto
  | |- ~ In _ _ => vm_compute; lia
  | |- in_box _ _ _ => simpl; lia
  | |- _ -> _ => intros ?
  end.
Lemma view_prog_legal : legal_run 1 COrder false (CkAssert = CkAssert) view_prog nothing.
Proof. unfold view_prog. vlegal_tac. Qed.
Lemma view_prog_run : option_map snd (vrun 0 tt 1 COrder Instant CkAssert CkAssert view_prog (vinit tt)) =
  Some [OVal 42; OVal 9; OVal 8; OVal 6; OBounds [2] [5]; OBounds [10] [12]].
Proof. vm_compute. reflexivity. Qed.
(** Views 7 and 8 look at grid 1, which does not exist any more, although grid 2 still shares its data. *)
Lemma view_prog_dangling : in_views (effects 1 view_prog nothing) 8 = Some (Some 1%nat, [10], [12]) /\
  a_live (in_grids (effects 1 view_prog nothing)) = [2%nat] /\ a_grp (in_grids (effects 1 view_prog nothing)) 2%nat = a_grp (in_grids (effects 1 view_prog nothing)) 1%nat.
Proof. vm_compute. repeat split. Qed.
