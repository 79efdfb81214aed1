(** A field filled with y = x*x + k. *)
From Coq Require Import ZArith List Bool Lia Relations String.
From Verif Require Import Vec GridSpec RangeModel GridModel GridProofs FieldModel ExprModel DepModel DepSpec DepMapProofs DepProofs DepUpdateProofs DepExamples FillModel FillSpec FillProofs.
Import ListNotations.
Local Open Scope Z_scope.

Lemma fill_final : forall (A : arith) (pa : pos_arith (F A)) (exprs : nat -> expr A) funs (t : fill_target A) at_ dummy st0 b m ro d u st c h,
  dep_map A exprs st0 dummy b = Some m -> setting exprs (defined st0 b) dummy st0 -> acyclic exprs (defined st0 b) ->
  history exprs (defined st0 b) st0 m dummy ro u st c -> In d (u_dep u) -> ro d = false ->
  (forall i j, (i < List.length (g_lo (t_grid t)))%nat -> (j < List.length (g_lo (t_grid t)))%nat -> at_ i = at_ j -> i = j) ->
  coords_registered exprs (defined st0 b) t at_ (u_ind u) -> steady funs st -> grid_wf (t_grid t) h ->
  exists N, forall fuel, (N <= fuel)%nat ->
  exists r, fill_field A pa exprs funs fuel ro t at_ d u st c h = Some (Some r) /\
  match r with
  | Ok (u', st', c', h') =>
      (forall p, in_box (g_lo (t_grid t)) (g_hi (t_grid t)) p ->
        exists v, grid_read (t_grid t) h' p = Some v /\ value_at A pa exprs (defined st0 b) dummy funs t at_ st p d v) /\
      (forall b, b <> g_block (t_grid t) -> h' b = h b) /\ history exprs (defined st0 b) st0 m dummy ro u' st' c'
  | _ => exists p v st1, in_box (g_lo (t_grid t)) (g_hi (t_grid t)) p /\ In v (dummy :: defined st0 b) /\
      located A pa funs t at_ st p st1 /\ forall x, eval st1 (exprs v) <> Ok x
  end.
Proof.
  intros A pa exprs funs t at_ dummy st0 b m ro d u st c h Hm Hs Ha Hh Hd Hro Hat Hc Hst Hw. exists (enough m (u_ind u) (u_dep u) + Z.to_nat (box_size (g_lo (t_grid t)) (g_hi (t_grid t))))%nat. intros fuel Hf.
  destruct (field_filled A pa exprs funs t at_ Hat dummy st0 b m ro Hm Hs Ha d st fuel u c h Hro Hh Hf Hc Hst Hw) as (r & E & R).
  exists r. split; [exact E|]. destruct r as [[[[u3 st3] c3] h3]| | |]; try exact R. destruct R as (R1 & R2 & R3 & _). split; [|split; [exact R1|exact R3]].
  intros p Hp. destruct (R2 p Hp) as (v & Ev & Y & _). exists v. split; [exact Ev|exact (Y Hd)].
Qed.
Lemma fill_for_final : forall (A : arith) (pa : pos_arith (F A)) (exprs : nat -> expr A) funs (t : fill_target A) at_ dummy st0 b m ro d u st c h,
  dep_map A exprs st0 dummy b = Some m -> setting exprs (defined st0 b) dummy st0 -> acyclic exprs (defined st0 b) ->
  history exprs (defined st0 b) st0 m dummy ro u st c -> In d (defined st0 b) \/ s_fixed st d = true -> ro d = false ->
  (forall i j, (i < List.length (g_lo (t_grid t)))%nat -> (j < List.length (g_lo (t_grid t)))%nat -> at_ i = at_ j -> i = j) ->
  coords_registered exprs (defined st0 b) t at_ (u_ind u) -> steady funs st -> grid_wf (t_grid t) h ->
  exists N, forall fuel, (N <= fuel)%nat ->
  exists r, fill_field_for A pa exprs funs fuel ro t at_ d u st c h = Some (Some r) /\
  match r with
  | Ok (u', st', c', h') =>
      (forall p, in_box (g_lo (t_grid t)) (g_hi (t_grid t)) p -> exists v, grid_read (t_grid t) h' p = Some v /\
         if s_fixed st d then v = s_val st d else value_at A pa exprs (defined st0 b) dummy funs t at_ st p d v) /\
      (forall b, b <> g_block (t_grid t) -> h' b = h b) /\
      history exprs (defined st0 b) st0 m dummy ro u' st' c' /\ u_dep u' = if s_fixed st d then [] else [d]
  | _ => exists p v st1, in_box (g_lo (t_grid t)) (g_hi (t_grid t)) p /\ In v (dummy :: defined st0 b) /\
      located A pa funs t at_ st p st1 /\ forall x, eval st1 (exprs v) <> Ok x
  end.
Proof.
  intros A pa exprs funs t at_ dummy st0 b m ro d u st c h Hm Hs Ha Hh Hd Hro Hat Hc Hst Hw.
  destruct (field_filled_for A pa exprs funs t at_ Hat dummy st0 b m ro Hm Hs Ha d st u c h Hro Hh Hd Hc Hst Hw) as (N & HN). exists N. intros fuel Hf.
  destruct (HN fuel Hf) as (r & E & R). exists r. split; [exact E|]. destruct r as [[[[u3 st3] c3] h3]| | |]; try exact R. destruct R as (R1 & R2 & R3 & R4). auto.
Qed.

(** ** The example *)
Definition z_pos : pos_arith Z := mkPA Z Z.add Z.sub Z.mul Z.div (fun z => z) 0 Some.
(** [0 = x]; [1 = x*x + 2]; [2]: constant; [9]: auxiliary variable. *)
Definition fx_exprs (v : nat) : expr z_arith :=
  match v with
  | 0 => EExt TFloat 0
  | 1 => EBin OAdd TFloat [(true, EBin OMul TFloat [(true, ERef TFloat 0); (true, ERef TFloat 0)]); (true, ERef TFloat 2)]
  | 9 => EExt TInt 9
  | _ => EValue (VInt 0)
  end%nat.
Definition fx_tree : bvars := BVars [1]%nat [BVars [0; 2]%nat []].
Definition fx0 : store z_arith :=
  mkStore z_arith (fun v => @VFloat z_arith (nth v [5; 32; 7] 0)) (fun v => Nat.eqb v 2) Z.of_nat
    (fun v => if Nat.eqb v 9 then VInt 0 else @VFloat z_arith 5) (fun _ _ => BadGet).
Definition fx_map : dmap := match dep_map z_arith fx_exprs fx0 9%nat fx_tree with Some m => m | None => [] end.
Definition fx_u : updater := add_dependent fx0 (add_independent (new_updater fx_map 9%nat) 0%nat) 1%nat.
Definition fx_c : cmem z_arith := fun _ => VInt 0.
(** Indices -1..2, one ghost cell, the domain 0..20. *)
Definition fx_t : fill_target z_arith := mkTarget z_arith (mkGrid COrder 3 [-1] [2]) 1 [false] [0] [20].
Definition fx_h : heap (value z_arith) := fun b => if Nat.eqb b 3 then repeat (VInt 0) 4 else [].
Definition fx_ro (v : nat) : bool := false.
Definition fx_funs (pos : vec) (f : fsig) (l : list (value z_arith)) : result (value z_arith) := BadGet.
Example fx_map_ok : dep_map z_arith fx_exprs fx0 9%nat fx_tree = Some fx_map.
Proof. vm_compute. reflexivity. Qed.
Example fx_defined : defined fx0 fx_tree = [1; 0]%nat.
Proof. reflexivity. Qed.
Example fx_setting : setting fx_exprs (defined fx0 fx_tree) 9%nat fx0.
Proof.
  split; [intros x; simpl; lia|]. split; [intros x y H; simpl in H; lia|]. split; [exists 9%nat; reflexivity|].
  rewrite fx_defined. intros v Hv. simpl in Hv. repeat destruct Hv as [<-|Hv]; simpl; intuition lia.
Qed.
Example fx_acyclic : acyclic fx_exprs (defined fx0 fx_tree).
Proof.
  apply (ranked_acyclic _ _ _ (fun v => if Nat.eqb v 2 then 0 else v)%nat). rewrite fx_defined. intros v Hv. simpl in Hv.
  repeat destruct Hv as [<-|Hv]; try contradiction; simpl; repeat constructor; lia.
Qed.
Example fx_history : history fx_exprs (defined fx0 fx_tree) fx0 fx_map 9%nat fx_ro fx_u fx0 fx_c.
Proof.
  apply H_dependent; [apply H_independent; [apply H_new; auto|rewrite fx_defined; simpl; auto]|left; rewrite fx_defined; simpl; auto].
  rewrite fx_defined. intros v Hv _. simpl in Hv. destruct Hv as [<-|[<-|[]]]; vm_compute; reflexivity.
Qed.
Example fx_rest : In 1%nat (u_dep fx_u) /\ coords_registered fx_exprs (defined fx0 fx_tree) fx_t (fun i => i) (u_ind fx_u) /\
  steady fx_funs fx0 /\ grid_wf (t_grid fx_t) fx_h /\ s_fixed fx0 2 = true.
Proof.
  split; [simpl; auto|]. split.
  - intros v i Hv Hi Hx. rewrite fx_defined in Hv. simpl in Hv, Hi. assert (i = 0)%nat by lia. subst i. destruct Hv as [<-|[<-|[]]]; simpl in Hx |- *; intuition.
  - split; [intros pos f _; reflexivity|]. split; [|reflexivity]. vm_compute. intuition (try discriminate).
Qed.
Definition fx_cells (r : option (option (result (updater * store z_arith * cmem z_arith * heap (value z_arith))))) : list (option Z) :=
  match r with
  | Some (Some (Ok (_, _, _, h))) => map (fun i => match grid_read (t_grid fx_t) h [i] with Some (VFloat z) => Some (z : Z) | _ => None end) [-1; 0; 1; 2]
  | _ => []
  end.
Example fx_filled : fx_cells (fill_field z_arith z_pos fx_exprs fx_funs 20 fx_ro fx_t (fun i => i) 1 fx_u fx0 fx_c fx_h) = [Some 107; Some 7; Some 107; Some 407].
Proof. vm_compute. reflexivity. Qed.
Example fx_constant : fx_cells (fill_field_for z_arith z_pos fx_exprs fx_funs 20 fx_ro fx_t (fun i => i) 2 fx_u fx0 fx_c fx_h) = [Some 7; Some 7; Some 7; Some 7].
Proof. vm_compute. reflexivity. Qed.
