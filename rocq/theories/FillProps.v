(** C54, C79: filling fields with the values of expressions.

    [FillModel], [FillerModel] hold the program, [FillSpec], [FillerSpec] the words used here. *)
From Coq Require Import ZArith List Bool.
From Verif Require Import Vec GridSpec GridModel GridProofs FieldModel ExprModel DepModel DepSpec FillModel FillSpec FillProofs FillExamples FillerModel FillerSpec FillerProofs.
Import ListNotations.

(** C54.  After any history of the updater: for every cell, ghost cells included, the field holds the
    value of the dependent variable for the position of the cell, and no other memory is changed; the call
    fails only if the evaluation of an expression fails at some cell. *)
Theorem C54_fill : forall (A : arith) (pa : pos_arith (F A)) (exprs : nat -> expr A) funs (t : fill_target A) at_ dummy st0 b m ro d u st c h,
  dep_map A exprs st0 dummy b = Some m -> setting exprs (defined st0 b) dummy st0 -> acyclic exprs (defined st0 b) ->
  history exprs (defined st0 b) st0 m dummy ro u st c -> In d (u_dep u) -> ro d = false ->
  (forall i j, (i < List.length (g_lo (t_grid t)))%nat -> (j < List.length (g_lo (t_grid t)))%nat -> at_ i = at_ j -> i = j) ->
  coords_registered exprs (defined st0 b) t at_ (u_ind u) -> steady funs st -> grid_wf (t_grid t) h ->
  exists N, forall fuel, (N <= fuel)%nat ->
  exists r, fill_field A pa exprs funs fuel ro t at_ d u st c h = Some (Some r) /\
  match r with
  | Ok (u', st', c', h') =>
      (forall p, in_box (g_lo (t_grid t)) (g_hi (t_grid t)) p ->
        exists v, grid_read (t_grid t) h' p = Some v /\ value_at A pa exprs (defined st0 b) dummy funs t at_ st p d v) /\
      (forall b, b <> g_block (t_grid t) -> h' b = h b) /\ history exprs (defined st0 b) st0 m dummy ro u' st' c'
  | _ => exists p v st1, in_box (g_lo (t_grid t)) (g_hi (t_grid t)) p /\ In v (dummy :: defined st0 b) /\
      located A pa funs t at_ st p st1 /\ forall x, eval st1 (exprs v) <> Ok x
  end.
Proof. exact fill_final. Qed.
Print Assumptions C54_fill.

(** The value for a cell is determined by the state at the call. *)
Theorem C54_value_determined : forall (A : arith) (pa : pos_arith (F A)) (exprs : nat -> expr A) funs (t : fill_target A) at_ dummy st0 b m,
  dep_map A exprs st0 dummy b = Some m -> setting exprs (defined st0 b) dummy st0 -> acyclic exprs (defined st0 b) ->
  forall d st p v v', In d (defined st0 b) ->
  value_at A pa exprs (defined st0 b) dummy funs t at_ st p d v -> value_at A pa exprs (defined st0 b) dummy funs t at_ st p d v' -> v = v'.
Proof. exact cell_unique. Qed.
Print Assumptions C54_value_determined.

(** The variant that is told the parameter, which may be a constant.  Afterwards the updater has no other
    dependent parameters. *)
Theorem C54_fill_for : forall (A : arith) (pa : pos_arith (F A)) (exprs : nat -> expr A) funs (t : fill_target A) at_ dummy st0 b m ro d u st c h,
  dep_map A exprs st0 dummy b = Some m -> setting exprs (defined st0 b) dummy st0 -> acyclic exprs (defined st0 b) ->
  history exprs (defined st0 b) st0 m dummy ro u st c -> In d (defined st0 b) \/ s_fixed st d = true -> ro d = false ->
  (forall i j, (i < List.length (g_lo (t_grid t)))%nat -> (j < List.length (g_lo (t_grid t)))%nat -> at_ i = at_ j -> i = j) ->
  coords_registered exprs (defined st0 b) t at_ (u_ind u) -> steady funs st -> grid_wf (t_grid t) h ->
  exists N, forall fuel, (N <= fuel)%nat ->
  exists r, fill_field_for A pa exprs funs fuel ro t at_ d u st c h = Some (Some r) /\
  match r with
  | Ok (u', st', c', h') =>
      (forall p, in_box (g_lo (t_grid t)) (g_hi (t_grid t)) p -> exists v, grid_read (t_grid t) h' p = Some v /\
         if s_fixed st d then v = s_val st d else value_at A pa exprs (defined st0 b) dummy funs t at_ st p d v) /\
      (forall b, b <> g_block (t_grid t) -> h' b = h b) /\
      history exprs (defined st0 b) st0 m dummy ro u' st' c' /\ u_dep u' = if s_fixed st d then [] else [d]
  | _ => exists p v st1, in_box (g_lo (t_grid t)) (g_hi (t_grid t)) p /\ In v (dummy :: defined st0 b) /\
      located A pa funs t at_ st p st1 /\ forall x, eval st1 (exprs v) <> Ok x
  end.
Proof. exact fill_for_final. Qed.
Print Assumptions C54_fill_for.

(** C79.  Every [fillFields()] fills the fields registered with the filler, with their coordinates and
    updaters, in order.  Missing: programs in which two calls of [set] for the same rank differ in the
    filler, the coordinates or the updater. *)
Theorem C79_fillers_partial : forall os, proper [] os -> one_set os -> frun fstart os = Some (filled [] os).
Proof. exact fillers. Qed.
Print Assumptions C79_fillers_partial.

(** Then the fields of the second filler are added to the first, the second coordinates are ignored, and
    a filler that no longer exists is used. *)
Theorem C79_two_fillers_refuted :
  (proper [] two_fillers /\ filled [] two_fillers = [[mkImpl 10 11 5 6]; [mkImpl 12 13 7 8]] /\
   frun fstart two_fillers = Some [[mkImpl 10 11 5 6; mkImpl 12 13 5 6]; []]) /\
  (proper [] two_coords /\ filled [] two_coords = [[mkImpl 10 11 5 6; mkImpl 12 13 7 8]] /\
   frun fstart two_coords = Some [[mkImpl 10 11 5 6; mkImpl 12 13 5 6]]) /\
  (proper [] one_after_another /\ frun fstart one_after_another = None).
Proof. exact two_fillers_fail. Qed.
Print Assumptions C79_two_fillers_refuted.
