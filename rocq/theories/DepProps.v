(** Theorems on dependencies between variables: C49-C51, C53, C69, C70. *)
From Coq Require Import ZArith List Bool.
From Verif Require Import ExprModel DepModel DepSpec DepUpdateProofs DepExamples.
Import ListNotations.

(** C49.  For all decks without cyclic definitions, all independent and dependent variables: the
    update list consists of the variables that may change and are needed, each once, each after
    those it reads. *)
Theorem C49_update_list : forall (A : arith) (exprs : nat -> expr A) st dummy b m ind dep,
  dep_map A exprs st dummy b = Some m ->
  setting exprs (defined st b) dummy st -> acyclic exprs (defined st b) ->
  NoDup ind -> NoDup dep -> In dummy ind -> incl ind (dummy :: defined st b) -> incl dep (defined st b) ->
  exists N, forall fuel, (N <= fuel)%nat ->
  exists m' vs, make_update_list fuel m (map (s_id st) ind) (map (s_id st) dep) = Some (Some (m', map Some vs)) /\
                good_list exprs (defined st b) ind dep dummy vs.
Proof. exact update_list_final. Qed.

(** C50.  After any history, an update gives every dependent variable, and the parameter bound to
    it, the value of its expression under the current values of everything it depends on; it can
    fail only if the evaluation of an expression fails. *)
Theorem C50_update : forall (A : arith) (exprs : nat -> expr A) st0 dummy b m ro u st c,
  dep_map A exprs st0 dummy b = Some m ->
  setting exprs (defined st0 b) dummy st0 -> acyclic exprs (defined st0 b) ->
  history exprs (defined st0 b) st0 m dummy ro u st c ->
  exists N, forall fuel, (N <= fuel)%nat ->
  exists u' r, update A exprs fuel ro u st c = Some (Some (u', r)) /\
    match r with
    | Ok (st', c') => forall d, In d (u_dep u) -> up_to_date exprs (defined st0 b) st' d /\ (ro d = false -> c' d = s_val st' d)
    | _ => exists v st1, In v (dummy :: defined st0 b) /\ same_world st st1 /\ forall x, eval st1 (exprs v) <> Ok x
    end.
Proof. exact update_final. Qed.

(** The value of a variable that is up to date is determined by the constants, the external memory
    and the functions: it does not depend on the history. *)
Theorem C50_value_determined : forall (A : arith) (exprs : nat -> expr A) (st0 : store A) b st st' v,
  acyclic exprs (defined st0 b) -> same_world st st' -> (forall x, ~ In x (defined st0 b) -> s_val st' x = s_val st x) ->
  In v (defined st0 b) -> up_to_date exprs (defined st0 b) st v -> up_to_date exprs (defined st0 b) st' v ->
  s_val st' v = s_val st v.
Proof. exact determined_final. Qed.

(** C51.  An update changes only variables that depend on an independent one (or on a function that
    may change at any time) and on which a dependent one depends, and only dependent parameters. *)
Theorem C51_update_minimal : forall (A : arith) (exprs : nat -> expr A) st0 dummy b m ro u st c fuel u' st' c',
  dep_map A exprs st0 dummy b = Some m ->
  setting exprs (defined st0 b) dummy st0 -> acyclic exprs (defined st0 b) ->
  history exprs (defined st0 b) st0 m dummy ro u st c ->
  update A exprs fuel ro u st c = Some (Some (u', Ok (st', c'))) ->
  same_world st st' /\
  (forall x, s_val st' x <> s_val st x ->
     x = dummy \/ (In x (defined st0 b) /\ changing exprs (defined st0 b) (u_ind u) x /\ needed exprs (defined st0 b) (u_dep u) x)) /\
  (forall x, c' x <> c x -> In x (u_dep u)) /\ u_ind u' = u_ind u /\ u_dep u' = u_dep u.
Proof. exact update_minimal. Qed.

(** C53.  [recreate()] throws for every deck with a variable that is not constant... *)
Theorem C53_recreate_refuted : forall (A : arith) (exprs : nat -> expr A) st dummy b m,
  (forall x, (0 <= s_id st x)%Z) -> (forall x y, s_id st x = s_id st y -> x = y) ->
  dep_map A exprs st dummy b = Some m -> defined st b <> [] -> recreate A exprs st dummy b m = None.
Proof. exact recreate_fails. Qed.

(** ... and works exactly if no variable of the deck is in the map yet.  Missing for the full claim:
    everything else. *)
Theorem C53_recreate_partial : forall (A : arith) (exprs : nat -> expr A) st dummy b m,
  (exists m', recreate A exprs st dummy b m = Some m') <->
  (forall v, In v (defined st b) -> dmem m (s_id st v) = false) /\ NoDup (map (s_id st) (defined st b)).
Proof. exact recreate_iff. Qed.

(** C69.  [updateAll()] on a new map gives every variable the value of its expression, unless the
    evaluation of that expression throws.  Missing: maps that have been used (see below). *)
Theorem C69_update_all_partial : forall (A : arith) (exprs : nat -> expr A) st0 dummy b m st,
  dep_map A exprs st0 dummy b = Some m ->
  setting exprs (defined st0 b) dummy st0 -> acyclic exprs (defined st0 b) ->
  exists m' r, update_all A exprs m st = Some (m', r) /\
  match r with
  | Ok st' => same_world st st' /\ (forall x, x <> dummy -> ~ In x (defined st0 b) -> s_val st' x = s_val st x) /\
              forall v, In v (defined st0 b) -> has_value exprs st' v \/ eval st' (exprs v) = BadCast \/ eval st' (exprs v) = BadGet
  | Undefined => exists v st1, In v (dummy :: defined st0 b) /\ same_world st st1 /\ eval st1 (exprs v) = Undefined
  | _ => False
  end.
Proof. exact update_all_final. Qed.

(** After an update that reached a constant, [updateAll()] fails. *)
Theorem C69_update_all_later_refuted :
  dep_map z_arith dx_exprs dx0 9%nat dx_tree = Some dx_map /\
  setting dx_exprs (defined dx0 dx_tree) 9%nat dx0 /\ acyclic dx_exprs (defined dx0 dx_tree) /\
  history dx_exprs (defined dx0 dx_tree) dx0 dx_map 9%nat dx_ro dx_u dx1 dx_c /\
  (exists u' st' c', update z_arith dx_exprs 50 dx_ro dx_u dx1 dx_c = Some (Some (u', Ok (st', c'))) /\ u_map u' = dx_map') /\
  update_all z_arith dx_exprs dx_map' dx1 = None.
Proof.
  exact (conj dx_map_ok (conj dx_setting (conj dx_acyclic (conj dx_history (conj dx_update_returns dx_update_all_after))))).
Qed.

(** C70.  Every choice of independent variables among those that are not constants works, for every
    set of dependents, constant or not.  Missing: constants as independent variables. *)
Theorem C70_choice_partial : forall (A : arith) (exprs : nat -> expr A) st0 dummy b m ro st c ind dep,
  dep_map A exprs st0 dummy b = Some m ->
  setting exprs (defined st0 b) dummy st0 -> acyclic exprs (defined st0 b) ->
  (forall x, s_id st x = s_id st0 x) -> (forall x, s_fixed st x = s_fixed st0 x) ->
  (forall v, In v (defined st0 b) -> ~ changing exprs (defined st0 b) [] v -> has_value exprs st v) ->
  incl ind (defined st0 b) -> (forall v, In v dep -> In v (defined st0 b) \/ s_fixed st v = true) ->
  exists N, forall fuel, (N <= fuel)%nat ->
  exists u' r, update A exprs fuel ro (fold_left (add_dependent st) dep (fold_left add_independent ind (new_updater m dummy))) st c = Some (Some (u', r)) /\
    match r with
    | Ok (st', c') => forall d, In d dep -> s_fixed st d = false ->
                        up_to_date exprs (defined st0 b) st' d /\ (ro d = false -> c' d = s_val st' d)
    | _ => exists v st1, In v (dummy :: defined st0 b) /\ same_world st st1 /\ forall x, eval st1 (exprs v) <> Ok x
    end.
Proof. exact choose_any. Qed.
Print Assumptions C70_choice_partial.

(** A constant must not be chosen as independent variable: the update uses a null pointer. *)
Theorem C70_constant_independent_refuted :
  dep_map z_arith dx_exprs dx0 9%nat dx_tree = Some dx_map /\ s_fixed dx0 1%nat = true /\
  option_map (option_map snd)
    (update z_arith dx_exprs 50 dx_ro (add_dependent dx0 (add_independent (new_updater dx_map 9%nat) 1%nat) 2%nat) dx0 dx_c) =
  Some (Some Undefined).
Proof. exact (conj dx_map_ok (conj eq_refl dx_constant_independent)). Qed.

Print Assumptions C49_update_list.
Print Assumptions C50_update.
Print Assumptions C50_value_determined.
Print Assumptions C51_update_minimal.
Print Assumptions C53_recreate_refuted.
Print Assumptions C53_recreate_partial.
Print Assumptions C69_update_all_partial.
Print Assumptions C69_update_all_later_refuted.
Print Assumptions C70_constant_independent_refuted.
