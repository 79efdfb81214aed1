(** Model of src/variables/dependencies.hpp and dependencies.cpp: the graph of dependencies between
    the variables of a deck and the order in which they are updated.

    Variables ([pVariable]) are numbers.  A pointer to a [VarInfo] stored in the map is modelled by
    its key; [std::map] iterates in ascending order of keys, and the order of a
    [std::set<pVariable>] (by address) is arbitrary, hence given as a list. *)
From Coq Require Import ZArith List Bool.
From Verif Require Import ExprModel.
Import ListNotations.
Local Open Scope Z_scope.

(** [std::set<long>] as an ascending list. *)
Fixpoint zinsert (x : Z) (l : list Z) : list Z :=
  match l with
  | [] => [x]
  | y :: l' => if x <? y then x :: l else if x =? y then l else y :: zinsert x l'
  end.
Definition zset (l : list Z) : list Z := fold_left (fun s x => zinsert x s) l [].
Definition zmem (x : Z) (l : list Z) : bool := existsb (Z.eqb x) l.
Definition zerase (x : Z) (l : list Z) : list Z := filter (fun y => negb (y =? x)) l.

(** [DependencyMap::VarInfo] — dependencies.hpp:57-68.  [vi_v = None] is the null pointer of the
    default constructor.  [vi_count = None]: uninitialised. *)
Record vinfo := mkVI { vi_v : option nat; vi_dep : list Z; vi_mod : list Z; vi_count : option Z }.
Definition vi_default : vinfo := mkVI None [] [] None.

(** [DepMap = std::map<long, VarInfo>] — dependencies.hpp:70. *)
Definition dmap := list (Z * vinfo).
Fixpoint dfind (m : dmap) (k : Z) : option vinfo :=
  match m with
  | [] => None
  | (k', vi) :: m' => if k =? k' then Some vi else dfind m' k
  end.
Fixpoint dput (m : dmap) (k : Z) (vi : vinfo) : dmap :=
  match m with
  | [] => [(k, vi)]
  | (k', vi') :: m' =>
      if k <? k' then (k, vi) :: m
      else if k =? k' then (k, vi) :: m'
      else (k', vi') :: dput m' k vi
  end.
Definition dmem (m : dmap) (k : Z) : bool := match dfind m k with Some _ => true | None => false end.
(** [dependencies[id]]: inserts a default [VarInfo] if there is none. *)
Definition dtouch (m : dmap) (k : Z) : dmap := if dmem m k then m else dput m k vi_default.
Definition dinfo (m : dmap) (k : Z) : vinfo := match dfind m k with Some vi => vi | None => vi_default end.

(** [BlockVariables]: the variables of a block in the order of their names and its children —
    variables.hpp:147-216. *)
Inductive bvars := BVars (vars : list nat) (children : list bvars).

Section Map.
  Variable A : arith.
  (** [Variable::getExpression] of each variable. *)
  Variable exprs : nat -> expr A.

  Section Construct.
    Variable st : store A.
    Variable dummy : nat.

    (** The body of the loop in [constructMapRecursive] — dependencies.cpp:66-84.  [None]:
        [SchnekException]. *)
    Definition add_variable (m : dmap) (v : nat) : option dmap :=
      if s_fixed st v then Some m
      else
        let dep := zset (dependencies st (exprs v)) in
        let dep := if zmem (-1) dep then zinsert (s_id st dummy) (zerase (-1) dep) else dep in
        if dmem m (s_id st v) then None
        else Some (dput m (s_id st v) (mkVI (Some v) dep [] (Some 0))).

    Fixpoint add_variables (vs : list nat) (m : dmap) : option dmap :=
      match vs with
      | [] => Some m
      | v :: vs' => match add_variable m v with Some m' => add_variables vs' m' | None => None end
      end.

    (** [constructMapRecursive] — dependencies.cpp:64-90. *)
    Fixpoint construct_rec (b : bvars) (m : dmap) : option dmap :=
      match b with
      | BVars vs children =>
          match add_variables vs m with
          | None => None
          | Some m' =>
              (fix all (l : list bvars) (m : dmap) : option dmap :=
                 match l with
                 | [] => Some m
                 | b :: l' => match construct_rec b m with Some m' => all l' m' | None => None end
                 end) children m'
          end
      end.

    (** The second loop of [constructMap] — dependencies.cpp:98-108.  The loop variable is a copy
        of the entry; only [modifies] sets change during the loop. *)
    Definition set_mod (m : dmap) (k id : Z) : dmap :=
      match dfind m id with
      | Some vi => dput m id (mkVI (vi_v vi) (vi_dep vi) (zinsert k (vi_mod vi)) (vi_count vi))
      | None => m
      end.
    Definition set_mods (m : dmap) (entry : Z * vinfo) : dmap :=
      fold_left (fun m id => set_mod m (fst entry) id) (vi_dep (snd entry)) m.

    (** [constructMap] — dependencies.cpp:91-111. *)
    Definition construct_map (b : bvars) (m : dmap) : option dmap :=
      match construct_rec b m with
      | Some m' => Some (fold_left set_mods m' m')
      | None => None
      end.

    (** The constructor — dependencies.cpp:46-62. *)
    Definition dep_map (b : bvars) : option dmap :=
      construct_map b [(s_id st dummy, mkVI (Some dummy) [] [] (Some 0))].

    (** [recreate()] — dependencies.hpp:97. *)
    Definition recreate (b : bvars) (m : dmap) : option dmap := construct_map b m.
  End Construct.

  (** [makeUpdatePredecessors] — dependencies.cpp:128-185.  The set of keys of the map returned
      and the map [dependencies], which may have grown. *)
  Definition pred_push (s : dmap * list Z * list Z) (id : Z) : dmap * list Z * list Z :=
    let '(m, work, preds) := s in (dtouch m id, work ++ [id], preds ++ [id]).
  Definition pred_visit (ind : list Z) (s : dmap * list Z * list Z) (id : Z) : dmap * list Z * list Z :=
    let '(m, work, preds) := s in
    if zmem id preds then s
    else if id <? 0 then
      fold_left (fun s id => let '(m, work, preds) := s in if zmem id preds then s else pred_push s id) ind s
    else pred_push s id.
  Fixpoint pred_loop (fuel : nat) (ind : list Z) (s : dmap * list Z * list Z) : option (dmap * list Z) :=
    match fuel with
    | O => None
    | S n =>
        let '(m, work, preds) := s in
        match work with
        | [] => Some (m, preds)
        | k :: work' => pred_loop n ind (fold_left (pred_visit ind) (vi_dep (dinfo m k)) (m, work', preds))
        end
    end.
  (** Lines 135-142: the working set starts with the dependent variables (a [std::set], so each
      occurs once; two variables with one id push it twice). *)
  Definition predecessors (fuel : nat) (m : dmap) (ind dep : list Z) : option (dmap * list Z) :=
    pred_loop fuel ind
      (fold_left (fun s id => let '(m, work, preds) := s in
                              (dtouch m id, work ++ [id], if zmem id preds then preds else preds ++ [id]))
                 dep (m, [], [])).

  (** [makeUpdateFollowers] — dependencies.cpp:187-227. *)
  Definition foll_visit (preds : list Z) (s : list Z * list Z) (id : Z) : list Z * list Z :=
    let '(work, foll) := s in
    if zmem id foll || negb (zmem id preds) then s else (work ++ [id], foll ++ [id]).
  Fixpoint foll_loop (fuel : nat) (m : dmap) (preds : list Z) (s : list Z * list Z) : option (list Z) :=
    match fuel with
    | O => None
    | S n =>
        let '(work, foll) := s in
        match work with
        | [] => Some foll
        | k :: work' => foll_loop n m preds (fold_left (foll_visit preds) (vi_mod (dinfo m k)) (work', foll))
        end
    end.
  Definition followers (fuel : nat) (m : dmap) (ind preds : list Z) : option (list Z) :=
    foll_loop fuel m preds
      (fold_left (fun s id => let '(work, foll) := s in
                              if zmem id preds then (work ++ [id], if zmem id foll then foll else foll ++ [id]) else s)
                 ind ([], [])).

  (** [makeUpdateOrder] — dependencies.cpp:229-275.  The outcome [None] is a failing assertion:
      no variable with counter 0 is left, or a counter becomes negative. *)
  Definition dset_count (m : dmap) (k c : Z) : dmap :=
    let vi := dinfo m k in dput m k (mkVI (vi_v vi) (vi_dep vi) (vi_mod vi) (Some c)).
  Definition init_counts (m : dmap) (deps : list Z) : dmap :=
    fold_left (fun m k => dset_count m k (Z.of_nat (List.length (filter (fun id => zmem id deps) (vi_dep (dinfo m k)))))) deps m.
  Fixpoint take_ready (m : dmap) (work : list Z) : option (Z * list Z) :=
    match work with
    | [] => None
    | k :: work' =>
        match vi_count (dinfo m k) with
        | Some 0 => Some (k, work')
        | _ => match take_ready m work' with Some (k', w) => Some (k', k :: w) | None => None end
        end
    end.
  Fixpoint decrement (m : dmap) (deps ids : list Z) : option dmap :=
    match ids with
    | [] => Some m
    | id :: ids' =>
        if zmem id deps then
          match vi_count (dinfo m id) with
          | Some c => if c - 1 >=? 0 then decrement (dset_count m id (c - 1)) deps ids' else None
          | None => None
          end
        else decrement m deps ids'
    end.
  Fixpoint order_loop (n : nat) (m : dmap) (deps work : list Z) : option (dmap * list (option nat)) :=
    match work, n with
    | [], _ => Some (m, [])
    | _ :: _, O => None
    | _ :: _, S n' =>
        match take_ready m work with
        | None => None
        | Some (k, work') =>
            match decrement m deps (vi_mod (dinfo m k)) with
            | None => None
            | Some m' => match order_loop n' m' deps work' with
                         | Some (m'', l) => Some (m'', vi_v (dinfo m k) :: l)
                         | None => None
                         end
            end
        end
    end.
  Definition update_order (m : dmap) (deps : list Z) : option (dmap * list (option nat)) :=
    let deps := zset deps in order_loop (List.length deps) (init_counts m deps) deps deps.

  (** [makeUpdateList] — dependencies.cpp:121-126. *)
  Definition make_update_list (fuel : nat) (m : dmap) (ind dep : list Z) : option (option (dmap * list (option nat))) :=
    match predecessors fuel m ind dep with
    | None => None
    | Some (m', preds) =>
        match followers fuel m' ind preds with
        | None => None
        | Some foll => Some (update_order m' foll)
        end
    end.

  (** [Variable::evaluateExpression] — variables.cpp:119-124. *)
  Definition set_val (st : store A) (v : nat) (x : value A) : store A :=
    mkStore A (fun u => if Nat.eqb u v then x else s_val st u) (s_fixed st) (s_id st) (s_ext st) (s_fun st).
  Definition evaluate (st : store A) (v : nat) : result (store A) :=
    rbind (eval st (exprs v)) (fun x => Ok (set_val st v x)).

  (** [for (pVariable v: updateList) v->evaluateExpression()] — dependencies.hpp:144.  A null
      pointer is undefined behaviour. *)
  Fixpoint evaluate_list (l : list (option nat)) (st : store A) : result (store A) :=
    match l with
    | [] => Ok st
    | None :: _ => Undefined
    | Some v :: l' => rbind (evaluate st v) (evaluate_list l')
    end.

  (** [updateAll()] — dependencies.cpp:282-304: exceptions are swallowed, undefined behaviour is
      not.  Outer [None]: a failing assertion. *)
  Fixpoint evaluate_caught (l : list (option nat)) (st : store A) : result (store A) :=
    match l with
    | [] => Ok st
    | None :: _ => Undefined
    | Some v :: l' =>
        match evaluate st v with
        | Ok st' => evaluate_caught l' st'
        | Undefined => Undefined
        | BadCast | BadGet => evaluate_caught l' st
        end
    end.
  Definition update_all (m : dmap) (st : store A) : option (dmap * result (store A)) :=
    match update_order m (map fst m) with
    | None => None
    | Some (m', l) => Some (m', evaluate_caught l st)
    end.

  (** [DependencyUpdater] — dependencies.hpp:106-147.  A parameter is given by its variable, the
      C++ variable it is bound to is [c_mem] of that number.  Simplification: one parameter per
      variable. *)
  Record updater := mkUpd { u_map : dmap; u_list : list (option nat); u_ind : list nat; u_dep : list nat; u_valid : bool }.

  (** The constructor — dependencies.cpp:307-312. *)
  Definition new_updater (m : dmap) (dummy : nat) : updater := mkUpd m [] [dummy] [] true.

  Definition ninsert (v : nat) (l : list nat) : list nat := if existsb (Nat.eqb v) l then l else l ++ [v].

  (** [addIndependent] — dependencies.cpp:315-320. *)
  Definition add_independent (u : updater) (v : nat) : updater :=
    mkUpd (u_map u) (u_list u) (ninsert v (u_ind u)) (u_dep u) false.
  (** [addDependent] — dependencies.cpp:322-334; for a constant variable nothing is registered. *)
  Definition add_dependent (st : store A) (u : updater) (v : nat) : updater :=
    if s_fixed st v then u else mkUpd (u_map u) (u_list u) (u_ind u) (ninsert v (u_dep u)) false.
  (** [clearDependent] — dependencies.cpp:336-341. *)
  Definition clear_dependent (u : updater) : updater := mkUpd (u_map u) (u_list u) (u_ind u) [] false.

  (** Memory of the C++ variables bound to parameters. *)
  Definition cmem := nat -> value A.
  (** [ConcreteParameter::update()] — blockparameters.hpp:122-126; the read-only test is not
      needed for dependents that are not read only ([ro]). *)
  Definition param_update (ro : nat -> bool) (st : store A) (c : cmem) (v : nat) : cmem :=
    if ro v then c else fun u => if Nat.eqb u v then s_val st v else c u.

  (** [update()] — dependencies.hpp:138-146.  Outer [None]: out of fuel; inner [None]: a failing
      assertion. *)
  Definition update (fuel : nat) (ro : nat -> bool) (u : updater) (st : store A) (c : cmem)
    : option (option (updater * result (store A * cmem))) :=
    let finish (u : updater) :=
      Some (Some (u, rbind (evaluate_list (u_list u) st) (fun st' =>
                     Ok (st', fold_left (param_update ro st') (u_dep u) c)))) in
    if u_valid u then finish u
    else
      match make_update_list fuel (u_map u) (map (s_id st) (u_ind u)) (map (s_id st) (u_dep u)) with
      | None => None
      | Some None => Some None
      | Some (Some (m, l)) => finish (mkUpd m l (u_ind u) (u_dep u) true)
      end.
End Map.

Arguments set_val {A} st v x.
Arguments evaluate {A} exprs st v.
Arguments evaluate_list {A} exprs l st.
Arguments evaluate_caught {A} exprs l st.
Arguments add_dependent {A} st u v.
Arguments param_update {A} ro st c v.
