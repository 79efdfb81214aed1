(** What it means for the variables of a deck to be up to date: refers to the expressions and the
    values of variables only, not to dependency maps or update lists. *)
From Coq Require Import ZArith List Bool Relations.
From Verif Require Import ExprModel DepModel.
Import ListNotations.

Section Spec.
  Variable A : arith.

  (** The variables read by an expression. *)
  Fixpoint refs (e : expr A) : list nat :=
    match e with
    | EValue _ | EExt _ _ => []
    | ERef _ x => [x]
    | EUn _ _ e | ECast _ _ e => refs e
    | EBin _ _ l => flat_map (fun pe => refs (snd pe)) l
    | EFun _ args => flat_map refs args
    end.

  (** The external memory (C++ variables) read by an expression. *)
  Fixpoint ext_refs (e : expr A) : list nat :=
    match e with
    | EValue _ | ERef _ _ => []
    | EExt _ x => [x]
    | EUn _ _ e | ECast _ _ e => ext_refs e
    | EBin _ _ l => flat_map (fun pe => ext_refs (snd pe)) l
    | EFun _ args => flat_map ext_refs args
    end.

  (** The expression calls a function declared as always changing. *)
  Fixpoint uses_always (e : expr A) : bool :=
    match e with
    | EValue _ | EExt _ _ | ERef _ _ => false
    | EUn _ _ e | ECast _ _ e => uses_always e
    | EBin _ _ l => existsb (fun pe => uses_always (snd pe)) l
    | EFun f args => fs_always f || existsb uses_always args
    end.

  (** All variables of a tree of blocks. *)
  Fixpoint tree_vars (b : bvars) : list nat :=
    match b with BVars vs children => vs ++ flat_map tree_vars children end.

  (** The variables of a tree that are not constants. *)
  Definition defined (st : store A) (b : bvars) : list nat :=
    filter (fun v => negb (s_fixed st v)) (tree_vars b).

  Variable exprs : nat -> expr A.
  (** The variables defined by expressions. *)
  Variable vars : list nat.

  (** [u] is read directly by [v]. *)
  Definition edge (u v : nat) : Prop := In u vars /\ In v vars /\ In u (refs (exprs v)).
  (** [v] depends on [u], or is [u]. *)
  Definition depends (u v : nat) : Prop := clos_refl_trans nat edge u v.
  (** No variable depends on itself. *)
  Definition acyclic : Prop := forall v, ~ clos_trans nat edge v v.

  (** The value of [v] may change when the independent variables [ind] change, or at any time. *)
  Definition changing (ind : list nat) (v : nat) : Prop :=
    exists u, (In u ind \/ uses_always (exprs u) = true) /\ In u vars /\ depends u v.
  (** The value of [v] is needed for one of the variables [dep]. *)
  Definition needed (dep : list nat) (v : nat) : Prop := exists w, In w dep /\ depends v w.

  (** The variable has the value of its expression. *)
  Definition has_value (st : store A) (v : nat) : Prop := eval st (exprs v) = Ok (s_val st v).

  (** The variable is up to date: it has the value of its expression, and so have all variables
      it depends on. *)
  Definition up_to_date (st : store A) (v : nat) : Prop := forall u, depends u v -> has_value st u.

  (** What the program may change between updates: the external memory of the independent
      variables, and the behaviour of the functions declared as always changing. *)
  Definition world_change (ind : list nat) (st st' : store A) : Prop :=
    (forall x, s_val st' x = s_val st x) /\ (forall x, s_fixed st' x = s_fixed st x) /\
    (forall x, s_id st' x = s_id st x) /\
    (forall f, fs_always f = false -> s_fun st' f = s_fun st f) /\
    (forall v x, In v vars -> ~ In v ind -> In x (ext_refs (exprs v)) -> s_ext st' x = s_ext st x).

  (** An update list: lists exactly the variables that may change and are needed, each once, and
      each after those it reads.  The list may also contain the auxiliary variable [dummy]. *)
  Definition good_list (ind dep : list nat) (dummy : nat) (l : list nat) : Prop :=
    NoDup l /\
    (forall v, v <> dummy -> In v l <-> In v vars /\ changing ind v /\ needed dep v) /\
    (forall a v b u, l = a ++ v :: b -> In u l -> In u (refs (exprs v)) -> In u a).

  (** What the constructors of the library guarantee: distinct non-negative ids, and an auxiliary
      variable [dummy] with an external value that no expression reads. *)
  Definition setting (dummy : nat) (st : store A) : Prop :=
    (forall x, (0 <= s_id st x)%Z) /\
    (forall x y, s_id st x = s_id st y -> x = y) /\
    (exists x, exprs dummy = EExt TInt x) /\
    (forall v, In v vars -> ~ In dummy (refs (exprs v))).

  (** Everything but the values of variables is the same. *)
  Definition same_world (st st' : store A) : Prop :=
    s_fixed st' = s_fixed st /\ s_id st' = s_id st /\ s_ext st' = s_ext st /\ s_fun st' = s_fun st.

  (** All ways to use an updater.  At first, every variable that cannot change by itself has its
      value.  [dummy] is the auxiliary variable of the map [m], which was made in the state [st0];
      [ro] tells which parameters are read only. *)
  Inductive history (st0 : store A) (m : dmap) (dummy : nat) (ro : nat -> bool) : updater -> store A -> cmem A -> Prop :=
  | H_new st c : (forall x, s_id st x = s_id st0 x) -> (forall x, s_fixed st x = s_fixed st0 x) ->
      (forall v, In v vars -> ~ changing [] v -> has_value st v) ->
      history st0 m dummy ro (new_updater m dummy) st c
  | H_independent u st c v : history st0 m dummy ro u st c -> In v vars ->
      history st0 m dummy ro (add_independent u v) st c
  | H_dependent u st c v : history st0 m dummy ro u st c -> In v vars \/ s_fixed st v = true ->
      history st0 m dummy ro (add_dependent st u v) st c
  | H_clear u st c : history st0 m dummy ro u st c -> history st0 m dummy ro (clear_dependent u) st c
  | H_world u st c st' c' : history st0 m dummy ro u st c -> world_change (u_ind u) st st' ->
      history st0 m dummy ro u st' c'
  | H_update fuel u st c u' st' c' : history st0 m dummy ro u st c ->
      update A exprs fuel ro u st c = Some (Some (u', Ok (st', c'))) -> history st0 m dummy ro u' st' c'
  | H_shared fuel u st c ind dep m' l : history st0 m dummy ro u st c ->
      (* another updater uses the same map *)
      NoDup ind -> NoDup dep -> In dummy ind -> incl ind (dummy :: vars) -> incl dep vars ->
      make_update_list fuel (u_map u) (map (s_id st) ind) (map (s_id st) dep) = Some (Some (m', l)) ->
      history st0 m dummy ro (mkUpd m' (u_list u) (u_ind u) (u_dep u) (u_valid u)) st c.
End Spec.

Arguments refs {A} e.
Arguments ext_refs {A} e.
Arguments uses_always {A} e.
Arguments edge {A} exprs vars u v.
Arguments depends {A} exprs vars u v.
Arguments acyclic {A} exprs vars.
Arguments changing {A} exprs vars ind v.
Arguments needed {A} exprs vars dep v.
Arguments has_value {A} exprs st v.
Arguments up_to_date {A} exprs vars st v.
Arguments world_change {A} exprs vars ind st st'.
Arguments good_list {A} exprs vars ind dep dummy l.
Arguments defined {A} st b.
Arguments setting {A} exprs vars dummy st.
Arguments same_world {A} st st'.
Arguments history {A} exprs vars st0 m dummy ro u st c.
