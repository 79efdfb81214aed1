(** Examples for the theorems on dependencies: a deck with an independent variable, a constant,
    variables that depend on them, and a function that changes at any time. *)
From Coq Require Import ZArith List Bool Lia Relations String.
From Verif Require Import ExprModel DepModel DepSpec DepMapProofs DepProofs DepUpdateProofs.
Import ListNotations.
Local Open Scope Z_scope.

(** A toy arithmetic: the "floating point numbers" are integers. *)
Definition z_arith : arith :=
  mkArith Z Z.add Z.sub Z.mul Z.div Z.pow Z.opp (fun z => z) Some
    (fun _ => ""%string) (fun _ => ""%string) (fun _ => None) (fun _ => None).

Definition rnd : fsig := mkFsig 0 [TInt] TInt true.

(** [0]: read-only parameter; [1]: constant; [2 = 0 + 1]; [3 = 2 * 0]; [4 = rnd(2)];
    [5]: another read-only parameter; [6 = 5 + 1]; [9]: auxiliary variable. *)
Definition dx_exprs (v : nat) : expr z_arith :=
  match v with
  | 0 => EExt TInt 0
  | 2 => EBin OAdd TInt [(true, ERef TInt 0); (true, ERef TInt 1)]
  | 3 => EBin OMul TInt [(true, ERef TInt 2); (true, ERef TInt 0)]
  | 4 => EFun rnd [ERef TInt 2]
  | 5 => EExt TInt 1
  | 6 => EBin OAdd TInt [(true, ERef TInt 5); (true, ERef TInt 1)]
  | 9 => EExt TInt 9
  | _ => EValue (VInt 0)
  end%nat.

Definition dx_tree : bvars := BVars [2; 3]%nat [BVars [0; 1; 5]%nat []; BVars [4; 6]%nat []].

(** External memory [ext], values [val]; functions declared as changing add [seed]. *)
Definition dx_store (val ext : nat -> Z) (seed : Z) : store z_arith :=
  mkStore z_arith (fun v => VInt (val v)) (fun v => Nat.eqb v 1) Z.of_nat (fun v => VInt (ext v))
    (fun f args => match args with [VInt x] => Ok (VInt (x + if fs_always f then seed else 0)) | _ => BadGet end).

Definition vals (l : list Z) (n : nat) : Z := nth n l 0.
Definition dx0 : store z_arith := dx_store (vals [2; 100; 102; 204; 103; 3; 103]) (vals [2; 3]) 1.
Definition dx_map : dmap := match dep_map z_arith dx_exprs dx0 9%nat dx_tree with Some m => m | None => [] end.

Example dx_map_ok : dep_map z_arith dx_exprs dx0 9%nat dx_tree = Some dx_map.
Proof. vm_compute. reflexivity. Qed.
Example dx_defined : defined dx0 dx_tree = [2; 3; 0; 5; 4; 6]%nat.
Proof. reflexivity. Qed.

Example dx_setting : setting dx_exprs (defined dx0 dx_tree) 9%nat dx0.
Proof.
  split; [intros x; simpl; lia|]. split; [intros x y H; simpl in H; lia|]. split; [exists 9%nat; reflexivity|].
  rewrite dx_defined. intros v Hv. simpl in Hv. repeat destruct Hv as [<-|Hv]; simpl; intuition lia.
Qed.

(** Decks in which every variable reads only earlier ones have no cycles. *)
Lemma ranked_acyclic (A : arith) (exprs : nat -> expr A) V (rank : nat -> nat) :
  (forall v, In v V -> Forall (fun u => (rank u < rank v)%nat) (refs (exprs v))) -> acyclic exprs V.
Proof.
  intros H v Hc. assert (G : forall u w, clos_trans nat (edge exprs V) u w -> (rank u < rank w)%nat).
  { intros u w T. induction T as [u w (_ & Hw & Hr)|u x w _ I1 _ I2]; [|lia]. pose proof (H w Hw) as F. rewrite Forall_forall in F. apply F, Hr. }
  apply G in Hc. lia.
Qed.
Example dx_acyclic : acyclic dx_exprs (defined dx0 dx_tree).
Proof.
  apply (ranked_acyclic _ _ _ (fun v => v)). rewrite dx_defined. intros v Hv. simpl in Hv.
  repeat destruct Hv as [<-|Hv]; try contradiction; simpl; repeat constructor; lia.
Qed.

(** The hypotheses of the theorem on update lists, and the list computed: the constant [1] and the
    unrelated variables are not in it. *)
Example dx_update_list :
  let ind := [9; 0]%nat in let dep := [4; 3; 6]%nat in
  NoDup ind /\ NoDup dep /\ In 9%nat ind /\ incl ind (9%nat :: defined dx0 dx_tree) /\ incl dep (defined dx0 dx_tree) /\
  option_map (option_map snd) (make_update_list 50 dx_map (map (s_id dx0) ind) (map (s_id dx0) dep)) =
  Some (Some [Some 0; Some 2; Some 3; Some 9; Some 4]%nat).
Proof.
  cbn zeta. rewrite dx_defined. split; [repeat constructor; simpl; intuition discriminate|].
  split; [repeat constructor; simpl; intuition discriminate|]. split; [simpl; auto|].
  split; [intros x; simpl; intuition|]. split; [intros x; simpl; intuition|]. vm_compute. reflexivity.
Qed.

(** A history: one independent variable, two dependents; the external memory changes. *)
Definition dx1 : store z_arith := dx_store (vals [2; 100; 102; 204; 103; 3; 103]) (vals [7; 3]) 5.
Definition dx_ro (v : nat) : bool := false.
Definition dx_c : cmem z_arith := fun _ => VInt 0.
Definition dx_u : updater := add_dependent dx0 (add_dependent dx0 (add_independent (new_updater dx_map 9%nat) 0%nat) 3%nat) 4%nat.

Example dx_history : history dx_exprs (defined dx0 dx_tree) dx0 dx_map 9%nat dx_ro dx_u dx1 dx_c.
Proof.
  apply H_world with (st := dx0) (c := dx_c).
  - apply H_dependent; [apply H_dependent; [apply H_independent; [apply H_new|]|]|].
    + reflexivity.
    + reflexivity.
    + intros v Hv _. rewrite dx_defined in Hv. simpl in Hv. repeat destruct Hv as [<-|Hv]; try contradiction; reflexivity.
    + rewrite dx_defined. simpl. auto.
    + left. rewrite dx_defined. simpl. auto.
    + left. rewrite dx_defined. simpl. auto 10.
  - split; [reflexivity|]. split; [reflexivity|]. split; [reflexivity|]. split.
    + intros f Hf. unfold dx1, dx0, dx_store. cbn [s_fun]. rewrite Hf. reflexivity.
    + intros v x Hv Hn Hx. rewrite dx_defined in Hv. simpl in Hv, Hn.
      repeat destruct Hv as [<-|Hv]; try contradiction; simpl in Hx; try tauto.
      destruct Hx as [<-|[]]. reflexivity.
Qed.


(** The update: [0 = 7], [2 = 107], [3 = 749], [4 = 112]; [6] is not touched. *)
Example dx_update :
  match update z_arith dx_exprs 50 dx_ro dx_u dx1 dx_c with
  | Some (Some (_, Ok (st', c'))) => (map (s_val st') [0; 1; 2; 3; 4; 5; 6]%nat, map c' [2; 3; 4]%nat)
  | _ => ([], [])
  end = ([VInt 7; VInt 100; VInt 107; VInt 749; VInt 112; VInt 3; VInt 103], [VInt 0; VInt 749; VInt 112]).
Proof. vm_compute. reflexivity. Qed.

(** [updateAll()] on the new map. *)
Definition dx2 : store z_arith := dx_store (vals [0; 100; 0; 0; 0; 0; 0]) (vals [7; 3]) 5.
Example dx_update_all :
  match update_all z_arith dx_exprs dx_map dx2 with
  | Some (_, Ok st') => map (s_val st') [0; 1; 2; 3; 4; 5; 6]%nat
  | _ => []
  end = [VInt 7; VInt 100; VInt 107; VInt 749; VInt 112; VInt 3; VInt 103].
Proof. vm_compute. reflexivity. Qed.

(** After an update the map contains an entry without a variable for the constant [1], which
    [updateAll()] cannot handle. *)
Definition dx_map' : dmap :=
  match update z_arith dx_exprs 50 dx_ro dx_u dx1 dx_c with Some (Some (u', _)) => u_map u' | _ => [] end.
Example dx_update_all_after :
  update_all z_arith dx_exprs dx_map' dx1 = None.
Proof. vm_compute. reflexivity. Qed.
Example dx_update_returns :
  exists u' st' c', update z_arith dx_exprs 50 dx_ro dx_u dx1 dx_c = Some (Some (u', Ok (st', c'))) /\ u_map u' = dx_map'.
Proof. eexists _, _, _. split; vm_compute; reflexivity. Qed.

(** A constant as independent variable. *)
Definition dx_u1 : updater := add_dependent dx0 (add_independent (new_updater dx_map 9%nat) 1%nat) 2%nat.
Example dx_constant_independent :
  option_map (option_map snd) (update z_arith dx_exprs 50 dx_ro dx_u1 dx0 dx_c) = Some (Some Undefined).
Proof. vm_compute. reflexivity. Qed.

(** [recreate()] with unchanged variables. *)
Example dx_recreate : recreate z_arith dx_exprs dx0 9%nat dx_tree dx_map = None.
Proof. vm_compute. reflexivity. Qed.

(** Every variable that is not constant can be chosen. *)
Lemma choose_history (A : arith) (exprs : nat -> expr A) vars st0 m dummy ro st c ind dep :
  (forall x, s_id st x = s_id st0 x) -> (forall x, s_fixed st x = s_fixed st0 x) ->
  (forall v, In v vars -> ~ changing exprs vars [] v -> has_value exprs st v) ->
  incl ind vars -> (forall v, In v dep -> In v vars \/ s_fixed st v = true) ->
  history exprs vars st0 m dummy ro (fold_left (add_dependent st) dep (fold_left add_independent ind (new_updater m dummy))) st c.
Proof.
  intros H1 H2 H3 Hi Hd.
  assert (K : history exprs vars st0 m dummy ro (fold_left add_independent ind (new_updater m dummy)) st c).
  { assert (K0 : history exprs vars st0 m dummy ro (new_updater m dummy) st c) by (constructor; assumption).
    revert K0. generalize (new_updater m dummy). induction ind as [|v ind IH]; intros u K0; [exact K0|]. cbn [fold_left].
    apply IH; [intros x Hx; apply Hi; now right|]. apply H_independent; [exact K0|apply Hi; now left]. }
  revert K. generalize (fold_left add_independent ind (new_updater m dummy)).
  induction dep as [|v dep IH]; intros u K; [exact K|]. cbn [fold_left].
  apply IH; [intros x Hx; apply Hd; now right|]. apply H_dependent; [exact K|apply Hd; now left].
Qed.
Lemma chosen_dep (A : arith) (st : store A) v : forall dep u, In v dep -> s_fixed st v = false -> In v (u_dep (fold_left (add_dependent st) dep u)).
Proof.
  assert (Keep : forall dep u, In v (u_dep u) -> In v (u_dep (fold_left (add_dependent st) dep u))).
  { induction dep as [|x dep IH]; intros u K; [exact K|]. cbn [fold_left]. apply IH. unfold add_dependent. destruct (s_fixed st x); [exact K|].
    cbn. unfold ninsert. destruct (existsb _ _); [exact K|]. apply in_or_app. now left. }
  induction dep as [|x dep IH]; intros u I F; [destruct I|]. destruct I as [->|I]; cbn [fold_left].
  - apply Keep. unfold add_dependent. rewrite F. cbn. unfold ninsert. destruct (existsb (Nat.eqb v) (u_dep u)) eqn:E.
    + apply existsb_exists in E. destruct E as (y & Iy & Ey). apply Nat.eqb_eq in Ey. now subst.
    + apply in_or_app. right. now left.
  - apply IH; assumption.
Qed.
Lemma choose_any : forall (A : arith) (exprs : nat -> expr A) st0 dummy b m ro st c ind dep,
  dep_map A exprs st0 dummy b = Some m ->
  setting exprs (defined st0 b) dummy st0 -> acyclic exprs (defined st0 b) ->
  (forall x, s_id st x = s_id st0 x) -> (forall x, s_fixed st x = s_fixed st0 x) ->
  (forall v, In v (defined st0 b) -> ~ changing exprs (defined st0 b) [] v -> has_value exprs st v) ->
  incl ind (defined st0 b) -> (forall v, In v dep -> In v (defined st0 b) \/ s_fixed st v = true) ->
  exists N, forall fuel, (N <= fuel)%nat ->
  exists u' r, update A exprs fuel ro (fold_left (add_dependent st) dep (fold_left add_independent ind (new_updater m dummy))) st c = Some (Some (u', r)) /\
    match r with
    | Ok (st', c') => forall d, In d dep -> s_fixed st d = false ->
                        up_to_date exprs (defined st0 b) st' d /\ (ro d = false -> c' d = s_val st' d)
    | _ => exists v st1, In v (dummy :: defined st0 b) /\ same_world st st1 /\ forall x, eval st1 (exprs v) <> Ok x
    end.
Proof.
  intros A exprs st0 dummy b m ro st c ind dep Hm Hs Ha H1 H2 H3 Hi Hd.
  pose proof (choose_history A exprs (defined st0 b) st0 m dummy ro st c ind dep H1 H2 H3 Hi Hd) as K.
  destruct (update_final A exprs st0 dummy b m ro _ st c Hm Hs Ha K) as (N & HN). exists N. intros fuel L.
  destruct (HN fuel L) as (u' & r & E & C). exists u', r. split; [exact E|]. destruct r as [[st' c']| | |]; try exact C.
  intros d I F. apply C. apply chosen_dep; assumption.
Qed.
