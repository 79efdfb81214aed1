(** Specification of grids with shared data: every live grid belongs to a group (the grids that
    share its data); a group has no shape yet, or a shape and a value for each index. *)
From Verif Require Import Vec GridSpec StorageModel GridModel ShareModel.

Section Spec.
  Context {V : Type}.
  Variable rank : nat.
  Variable ord : order.

  (** [a_arr g] is [None] before the first resize; a cell without a value ([None]) is
      indeterminate: it has not been written since the last resize. *)
  Record ast := mkA { a_live : list nat; a_grp : nat -> nat;
                      a_arr : nat -> option (vec * vec * (vec -> option V)); a_n : nat }.

  Definition ainit : ast := mkA [] (fun _ => O) (fun _ => None) 0.

  Fixpoint vec_eq (a b : vec) : bool :=
    match a, b with
    | [], [] => true
    | x :: a', y :: b' => (x =? y) && vec_eq a' b'
    | _, _ => false
    end.

  (** A shape that can be allocated and addressed. *)
  Definition shape_ok (lo hi : vec) : Prop :=
    lo <> [] /\ box_ok lo hi /\ box_size lo hi < 2 ^ 64 /\
    (ord = COrder -> c_fast lo (dims_of lo hi) <> None).

  (** What the client must respect. *)
  Definition alegal (o : op V) (a : ast) : Prop :=
    match o with
    | New h => ~ In h (a_live a)
    | Copy h src => ~ In h (a_live a) /\ In src (a_live a)
    | Assign h src => In h (a_live a) /\ In src (a_live a)
    | Destroy h | Bounds h => In h (a_live a)
    | Resize h lo hi => In h (a_live a) /\ shape_ok lo hi
    | Read h idx | Write h idx _ =>
        In h (a_live a) /\ exists lo hi m, a_arr a (a_grp a h) = Some (lo, hi, m) /\ in_box lo hi idx
    end.

  (** Effect: new grids get a new group; copies and assigned grids belong to the group of the
      source; resizing and writing acts on the group. *)
  Definition astep (o : op V) (a : ast) : ast :=
    match o with
    | New h => mkA (h :: a_live a) (upd (a_grp a) h (a_n a)) (upd (a_arr a) (a_n a) None) (S (a_n a))
    | Copy h src => mkA (h :: a_live a) (upd (a_grp a) h (a_grp a src)) (a_arr a) (a_n a)
    | Assign h src => mkA (a_live a) (upd (a_grp a) h (a_grp a src)) (a_arr a) (a_n a)
    | Destroy h => mkA (rem h (a_live a)) (a_grp a) (a_arr a) (a_n a)
    | Resize h lo hi =>
        mkA (a_live a) (a_grp a) (upd (a_arr a) (a_grp a h) (Some (lo, hi, fun _ => None))) (a_n a)
    | Write h idx v =>
        match a_arr a (a_grp a h) with
        | Some (lo, hi, m) =>
            mkA (a_live a) (a_grp a)
                (upd (a_arr a) (a_grp a h)
                     (Some (lo, hi, fun q => if vec_eq q idx then Some v else m q))) (a_n a)
        | None => a
        end
    | Read _ _ | Bounds _ => a
    end.

  (** Is [o] a correct observation of [op] in state [a]?  Before the first resize the bounds are
      [0..0]; indeterminate cells may read as anything. *)
  Definition aobs (o : op V) (a : ast) (obs : list (out V)) : Prop :=
    match o with
    | Read h idx => exists v, obs = [OVal v] /\
        match a_arr a (a_grp a h) with
        | Some (_, _, m) => match m idx with Some w => v = w | None => True end
        | None => False
        end
    | Bounds h => obs = [match a_arr a (a_grp a h) with
                         | Some (lo, hi, _) => OBounds lo hi
                         | None => OBounds (repeat 0 rank) (repeat 0 rank)
                         end]
    | _ => obs = []
    end.

  (** Assignment with no danger: the target already shares the data of the source, or it is the
      only grid of its group (and, with lazy allocation, has never had a size). *)
  Definition assign_safe (lazy : bool) (o : op V) (a : ast) : Prop :=
    match o with
    | Assign h src =>
        a_grp a h = a_grp a src \/
        ((forall y, In y (a_live a) -> a_grp a y = a_grp a h -> y = h) /\
         (lazy = true -> a_arr a (a_grp a h) = None))
    | _ => True
    end.

  (** A whole program: all steps are legal (and satisfy [P]) and the concatenated observations are
      correct. *)
  Fixpoint alegal_run (P : op V -> ast -> Prop) (os : list (op V)) (a : ast) : Prop :=
    match os with
    | [] => True
    | o :: os' => alegal o a /\ P o a /\ alegal_run P os' (astep o a)
    end.

  Fixpoint aobs_run (os : list (op V)) (a : ast) (obs : list (out V)) : Prop :=
    match os with
    | [] => obs = []
    | o :: os' => exists o1 o2, obs = o1 ++ o2 /\ aobs o a o1 /\ aobs_run os' (astep o a) o2
    end.
End Spec.
