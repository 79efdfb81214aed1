(** What assignments of grids leave behind: which grids a group tells when it is resized, and which
    grids have a wrong idea of the size of their buffer. *)
From Verif Require Import Vec GridSpec StorageModel GridModel ShareModel ShareSpec.

Section Spec.
  Context {V : Type}.
  Variable ord : order.
  Variable lazy : bool.

  (** [told g]: the grids that were constructed in, copied from or assigned from group [g], except
      those that were destroyed as members of it.  [misled]: the grids that kept the size of the buffer of another group. *)
  Record traces := mkT { told : nat -> list nat; misled : list nat }.
  Definition no_traces : traces := mkT (fun _ => []) [].

  Definition leaves (o : op V) (a : @ast V) (t : traces) : traces :=
    match o with
    | New h => mkT (upd (told t) (a_n a) [h]) (rem h (misled t))
    | Copy h src => mkT (upd (told t) (a_grp a src) (add h (told t (a_grp a src))))
                        (if mem src (misled t) then add h (misled t) else rem h (misled t))
    | Assign h src => mkT (upd (told t) (a_grp a src) (add h (told t (a_grp a src))))
                          (if Nat.eqb (a_grp a h) (a_grp a src) then misled t
                           else match a_arr a (a_grp a h) with Some _ => add h (misled t) | None => misled t end)
    | Destroy h => mkT (upd (told t) (a_grp a h) (rem h (told t (a_grp a h)))) (rem h (misled t))
    | Resize h _ _ => mkT (told t) (filter (fun y => negb (Nat.eqb (a_grp a y) (a_grp a h))) (misled t))
    | _ => t
    end.

  (** Resizing is in order if all that are told are members of the group, and, with lazy
      allocation, the grid that is resized knows the size of its buffer.  Nothing is asked of assignments. *)
  Definition in_order (o : op V) (a : @ast V) (t : traces) : Prop :=
    match o with
    | Resize h _ _ => (forall y, In y (told t (a_grp a h)) -> In y (a_live a) /\ a_grp a y = a_grp a h) /\
                      (lazy = true -> ~ In h (misled t))
    | _ => True
    end.

  Fixpoint orderly (os : list (op V)) (a : @ast V) (t : traces) : Prop :=
    match os with
    | [] => True
    | o :: os' => alegal ord o a /\ in_order o a t /\ orderly os' (astep o a) (leaves o a t)
    end.
  (** The state at the end of a program. *)
  Fixpoint end_of (os : list (op V)) (a : @ast V) (t : traces) : @ast V * traces :=
    match os with
    | [] => (a, t)
    | o :: os' => end_of os' (astep o a) (leaves o a t)
    end.

  (** *** Kokkos-backed grids *)

  (** Assignment registers nobody; everything else is as above (there is no buffer to be misled about). *)
  Definition k_leaves (o : op V) (a : @ast V) (t : nat -> list nat) : nat -> list nat :=
    match o with
    | New h => upd t (a_n a) [h]
    | Copy h src => upd t (a_grp a src) (add h (t (a_grp a src)))
    | Destroy h => upd t (a_grp a h) (rem h (t (a_grp a h)))
    | _ => t
    end.
  (** Resizing is in order if the grid is told, and nobody else is told or a member of the group. *)
  Definition k_in_order (o : op V) (a : @ast V) (t : nat -> list nat) : Prop :=
    match o with
    | Resize h _ _ => In h (t (a_grp a h)) /\ (forall y, In y (t (a_grp a h)) -> y = h) /\
                      (forall y, In y (a_live a) -> a_grp a y = a_grp a h -> y = h)
    | _ => True
    end.
  Fixpoint k_orderly (os : list (op V)) (a : @ast V) (t : nat -> list nat) : Prop :=
    match os with
    | [] => True
    | o :: os' => alegal ord o a /\ k_in_order o a t /\ k_orderly os' (astep o a) (k_leaves o a t)
    end.
  Fixpoint k_end_of (os : list (op V)) (a : @ast V) (t : nat -> list nat) : @ast V * (nat -> list nat) :=
    match os with
    | [] => (a, t)
    | o :: os' => k_end_of os' (astep o a) (k_leaves o a t)
    end.
End Spec.
