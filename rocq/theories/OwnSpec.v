(** What a program sees of the subdivisions it has: which exist and which are initialised. *)
From Coq Require Import List Arith Bool.
Import ListNotations.
From Verif Require Import OwnModel.

Section Spec.
  Variable rank : nat.

  (** Which objects exist, and which of them are initialised. *)
  Record world := mkW { w_live : list nat; w_ready : list nat }.
  Definition nobody : world := mkW [] [].
  Definition drop (x : nat) (l : list nat) : list nat := filter (fun y => negb (Nat.eqb y x)) l.

  (** The interface: only objects that exist are used, and only initialised ones exchange. *)
  Definition permitted (p : oop) (w : world) : Prop :=
    match p with
    | Construct x => ~ In x (w_live w)
    | CopyOf x y => ~ In x (w_live w) /\ In y (w_live w)
    | AssignFrom x y => In x (w_live w) /\ In y (w_live w)
    | Init x | Destruct x => In x (w_live w)
    | Exchange x dim => In x (w_ready w) /\ dim < rank
    end.
  (** Care: no copies of initialised objects are made. *)
  Definition cautious (p : oop) (w : world) : Prop :=
    match p with
    | CopyOf _ y => ~ In y (w_ready w)
    | AssignFrom x y => x = y \/ ~ In y (w_ready w)
    | _ => True
    end.
  (** Is something overwritten that was initialised? *)
  Definition overwrites (p : oop) (w : world) : bool :=
    match p with
    | AssignFrom x y => negb (Nat.eqb x y) && existsb (Nat.eqb x) (w_ready w)
    | Init x => existsb (Nat.eqb x) (w_ready w)
    | _ => false
    end.
  Definition becomes (p : oop) (w : world) : world :=
    match p with
    | Construct x => mkW (x :: w_live w) (w_ready w)
    | CopyOf x y => mkW (x :: w_live w) (if existsb (Nat.eqb y) (w_ready w) then x :: w_ready w else w_ready w)
    | AssignFrom x y => if Nat.eqb x y then w
                        else mkW (w_live w) (if existsb (Nat.eqb y) (w_ready w) then x :: drop x (w_ready w) else drop x (w_ready w))
    | Init x => mkW (w_live w) (x :: drop x (w_ready w))
    | Exchange _ _ => w
    | Destruct x => mkW (drop x (w_live w)) (drop x (w_ready w))
    end.
  Fixpoint cautious_run (ps : list oop) (w : world) : Prop :=
    match ps with
    | [] => True
    | p :: ps' => permitted p w /\ cautious p w /\ cautious_run ps' (becomes p w)
    end.
  Fixpoint permitted_run (ps : list oop) (w : world) : Prop :=
    match ps with
    | [] => True
    | p :: ps' => permitted p w /\ permitted_run ps' (becomes p w)
    end.
  Fixpoint end_world (ps : list oop) (w : world) : world :=
    match ps with [] => w | p :: ps' => end_world ps' (becomes p w) end.

  (** How often something initialised is overwritten. *)
  Fixpoint losses (ps : list oop) (w : world) : nat :=
    match ps with
    | [] => 0
    | p :: ps' => (if overwrites p w then 1 else 0) + losses ps' (becomes p w)
    end.

  (** What one initialised subdivision holds: a send and a receive buffer for each dimension and a communicator. *)
  Definition share : nat := 2 * rank + 1.
End Spec.
