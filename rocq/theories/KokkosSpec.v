(** Specification for Kokkos-backed grids: that of [ShareSpec], and the programs for which it holds. *)
From Verif Require Import Vec GridSpec StorageModel GridModel ShareModel ShareSpec.

Section Spec.
  Context {V : Type}.

  (** Resizes act on grids without copies, and assignments are between copies of one grid. *)
  Definition k_careful (o : op V) (a : @ast V) : Prop :=
    match o with
    | Resize h _ _ => forall y, In y (a_live a) -> a_grp a y = a_grp a h -> y = h
    | Assign h src => a_grp a h = a_grp a src
    | _ => True
    end.

  (** No resizes; any assignments. *)
  Definition k_no_resize (o : op V) (a : @ast V) : Prop :=
    match o with Resize _ _ _ => False | _ => True end.

  (** The specified state after a program. *)
  Fixpoint arun (os : list (op V)) (a : @ast V) : @ast V :=
    match os with [] => a | o :: os' => arun os' (astep o a) end.
End Spec.
