(** Specification of views: a view is a window, with bounds, on a grid object; what is seen through it
    is what [ShareSpec] says of that grid. *)
From Verif Require Import Vec GridSpec StorageModel GridModel ShareModel ShareSpec SubviewModel.

Section Spec.
  Context {V : Type}.
  Variable rank : nat.
  Variable ord : order.
  Variable lazy : bool.
  (** Does the view assert that its corners lie in the base grid when it is made? *)
  Variable checked : Prop.

  (** The grid a view looks at, if any, and its bounds. *)
  Definition window : Type := (option nat * vec * vec)%type.
  Record world := mkWorld { in_grids : @ast V; in_views : nat -> option window }.
  Definition nothing : world := mkWorld ainit (fun _ => None).

  (** The bounds of a grid. *)
  Definition bounds_of (a : @ast V) (h : nat) : vec * vec :=
    match a_arr a (a_grp a h) with
    | Some (lo, hi, _) => (lo, hi)
    | None => (repeat 0 rank, repeat 0 rank)
    end.
  Definition exists_view (s : world) (w : nat) : Prop := exists v, in_views s w = Some v.
  (** View [w] looks at grid [h], and index [p] lies in its bounds. *)
  Definition looks_at (s : world) (w : nat) (p : vec) (h : nat) : Prop :=
    exists lo hi, in_views s w = Some (Some h, lo, hi) /\ in_box lo hi p.

  (** What the client must respect: a view is only used while its base grid lives, and for indices that
      lie in the bounds of both. *)
  Definition legal (o : vop2 V) (s : world) : Prop :=
    match o with
    | OnGrid o => alegal ord o (in_grids s) /\ assign_safe lazy o (in_grids s)
    | NewView w => in_views s w = None
    | MakeView w lo hi h => in_views s w = None /\ In h (a_live (in_grids s)) /\
        (checked -> in_box (fst (bounds_of (in_grids s) h)) (snd (bounds_of (in_grids s) h)) lo /\
                    in_box (fst (bounds_of (in_grids s) h)) (snd (bounds_of (in_grids s) h)) hi)
    | CopyView w src => in_views s w = None /\ exists_view s src
    | AssignView w src => exists_view s w /\ exists_view s src
    | DestroyView w | ResizeView w _ _ | BoundsView w => exists_view s w
    | ReadView w p => exists h, looks_at s w p h /\ alegal ord (@Read V h p) (in_grids s)
    | WriteView w p x => exists h, looks_at s w p h /\ alegal ord (Write h p x) (in_grids s)
    end.

  (** Effect: a copied or assigned view looks at the same grid; writing through a view writes to the
      grid; operations on grids leave the views as they are. *)
  Definition with_view (s : world) (w : nat) (v : option window) : world :=
    mkWorld (in_grids s) (fun x => if Nat.eqb x w then v else in_views s x).
  Definition effect (o : vop2 V) (s : world) : world :=
    match o with
    | OnGrid o => mkWorld (astep o (in_grids s)) (in_views s)
    | NewView w => with_view s w (Some (None, repeat 0 rank, repeat 0 rank))
    | MakeView w lo hi h => with_view s w (Some (Some h, lo, hi))
    | CopyView w src | AssignView w src => with_view s w (in_views s src)
    | DestroyView w => with_view s w None
    | ResizeView w lo hi => with_view s w (option_map (fun v => (fst (fst v), lo, hi)) (in_views s w))
    | WriteView w p x =>
        match in_views s w with
        | Some (Some h, _, _) => mkWorld (astep (Write h p x) (in_grids s)) (in_views s)
        | _ => s
        end
    | ReadView _ _ | BoundsView _ => s
    end.

  (** Is this a correct observation? *)
  Definition observed (o : vop2 V) (s : world) (obs : list (out V)) : Prop :=
    match o with
    | OnGrid o => aobs rank o (in_grids s) obs
    | ReadView w p => exists h, looks_at s w p h /\ aobs rank (@Read V h p) (in_grids s) obs
    | BoundsView w => exists h lo hi, in_views s w = Some (h, lo, hi) /\ obs = [OBounds lo hi]
    | _ => obs = []
    end.

  Fixpoint legal_run (os : list (vop2 V)) (s : world) : Prop :=
    match os with
    | [] => True
    | o :: os' => legal o s /\ legal_run os' (effect o s)
    end.
  Fixpoint observed_run (os : list (vop2 V)) (s : world) (obs : list (out V)) : Prop :=
    match os with
    | [] => obs = []
    | o :: os' => exists o1 o2, obs = o1 ++ o2 /\ observed o s o1 /\ observed_run os' (effect o s) o2
    end.
  Definition effects (os : list (vop2 V)) (s : world) : world := fold_left (fun s o => effect o s) os s.
End Spec.
