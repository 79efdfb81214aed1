(** What fields show that share their data: the whole range belongs to the group of fields that share, the ghost width
    to each field. *)
From Verif Require Import Vec GridSpec StorageModel GridModel ShareModel ShareSpec AssignSpec FieldModel FieldSpec.

Section Spec.
  Context {V : Type}.
  Variable ord : order.
  Variable lazy : bool.

  (** The grid operations that a field operation stands for: a field is a grid over the grown range of its request. *)
  Definition sets (h : nat) (r : request) : op V := Resize h (fst (grown r)) (snd (grown r)).
  Definition grid_ops (o : fop) : list (op V) :=
    match o with
    | FDefault h => [New h]
    | FNewSize h size g => [New h; sets h (size_request size g)]
    | FNewRange h lo hi g => [New h; sets h (lo, hi, g)]
    | FCopy h src => [Copy h src]
    | FAssign h src => [Assign h src]
    | FDestroy h => [Destroy h]
    | FResizeSize h size g => [sets h (size_request size g)]
    | FResizeRange h lo hi g => [sets h (lo, hi, g)]
    | FLayout h => [Bounds h]
    end.

  (** The request last made of each group, through whichever of its fields. *)
  Definition group_after (o : fop) (a : @ast V) (last : nat -> option request) : nat -> option request :=
    match o with
    | FDefault _ => upd last (a_n a) None
    | FNewSize _ size g => upd last (a_n a) (Some (size_request size g))
    | FNewRange _ lo hi g => upd last (a_n a) (Some (lo, hi, g))
    | FResizeSize h size g => upd last (a_grp a h) (Some (size_request size g))
    | FResizeRange h lo hi g => upd last (a_grp a h) (Some (lo, hi, g))
    | FCopy _ _ | FAssign _ _ | FDestroy _ | FLayout _ => last
    end.

  (** The state: groups and who is told ([AssignSpec]), the last request of each group, and the last request of each
      field itself, inherited by copies and assignments ([request_after]). *)
  Record fsp := mkFS { fs_a : @ast V; fs_t : traces; fs_last : nat -> option request; fs_own : nat -> option request }.
  Definition fs_init : fsp := mkFS ainit no_traces (fun _ => None) (fun _ => None).
  Definition fs_after (o : fop) (p : fsp) : fsp :=
    let (a', t') := end_of (grid_ops o) (fs_a p) (fs_t p) in
    mkFS a' t' (group_after o (fs_a p) (fs_last p)) (request_after o (fs_own p)).

  (** What the client must respect: that of the grids, with any assignments ([orderly]), and the layout is only asked of
      a field that has a ghost width. *)
  Definition fs_legal (o : fop) (p : fsp) : Prop :=
    orderly ord lazy (grid_ops o) (fs_a p) (fs_t p) /\
    match o with FLayout h => fs_own p h <> None | _ => True end.

  (** The whole range is the grown range of the last request of the group; the inner range is what remains of it when the
      field takes away the ghost cells of its own request. *)
  Definition shrunk (r : vec * vec) (g : Z) : vec * vec := (map (fun l => l + g) (fst r), map (fun h => h - g) (snd r)).
  Definition fs_shows (h : nat) (p : fsp) : option (vec * vec * (vec * vec)) :=
    match fs_last p (a_grp (fs_a p) h), fs_own p h with
    | Some r, Some (_, _, g) => Some (grown r, shrunk (grown r) g)
    | _, _ => None
    end.
  Definition fs_obs (o : fop) (p : fsp) : list (vec * vec * vec * vec) :=
    match o with
    | FLayout h => match fs_shows h p with Some (w, i) => [(fst w, snd w, fst i, snd i)] | None => [] end
    | _ => []
    end.

  Fixpoint fs_legal_run (os : list fop) (p : fsp) : Prop :=
    match os with [] => True | o :: os' => fs_legal o p /\ fs_legal_run os' (fs_after o p) end.
  Fixpoint fs_obs_run (os : list fop) (p : fsp) : list (vec * vec * vec * vec) :=
    match os with [] => [] | o :: os' => fs_obs o p ++ fs_obs_run os' (fs_after o p) end.
  Definition fs_end (os : list fop) : fsp := fold_left (fun p o => fs_after o p) os fs_init.
End Spec.
