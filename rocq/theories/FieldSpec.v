(** Specification of field layouts: every field has the inner range and ghost width last asked for,
    by its constructor or by [resize]; copies and assigned fields inherit them. *)
From Verif Require Import Vec GridSpec StorageModel GridModel ShareModel ShareSpec FieldModel.

Section FieldSpec.
  Context {V : Type}.
  Variable ord : order.

  (** inner low, inner high, ghost width *)
  Definition request := (vec * vec * Z)%type.

  Definition size_request (size : vec) (g : Z) : request := (map (fun _ => 0) size, map (fun s => s - 1) size, g).

  Definition request_after (o : fop) (rq : nat -> option request) : nat -> option request :=
    match o with
    | FDefault h => upd rq h None
    | FNewSize h size g | FResizeSize h size g => upd rq h (Some (size_request size g))
    | FNewRange h lo hi g | FResizeRange h lo hi g => upd rq h (Some (lo, hi, g))
    | FCopy h src | FAssign h src => upd rq h (rq src)
    | FDestroy _ | FLayout _ => rq
    end.

  (** The whole range of a request: the inner range extended by the ghost cells. *)
  Definition grown (r : request) : vec * vec :=
    let '(lo, hi, g) := r in (map (fun l => l - g) lo, map (fun h => h + g) hi).

  Definition request_ok (r : request) : Prop :=
    let '(lo, hi, g) := r in
    length lo = length hi /\ box_ok lo hi /\ 0 <= g /\ shape_ok ord (fst (grown r)) (snd (grown r)).

  (** What the client must respect; [a] is the abstract sharing state. *)
  Definition flegal (o : fop) (a : @ast V) (rq : nat -> option request) : Prop :=
    match o with
    | FDefault h => ~ In h (a_live a)
    | FNewSize h size g => ~ In h (a_live a) /\ request_ok (size_request size g)
    | FNewRange h lo hi g => ~ In h (a_live a) /\ request_ok (lo, hi, g)
    | FCopy h src => ~ In h (a_live a) /\ In src (a_live a)
    | FAssign h src => In h (a_live a) /\ In src (a_live a)
    | FDestroy h => In h (a_live a)
    | FResizeSize h size g => In h (a_live a) /\ request_ok (size_request size g)
    | FResizeRange h lo hi g => In h (a_live a) /\ request_ok (lo, hi, g)
    | FLayout h => In h (a_live a) /\ rq h <> None
    end.

  (** Field [h] shares its data with no other live field. *)
  Definition alone (h : nat) (a : @ast V) : Prop :=
    forall y, In y (a_live a) -> a_grp a y = a_grp a h -> y = h.

  Definition resize_alone (lazy : bool) (o : fop) (a : @ast V) : Prop :=
    match o with
    | FResizeSize h _ _ | FResizeRange h _ _ _ => alone h a
    | FAssign h src => assign_safe lazy (@Assign V h src) a
    | _ => True
    end.

  Definition fobs (o : fop) (rq : nat -> option request) : list (vec * vec * vec * vec) :=
    match o with
    | FLayout h => match rq h with
                   | Some (lo, hi, g) => [(fst (grown (lo, hi, g)), snd (grown (lo, hi, g)), lo, hi)]
                   | None => []
                   end
    | _ => []
    end.

  Definition asteps (os : list (op V)) (a : @ast V) : @ast V := fold_left (fun a o => astep o a) os a.

  Fixpoint flegal_run (P : fop -> @ast V -> Prop) (os : list fop) (a : @ast V) (rq : nat -> option request) : Prop :=
    match os with
    | [] => True
    | o :: os' => flegal o a rq /\ P o a /\ flegal_run P os' (asteps (share_ops o) a) (request_after o rq)
    end.

  Fixpoint fobs_run (os : list fop) (rq : nat -> option request) : list (vec * vec * vec * vec) :=
    match os with
    | [] => []
    | o :: os' => fobs o rq ++ fobs_run os' (request_after o rq)
    end.
End FieldSpec.
