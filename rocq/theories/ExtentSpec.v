(** Specification of the ways to give a grid its extent: each of them asks for a lower and an upper
    bound, and does what resizing to these bounds does.  [ShareSpec] says what that is. *)
From Verif Require Import Vec GridSpec StorageModel GridModel ShareModel ShareSpec ExtentModel.

Section Spec.
  Context {V : Type}.
  Variable rank : nat.
  Notation ast := (@ast V).

  (** The bounds of a grid. *)
  Definition lower (a : ast) (y : nat) : vec :=
    match a_arr a (a_grp a y) with Some (lo, _, _) => lo | None => repeat 0 rank end.
  Definition upper (a : ast) (y : nat) : vec :=
    match a_arr a (a_grp a y) with Some (_, hi, _) => hi | None => repeat 0 rank end.
  Definition value (a : ast) (r : ref) : vec :=
    match r with Given v => v | LoOf y => lower a y | HiOf y => upper a y end.

  (** The bounds asked for: a size [d] means [0..d-1]. *)
  Definition asked (a : ast) (e : extent) : vec * vec :=
    match e with
    | Size d => (repeat 0 rank, map (fun n => n - 1) (value a d))
    | Between lo hi => (value a lo, value a hi)
    | OfRange lo hi => (lo, hi)
    | RangeOf y | Like y => (lower a y, upper a y)
    end.

  (** The grids an argument refers to exist. *)
  Definition exists_ref (a : ast) (r : ref) : Prop :=
    match r with Given _ => True | LoOf y | HiOf y => In y (a_live a) end.
  Definition exists_extent (a : ast) (e : extent) : Prop :=
    match e with
    | Size d => exists_ref a d
    | Between lo hi => exists_ref a lo /\ exists_ref a hi
    | OfRange _ _ => True
    | RangeOf y | Like y => In y (a_live a)
    end.

  (** A grid is resized with its own upper bound as the lower, or with its own lower bound as the
      upper one. *)
  Definition swaps (h : nat) (e : extent) : Prop :=
    match e with Between lo hi => lo = HiOf h \/ hi = LoOf h | _ => False end.

  (** The bounds a swap gets: what is passed for the other bound takes the place of the own one. *)
  Definition got (a : ast) (h : nat) (e : extent) : vec * vec :=
    match e with
    | Between lo hi =>
        (match lo with HiOf y => if Nat.eqb y h then value a hi else value a lo | _ => value a lo end,
         match hi with LoOf y => if Nat.eqb y h then value a lo else value a hi | _ => value a hi end)
    | _ => asked a e
    end.

  (** A program in terms of [ShareSpec], given the bounds [b] that [ResizeBy] asks for. *)
  Section Program.
    Variable b : ast -> nat -> extent -> vec * vec.
    Definition meaning (a : ast) (o : xop V) : list (op V) :=
      match o with
      | Plain o => [o]
      | Make h e => [New h; Resize h (fst (asked a e)) (snd (asked a e))]
      | ResizeBy h e => [Resize h (fst (b a h e)) (snd (b a h e))]
      end.
    Definition after (l : list (op V)) (a : ast) : ast := fold_left (fun a o => astep o a) l a.
    Fixpoint program (os : list (xop V)) (a : ast) : list (op V) :=
      match os with
      | [] => []
      | o :: os' => meaning a o ++ program os' (after (meaning a o) a)
      end.
    (** All steps of a program satisfy [P]. *)
    Fixpoint all_steps (P : ast -> xop V -> Prop) (os : list (xop V)) (a : ast) : Prop :=
      match os with
      | [] => True
      | o :: os' => P a o /\ all_steps P os' (after (meaning a o) a)
      end.
  End Program.

  Definition refers (a : ast) (o : xop V) : Prop :=
    match o with Plain _ => True | Make _ e | ResizeBy _ e => exists_extent a e end.
  Definition no_swap (a : ast) (o : xop V) : Prop :=
    refers a o /\ match o with ResizeBy h e => ~ swaps h e | _ => True end.
  (** Each resize asks for what the extent says. *)
  Definition by_value (a : ast) (_ : nat) (e : extent) : vec * vec := asked a e.
End Spec.

(** The bounds asked for in a state of the program, and whether the grids referred to exist there. *)
Section Now.
  Context {V A : Type}.
  Variable rank : nat.
  Definition now (s : @st V A) (e : extent) : vec * vec :=
    match e with
    | Size d => (repeat 0 rank, map (fun n => n - 1) (deref s d))
    | Between lo hi => (deref s lo, deref s hi)
    | OfRange lo hi => (lo, hi)
    | RangeOf y | Like y => (h_lo (s_h s y), h_hi (s_h s y))
    end.
  Definition live_extent (s : @st V A) (e : extent) : Prop :=
    match e with
    | Size d => live_ref s d = true
    | Between lo hi => live_ref s lo = true /\ live_ref s hi = true
    | OfRange _ _ => True
    | RangeOf y | Like y => mem y (s_live s) = true
    end.
End Now.
