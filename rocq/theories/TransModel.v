(** Model of transformed views of grids — [GridTransformStorage], src/grid/gridtransform.hpp:36-126 and gridtransform.t:30-38.
    One type of views: all views of the program have the same types of base grid and transformation, so that they share the
    static variable of [get] (gridtransform.hpp:83).  Transformations are functions from the values of the base grid to those of
    the view; different views may have different ones (function objects with members).  Base grids are seen as in [GridSpec]:
    bounds and a value for each index.  Not modelled: the iterators (gridtransform.hpp:52-77,106-110); [GridTransform] itself
    (gridtransform.hpp:128-180), which cannot be instantiated. *)
From Coq Require Import ZArith List Bool.
Import ListNotations.

Section Trans.
  Context {B T : Type}.

  Record base := mkBase { b_lo : list Z; b_hi : list Z; b_at : list Z -> B }.
  (** [baseGrid] and [transformation] — gridtransform.hpp:47-48. *)
  Record view := mkView { v_base : option nat; v_trans : B -> T }.
  (** [g_result]: the static variable [result] of [get]. *)
  Record world := mkWorld { g_bases : nat -> base; g_views : nat -> view; g_result : T }.

  Definition upd {X} (f : nat -> X) (n : nat) (x : X) : nat -> X := fun m => if Nat.eqb m n then x else f m.
  Definition upd_at (f : list Z -> B) (i : list Z) (x : B) : list Z -> B := fun j => if list_eq_dec Z.eq_dec j i then x else f j.
  Fixpoint inside (lo hi i : list Z) : bool :=
    match lo, hi, i with
    | [], [], [] => true
    | l :: lo', h :: hi', x :: i' => Z.leb l x && Z.leb x h && inside lo' hi' i'
    | _, _, _ => false
    end.

  (** [baseGrid->get(index)]; [None]: the pointer is null, or the index is outside the grid. *)
  Definition base_get (w : world) (v : nat) (i : list Z) : option B :=
    match v_base (g_views w v) with
    | None => None
    | Some b => let g := g_bases w b in if inside (b_lo g) (b_hi g) i then Some (b_at g i) else None
    end.

  (** What a program does.  References are not numbered: they all refer to the static variable. *)
  Inductive op :=
  | Make (v : nat) (f : B -> T)                      (* default constructor, gridtransform.t:36-38 *)
  | SetBase (v b : nat)                               (* gridtransform.hpp:112-115 *)
  | SetTrans (v : nat) (f : B -> T)                   (* gridtransform.hpp:122-125 *)
  | Store (b : nat) (i : list Z) (x : B)              (* an assignment to an element of a base grid *)
  | Resize (b : nat) (lo hi : list Z) (at_ : list Z -> B) (* the base grid gets another size and other values *)
  | Refer (v : nat) (i : list Z) (r : nat)           (* [T &r = view.get(i)], gridtransform.hpp:81-86 *)
  | Follow (r : nat)                                  (* the value of the reference *)
  | Through (r : nat) (x : T)                         (* [r = x] *)
  | Value (v : nat) (i : list Z)                     (* [T x = constview.get(i)], gridtransform.hpp:88-91 *)
  | Bounds (v : nat).                                 (* [getLo], [getHi], gridtransform.hpp:92-104 *)

  (** What is seen. *)
  Inductive seen := Saw (x : T) | SawBounds (lo hi : list Z).

  Definition step (o : op) (w : world) : option (world * list seen) :=
    match o with
    | Make v f => Some (mkWorld (g_bases w) (upd (g_views w) v (mkView None f)) (g_result w), [])
    | SetBase v b => Some (mkWorld (g_bases w) (upd (g_views w) v (mkView (Some b) (v_trans (g_views w v)))) (g_result w), [])
    | SetTrans v f => Some (mkWorld (g_bases w) (upd (g_views w) v (mkView (v_base (g_views w v)) f)) (g_result w), [])
    | Store b i x =>
        let g := g_bases w b in
        if inside (b_lo g) (b_hi g) i then Some (mkWorld (upd (g_bases w) b (mkBase (b_lo g) (b_hi g) (upd_at (b_at g) i x))) (g_views w) (g_result w), [])
        else None
    | Resize b lo hi f => Some (mkWorld (upd (g_bases w) b (mkBase lo hi f)) (g_views w) (g_result w), [])
    | Refer v i r =>
        match base_get w v i with
        | None => None
        | Some x => Some (mkWorld (g_bases w) (g_views w) (v_trans (g_views w v) x), [])
        end
    | Follow r => Some (w, [Saw (g_result w)])
    | Through r x => Some (mkWorld (g_bases w) (g_views w) x, [])
    | Value v i =>
        match base_get w v i with
        | None => None
        | Some x => Some (w, [Saw (v_trans (g_views w v) x)])
        end
    | Bounds v =>
        match v_base (g_views w v) with
        | None => None
        | Some b => Some (w, [SawBounds (b_lo (g_bases w b)) (b_hi (g_bases w b))])
        end
    end.
  (** [None]: undefined behaviour. *)
  Fixpoint run (l : list op) (w : world) : option (world * list seen) :=
    match l with
    | [] => Some (w, [])
    | o :: l' =>
        match step o w with
        | None => None
        | Some (w', e) => match run l' w' with Some (w'', es) => Some (w'', e ++ es) | None => None end
        end
    end.
  (** At the start the static variable is zero, the views have no base grid. *)
  Definition start (bs : nat -> base) (f : B -> T) (zero : T) : world := mkWorld bs (fun _ => mkView None f) zero.
End Trans.
Arguments base : clear implicits.
Arguments view : clear implicits.
Arguments world : clear implicits.
Arguments op : clear implicits.
Arguments seen : clear implicits.
