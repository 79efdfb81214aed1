(** Model of sub-grid views of grids that are copied, assigned, resized and destroyed —
    src/grid/subgrid.{hpp,t} over [ShareModel].  A view is named by a number, like a grid. *)
From Verif Require Import Vec StorageModel GridModel ShareModel BoundaryModel.

(** [SubGridStorage]: pointer to the base grid, range and dims — subgrid.hpp:45-49.  The pointer is
    the name of the grid object; [None] is NULL.  [dims] is only reported by [getDims], see C21; it
    is left out. *)
Record view := mkView { v_base : option nat; v_lo : vec; v_hi : vec }.

Section Subview.
  Context {V A : Type}.
  Variable junk : V.
  Variable avg0 : A.
  Variable rank : nat.
  Variable ord : order.
  Variable pol : policy A.
  (** The checking policies of the view and of the base grid. *)
  Variables chk_view chk_base : vcheck.

  Record vst := mkV { vs_grids : @st V A; vs_views : nat -> option view }.
  Definition vinit : vst := mkV (init avg0) (fun _ => None).

  (** A client program: operations on grids; construction of a view (subgrid.t:30-49,61-103), its
      implicit copy constructor, copy assignment and destructor, [resize] (subgrid.t:51-59), access to
      elements and [getLo()], [getHi()]. *)
  Inductive vop2 :=
    | OnGrid (o : op V)
    | NewView (w : nat) | MakeView (w : nat) (lo hi : vec) (h : nat)
    | CopyView (w src : nat) | AssignView (w src : nat) | DestroyView (w : nat)
    | ResizeView (w : nat) (lo hi : vec)
    | ReadView (w : nat) (p : vec) | WriteView (w : nat) (p : vec) (v : V) | BoundsView (w : nat).

  Definition set_view (s : vst) (w : nat) (v : option view) : vst := mkV (vs_grids s) (upd (vs_views s) w v).

  (** [this->check(getLo(), baseGrid_.getLo(), baseGrid_.getHi())] and the same for [getHi()] —
      subgrid.t:75-76: an assertion may fail, the result is ignored. *)
  Definition make_view (w : nat) (lo hi : vec) (h : nat) (s : vst) : option vst :=
    match vs_views s w with
    | Some _ => None
    | None =>
        if mem h (s_live (vs_grids s)) then
          let g := s_h (vs_grids s) h in
          match run_check chk_view lo (h_lo g) (h_hi g), run_check chk_view hi (h_lo g) (h_hi g) with
          | Some _, Some _ => Some (set_view s w (Some (mkView (Some h) lo hi)))
          | _, _ => None
          end
        else None
    end.

  (** The index that [baseGrid->get] receives — grid.t:89-108, subgrid.hpp:107-117: the view checks it
      against its bounds, then the policy of the base grid checks it against the bounds of the view. *)
  Definition base_index (v : view) (p : vec) : option vec :=
    match run_check chk_view p (v_lo v) (v_hi v) with
    | None => None
    | Some q => run_check chk_base q (v_lo v) (v_hi v)
    end.

  Definition vstep (o : vop2) (s : vst) : option (vst * list (out V)) :=
    match o with
    | OnGrid o => match step junk avg0 rank ord pol o (vs_grids s) with
                  | Some (g, obs) => Some (mkV g (vs_views s), obs)
                  | None => None
                  end
    | NewView w => match vs_views s w with
                   | Some _ => None
                   | None => Some (set_view s w (Some (mkView None (repeat 0 rank) (repeat 0 rank))), [])
                   end
    | MakeView w lo hi h => option_map (fun s' => (s', [])) (make_view w lo hi h s)
    | CopyView w src => match vs_views s w, vs_views s src with
                        | None, Some v => Some (set_view s w (Some v), [])
                        | _, _ => None
                        end
    | AssignView w src => match vs_views s w, vs_views s src with
                          | Some _, Some v => Some (set_view s w (Some v), [])
                          | _, _ => None
                          end
    | DestroyView w => match vs_views s w with Some _ => Some (set_view s w None, []) | None => None end
    | ResizeView w lo hi => match vs_views s w with
                            | Some v => Some (set_view s w (Some (mkView (v_base v) lo hi)), [])
                            | None => None
                            end
    | ReadView w p =>
        match vs_views s w with
        | None => None
        | Some v => match v_base v, base_index v p with
                    | Some h, Some q => option_map (fun x => (s, [OVal x])) (op_read ord h q (vs_grids s))
                    | _, _ => None
                    end
        end
    | WriteView w p x =>
        match vs_views s w with
        | None => None
        | Some v => match v_base v, base_index v p with
                    | Some h, Some q => option_map (fun g => (mkV g (vs_views s), [])) (op_write ord h q x (vs_grids s))
                    | _, _ => None
                    end
        end
    | BoundsView w => match vs_views s w with Some v => Some (s, [OBounds (v_lo v) (v_hi v)]) | None => None end
    end.

  (** [None] is undefined behaviour or a failed assertion. *)
  Fixpoint vrun (os : list vop2) (s : vst) : option (vst * list (out V)) :=
    match os with
    | [] => Some (s, [])
    | o :: os' => match vstep o s with
                  | None => None
                  | Some (s1, out1) => match vrun os' s1 with
                                       | None => None
                                       | Some (s2, out2) => Some (s2, out1 ++ out2)
                                       end
                  end
    end.
End Subview.
Arguments vop2 : clear implicits.
