(** Ranges over a machine integer type: src/grid/range.hpp and src/grid/iteration/range-iteration.hpp once
    more, with overflow, with the one shared index object and with the function object that is passed by
    value.  Complements RangeModel.v. *)
From Verif Require Import Vec RangeModel.

(** What a loop does: it ends, it increments the largest integer (undefined behaviour), or it is still
    running when the fuel is used up. *)
Inductive run (S : Type) := Done (s : S) | Overflow | Running.
Arguments Done {S}. Arguments Overflow {S}. Arguments Running {S}.

Section Int.
  (** The largest value of the (signed) type [T]. *)
  Variable M : Z.

  (** [iterator::increment] — range.hpp:303-317. *)
  Fixpoint incr_loop_int (d : nat) (r : range) (pos : vec) : option (vec * bool) :=
    match d with
    | O => Some (pos, true)
    | S d' =>
        if vget pos d' =? M then None
        else let v := vget pos d' + 1 in
             if v >? vget (r_hi r) d'
             then incr_loop_int d' r (vset pos d' (vget (r_lo r) d'))
             else Some (vset pos d' v, false)
    end.
  Definition iter_incr_int (r : range) (it : iter) : option iter :=
    match incr_loop_int (length (r_lo r)) r (it_pos it) with
    | Some (p, e) => Some (mkIter p (e || it_end it))
    | None => None
    end.

  (** The client loop [for (it=begin(); it!=end(); ++it) body( *it )]. *)
  Fixpoint range_loop_int (fuel : nat) (r : range) (it : iter) : run (list vec) :=
    if iter_eqb it (range_end r) then Done []
    else match fuel with
         | O => Running
         | S f => match iter_incr_int r it with
                  | None => Overflow
                  | Some it' => match range_loop_int f r it' with
                                | Done l => Done (it_pos it :: l)
                                | e => e
                                end
                  end
         end.
  Definition range_visits_int (fuel : nat) (r : range) : run (list vec) := range_loop_int fuel r (range_begin r).

  Section ForEach.
    (** A function object with a state [F] of its own, called with a reference to the index; it may change the
        index, its own state and the state [S] of the rest of the program. *)
    Context {F S : Type}.
    Variable func : vec -> F -> S -> vec * F * S.

    (** [for (pos[d]=lo; pos[d]<=hi; ++pos[d]) body] from the test on, on the shared [pos] —
        range-iteration.hpp:125-128, 186-189. *)
    Fixpoint for_int (fuel : nat) (d : nat) (hi : Z) (body : vec -> S -> run (vec * S)) (pos : vec) (s : S) : run (vec * S) :=
      if vget pos d <=? hi then
        match fuel with
        | O => Running
        | Datatypes.S f =>
            match body pos s with
            | Done (pos', s') =>
                if vget pos' d =? M then Overflow
                else for_int f d hi body (vset pos' d (vget pos' d + 1)) s'
            | e => e
            end
        end
      else Done (pos, s).

    (** [RangeCIterationPolicyImpl<rank,dim>::forEach] — range-iteration.hpp:88-131.  Every level receives a copy
        of the function object, so that what a call does to the object's own state is lost. *)
    Fixpoint c_impl_int (fuel : nat) (rank dim : nat) (r : range) (pos : vec) (fo : F) (s : S) : run (vec * S) :=
      match dim with
      | O => let '(pos', _, s') := func pos fo s in Done (pos', s')
      | Datatypes.S dim' =>
          let idim := (rank - dim)%nat in
          for_int fuel idim (vget (r_hi r) idim) (fun pos s => c_impl_int fuel rank dim' r pos fo s)
                  (vset pos idim (vget (r_lo r) idim)) s
      end.
    (** [RangeCIterationPolicy<rank>::forEach] — range-iteration.hpp:133-142. *)
    Definition c_forEach_int (fuel : nat) (r : range) (fo : F) (s : S) : run (vec * S) :=
      let rank := length (r_lo r) in c_impl_int fuel rank rank r (r_lo r) fo s.

    (** [RangeFortranIterationPolicyImpl<rank>::forEach] — range-iteration.hpp:148-193. *)
    Fixpoint f_impl_int (fuel : nat) (rank : nat) (r : range) (pos : vec) (fo : F) (s : S) : run (vec * S) :=
      match rank with
      | O => let '(pos', _, s') := func pos fo s in Done (pos', s')
      | Datatypes.S d =>
          for_int fuel d (vget (r_hi r) d) (fun pos s => f_impl_int fuel d r pos fo s)
                  (vset pos d (vget (r_lo r) d)) s
      end.
    (** [RangeFortranIterationPolicy<rank>::forEach] — range-iteration.hpp:195-204. *)
    Definition f_forEach_int (fuel : nat) (r : range) (fo : F) (s : S) : run (vec * S) :=
      f_impl_int fuel (length (r_lo r)) r (r_lo r) fo s.
  End ForEach.
End Int.
