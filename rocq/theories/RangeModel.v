(** Model of src/grid/range.hpp and src/grid/iteration/range-iteration.hpp. *)
From Verif Require Import Vec.

(** [Range]: the two inclusive corners — src/grid/range.hpp:43-50. *)
Record range := mkRange { r_lo : vec; r_hi : vec }.

(** [Range::inside] — src/grid/range.hpp:94-100.  The loop over [i<rank], leaving early on the
    first violated bound; [rank] is the length of [lo]. *)
Definition range_inside (r : range) (p : vec) : bool :=
  forallb (fun i => negb ((vget p i <? vget (r_lo r) i) || (vget p i >? vget (r_hi r) i)))
          (seq 0 (length (r_lo r))).

(** [Array::project<destLength>] — src/grid/array.t:317-327: copies the first [destLength]
    components. *)
Definition array_project (n : nat) (a : vec) : vec := firstn n a.

(** [Array::projectDim] — src/grid/array.t:329-342: the components before [dim], then those
    after [dim]. *)
Definition array_projectDim (d : nat) (a : vec) : vec := firstn d a ++ skipn (S d) a.

(** [Range::project], [Range::projectDim] — src/grid/range.hpp:101-111. *)
Definition range_project (n : nat) (r : range) : range :=
  mkRange (array_project n (r_lo r)) (array_project n (r_hi r)).
Definition range_projectDim (d : nat) (r : range) : range :=
  mkRange (array_projectDim d (r_lo r)) (array_projectDim d (r_hi r)).

(** [Range::grow(s)] — src/grid/range.hpp:113-120. *)
Definition range_grow (s : Z) (r : range) : range :=
  mkRange (map (fun l => l - s) (r_lo r)) (map (fun h => h + s) (r_hi r)).

(** [Range::grow(d0,...,dn)] — src/grid/range.hpp:122-278: one amount per dimension.  The nine
    overloads (ranks 2 to 10) are one function of the list of amounts. *)
Definition range_growv (ds : vec) (r : range) : range :=
  mkRange (vmap2 Z.sub (r_lo r) ds) (vmap2 Z.add (r_hi r) ds).

(** [Range::iterator] — src/grid/range.hpp:285-298: position and end flag.  The reference to the
    domain is passed separately. *)
Record iter := mkIter { it_pos : vec; it_end : bool }.

(** The [while (d>0)] loop of [increment] — src/grid/range.hpp:303-317.  [d] is the loop variable
    before [--d].  Result: new position and whether the loop fell through ([atEnd = true]). *)
Fixpoint incr_loop (d : nat) (r : range) (pos : vec) : vec * bool :=
  match d with
  | O => (pos, true)
  | S d' =>
      let v := vget pos d' + 1 in
      if v >? vget (r_hi r) d'
      then incr_loop d' r (vset pos d' (vget (r_lo r) d'))
      else (vset pos d' v, false)
  end.

(** [iterator::increment] / [operator++] — src/grid/range.hpp:303-327. *)
Definition iter_incr (r : range) (it : iter) : iter :=
  let '(p, e) := incr_loop (length (r_lo r)) r (it_pos it) in
  mkIter p (e || it_end it).

(** [Array::operator==] — src/grid/array.t:386-398. *)
Fixpoint vec_eqb (a b : vec) : bool :=
  match a, b with
  | [], [] => true
  | x :: a', y :: b' => (x =? y) && vec_eqb a' b'
  | _, _ => false
  end.

(** [iterator::operator==] — src/grid/range.hpp:336-339. *)
Definition iter_eqb (a b : iter) : bool :=
  Bool.eqb (it_end a) (it_end b) && vec_eqb (it_pos a) (it_pos b).

(** [Range::begin], [Range::end] — src/grid/range.hpp:351-359. *)
Definition range_begin (r : range) : iter := mkIter (r_lo r) false.
Definition range_end (r : range) : iter := mkIter (r_lo r) true.

(** The client loop [for (it=begin(); it!=end(); ++it) body( *it )].  [None]: fuel exhausted, the
    loop did not end within [fuel] iterations.  Result: the visited positions, in order. *)
Fixpoint range_loop (fuel : nat) (r : range) (it : iter) : option (list vec) :=
  if iter_eqb it (range_end r) then Some []
  else match fuel with
       | O => None
       | S f => match range_loop f r (iter_incr r it) with
                | Some l => Some (it_pos it :: l)
                | None => None
                end
       end.

Definition range_visits (fuel : nat) (r : range) : option (list vec) :=
  range_loop fuel r (range_begin r).

(** ** forEach *)

(** The values of the loop variable of [for (x=lo; x<=hi; ++x)]; the number of iterations is
    [max(0, hi-lo+1)].  Simplification: no wrap-around at the largest [int]. *)
Definition zloop (lo hi : Z) : list Z :=
  map (fun k => lo + Z.of_nat k) (seq 0 (Z.to_nat (hi - lo + 1))).

Section ForEach.
  Context {S : Type}.
  (** The function object with its captured state; the index is passed by value. *)
  Variable func : vec -> S -> S.

  (** [RangeCIterationPolicyImpl<rank,dim>::forEach] —
      src/grid/iteration/range-iteration.hpp:88-131; [idim = rank - dim] is the loop dimension.
      Simplification: the C++ shares one [pos] object; the components left over from a finished
      inner loop are always overwritten by the next inner loop before [func] is called. *)
  Fixpoint c_forEach_impl (rank dim : nat) (r : range) (pos : vec) (s : S) : S :=
    match dim with
    | O => func pos s
    | Datatypes.S dim' =>
        let idim := (rank - dim)%nat in
        fold_left (fun s x => c_forEach_impl rank dim' r (vset pos idim x) s)
                  (zloop (vget (r_lo r) idim) (vget (r_hi r) idim)) s
    end.

  (** [RangeCIterationPolicy<rank>::forEach] — range-iteration.hpp:133-142. *)
  Definition c_forEach (r : range) (s : S) : S :=
    let rank := length (r_lo r) in c_forEach_impl rank rank r (r_lo r) s.

  (** [RangeFortranIterationPolicyImpl<rank>::forEach] — range-iteration.hpp:148-193; the loop
      dimension is [rank-1]. *)
  Fixpoint f_forEach_impl (rank : nat) (r : range) (pos : vec) (s : S) : S :=
    match rank with
    | O => func pos s
    | Datatypes.S d =>
        fold_left (fun s x => f_forEach_impl d r (vset pos d x) s)
                  (zloop (vget (r_lo r) d) (vget (r_hi r) d)) s
    end.

  (** [RangeFortranIterationPolicy<rank>::forEach] — range-iteration.hpp:195-204. *)
  Definition f_forEach (r : range) (s : S) : S :=
    f_forEach_impl (length (r_lo r)) r (r_lo r) s.
End ForEach.
