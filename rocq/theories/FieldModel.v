(** Model of src/grid/field.hpp and src/grid/field.t. *)
From Coq Require Import QArith Qround Floats.SpecFloat.
From Verif Require Import Vec StorageModel GridModel ShareModel.
Open Scope Z_scope.

(** ** Bounds *)

(** The grid bounds computed from a size and a number of ghost cells — field.t:59-66, 184-191:
    [low = 0 - g], [high = size + (g - 1)]. *)
Definition field_lo_size (size : vec) (g : Z) : vec := map (fun _ => 0 - g) size.
Definition field_hi_size (size : vec) (g : Z) : vec := map (fun s => s + (g - 1)) size.

(** The grid bounds computed from inner bounds — field.t:90-98, 121-129, 216-224, 248-256. *)
Definition field_lo (lo : vec) (g : Z) : vec := map (fun l => l - g) lo.
Definition field_hi (hi : vec) (g : Z) : vec := map (fun h => h + g) hi.

(** [getInnerLo], [getInnerHi], [getInnerRange] — field.hpp:100-107. *)
Definition inner_lo (lo : vec) (g : Z) : vec := map (fun l => l + g) lo.
Definition inner_hi (hi : vec) (g : Z) : vec := map (fun h => h - g) hi.

(** ** Fields as objects

    A field is a grid object (ShareModel) plus the members [domain], [stagger] and [ghostCells];
    only [ghostCells] takes part in the layout.  [None]: not initialised. *)
Section FieldOps.
  Context {V A : Type}.
  Variable junk : V.
  Variable avg0 : A.
  Variable rank : nat.
  Variable ord : order.
  Variable pol : policy A.

  Record fst_ := mkF { f_share : @st V A; f_ghost : nat -> option Z }.

  Definition finit : fst_ := mkF (init avg0) (fun _ => None).

  Inductive fop :=
    | FDefault (h : nat)                                    (* Field() *)
    | FNewSize (h : nat) (size : vec) (g : Z)               (* Field(size, domain, stagger, g) *)
    | FNewRange (h : nat) (lo hi : vec) (g : Z)             (* Field(low, high, ...), Field(range, ...) *)
    | FCopy (h src : nat) | FAssign (h src : nat) | FDestroy (h : nat)
    | FResizeSize (h : nat) (size : vec) (g : Z)
    | FResizeRange (h : nat) (lo hi : vec) (g : Z)
    | FLayout (h : nat).                                    (* observe bounds and inner range *)

  (** The operations on the grid part: field.t:36-37 (default), 39-67, 69-130 (constructors: default
      construct the grid, then [Grid::resize]), 132-144 (copy), field.hpp:141 (defaulted
      assignment), 163-257 (resize). *)
  Definition share_ops (o : fop) : list (op V) :=
    match o with
    | FDefault h => [New h]
    | FNewSize h size g => [New h; Resize h (field_lo_size size g) (field_hi_size size g)]
    | FNewRange h lo hi g => [New h; Resize h (field_lo lo g) (field_hi hi g)]
    | FCopy h src => [Copy h src]
    | FAssign h src => [Assign h src]
    | FDestroy h => [Destroy h]
    | FResizeSize h size g => [Resize h (field_lo_size size g) (field_hi_size size g)]
    | FResizeRange h lo hi g => [Resize h (field_lo lo g) (field_hi hi g)]
    | FLayout h => [Bounds h]
    end.

  (** The member [ghostCells]. *)
  Definition ghost_after (o : fop) (gh : nat -> option Z) : nat -> option Z :=
    match o with
    | FDefault h => upd gh h None
    | FNewSize h _ g | FNewRange h _ _ g | FResizeSize h _ g | FResizeRange h _ _ g => upd gh h (Some g)
    | FCopy h src | FAssign h src => upd gh h (gh src)
    | FDestroy _ | FLayout _ => gh
    end.

  (** What [FLayout] shows: [getLo, getHi, getInnerLo, getInnerHi]; [None]: undefined behaviour. *)
  Definition layout_obs (o : fop) (gh : nat -> option Z) (obs : list (out V)) : option (list (vec * vec * vec * vec)) :=
    match o, obs with
    | FLayout h, [OBounds lo hi] =>
        match gh h with
        | Some g => Some [(lo, hi, inner_lo lo g, inner_hi hi g)]
        | None => None
        end
    | _, _ => Some []
    end.

  Definition fstep (o : fop) (s : fst_) : option (fst_ * list (vec * vec * vec * vec)) :=
    match run junk avg0 rank ord pol (share_ops o) (f_share s) with
    | None => None
    | Some (s', obs) =>
        match layout_obs o (f_ghost s) obs with
        | None => None
        | Some l => Some (mkF s' (ghost_after o (f_ghost s)), l)
        end
    end.

  Fixpoint frun (os : list fop) (s : fst_) : option (fst_ * list (vec * vec * vec * vec)) :=
    match os with
    | [] => Some (s, [])
    | o :: os' => match fstep o s with
                  | None => None
                  | Some (s1, l1) => match frun os' s1 with
                                     | None => None
                                     | Some (s2, l2) => Some (s2, l1 ++ l2)
                                     end
                  end
    end.
End FieldOps.
Arguments fop : clear implicits.

(** ** Positions

    The expressions of field.t:146-161, 260-301, generic in the arithmetic: exact rationals or
    binary64. *)
Record pos_arith (T : Type) := mkPA {
  pa_add : T -> T -> T; pa_sub : T -> T -> T; pa_mul : T -> T -> T; pa_div : T -> T -> T;
  pa_of_int : Z -> T; pa_half : T; pa_floor : T -> option Z }.
Arguments pa_add {T}. Arguments pa_sub {T}. Arguments pa_mul {T}. Arguments pa_div {T}.
Arguments pa_of_int {T}. Arguments pa_half {T}. Arguments pa_floor {T}.

(** The members used for one dimension: [lo], [hi] (grid bounds, with ghost cells), ghost cells,
    [stagger], and the physical domain. *)
Record fdim (T : Type) := mkFD { fd_lo : Z; fd_hi : Z; fd_g : Z; fd_stag : bool; fd_dlo : T; fd_dhi : T }.
Arguments fd_lo {T}. Arguments fd_hi {T}. Arguments fd_g {T}. Arguments fd_stag {T}.
Arguments fd_dlo {T}. Arguments fd_dhi {T}.

Section Positions.
  Context {T : Type}.
  Variable a : pos_arith T.

  Definition stag_int (f : fdim T) : Z := if fd_stag f then 1 else 0.
  Definition cells (f : fdim T) : Z := fd_hi f - fd_lo f - 2 * fd_g f + 1.

  (** [xnorm] — field.t:154-158, 268-272. *)
  Definition xnorm (f : fdim T) (pos : T) : T :=
    pa_add a (pa_add a (pa_sub a
      (pa_div a (pa_mul a (pa_sub a pos (fd_dlo f)) (pa_of_int a (cells f)))
                (pa_sub a (fd_dhi f) (fd_dlo f)))
      (pa_mul a (pa_half a) (pa_of_int a (stag_int f)))) (pa_of_int a (fd_g f))) (pa_of_int a (fd_lo f)).

  (** [positionToIndex] — field.t:146-161, 260-273: index and offset; [None]: the conversion of the
      floor to [int] is undefined (infinity, NaN; the range of [int] is not modelled). *)
  Definition position_to_index (f : fdim T) (pos : T) : option (Z * T) :=
    match pa_floor a (xnorm f pos) with
    | None => None
    | Some i => Some (i, pa_sub a (xnorm f pos) (pa_of_int a i))
    end.

  (** [indexToPosition] — field.t:275-301. *)
  Definition index_to_position (f : fdim T) (index : Z) : T :=
    pa_add a
      (pa_div a
        (pa_mul a (pa_sub a (fd_dhi f) (fd_dlo f))
           (pa_sub a (pa_add a (pa_of_int a (index - fd_lo f))
                               (pa_mul a (pa_half a) (pa_of_int a (stag_int f))))
                     (pa_of_int a (fd_g f))))
        (pa_of_int a (cells f)))
      (fd_dlo f).
End Positions.

(** Exact arithmetic. *)
Definition q_arith : pos_arith Q :=
  mkPA Q Qplus Qminus Qmult Qdiv inject_Z (1 # 2) (fun q => Some (Qfloor q)).

(** IEEE binary64, round to nearest even (Coq's SpecFloat). *)
Definition sf_of_Z (z : Z) : spec_float := binary_normalize 53 1024 z 0 false.
Definition sf_floor (x : spec_float) : option Z :=
  match x with
  | S754_zero _ => Some 0
  | S754_finite s m e =>
      let z := if s then Zneg m else Zpos m in
      Some (match e with
            | Z0 => z
            | Zpos p => z * 2 ^ (Zpos p)
            | Zneg p => z / 2 ^ (Zpos p)
            end)
  | _ => None
  end.
Definition b64_arith : pos_arith spec_float :=
  mkPA spec_float (SFadd 53 1024) (SFsub 53 1024) (SFmul 53 1024) (SFdiv 53 1024) sf_of_Z
       (binary_normalize 53 1024 1 (-1) false) sf_floor.
