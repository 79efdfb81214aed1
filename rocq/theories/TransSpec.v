(** What users expect of transformed views, from the history of the program alone.  Histories are written latest first. *)
From Coq Require Import ZArith List Bool.
Import ListNotations.
From Verif Require Import TransModel.

Section Spec.
  Context {B T : Type}.
  (** The base grids at the start, and the transformation of views that are not made explicitly. *)
  Variable bs : nat -> base B.
  Variable f0 : B -> T.

  (** The base grid of a view: the one set last since the view was made. *)
  Fixpoint base_of (past : list (op B T)) (v : nat) : option nat :=
    match past with
    | [] => None
    | Make u _ :: p => if Nat.eqb u v then None else base_of p v
    | SetBase u b :: p => if Nat.eqb u v then Some b else base_of p v
    | _ :: p => base_of p v
    end.
  (** The transformation of a view. *)
  Fixpoint trans_of (past : list (op B T)) (v : nat) : B -> T :=
    match past with
    | [] => f0
    | Make u f :: p | SetTrans u f :: p => if Nat.eqb u v then f else trans_of p v
    | _ :: p => trans_of p v
    end.
  (** The bounds of a base grid and its values: nothing that is done with views matters. *)
  Fixpoint bounds_of (past : list (op B T)) (b : nat) : list Z * list Z :=
    match past with
    | [] => (b_lo (bs b), b_hi (bs b))
    | Resize c lo hi _ :: p => if Nat.eqb c b then (lo, hi) else bounds_of p b
    | _ :: p => bounds_of p b
    end.
  Fixpoint value_of (past : list (op B T)) (b : nat) (i : list Z) : B :=
    match past with
    | [] => b_at (bs b) i
    | Store c j x :: p => if Nat.eqb c b then (if list_eq_dec Z.eq_dec i j then x else value_of p b i) else value_of p b i
    | Resize c _ _ f :: p => if Nat.eqb c b then f i else value_of p b i
    | _ :: p => value_of p b i
    end.
  (** Each component of the index is between the bounds. *)
  Definition in_box (lo hi i : list Z) : bool :=
    Nat.eqb (length lo) (length i) && Nat.eqb (length hi) (length i) &&
    forallb (fun k => Z.leb (nth k lo 0%Z) (nth k i 0%Z) && Z.leb (nth k i 0%Z) (nth k hi 0%Z)) (seq 0 (length i)).
  Definition within (past : list (op B T)) (b : nat) (i : list Z) : bool := in_box (fst (bounds_of past b)) (snd (bounds_of past b)) i.

  (** What a view shows at an index: the transformed value that its base grid has there now. *)
  Definition shown (past : list (op B T)) (v : nat) (i : list Z) : option T :=
    match base_of past v with
    | None => None
    | Some b => if within past b i then Some (trans_of past v (value_of past b i)) else None
    end.

  (** What a reference is expected to show: the value that the view showed when the reference was obtained, or what was
      assigned to this reference since. *)
  Fixpoint ref_of (past : list (op B T)) (r : nat) : option T :=
    match past with
    | [] => None
    | Refer v i s :: p => if Nat.eqb s r then shown p v i else ref_of p r
    | Through s x :: p => if Nat.eqb s r then Some x else ref_of p r
    | _ :: p => ref_of p r
    end.

  Definition expect (o : op B T) (past : list (op B T)) : option (list (seen T)) :=
    match o with
    | Value v i => match shown past v i with Some x => Some [Saw x] | None => None end
    | Refer v i _ => match shown past v i with Some _ => Some [] | None => None end
    | Follow r => match ref_of past r with Some x => Some [Saw x] | None => None end
    | Through r _ => match ref_of past r with Some _ => Some [] | None => None end
    | Bounds v => match base_of past v with Some b => Some [SawBounds (fst (bounds_of past b)) (snd (bounds_of past b))] | None => None end
    | Store b i _ => if within past b i then Some [] else None
    | _ => Some []
    end.
  (** [None]: the program uses a view without a base grid, an index outside the grid, or a reference that it has not obtained. *)
  Fixpoint expected (l past : list (op B T)) : option (list (seen T)) :=
    match l with
    | [] => Some []
    | o :: l' =>
        match expect o past with
        | None => None
        | Some e => match expected l' (o :: past) with Some es => Some (e ++ es) | None => None end
        end
    end.

  (** Each reference is used before another one is obtained or assigned to, by whatever view.  [cur]: the reference that was
      obtained or assigned to last. *)
  Fixpoint prompt (l : list (op B T)) (cur : option nat) : Prop :=
    match l with
    | [] => True
    | Refer _ _ r :: l' | Through r _ :: l' => prompt l' (Some r)
    | Follow r :: l' => cur = Some r /\ prompt l' cur
    | _ :: l' => prompt l' cur
    end.
End Spec.
