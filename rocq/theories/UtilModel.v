(** Model of small utilities: [mean] (src/algo.t), [calcsum] (src/util/algohelper.hpp), [Unique]
    (src/util/unique.hpp), [Singleton] (src/util/singleton.hpp) and the dispatch of [forEach] to Kokkos
    (src/grid/iteration/kokkos-iteration.hpp). *)
From Coq Require Import ZArith QArith Reals List Bool.
From Flocq Require Import Core.
From Verif Require Import Vec RangeModel MpiFloatModel.
Import ListNotations.
Local Open Scope Z_scope.

(** ** Means and sums *)
Section Mean.
  (** A value type: initialisation with 0, [+=] and [/= double(cnt)]; [None]: undefined behaviour. *)
  Context {T : Type}.
  Variable zero : T.
  Variable add : T -> T -> option T.
  Variable divide : T -> Z -> option T.

  (** The loop with [m] and [cnt] — algo.t:35-41.  [cnt] is an [int]. *)
  Fixpoint mean_loop (xs : list T) (m : T) (cnt : Z) : option (T * Z) :=
    match xs with
    | [] => Some (m, cnt)
    | x :: xs' =>
        match add m x with
        | None => None
        | Some m' => if cnt + 1 <? 2 ^ 31 then mean_loop xs' m' (cnt + 1) else None
        end
    end.
  (** [mean] — algo.t:26-44, of the elements from [begin] to [end]. *)
  Definition mean (xs : list T) : option T :=
    match mean_loop xs zero 0 with
    | None => None
    | Some (m, cnt) => divide m cnt
    end.

  (** [calcsum] — algohelper.hpp:32-43: a fresh object called with the elements in order, for instance by
      [std::for_each], then [result()]. *)
  Fixpoint calcsum (xs : list T) (sum : T) : option T :=
    match xs with
    | [] => Some sum
    | x :: xs' => match add sum x with None => None | Some s => calcsum xs' s end
    end.
End Mean.

(** Exact numbers; a division by zero is left undefined. *)
Definition q_mean : list Q -> option Q :=
  mean 0%Q (fun a b => Some (a + b)%Q) (fun a n => if n =? 0 then None else Some (a / inject_Z n)%Q).
(** [int]: overflow is undefined; [m /= double(cnt)] divides in doubles and converts back, which is undefined
    for 0/0 and for values outside the type. *)
Definition int_ok (z : Z) : bool := (-(2 ^ 31) <=? z) && (z <? 2 ^ 31).
Definition int_add (a b : Z) : option Z := if int_ok (a + b) then Some (a + b) else None.
Definition int_divide (a n : Z) : option Z :=
  if n =? 0 then None
  else let q := Ztrunc (rnd64 (rnd64 (IZR a) / rnd64 (IZR n))) in if int_ok q then Some q else None.
Definition int_mean : list Z -> option Z := mean 0 int_add int_divide.

(** ** Unique numbers and singletons *)

(** [Unique<T>] — unique.hpp:35-47: a static counter for each class; [long] does not overflow.
    Classes and objects are numbers. *)
Record ustate := mkU { running : nat -> Z; ids : list (nat * nat * Z) }.
Definition uinit : ustate := mkU (fun _ => 0) [].
(** Construction of the object [o] of class [c]. *)
Definition unew (c o : nat) (s : ustate) : ustate :=
  mkU (fun c' => if Nat.eqb c' c then running s c + 1 else running s c') ((c, o, running s c) :: ids s).
(** A program that constructs objects. *)
Definition ubuild (l : list (nat * nat)) : ustate := fold_left (fun s x => unew (fst x) (snd x) s) l uinit.
(** [getId()]. *)
Definition uid (s : ustate) (c o : nat) : option Z :=
  option_map snd (find (fun x => Nat.eqb (fst (fst x)) c && Nat.eqb (snd (fst x)) o) (ids s)).

(** [Singleton<TYPE, CreationPolicy>::instance()] — singleton.hpp:84-96; [create] takes and changes the state
    of the program; the pointer is kept for each class.  Not modelled: a constructor that calls
    [instance()] of its own class. *)
Section Singleton.
  Context {W : Type}.
  Variable create : nat -> W -> nat * W.
  Definition instance (c : nat) (p : nat -> option nat) (w : W) : nat * (nat -> option nat) * W :=
    match p c with
    | Some x => (x, p, w)
    | None => let (x, w') := create c w in (x, fun c' => if Nat.eqb c' c then Some x else p c', w')
    end.
  (** A program that asks for instances of classes; the results. *)
  Fixpoint instances (cs : list nat) (p : nat -> option nat) (w : W) : list nat * W :=
    match cs with
    | [] => ([], w)
    | c :: cs' => let '(x, p', w') := instance c p w in let (xs, w'') := instances cs' p' w' in (x :: xs, w'')
    end.
End Singleton.

(** ** Kokkos *)

(** [RangeKokkosIterationPolicy<rank>::forEach] — kokkos-iteration.hpp:84-135: the bounds handed to
    [Kokkos::RangePolicy] or [MDRangePolicy], which iterate over [lo <= i < hi].  [None]: overflow. *)
Definition kokkos_bounds (r : range) : option (vec * vec) :=
  if forallb (fun h => h + 1 <? 2 ^ 31) (r_hi r) then Some (r_lo r, map (fun h => h + 1) (r_hi r)) else None.
(** What [parallel_for] does, from the Kokkos documentation: the function is called once for each tuple of indices,
    in no particular order.  [calls] is one possible order. *)
Definition kokkos_calls (lo hi : vec) (calls : list vec) : Prop :=
  NoDup calls /\ forall p, In p calls <-> (length p = length lo /\ forall d, (d < length lo)%nat -> vget lo d <= vget p d < vget hi d).
Definition kokkos_forEach {S : Type} (func : vec -> S -> S) (calls : list vec) (s : S) : S :=
  fold_left (fun s p => func p s) calls s.
