(** Words for the properties of files. *)
From Coq Require Import ZArith List Bool String.
From Verif Require Import DiagModel FileModel.
Import ListNotations.
Local Open Scope Z_scope.

(** The steps at which a diagnostic writes: multiples of the interval, and negative counters ("final"). *)
Definition writes_at (interval n : Z) : Prop := n < 0 \/ (interval | n).
Definition writes_atb (interval n : Z) : bool := (n <? 0) || (n mod interval =? 0).
(** All texts of the steps at which it writes, one after the other. *)
Definition all_texts (interval : Z) (steps : list (Z * string)) : string :=
  fold_right (fun st s => if writes_atb interval (fst st) then (snd st ++ s)%string else s) EmptyString steps.

(** The handles held by the objects of a program. *)
Definition handle_of (o : option strm) : list nat :=
  match o with Some s => match s_file s with Some h => [h] | None => [] end | None => [] end.
Definition held (st : hstate) : list nat := flat_map handle_of (objects st).
(** No file is open in object [i]. *)
Definition closed (st : hstate) (i : nat) : Prop := forall s, object st i = Some s -> s_file s = None.
(** Streams are copied and assigned only while they have no file, and an output stream is opened only while it has no
    file. *)
Definition careful (st : hstate) (o : hop) : Prop :=
  match o with
  | CopyOf i => closed st i
  | Assign i j => closed st i /\ closed st j
  | OpenFile i _ => (forall s, object st i = Some s -> s_kind s = Output -> s_file s = None)
  | _ => True
  end.
Fixpoint careful_run (st : hstate) (os : list hop) : Prop :=
  match os with
  | [] => True
  | o :: os' => careful st o /\ match hstep st o with HdfModel.Done st' => careful_run st' os' | _ => True end
  end.

Section Attr.
  Context {V : Type}.
  (** The variable given by the last [set] of a name. *)
  Fixpoint last_set (name : string) (os : list (@aop V)) (before : option (nat * nat)) : option (nat * nat) :=
    match os with
    | [] => before
    | ASet n addr dims :: os' => last_set name os' (if String.eqb n name then Some (addr, dims) else before)
    | _ :: os' => last_set name os' before
    end.
  (** The values of a variable after some operations. *)
  Fixpoint value_after (addr : nat) (os : list (@aop V)) (before : option (list V)) : option (list V) :=
    match os with
    | [] => before
    | AChange a v :: os' => value_after addr os' (if Nat.eqb a addr then Some v else before)
    | AEnd a :: os' => value_after addr os' (if Nat.eqb a addr then None else before)
    | _ :: os' => value_after addr os' before
    end.
  (** The number of data sets written. *)
  Definition writes (os : list (@aop V)) : nat := List.length (filter (fun o => match o with AWrite => true | _ => false end) os).
End Attr.
