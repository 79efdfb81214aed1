(** Model of what an MPI subdivision owns: its send and receive buffers and its communicator —
    src/grid/mpisubdivision.hpp:46-90 and src/grid/mpisubdivision.t:52-60,62-149.  What the buffers hold
    and what is sent is modelled in [MpiModel]; here only who acquires and who releases them. *)
From Coq Require Import List Arith Bool.
Import ListNotations.

Section Own.
  Variable rank : nat.

  (** Something that is acquired and released: an array made by [new[]], a communicator made by [MPI_Cart_create]. *)
  Inductive res := Array (n : nat) | Comm (n : nat).
  Definition res_eq (x y : res) : bool :=
    match x, y with Array n, Array m | Comm n, Comm m => Nat.eqb n m | _, _ => false end.

  (** The members [sendarr], [recvarr], [comm] (0 is [None]) and whether [bounds] points to a boundary —
      mpisubdivision.hpp:57-78, src/grid/domainsubdivision.hpp:67-68. *)
  Record subdiv := mkSub { o_send : list (option nat); o_recv : list (option nat); o_comm : option nat; o_bounds : bool }.

  (** The live objects, what is acquired and not yet released, and a name for the next. *)
  Record ost := mkOst { o_live : list nat; o_obj : nat -> subdiv; o_heap : list res; o_next : nat }.

  (** Constructor — mpisubdivision.t:52-60. *)
  Definition fresh_sub : subdiv := mkSub (repeat None rank) (repeat None rank) None false.
  Definition oinit : ost := mkOst [] (fun _ => fresh_sub) [] 0.

  Definition oset (f : nat -> subdiv) (x : nat) (o : subdiv) : nat -> subdiv := fun y => if Nat.eqb y x then o else f y.
  Definition alive (x : nat) (l : list nat) : bool := existsb (Nat.eqb x) l.

  (** Release one thing; [None]: it has been released before. *)
  Definition release (r : res) (heap : list res) : option (list res) :=
    if existsb (res_eq r) heap then Some (filter (fun x => negb (res_eq r x)) heap) else None.
  (** [if (p!=0) delete[] p;] *)
  Definition release_opt (k : nat -> res) (p : option nat) (heap : list res) : option (list res) :=
    match p with None => Some heap | Some n => release (k n) heap end.

  (** The loop of [init] that allocates the buffers — mpisubdivision.t:122-134; the arrays never fail to be allocated. *)
  Fixpoint alloc (k : nat) (heap : list res) (n : nat) : list (option nat) * list (option nat) * list res * nat :=
    match k with
    | O => ([], [], heap, n)
    | S k' => match alloc k' (Array (S n) :: Array n :: heap) (S (S n)) with
              | (ss, rs, heap', n') => (Some n :: ss, Some (S n) :: rs, heap', n')
              end
    end.

  (** [init] — mpisubdivision.t:62-140: a new communicator (:83-85), new buffers, a new boundary (:136).  What the members
      referred to before is not released. *)
  Definition o_initialise (x : nat) (s : ost) : option ost :=
    if alive x (o_live s) then
      match alloc rank (Comm (o_next s) :: o_heap s) (S (o_next s)) with
      | (ss, rs, heap, n) => Some (mkOst (o_live s) (oset (o_obj s) x (mkSub ss rs (Some (o_next s)) true)) heap n)
      end
    else None.

  (** The loop of the destructor — mpisubdivision.t:143-149. *)
  Fixpoint release_all (ss rs : list (option nat)) (heap : list res) : option (list res) :=
    match ss, rs with
    | s :: ss', r :: rs' =>
        match release_opt Array s heap with
        | None => None
        | Some h1 => match release_opt Array r h1 with None => None | Some h2 => release_all ss' rs' h2 end
        end
    | _, _ => Some heap
    end.
  (** Destructor — mpisubdivision.t:142-151. *)
  Definition o_destroy (x : nat) (s : ost) : option ost :=
    if alive x (o_live s) then
      let o := o_obj s x in
      match release_all (o_send o) (o_recv o) (o_heap s) with
      | None => None
      | Some h1 => match release_opt Comm (o_comm o) h1 with
                   | None => None
                   | Some h2 => Some (mkOst (filter (fun y => negb (Nat.eqb y x)) (o_live s)) (o_obj s) h2 (o_next s))
                   end
      end
    else None.

  (** What [exchange] and [accumulate] use — mpisubdivision.t:153-420: the boundary, both buffers of the dimension, the communicator. *)
  Definition usable (r : option res) (heap : list res) : bool :=
    match r with None => false | Some r => existsb (res_eq r) heap end.
  Definition o_exchange (x dim : nat) (s : ost) : option ost :=
    let o := o_obj s x in
    if alive x (o_live s) && o_bounds o && usable (option_map Array (nth dim (o_send o) None)) (o_heap s)
       && usable (option_map Array (nth dim (o_recv o) None)) (o_heap s) && usable (option_map Comm (o_comm o)) (o_heap s)
    then Some s else None.

  (** Programs.  Copies and assignments are those the compiler makes, member by member: the class declares a destructor only
      (mpisubdivision.hpp:80-88). *)
  Inductive oop :=
    | Construct (x : nat) | CopyOf (x y : nat) | AssignFrom (x y : nat) | Init (x : nat)
    | Exchange (x dim : nat) | Destruct (x : nat).

  Definition ostep (p : oop) (s : ost) : option ost :=
    match p with
    | Construct x => if alive x (o_live s) then None
                     else Some (mkOst (x :: o_live s) (oset (o_obj s) x fresh_sub) (o_heap s) (o_next s))
    | CopyOf x y => if alive x (o_live s) || negb (alive y (o_live s)) then None
                    else Some (mkOst (x :: o_live s) (oset (o_obj s) x (o_obj s y)) (o_heap s) (o_next s))
    | AssignFrom x y => if alive x (o_live s) && alive y (o_live s)
                        then Some (mkOst (o_live s) (oset (o_obj s) x (o_obj s y)) (o_heap s) (o_next s)) else None
    | Init x => o_initialise x s
    | Exchange x dim => o_exchange x dim s
    | Destruct x => o_destroy x s
    end.
  (** [None]: undefined behaviour. *)
  Fixpoint orun (ps : list oop) (s : ost) : option ost :=
    match ps with
    | [] => Some s
    | p :: ps' => match ostep p s with None => None | Some s' => orun ps' s' end
    end.
End Own.
