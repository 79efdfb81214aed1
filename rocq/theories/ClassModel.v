(** Model of the registry of block classes of src/variables/blockclasses.{hpp,cpp}. *)
From Coq Require Import List Bool Arith String.
Import ListNotations.

(** [BlockClassDescriptor] — blockclasses.hpp:66-99; [factory] is the C++ class of the
    [GenericBlockFactory], a number. *)
Record desc := mkDesc { children : list string; factory : option nat }.

(** All objects of a program: the descriptors, the maps from names to descriptors, the [BlockClasses]
    objects (the map and [restr]; [None] once destroyed) and the references handed out, each to a
    descriptor — blockclasses.hpp:103-121. *)
Record state := mkState {
  descs : list desc;
  maps : list (list (string * nat));
  objects : list (option (nat * bool));
  refs : list nat
}.
Definition empty : state := mkState [] [] [] [].

Fixpoint find (m : list (string * nat)) (name : string) : option nat :=
  match m with
  | [] => None
  | (n, d) :: m' => if String.eqb n name then Some d else find m' name
  end.
Fixpoint put (m : list (string * nat)) (name : string) (d : nat) : list (string * nat) :=
  match m with
  | [] => [(name, d)]
  | (n, e) :: m' => if String.eqb n name then (n, d) :: m' else (n, e) :: put m' name d
  end.
Fixpoint set_nth {X : Type} (l : list X) (i : nat) (x : X) : list X :=
  match l, i with
  | [], _ => []
  | _ :: l', 0 => x :: l'
  | y :: l', S i' => y :: set_nth l' i' x
  end.

(** A descriptor exists as long as a map holds it, a map as long as an object has it: both are
    [shared_ptr] — blockclasses.hpp:101, 106-107. *)
Definition exists_desc (s : state) (d : nat) : bool :=
  existsb (fun o => match o with
                    | Some (m, _) => existsb (fun e => Nat.eqb (snd e) d) (nth m (maps s) [])
                    | None => false
                    end) (objects s).

Inductive op :=
| New (restr : bool)                      (* BlockClasses b(restr); *)
| Copy (b : nat)                          (* BlockClasses c(b);  also in the constructors of Parser *)
| Assign (b c : nat)                      (* b = c; *)
| Destroy (b : nat)
| Register (b : nat) (name : string)      (* BlockClassDescriptor &k = b.registerBlock(name); *)
| Get (b : nat) (name : string)           (* BlockClassDescriptor &k = b(name);  or b.get(name) *)
| AddChild (k : nat) (child : string)     (* k.addChildren(child);  or one of the calls that follow *)
| SetClass (k : nat) (c : nat).           (* k.setClass<C>(); *)

(** The object [b], if it exists. *)
Definition object (s : state) (b : nat) : option (nat * bool) :=
  match nth_error (objects s) b with Some (Some o) => Some o | _ => None end.

(** [BlockClasses::registerBlock] — blockclasses.cpp:55-60. *)
Definition register (s : state) (m : nat) (name : string) : state :=
  let d := List.length (descs s) in
  mkState (descs s ++ [mkDesc [] None]) (set_nth (maps s) m (put (nth m (maps s) []) name d)) (objects s) (refs s ++ [d]).

(** [None]: undefined behaviour (the object or the descriptor does not exist any more) or no program. *)
Definition step (s : state) (o : op) : option state :=
  match o with
  | New r =>                              (* blockclasses.hpp:111 *)
      Some (mkState (descs s) (maps s ++ [[]]) (objects s ++ [Some (List.length (maps s), r)]) (refs s))
  | Copy b =>                             (* blockclasses.hpp:112-113 *)
      match object s b with
      | Some x => Some (mkState (descs s) (maps s) (objects s ++ [Some x]) (refs s))
      | None => None
      end
  | Assign b c =>                         (* supplied by the compiler *)
      match object s b, object s c with
      | Some _, Some x => Some (mkState (descs s) (maps s) (set_nth (objects s) b (Some x)) (refs s))
      | _, _ => None
      end
  | Destroy b =>
      match object s b with
      | Some _ => Some (mkState (descs s) (maps s) (set_nth (objects s) b None) (refs s))
      | None => None
      end
  | Register b name =>
      match object s b with
      | Some (m, _) => Some (register s m name)
      | None => None
      end
  | Get b name =>                         (* blockclasses.cpp:62-68 *)
      match object s b with
      | Some (m, _) =>
          match find (nth m (maps s) []) name with
          | None => Some (register s m name)
          | Some d => Some (mkState (descs s) (maps s) (objects s) (refs s ++ [d]))
          end
      | None => None
      end
  | AddChild k child =>                   (* blockclasses.cpp:31-47 *)
      match nth_error (refs s) k with
      | Some d =>
          if exists_desc s d then
            match nth_error (descs s) d with
            | Some x => Some (mkState (set_nth (descs s) d (mkDesc (child :: children x) (factory x))) (maps s) (objects s) (refs s))
            | None => None
            end
          else None
      | None => None
      end
  | SetClass k c =>                       (* blockclasses.hpp:91-95 *)
      match nth_error (refs s) k with
      | Some d =>
          if exists_desc s d then
            match nth_error (descs s) d with
            | Some x => Some (mkState (set_nth (descs s) d (mkDesc (children x) (Some c))) (maps s) (objects s) (refs s))
            | None => None
            end
          else None
      | None => None
      end
  end.
Fixpoint run (s : state) (l : list op) : option state :=
  match l with
  | [] => Some s
  | o :: l' => match step s o with Some s' => run s' l' | None => None end
  end.

(** The descriptor the object finds under the name. *)
Definition lookup (s : state) (b : nat) (name : string) : option desc :=
  match object s b with
  | Some (m, _) => match find (nth m (maps s) []) name with Some d => nth_error (descs s) d | None => None end
  | None => None
  end.
(** [BlockClasses::hasChild] — blockclasses.cpp:70-77; [None]: [BlockNotFoundException]; and
    [BlockClassDescriptor::hasChild] — blockclasses.cpp:49-52. *)
Definition has_child (s : state) (b : nat) (parent child : string) : option bool :=
  match lookup s b parent with
  | Some x => Some (existsb (String.eqb child) (children x))
  | None => None
  end.
(** The class of the objects made, if [hasBlockFactory] — blockclasses.hpp:97-98. *)
Definition makes (s : state) (b : nat) (name : string) : option nat :=
  match lookup s b name with Some x => factory x | None => None end.
(** [restrictBlocks] — blockclasses.hpp:120. *)
Definition restricts (s : state) (b : nat) : option bool := option_map snd (object s b).
