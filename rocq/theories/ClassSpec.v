(** What a program that registers block classes has said, read off its operations, newest first. *)
From Coq Require Import List Bool Arith String.
From Verif Require Import ClassModel.
Import ListNotations.

(** The objects and the registries they belong to: a new object starts a registry of its own, a copy
    is in that of its original, an assigned object moves to that of the other; destroyed: [None].
    [true] with it: the object restricts the nesting of blocks. *)
Fixpoint started (h : list op) : nat :=
  match h with
  | [] => 0
  | New _ :: h' => S (started h')
  | _ :: h' => started h'
  end.
Fixpoint members (h : list op) : list (option (nat * bool)) :=
  match h with
  | [] => []
  | New r :: h' => members h' ++ [Some (started h', r)]
  | Copy b :: h' => members h' ++ [nth b (members h') None]
  | Assign b c :: h' => map (fun i => nth (if Nat.eqb i b then c else i) (members h') None) (seq 0 (List.length (members h')))
  | Destroy b :: h' => map (fun i => if Nat.eqb i b then None else nth i (members h') None) (seq 0 (List.length (members h')))
  | _ :: h' => members h'
  end.
Definition member (h : list op) (b : nat) : option (nat * bool) := nth b (members h) None.
Definition registry (h : list op) (b : nat) : option nat := option_map fst (member h b).
(** Some object of the registry still exists. *)
Definition alive (h : list op) (g : nat) : bool :=
  existsb (fun x => match x with Some (g', _) => Nat.eqb g' g | None => false end) (members h).

(** The classes the references handed out stand for: a registry and a name. *)
Definition the_class (h : list op) (b : nat) (name : string) : option (nat * string) :=
  option_map (fun g => (g, name)) (registry h b).
Fixpoint references (h : list op) : list (option (nat * string)) :=
  match h with
  | [] => []
  | Register b name :: h' | Get b name :: h' => references h' ++ [the_class h' b name]
  | _ :: h' => references h'
  end.
Definition reference (h : list op) (k : nat) : option (nat * string) := nth k (references h) None.

Definition same (x : option (nat * string)) (g : nat) (name : string) : bool :=
  match x with Some (g', name') => Nat.eqb g' g && String.eqb name' name | None => false end.

(** The class has been registered, or asked for. *)
Definition known (h : list op) (g : nat) (name : string) : bool := existsb (fun x => same x g name) (references h).

(** The children added to a class, and the C++ class set, since it was last registered. *)
Fixpoint added (h : list op) (g : nat) (name : string) : list string :=
  match h with
  | [] => []
  | Register b n :: h' => if same (the_class h' b n) g name then [] else added h' g name
  | AddChild k child :: h' => if same (reference h' k) g name then child :: added h' g name else added h' g name
  | _ :: h' => added h' g name
  end.
Fixpoint set_to (h : list op) (g : nat) (name : string) : option nat :=
  match h with
  | [] => None
  | Register b n :: h' => if same (the_class h' b n) g name then None else set_to h' g name
  | SetClass k c :: h' => if same (reference h' k) g name then Some c else set_to h' g name
  | _ :: h' => set_to h' g name
  end.

(** A reference may be used as long as its class is not registered again and an object of its
    registry exists. *)
Fixpoint current (h : list op) (k : nat) : bool :=
  match h with
  | [] => false
  | o :: h' =>
      if Nat.ltb k (List.length (references h')) then
        current h' k &&
        negb (match o, reference h' k with
              | Register b n, Some (g, name) => same (the_class h' b n) g name
              | _, _ => false
              end)
      else Nat.ltb k (List.length (references h))
  end.
Definition usable (h : list op) (k : nat) : bool :=
  current h k && match reference h k with Some (g, _) => alive h g | None => false end.

(** The operation uses only objects and references that exist. *)
Definition uses_existing (h : list op) (o : op) : bool :=
  let is b := match member h b with Some _ => true | None => false end in
  match o with
  | New _ => true
  | Copy b | Destroy b | Register b _ | Get b _ => is b
  | Assign b c => is b && is c
  | AddChild k _ | SetClass k _ => usable h k
  end.
Fixpoint legal (h : list op) : bool :=
  match h with
  | [] => true
  | o :: h' => uses_existing h' o && legal h'
  end.

(** No class is registered again after it was registered or asked for. *)
Fixpoint registered_once (h : list op) : bool :=
  match h with
  | [] => true
  | Register b name :: h' =>
      match registry h' b with Some g => negb (known h' g name) | None => true end && registered_once h'
  | _ :: h' => registered_once h'
  end.
(** The program adds the child to the class at some time. *)
Definition ever_added (program : list op) (g : nat) (name child : string) : Prop :=
  exists before k after, program = before ++ AddChild k child :: after /\ reference (rev before) k = Some (g, name).
