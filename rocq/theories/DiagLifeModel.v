(** Model of the registration of diagnostics with the manager: src/diagnostic/diagnostic.cpp, diagnostic.hpp. *)
From Coq Require Import List Bool Arith.
Import ListNotations.

(** What a program does with diagnostic objects: construct, copy (the implicit copy constructor), destroy, and call
    [DiagnosticManager::execute].  Objects are numbered in the order of their construction. *)
Inductive dop := Construct | Copy (i : nat) | Destroy (i : nat) | Execute.
(** The number of objects constructed so far, the objects that exist, the list of pointers of the manager. *)
Record dstate := mkD { made : nat; alive : list nat; registered : list nat }.
Definition dstart : dstate := mkD 0 [] [].

(** [None]: use of an object that does not exist.  The calls made by [Execute].
    Constructor: [addIntervalDiagnostic(this)] — diagnostic.cpp:97-100, 126-129, 192-200; the implicit copy constructor does not register, the
    destructors (diagnostic.hpp:58, diagnostic.t:36-40) do not deregister; [execute] calls every pointer — diagnostic.cpp:202-221.
    The two lists of the manager are one here. *)
Definition dstep (st : dstate) (o : dop) : option (dstate * list nat) :=
  match o with
  | Construct => Some (mkD (S (made st)) (made st :: alive st) (registered st ++ [made st]), [])
  | Copy i => if existsb (Nat.eqb i) (alive st) then Some (mkD (S (made st)) (made st :: alive st) (registered st), []) else None
  | Destroy i => if existsb (Nat.eqb i) (alive st) then Some (mkD (made st) (remove Nat.eq_dec i (alive st)) (registered st), []) else None
  | Execute => if forallb (fun i => existsb (Nat.eqb i) (alive st)) (registered st) then Some (st, registered st) else None
  end.
Fixpoint drun (st : dstate) (os : list dop) : option (dstate * list nat) :=
  match os with
  | [] => Some (st, [])
  | o :: os' =>
      match dstep st o with
      | None => None
      | Some (st1, c1) => match drun st1 os' with None => None | Some (st2, c2) => Some (st2, c1 ++ c2) end
      end
  end.
