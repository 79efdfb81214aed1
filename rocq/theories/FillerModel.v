(** Model of [FieldFiller] — src/tools/fieldtools.hpp:63-158. *)
From Coq Require Import List Bool Arith.
Import ListNotations.

(** Fields, values, coordinate arrays, updaters and fillers are given by numbers for the objects.
    [impl] — fieldtools.hpp:73-102. *)
Record impl := mkImpl { i_field : nat; i_value : nat; i_coords : nat; i_updater : nat }.

(** A program. *)
Inductive fop :=
  | FNew (f : nat)                                                     (* FieldFiller f; *)
  | FDestroy (f : nat)
  | FSet (f k coords updater : nat) (fields : list (nat * nat))        (* f.set(coords, updater)(field, value)...; *)
  | FClear (f : nat)
  | FFill (f : nat).                                                   (* f.fillFields(); *)

(** The member [implementations] of the fillers that exist, and the function-local static variables
    [adder], one for each instantiation [k] of the template [set] — fieldtools.hpp:105-137, 141-149: coordinates,
    updater and the filler whose list is used. *)
Record fstate := mkFS { impls : nat -> option (list impl); adders : nat -> option (nat * nat * nat) }.
Definition fstart : fstate := mkFS (fun _ => None) (fun _ => None).
Definition put {X} (g : nat -> X) (k : nat) (x : X) : nat -> X := fun y => if Nat.eqb y k then x else g y.

(** One operation; the output are, for each [fillFields()], the calls of [fill()].  [None]: undefined behaviour (a filler that does
    not exist).  Simplification: the fields, coordinates and updaters live long enough. *)
Definition fstep (s : fstate) (o : fop) : option (fstate * list (list impl)) :=
  match o with
  | FNew f => match impls s f with None => Some (mkFS (put (impls s) f (Some [])) (adders s), []) | Some _ => None end
  | FDestroy f => match impls s f with Some _ => Some (mkFS (put (impls s) f None) (adders s), []) | None => None end
  | FSet f k coords updater fields =>
      match impls s f with
      | None => None
      | Some _ =>
          let a := match adders s k with Some a => a | None => (coords, updater, f) end in
          let s1 := mkFS (impls s) (put (adders s) k (Some a)) in
          (* operator() — fieldtools.hpp:129-136 *)
          let '(co, up, g) := a in
          match fields, impls s g with
          | [], _ => Some (s1, [])
          | _ :: _, None => None
          | _ :: _, Some l => Some (mkFS (put (impls s1) g (Some (l ++ map (fun x => mkImpl (fst x) (snd x) co up) fields))) (adders s1), [])
          end
      end
  | FClear f => match impls s f with Some _ => Some (mkFS (put (impls s) f (Some [])) (adders s), []) | None => None end
  | FFill f => match impls s f with Some l => Some (s, [l]) | None => None end
  end.
Fixpoint frun (s : fstate) (os : list fop) : option (list (list impl)) :=
  match os with
  | [] => Some []
  | o :: os' =>
      match fstep s o with
      | None => None
      | Some (s', out) => match frun s' os' with None => None | Some out' => Some (out ++ out') end
      end
  end.
