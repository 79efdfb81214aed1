(** Model of [ParametersGroup], a set of variables named by their unique ids. *)
From Coq Require Import ZArith List Bool String.
From Verif Require Import ExprModel ExprSyntax DeckModel DeckSyntax DeckMeaning.
Import ListNotations.
Local Open Scope Z_scope.

(** [ParameterSet parameters] — blockparameters.hpp:47-51.  A [std::set<long>] is a list of ids: only
    whether an id occurs in it can be observed. *)
Definition group := list Z.
Definition no_members : group := [].

Section Member.
  Variable A : arith.
  Variable reg : string -> option fsig.
  Variable funs : fsig -> list (value A) -> result (value A).
  Variable restricted : bool.

  (** [add(pVariable)], and [add(pParameter)], which adds the variable of the parameter —
      blockparameters.cpp:32-40.  [getId] is the id of the [Unique] object of the variable, which an
      assignment replaces by that of the right-hand side — variables.cpp:106-116, [assign] in
      [DeckMeaning]. *)
  Definition add_variable (g : group) (v : vrec A) : group := v_id v :: g.
  (** [isElement(pVariable)], [isElement(pParameter)] — blockparameters.cpp:42-50. *)
  Definition is_element (g : group) (v : vrec A) : bool := existsb (Z.eqb (v_id v)) g.
  (** [addArray] — blockparameters.hpp:58-62: adds one after the other.  Adding a null pointer
      dereferences it. *)
  Fixpoint add_array (d : deck A) (g : group) (xs : list nat) : failure + group :=
    match xs with
    | [] => inr g
    | x :: xs' => match nth_error (d_vars d) x with
                  | None => inl UndefinedBehaviour
                  | Some v => add_array d (add_variable g v) xs'
                  end
    end.

  (** [hasElements(ids)] — blockparameters.cpp:52-56: [ids.erase(parameters.begin(),
      parameters.end())] with iterators into another set.  That is undefined unless the range is empty. *)
  Definition has_elements (g : group) (ids : list Z) : option (bool * list Z) :=
    match g with
    | [] => Some (match ids with [] => true | _ => false end, ids)
    | _ :: _ => None
    end.

  (** What happens to a group of variables while a deck is read: the program adds variables (one, or
      an array of them), the parser executes a statement.  A program that adds parameters from
      [initParameters], while the statement that opens the block is executed, is described by adding them right after
      that statement: opening a block gives no variable a new id. *)
  Inductive event := Added (xs : list nat) | Statement (s : statement).
  Definition happen (d : deck A) (g : group) (ev : event) : failure + (deck A * group) :=
    match ev with
    | Added xs => match add_array d g xs with inl f => inl f | inr g' => inr (d, g') end
    | Statement s => match exec A reg funs restricted s d with inl f => inl f | inr d' => inr (d', g) end
    end.
  Fixpoint happen_all (p : list event) (d : deck A) (g : group) : failure + (deck A * group) :=
    match p with
    | [] => inr (d, g)
    | ev :: p' => match happen d g ev with inl f => inl f | inr (d', g') => happen_all p' d' g' end
    end.
End Member.
