(** What the registration of array parameters means, independently of the loop that does it. *)
From Coq Require Import ZArith List Bool String Ascii.
From Verif Require Import ExprModel DeckModel ParamModel.
Import ListNotations.
Local Open Scope string_scope.

(** The name of component [i]: the name of the array followed by letter [i] of the extension. *)
Definition component (name ext : string) (i : nat) (n : string) : Prop :=
  exists c, String.get i ext = Some c /\ n = name ++ String c "".

Section Spec.
  Variable A : arith.

  (** The kind of a parameter: what it is for the deck, the initial content of its C++ variable and
      its default. *)
  Definition kind_is (p : perm) (m : value A) (d : option (value A)) (k : pkind A) : Prop :=
    match p with
    | ReadWrite => match d with None => k = Required A m | Some v => k = Default A m v end
    | OnlyRead => k = ReadOnly A m d
    end.
  (** The default of component [i]. *)
  Definition default_is (ds : defaults A) (i : nat) (d : option (value A)) : Prop :=
    match ds with NoDefault _ => d = None | Each _ l => d = nth_error l i | Same _ v => d = Some v end.

  (** The call registers the parameter [n] of kind [k]. *)
  Definition registers_param (c : setup_call A) (n : string) (k : pkind A) : Prop :=
    match c with
    | AddParameter _ name m d p => n = name /\ kind_is p m d k
    | AddConstant _ name v => n = name /\ k = Constant A v
    | AddArrayParameter _ name var ds p ext =>
        exists i m d, nth_error var i = Some m /\ component name ext i n /\ default_is ds i d /\ kind_is p m d k
    end.

  (** The call has a letter for every component. *)
  Definition enough_letters (c : setup_call A) : Prop :=
    match c with AddArrayParameter _ _ var _ _ ext => List.length var <= String.length ext | _ => True end.

  Definition scalar_names (calls : list (setup_call A)) : list string :=
    flat_map (fun c => match c with AddParameter _ n _ _ _ | AddConstant _ n _ => [n] | _ => [] end) calls.
  Definition array_names (calls : list (setup_call A)) : list string :=
    flat_map (fun c => match c with AddArrayParameter _ n _ _ _ _ => [n] | _ => [] end) calls.
  (** No two registrations use one name: scalars have different names, arrays have different names
      and no letter twice, and no scalar is called like a component. *)
  Definition different_names (calls : list (setup_call A)) : Prop :=
    NoDup (scalar_names calls) /\ NoDup (array_names calls) /\
    (forall name var ds p ext, In (AddArrayParameter A name var ds p ext) calls ->
       NoDup (list_ascii_of_string ext) /\ forall i n, component name ext i n -> ~ In n (scalar_names calls)).
  (** C++ fixes the types. *)
  Definition typed_calls (calls : list (setup_call A)) : Prop :=
    forall c, In c calls ->
    match c with
    | AddParameter _ _ m (Some d) _ => type_of d = type_of m
    | AddArrayParameter _ _ var (Same _ d) _ _ => forall m, In m var -> type_of d = type_of m
    | AddArrayParameter _ _ var (Each _ ds) _ _ => forall i m d, nth_error var i = Some m -> nth_error ds i = Some d -> type_of d = type_of m
    | _ => True
    end.
End Spec.
