(** Model of the registration of array parameters: [BlockParameters::addArrayParameter] of
    src/variables/blockparameters.hpp, as the calls of [addParameter] it makes.  The parameters
    themselves are modelled in DeckModel.v ([add_param]). *)
From Coq Require Import ZArith List Bool String Ascii.
From Verif Require Import ExprModel DeckModel.
Import ListNotations.
Local Open Scope string_scope.

Section Setup.
  Variable A : arith.

  (** [BlockParameters::Permissions] — blockparameters.hpp:155. *)
  Inductive perm := ReadWrite | OnlyRead.

  (** The overloads of [addParameter] without and with a default — blockparameters.hpp:195-207:
      [m] is the content of the C++ variable. *)
  Definition scalar_kind (p : perm) (m : value A) (d : option (value A)) : pkind A :=
    match p, d with
    | ReadWrite, None => Required A m
    | ReadWrite, Some v => Default A m v
    | OnlyRead, _ => ReadOnly A m d
    end.

  (** The three overloads of [addArrayParameter]: no default values, one for each component, one
      for all — blockparameters.hpp:219-237, 239-258, 260-279. *)
  Inductive defaults := NoDefault | Each (ds : list (value A)) | Same (d : value A).
  Definition default_of (ds : defaults) (i : nat) : option (value A) :=
    match ds with
    | NoDefault => None
    | Each l => nth_error l i
    | Same d => Some d
    end.

  (** The loop [for (int i=0; i<rank; ++i) addParameter(varName+extension[i], &(var[i]), ...)] —
      blockparameters.hpp:234-235, 255-256, 276-277, over the contents of [var]. *)
  Fixpoint array_loop (name ext : string) (p : perm) (ds : defaults) (i : nat) (var : list (value A)) : list (string * pkind A) :=
    match var with
    | [] => []
    | m :: var' =>
        (name ++ match String.get i ext with Some c => String c "" | None => "" end, scalar_kind p m (default_of ds i))
        :: array_loop name ext p ds (S i) var'
    end.
  (** [None]: [SCHNEK_REQUIRE] throws — blockparameters.hpp:230-232, 251-253, 272-274. *)
  Definition add_array (name : string) (var : list (value A)) (ds : defaults) (p : perm) (ext : string) : option (list (string * pkind A)) :=
    if Nat.leb (List.length var) (String.length ext) then Some (array_loop name ext p ds 0 var) else None.

  (** The default of the last argument — blockparameters.hpp:228, 249, 270. *)
  Definition letters : string := "xyzuvw".

  (** What [initParameters] of a block class does, as a list of calls. *)
  Inductive setup_call :=
  | AddParameter (name : string) (m : value A) (d : option (value A)) (p : perm)
  | AddConstant (name : string) (v : value A)
  | AddArrayParameter (name : string) (var : list (value A)) (ds : defaults) (p : perm) (ext : string).
  Definition one_call (c : setup_call) : option (list (string * pkind A)) :=
    match c with
    | AddParameter name m d p => Some [(name, scalar_kind p m d)]
    | AddConstant name v => Some [(name, Constant A v)]
    | AddArrayParameter name var ds p ext => add_array name var ds p ext
    end.
  Fixpoint setup_calls (l : list setup_call) : option (list (string * pkind A)) :=
    match l with
    | [] => Some []
    | c :: l' => match one_call c, setup_calls l' with Some a, Some b => Some (a ++ b)%list | _, _ => None end
    end.
End Setup.
