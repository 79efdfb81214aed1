(** Model of the hierarchy of block objects: the phases of initialisation (src/variables/block.cpp),
    data shared between blocks (block.hpp:135-196, blockdata.hpp), containers of child blocks
    (blockcontainer.hpp), and the evaluation of parameters (blockparameters.hpp).

    The objects are those of [DeckModel]: numbers into a list of [bobj], each with its parent and its
    children in order. *)
From Coq Require Import ZArith List Bool String Ascii.
From Verif Require Import ExprModel DeckModel.
Import ListNotations.
Local Open Scope nat_scope.

(** [getParent()], [children], [getName()] — block.hpp:69-71, 116, 130.  A number that is no object
    has none. *)
Definition parent (objs : list bobj) (i : nat) : option nat :=
  match nth_error objs i with Some o => o_parent o | None => None end.
Definition children (objs : list bobj) (i : nat) : list nat :=
  match nth_error objs i with Some o => o_children o | None => [] end.
Definition name_of (objs : list bobj) (i : nat) : string :=
  match nth_error objs i with Some o => o_name o | None => EmptyString end.

(** ** Initialisation *)

(** The virtual functions called by [initAll], with [evaluateParameters] of one block. *)
Inductive phase := Evaluate | RegisterData | PreInit | Init | PostInit.

Section Phases.
  Variable objs : list bobj.
  (** The state of the program, and exceptions. *)
  Variables St Exn : Type.
  (** What the function of a phase does for a block: any code that does not change the tree.
      (Simplification: [addChild] is public, so a hook could add blocks.) *)
  Variable hook : phase -> nat -> St -> Exn + St.

  Definition andThen (x : Exn + St) (f : St -> Exn + St) : Exn + St :=
    match x with inl e => inl e | inr s => f s end.

  (** [evaluateParameters], [registerHierarchy], [preInitHierarchy], [initHierarchy],
      [postInitHierarchy] — block.cpp:75-82, 101-135.  [n] bounds the depth of the tree; the number of
      objects is large enough. *)
  Fixpoint hierarchy (n : nat) (ph : phase) (i : nat) (s : St) : Exn + St :=
    match n with
    | O => inr s
    | S n' =>
        andThen (hook ph i s)
          ((fix go (l : list nat) (s : St) : Exn + St :=
              match l with
              | [] => inr s
              | c :: l' => andThen (hierarchy n' ph c s) (go l')
              end) (children objs i))
    end.

  (** [while (b->parent) b = &( *parent);] — block.cpp:139-140: [parent] is the member of [this], not
      of [b].  [None]: the loop has not ended. *)
  Fixpoint climb (fuel : nat) (this b : nat) : option nat :=
    match fuel with
    | O => None
    | S fuel' =>
        match parent objs b with
        | None => Some b
        | Some _ => match parent objs this with Some p => climb fuel' this p | None => None end
        end
    end.

  (** [initAll] — block.cpp:137-147. *)
  Definition init_all (fuel : nat) (this : nat) (s : St) : option (Exn + St) :=
    match climb fuel this this with
    | None => None
    | Some b =>
        let n := List.length objs in
        Some (andThen (hierarchy n Evaluate b s) (fun s =>
              andThen (hierarchy n RegisterData b s) (fun s =>
              andThen (hierarchy n PreInit b s) (fun s =>
              andThen (hierarchy n Init b s) (fun s => hierarchy n PostInit b s)))))
    end.
End Phases.
Arguments andThen {St Exn} x f.
Arguments hierarchy objs {St Exn} hook n ph i s.
Arguments init_all objs {St Exn} hook fuel this s.

(** ** Containers *)

(** [BlockContainer<T>::children] of every object (empty if it is none) — blockcontainer.hpp:49. *)
Definition containers := nat -> list nat.
Definition push (cs : containers) (p i : nat) : containers := fun q => if Nat.eqb q p then (cs q ++ [i])%list else cs q.
(** [ChildBlock<T>::preInit] — blockcontainer.hpp:84-90.  [holds p]: object [p] is a
    [BlockContainer<T>]; [fits i]: object [i] is a [ChildBlock<T>] and a [T].  Other objects have a
    [preInit] that leaves the containers alone. *)
Definition child_pre_init (objs : list bobj) (holds fits : nat -> bool) (i : nat) (cs : containers) : containers :=
  match parent objs i with
  | Some p => if holds p && fits i then push cs p i else cs
  | None => cs
  end.

(** ** Shared data *)

Section Data.
  (** Addresses of data. *)
  Variable Ptr : Type.

  (** [BlockData<T>] — blockdata.hpp:41-90, for one type: what [add] has entered, the latest first.
      The id of a block is its number. *)
  Definition registry := list (nat * string * Ptr).
  (** [Block::addData] — block.hpp:172-176, [BlockData::add] — blockdata.hpp:58-69. *)
  Definition add_data (r : registry) (i : nat) (key : string) (p : Ptr) : registry := ((i, key), p) :: r.
  (** [BlockData::exists], [get] — blockdata.hpp:71-90. *)
  Fixpoint datum (r : registry) (i : nat) (key : string) : option Ptr :=
    match r with
    | [] => None
    | ((j, k), p) :: r' => if (Nat.eqb i j && String.eqb key k)%bool then Some p else datum r' i key
    end.

  (** [boost::find_first(key, ".")] and the parts before and after — block.hpp:144-148. *)
  Fixpoint cut (key : string) : option (string * string) :=
    match key with
    | EmptyString => None
    | String c s =>
        if Ascii.eqb c "." then Some (EmptyString, s)
        else match cut s with Some (h, t) => Some (String c h, t) | None => None end
    end.

  (** The result of [getData]: [true] with the pointer, [false], or [DuplicateVariableException]. *)
  Inductive search := Found (p : Ptr) | Missing | Duplicate.

  (** The loops over the children — block.hpp:149-156, 162-169: [data] holds the last pointer found;
      [count] is the number of children with one.  An exception leaves the loop. *)
  Inductive counted := Count (n : nat) (data : option Ptr) | Thrown.
  Fixpoint count_children (f : nat -> search) (l : list nat) (n : nat) (data : option Ptr) : counted :=
    match l with
    | [] => Count n data
    | c :: l' =>
        match f c with
        | Found p => count_children f l' (S n) (Some p)
        | Missing => count_children f l' n data
        | Duplicate => Thrown
        end
    end.

  Variable objs : list bobj.
  Variable r : registry.

  (** [getData(key, data, false)] — block.hpp:135-170.  [n] bounds the depth of the tree. *)
  Fixpoint get_inside (n : nat) (i : nat) (key : string) : search :=
    match datum r i key with
    | Some p => Found p
    | None =>
        match n with
        | O => Missing
        | S n' =>
            let rest :=
              match count_children (fun c => get_inside n' c key) (children objs i) 0 None with
              | Thrown => Duplicate
              | Count 0 _ => Missing
              | Count 1 (Some p) => Found p
              | Count _ _ => Duplicate
              end in
            match cut key with
            | Some (h, t) =>
                match count_children (fun c => if String.eqb (name_of objs c) h then get_inside n' c t else Missing) (children objs i) 0 None with
                | Thrown => Duplicate
                | Count 0 _ => rest
                | Count 1 (Some p) => Found p
                | Count _ _ => Duplicate
                end
            | None => rest
            end
        end
    end.

  (** [getData(key, data, true)] — block.hpp:135-170.  [n] bounds the number of enclosing blocks. *)
  Fixpoint get_data (n : nat) (i : nat) (key : string) : search :=
    match datum r i key with
    | Some p => Found p
    | None =>
        let up := match n, parent objs i with
                  | S n', Some p => get_data n' p key
                  | _, _ =>
                      match count_children (fun c => get_inside (List.length objs) c key) (children objs i) 0 None with
                      | Thrown => Duplicate
                      | Count 0 _ => Missing
                      | Count 1 (Some p) => Found p
                      | Count _ _ => Duplicate
                      end
                  end in
        match cut key with
        | Some (h, t) =>
            match count_children (fun c => if String.eqb (name_of objs c) h then get_inside (List.length objs) c t else Missing) (children objs i) 0 None with
            | Thrown => Duplicate
            | Count 0 _ => up
            | Count 1 (Some p) => Found p
            | Count _ _ => Duplicate
            end
        | None => up
        end
    end.
  (** [retrieveData(key, T &data)] — block.hpp:189-196: the pointer whose content is stored in
      [data]; [Missing] is [VariableNotFoundException]. *)
  Definition retrieve (i : nat) (key : string) : search := get_data i i key.
End Data.
Arguments datum {Ptr} r i key.
Arguments add_data {Ptr} r i key p.
Arguments Found {Ptr} p. Arguments Missing {Ptr}. Arguments Duplicate {Ptr}.
Arguments Count {Ptr} n data. Arguments Thrown {Ptr}.
Arguments count_children {Ptr} f l n data.
Arguments get_inside {Ptr} objs r n i key.
Arguments get_data {Ptr} objs r n i key.
Arguments retrieve {Ptr} objs r i key.

(** [retrieveData(key, T *&data)] — block.hpp:178-187: first the registry of pointers to [T] is
    searched, [star] giving the pointer stored at an address, then that of [T]. *)
Definition retrieve_pointer {Ptr PPtr : Type} (star : PPtr -> Ptr) (objs : list bobj) (rp : registry PPtr) (r : registry Ptr)
    (i : nat) (key : string) : search Ptr :=
  match retrieve objs rp i key with
  | Found p => Found (star p)
  | Duplicate => Duplicate
  | Missing => retrieve objs r i key
  end.

(** ** Parameters *)

Section Parameters.
  Variable A : arith.
  Variable funs : fsig -> list (value A) -> result (value A).
  Notation deck := (deck A).

  (** Exceptions of [Block::evaluateParameters]. *)
  Inductive param_error :=
  | NotInitialised (name : string)      (* VariableNotInitialisedException *)
  | EvalCast                            (* TypeCastException *)
  | EvalGet                             (* boost::bad_get *)
  | EvalUndefined.                      (* undefined behaviour *)

  (** [ *value = boost::get<T>(v)] — blockparameters.hpp:116-119; [T] is the type of what the C++
      variable holds. *)
  Definition store_value (d : deck) (m : nat) (v : value A) : param_error + deck :=
    match nth_error (d_mem d) m with
    | Some old => if ty_eqb (type_of old) (type_of v) then inr (set_mem A d (update_nth (d_mem d) m v)) else inl EvalGet
    | None => inl EvalUndefined
    end.
  (** [ConcreteParameter::evaluate], [ConstantParameter::evaluate] — blockparameters.hpp:104-120,
      138-141, with [Variable::evaluateExpression] — variables.cpp:119-124. *)
  Definition evaluate_param (np : string * param) (d : deck) : param_error + deck :=
    let (name, p) := np in
    match p_mem p with
    | None => inr d
    | Some m =>
        match nth_error (d_vars d) (p_var p) with
        | None => inl EvalUndefined
        | Some v =>
            if negb (v_init v) then inl (NotInitialised name)
            else if v_ro v then inr d
            else if v_fixed v then store_value d m (v_val v)
            else
              match v_expr v with
              | None => inl EvalUndefined
              | Some e =>
                  match eval (store_of A funs d) e with
                  | Ok w =>
                      store_value (set_vars A d (update_nth (d_vars d) (p_var p)
                        (mkVar A w (v_expr v) (v_type v) (v_fixed v) (v_init v) (v_ro v) (v_id v)))) m w
                  | BadCast => inl EvalCast
                  | BadGet => inl EvalGet
                  | Undefined => inl EvalUndefined
                  end
              end
        end
    end.
  (** [BlockParameters::evaluate] — blockparameters.hpp:281-288: in the order of the names. *)
  Fixpoint evaluate_params (l : list (string * param)) (d : deck) : param_error + deck :=
    match l with
    | [] => inr d
    | np :: l' => match evaluate_param np d with inl e => inl e | inr d' => evaluate_params l' d' end
    end.
  Definition evaluate_object (i : nat) (d : deck) : param_error + deck :=
    match nth_error (d_objs d) i with
    | Some o => evaluate_params (o_params o) d
    | None => inl EvalUndefined
    end.
  (** [evaluateParameters] of object [i] and all inside — block.cpp:75-82. *)
  Definition evaluate_all (i : nat) (d : deck) : param_error + deck :=
    hierarchy (d_objs d) (fun _ => evaluate_object) (List.length (d_objs d)) Evaluate i d.
End Parameters.
