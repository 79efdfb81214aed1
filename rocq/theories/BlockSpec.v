(** What users expect of the tree of block objects: order of initialisation, shared data, parameters.
    No function of [BlockModel] that walks the tree is used. *)
From Coq Require Import ZArith List Bool String Ascii.
From Verif Require Import ExprModel DeckModel BlockModel.
Import ListNotations.
Local Open Scope nat_scope.

(** ** The tree *)
Definition child_of (objs : list bobj) (p c : nat) : Prop := exists o, nth_error objs c = Some o /\ o_parent o = Some p.
(** Parents come before their children and list each of them once. *)
Definition linked (objs : list bobj) : Prop :=
  forall i o, nth_error objs i = Some o ->
    (forall p, o_parent o = Some p -> p < i) /\
    NoDup (o_children o) /\ (forall c, In c (o_children o) <-> child_of objs i c).
Definition is_root (objs : list bobj) (i : nat) : Prop := exists o, nth_error objs i = Some o /\ o_parent o = None.
(** Object [j] is object [i] or inside it, directly or not. *)
Inductive within (objs : list bobj) (i : nat) : nat -> Prop :=
| w_self : i < List.length objs -> within objs i i
| w_in p j : within objs i p -> child_of objs p j -> within objs i j.
(** [l] lists object [i], the object around it, ..., the root. *)
Inductive around (objs : list bobj) : nat -> list nat -> Prop :=
| a_root i : is_root objs i -> around objs i [i]
| a_in i p l : child_of objs p i -> around objs p l -> around objs i (i :: l).

(** ** Initialisation *)
Definition before {X : Type} (l : list X) (a b : X) : Prop := exists l1 l2 l3, l = l1 ++ a :: l2 ++ b :: l3.
(** All objects inside [r], each once, parents before children, the children of one object in their
    order. *)
Definition in_order (objs : list bobj) (r : nat) (order : list nat) : Prop :=
  NoDup order /\ (forall j, In j order <-> within objs r j) /\
  (forall p c, In p order -> child_of objs p c -> before order p c) /\
  (forall p o c1 c2, In p order -> nth_error objs p = Some o -> before (o_children o) c1 c2 -> before order c1 c2).
(** Calls, one after the other, up to the first exception. *)
Fixpoint perform {St Exn : Type} (hook : phase -> nat -> St -> Exn + St) (calls : list (phase * nat)) (s : St) : Exn + St :=
  match calls with
  | [] => inr s
  | (ph, i) :: calls' => match hook ph i s with inl e => inl e | inr s' => perform hook calls' s' end
  end.
(** The phases, each over all objects. *)
Definition phases (order : list nat) : list (phase * nat) :=
  map (pair Evaluate) order ++ map (pair RegisterData) order ++ map (pair PreInit) order ++ map (pair Init) order ++ map (pair PostInit) order.

(** ** Shared data *)
Section Data.
  Context {Ptr : Type}.
  Variable objs : list bobj.
  Variable r : registry Ptr.

  (** The block has registered a datum under the key; the last registration counts. *)
  Definition holds (i : nat) (key : string) (p : Ptr) : Prop :=
    exists l1 l2, r = l1 ++ ((i, key), p) :: l2 /\ forall q, ~ In ((i, key), q) l1.
  Definition held (i : nat) (key : string) : Prop := exists p, holds i key p.

  Definition plain (s : string) : Prop := ~ In "."%char (list_ascii_of_string s).
  Definition named (i : nat) (n : string) : Prop := exists o, nth_error objs i = Some o /\ o_name o = n.

  (** Where a key may be found inside a block (a block and a key of that block): in the block itself,
      or else along the path [name.key], or else, if no path leads anywhere, in a child. *)
  Definition place := (nat * string)%type.
  Fixpoint answer (levels : nat) (i : nat) (key : string) (x : place) : Prop :=
    (held i key /\ x = (i, key)) \/
    (~ held i key /\
     match levels with
     | O => False
     | S n =>
         let path y := exists h t c, key = (h ++ String "." t)%string /\ plain h /\ child_of objs i c /\ named c h /\ answer n c t y in
         path x \/ ((forall y, ~ path y) /\ exists c, child_of objs i c /\ answer n c key x)
     end).
  (** No tree has more levels than objects. *)
  Definition inside_of (i : nat) (key : string) (x : place) : Prop := answer (List.length objs) i key x.
  Definition along (i : nat) (key : string) (x : place) : Prop :=
    exists h t c, key = (h ++ String "." t)%string /\ plain h /\ child_of objs i c /\ named c h /\ inside_of c t x.
  (** ... in a block itself or along a path from it. *)
  Definition known (i : nat) (key : string) (x : place) : Prop :=
    (held i key /\ x = (i, key)) \/ (~ held i key /\ along i key x).
  (** Where a key of block [i] is to be found: at the nearest block around it that knows the key, or
      else anywhere inside the root. *)
  Definition candidate (i : nat) (key : string) (x : place) : Prop :=
    exists l, around objs i l /\
      ((exists near b far, l = near ++ b :: far /\ known b key x /\ forall b', In b' near -> forall y, ~ known b' key y) \/
       ((forall b', In b' l -> forall y, ~ known b' key y) /\
        exists root c, last l 0 = root /\ child_of objs root c /\ inside_of c key x)).
  (** Nothing above [j], up to [i], holds the key. *)
  Definition topmost (i : nat) (key : string) (j : nat) : Prop :=
    within objs i j /\ held j key /\ forall k, within objs i k -> within objs k j -> k <> j -> ~ held k key.
End Data.

(** ** Containers *)
(** An initialisation in which [preInit] of [ChildBlock] does its work and all else leaves the
    containers alone. *)
Definition container_hooks {St Exn : Type} (objs : list bobj) (holder fits : nat -> bool) (view : St -> containers) (hook : phase -> nat -> St -> Exn + St) : Prop :=
  forall ph i s s', hook ph i s = inr s' -> forall p, view s' p =
    match ph with PreInit => child_pre_init objs holder fits i (view s) p | _ => view s p end.

(** ** Parameters *)
Section Parameters.
  Variable A : arith.
  Variable funs : fsig -> list (value A) -> result (value A).
  Notation deck := (deck A).

  (** No class registers two parameters under one name. *)
  Definition distinct_params (classes : list (string * class A)) : Prop :=
    forall cls c l, In (cls, c) classes -> c_impl A c = Some l -> NoDup (map fst l).
  (** Parameter [n] of object [i] is the deck variable [x], and the C++ variable [m] unless it is a
      constant. *)
  Definition binds (d : deck) (i : nat) (n : string) (x : nat) (m : option nat) : Prop :=
    exists o p, nth_error (d_objs d) i = Some o /\ In (n, p) (o_params o) /\ p_var p = x /\ p_mem p = m.
  (** What a parameter of each kind is before the parameters are evaluated. *)
  Definition param_state (mem : list (value A)) (k : pkind A) (m : option nat) (v : vrec A) : Prop :=
    match k with
    | Required _ t => v_ro v = false /\ v_type v = type_of t /\ exists c, m = Some c /\ nth_error mem c = Some t
    | Default _ t _ => v_ro v = false /\ v_type v = type_of t /\ v_init v = true /\ exists c, m = Some c /\ nth_error mem c = Some t
    | ReadOnly _ t o => v_ro v = true /\ v_init v = true /\ v_fixed v = false /\
        exists c, m = Some c /\ v_expr v = Some (EExt (type_of t) c) /\ nth_error mem c = Some (match o with Some w => w | None => t end)
    | Constant _ w => v_ro v = true /\ v_init v = true /\ v_fixed v = true /\ v_val v = w /\ m = None
    end.
  (** The C++ variable [c] is that of the parameter [n] of an object inside [i], a parameter the deck
      may assign to. *)
  Definition receives (d : deck) (i : nat) (n : string) (v : vrec A) (c : nat) : Prop :=
    exists j x, within (d_objs d) i j /\ binds d j n x (Some c) /\ nth_error (d_vars d) x = Some v /\ v_ro v = false.
  (** The variable has a value, or an expression that can be evaluated. *)
  Definition ready (d : deck) (v : vrec A) : Prop :=
    v_init v = true /\ (v_fixed v = true \/ exists e w, v_expr v = Some e /\ eval (store_of A funs d) e = Ok w).
  (** Nothing but the contents of C++ variables differs. *)
  Definition same_but_memory (d d' : deck) : Prop :=
    d_vars d' = d_vars d /\ d_blocks d' = d_blocks d /\ d_objs d' = d_objs d /\ List.length (d_mem d') = List.length (d_mem d).
End Parameters.
