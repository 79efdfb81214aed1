(** What a deck expression means to its author, and related notions.  Refers to the values and
    the operators on values only, not to expression trees. *)
From Coq Require Import String ZArith List Bool.
From Verif Require Import ExprModel ExprSyntax.
Import ListNotations.

(** int < float < string *)
Definition ty_rank (t : ty) : nat := match t with TInt => 0 | TFloat => 1 | TString => 2 end.
Definition ty_max (a b : ty) : ty := if Nat.ltb (ty_rank a) (ty_rank b) then b else a.
Definition ty_le (a b : ty) : Prop := (ty_rank a <= ty_rank b)%nat.

Section Spec.
  Variable A : arith.
  (** The variables and functions in scope. *)
  Variable vars : string -> option (nat * ty).
  Variable reg : string -> option fsig.

  (** The type of an expression: the largest type among the operands of a chain. *)
  Fixpoint atype (a : atom) : ty :=
    match a with
    | AInt _ => TInt
    | AFloat _ => TFloat
    | AStr _ => TString
    | AId x => match vars x with Some (_, t) => t | None => TInt end
    | APar e => stype e
    | ACall f _ => match reg f with Some s => fs_ret s | None => TInt end
    end
  with ftype (f : factor) : ty :=
    match f with
    | FAtom a => atype a
    | FPow a _ b => ty_max (atype a) (atype b)
    end
  with ttype (t : term) : ty :=
    match t with
    | Term f rest => fold_left ty_max (map (fun x => ftype (snd x)) rest) (ftype f)
    end
  with stype (s : sum) : ty :=
    match s with
    | Sum _ t rest => fold_left ty_max (map (fun x => ttype (snd x)) rest) (ttype t)
    end.

  Variable st : store A.

  (** The operators on values: [int] arithmetic is exact where the result is an [int] and
      undefined otherwise, division truncates towards zero; [^] on [int] goes through floating
      point; strings only support [+] (all other operators give the empty string). *)
  Definition an_int (z : Z) : result (value A) :=
    if (Z.leb (-2147483648) z && Z.leb z 2147483647)%bool then Ok (VInt z) else Undefined.
  Definition op_value (o : bop) (v w : value A) : result (value A) :=
    match o, v, w with
    | OAdd, VInt a, VInt b => an_int (a + b)
    | OSub, VInt a, VInt b => an_int (a - b)
    | OMul, VInt a, VInt b => an_int (a * b)
    | ODiv, VInt a, VInt b => if Z.eqb b 0 then Undefined else an_int (Z.quot a b)
    | OExp, VInt a, VInt b =>
        match f_to_int A (f_pow A (f_of_int A a) (f_of_int A b)) with Some z => Ok (VInt z) | None => Undefined end
    | OAdd, VFloat a, VFloat b => Ok (VFloat (f_add A a b))
    | OSub, VFloat a, VFloat b => Ok (VFloat (f_sub A a b))
    | OMul, VFloat a, VFloat b => Ok (VFloat (f_mul A a b))
    | ODiv, VFloat a, VFloat b => Ok (VFloat (f_div A a b))
    | OExp, VFloat a, VFloat b => Ok (VFloat (f_pow A a b))
    | OAdd, VStr a, VStr b => Ok (VStr (String.append a b))
    | _, VStr _, VStr _ => Ok (VStr EmptyString)
    | _, _, _ => BadGet
    end.
  Definition minus (v : value A) : result (value A) :=
    match v with
    | VInt a => an_int (- a)
    | VFloat a => Ok (VFloat (f_neg A a))
    | VStr _ => Ok (VStr EmptyString)
    end.
  (** Conversion of a value to a type. *)
  Definition converted (t : ty) (v : value A) : result (value A) :=
    match v, t with
    | VInt z, TInt => Ok (VInt z)
    | VInt z, TFloat => Ok (VFloat (f_of_int A z))
    | VInt z, TString => Ok (VStr (int_to_str A z))
    | VFloat f, TInt => match f_to_int A f with Some z => Ok (VInt z) | None => Undefined end
    | VFloat f, TFloat => Ok (VFloat f)
    | VFloat f, TString => Ok (VStr (float_to_str A f))
    | VStr s, TInt => match str_to_int A s with Some z => Ok (VInt z) | None => BadCast end
    | VStr s, TFloat => match str_to_float A s with Some f => Ok (VFloat f) | None => BadCast end
    | VStr s, TString => Ok (VStr s)
    end.
  (** The value of a variable used with the type [t]. *)
  Definition of_type (t : ty) (v : value A) : result (value A) :=
    match t, v with
    | TInt, VInt _ | TFloat, VFloat _ | TString, VStr _ => Ok v
    | _, _ => BadGet
    end.

  (** A chain [v (op) w (op) w ...] evaluated left to right, every operand first converted to the
      type [t] of the chain. *)
  Fixpoint chain_value (t : ty) (v : value A) (rest : list (bop * result (value A))) : result (value A) :=
    match rest with
    | [] => Ok v
    | (o, w) :: rest' =>
        rbind w (fun w => rbind (converted t w) (fun w => rbind (op_value o v w) (fun v => chain_value t v rest')))
    end.
  Definition chain (t : ty) (first : result (value A)) (rest : list (bop * result (value A))) : result (value A) :=
    rbind first (fun v => rbind (converted t v) (fun v => chain_value t v rest)).

  (** Evaluate the arguments of a function from first to last, each converted to the type of its
      parameter. *)
  Fixpoint arg_values (params : list ty) (args : list (result (value A))) : result (list (value A)) :=
    match params, args with
    | t :: params', w :: args' =>
        rbind w (fun v => rbind (converted t v) (fun v => rbind (arg_values params' args') (fun r => Ok (v :: r))))
    | _, _ => Ok []
    end.

  Definition mul_op (times : bool) : bop := if times then OMul else ODiv.
  Definition add_op (plus : bool) : bop := if plus then OAdd else OSub.
  Definition signed (s : option bool) (v : result (value A)) : result (value A) :=
    match s with Some false => rbind v (minus) | _ => v end.

  (** The conventional reading: parentheses and calls first, then [^], then [*] and [/] from left
      to right, then a leading sign, then [+] and [-] from left to right. *)
  Fixpoint avalue (a : atom) : result (value A) :=
    match a with
    | AInt s => match str_to_int A s with Some z => Ok (VInt z) | None => BadCast end
    | AFloat s => match str_to_float A s with Some f => Ok (VFloat f) | None => BadCast end
    | AStr s => Ok (VStr s)
    | AId x => match vars x with Some (v, t) => of_type t (s_val st v) | None => BadGet end
    | APar e => svalue e
    | ACall f args =>
        match reg f with
        | Some s => rbind (arg_values (fs_params s) (map svalue args)) (s_fun st s)
        | None => BadGet
        end
    end
  with fvalue (f : factor) : result (value A) :=
    match f with
    | FAtom a => avalue a
    | FPow a s b => chain (ftype f) (avalue a) [(OExp, signed s (avalue b))]
    end
  with tvalue (t : term) : result (value A) :=
    match t with
    | Term f rest => chain (ttype t) (fvalue f) (map (fun x => (mul_op (fst x), fvalue (snd x))) rest)
    end
  with svalue (s : sum) : result (value A) :=
    match s with
    | Sum sg t rest => chain (stype s) (signed sg (tvalue t)) (map (fun x => (add_op (fst x), tvalue (snd x))) rest)
    end.

  (** A property of all chains of an expression, given as a property of the list of the types of
      the operands. *)
  Variable P : list ty -> Prop.
  Fixpoint achains (a : atom) : Prop :=
    match a with
    | APar e => schains e
    | ACall _ args => (fix all (l : list sum) : Prop := match l with [] => True | e :: l' => schains e /\ all l' end) args
    | _ => True
    end
  with fchains (f : factor) : Prop :=
    match f with
    | FAtom a => achains a
    | FPow a _ b => P [atype a; atype b] /\ achains a /\ achains b
    end
  with tchains (t : term) : Prop :=
    match t with
    | Term f rest => P (ftype f :: map (fun x => ftype (snd x)) rest) /\ fchains f /\
        (fix all (l : list (bool * factor)) : Prop := match l with [] => True | e :: l' => fchains (snd e) /\ all l' end) rest
    end
  with schains (s : sum) : Prop :=
    match s with
    | Sum _ t rest => P (ttype t :: map (fun x => ttype (snd x)) rest) /\ tchains t /\
        (fix all (l : list (bool * term)) : Prop := match l with [] => True | e :: l' => tchains (snd e) /\ all l' end) rest
    end.
End Spec.

(** All operands of the chain have one type. *)
Definition one_type (l : list ty) : Prop := forall a b, In a l -> In b l -> a = b.
(** One of the last two operands of the chain has the largest type. *)
Definition late_largest (l : list ty) : Prop :=
  forall a, In a l -> exists b, In b (firstn 2 (rev l)) /\ ty_le a b.

(** Functions return values of their declared type (guaranteed by the C++ compiler). *)
Definition functions_typed {A : arith} (st : store A) : Prop :=
  forall f args v, s_fun st f args = Ok v -> type_of v = fs_ret f.

(** Every name is known, every call has the right number of arguments, every literal is in
    range. *)
Section WellFormed.
  Variable A : arith.
  Variable vars : string -> option (nat * ty).
  Variable reg : string -> option fsig.
  Fixpoint awf (a : atom) : Prop :=
    match a with
    | AInt s => exists z, str_to_int A s = Some z
    | AFloat s => exists f, str_to_float A s = Some f
    | AStr _ => True
    | AId x => exists v, vars x = Some v
    | APar e => swf e
    | ACall f args => (exists s, reg f = Some s /\ List.length args = List.length (fs_params s)) /\
        (fix all (l : list sum) : Prop := match l with [] => True | e :: l' => swf e /\ all l' end) args
    end
  with fwf (f : factor) : Prop :=
    match f with
    | FAtom a => awf a
    | FPow a _ b => awf a /\ awf b
    end
  with twf (t : term) : Prop :=
    match t with
    | Term f rest => fwf f /\
        (fix all (l : list (bool * factor)) : Prop := match l with [] => True | e :: l' => fwf (snd e) /\ all l' end) rest
    end
  with swf (s : sum) : Prop :=
    match s with
    | Sum _ t rest => twf t /\
        (fix all (l : list (bool * term)) : Prop := match l with [] => True | e :: l' => twf (snd e) /\ all l' end) rest
    end.
End WellFormed.

(** Two states between which only external memory, changeable variables and functions declared
    as always changing may differ. *)
Definition same_constants {A : arith} (st st' : store A) : Prop :=
  (forall x, s_fixed st x = true -> s_val st' x = s_val st x) /\
  (forall f, fs_always f = false -> s_fun st' f = s_fun st f).

(** Two states that agree on the variables whose id is in the list [ids], on all functions not
    declared as always changing, and on all functions if the list contains the special id -1. *)
Definition agree_on {A : arith} (ids : list Z) (st st' : store A) : Prop :=
  (forall x, In (s_id st x) ids -> s_val st' x = s_val st x) /\
  (forall f, fs_always f = false -> s_fun st' f = s_fun st f) /\
  (In (-1)%Z ids -> s_fun st' = s_fun st).
