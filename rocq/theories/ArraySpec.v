(** Specification of array programs: an array is a function from component numbers to values, a
    stored expression is the function it denoted when it was created. *)
From Verif Require Import Vec ShareModel ArrayModel.

Section ArraySpec.
  Context {F : Type}.
  Variable fo : fops F.

  (** What C++ computes for [a op b] on two numbers: integer arithmetic if both are integers, with
      division rounded towards zero and undefined for divisor zero; otherwise floating point
      arithmetic on the operands, an integer one being converted. *)
  Definition as_float (v : num F) : F := match v with NI z => f_of_int fo z | NF f => f end.
  Definition scalar_op (op : bop) (a b : num F) : option (num F) :=
    match op, a, b with
    | Plus, NI x, NI y => Some (NI (x + y))
    | Minus, NI x, NI y => Some (NI (x - y))
    | Mult, NI x, NI y => Some (NI (x * y))
    | Div, NI x, NI y => match y with Z0 => None | _ => Some (NI (Z.sgn x * Z.sgn y * (Z.abs x / Z.abs y))) end
    | _, _, _ => Some (NF (f_bin fo op (as_float a) (as_float b)))
    end.
  Definition scalar_neg (a : num F) : num F :=
    match a with NI x => NI (0 - x) | NF x => NF (f_neg fo x) end.

  Record sst := mkSst { s_arr : nat -> nat -> num F; s_exp : nat -> option (nat -> option (num F)) }.

  Definition sscal (st : sst) (s : sarg F) : num F :=
    match s with SLit v => v | SElem x i => s_arr st x i end.

  (** Value of component [i] of an expression; [None]: undefined (integer division by zero or an
      expression variable that has not been created). *)
  Fixpoint denote (st : sst) (e : aexp F) (i : nat) : option (num F) :=
    match e with
    | AArr x => Some (s_arr st x i)
    | AObj k => match s_exp st k with Some g => g i | None => None end
    | AScalL op s e' => obind (denote st e' i) (fun b => scalar_op op (sscal st s) b)
    | AScalR op e' s => obind (denote st e' i) (fun a => scalar_op op a (sscal st s))
    | AUn m x => Some (if m then scalar_neg (s_arr st x i) else s_arr st x i)
    | ABin op e1 e2 => obind (denote st e1 i) (fun a => obind (denote st e2 i) (fun b => scalar_op op a b))
    end.

  Fixpoint objs_exist (st : sst) (e : aexp F) : Prop :=
    match e with
    | AArr _ | AUn _ _ => True
    | AObj k => s_exp st k <> None
    | AScalL _ _ e' | AScalR _ e' _ => objs_exist st e'
    | ABin _ e1 e2 => objs_exist st e1 /\ objs_exist st e2
    end.

  (** Component-wise meaning of the statements, for arrays of length [N]: every new component is a
      function of the old state. *)
  Definition new_comp (st : sst) (s : astmt F) (i : nat) : option (num F) :=
    match s with
    | StAssign x e => denote st e i
    | StCompound op x e => obind (denote st e i) (fun b => scalar_op op (s_arr st x i) b)
    | StScal op x s => scalar_op op (s_arr st x i) (sscal st s)
    | StFill x s => Some (sscal st s)
    | StLet _ _ => None
    end.

  Definition target (s : astmt F) : option nat :=
    match s with
    | StAssign x _ | StCompound _ x _ | StScal _ x _ | StFill x _ => Some x
    | StLet _ _ => None
    end.

  Definition stmt_exp (s : astmt F) : option (aexp F) :=
    match s with StAssign _ e | StCompound _ _ e | StLet _ e => Some e | _ => None end.

  (** [spec_step N st s st']. *)
  Definition spec_step (N : nat) (st : sst) (s : astmt F) (st' : sst) : Prop :=
    match stmt_exp s with Some e => objs_exist st e | None => True end /\
    match s with
    | StLet k e => s_arr st' = s_arr st /\ s_exp st' = upd (s_exp st) k (Some (denote st e))
    | _ =>
      s_exp st' = s_exp st /\
      forall x i, (i < N)%nat ->
        if match target s with Some y => Nat.eqb x y | None => false end
        then new_comp st s i = Some (s_arr st' x i)
        else s_arr st' x i = s_arr st x i
    end.

  Fixpoint spec_run (N : nat) (st : sst) (p : list (astmt F)) (st' : sst) : Prop :=
    match p with
    | [] => st' = st
    | s :: p' => exists m, spec_step N st s m /\ spec_run N m p' st'
    end.

  (** All components have type [t], element subscripts are below [N]. *)
  Definition sarg_ok (t : ty) (N : nat) (s : sarg F) : Prop :=
    match s with SLit v => num_ty v = t | SElem _ i => (i < N)%nat end.
  Fixpoint aexp_ok (t : ty) (N : nat) (e : aexp F) : Prop :=
    match e with
    | AArr _ | AObj _ | AUn _ _ => True
    | AScalL _ s e' | AScalR _ e' s => sarg_ok t N s /\ aexp_ok t N e'
    | ABin _ e1 e2 => aexp_ok t N e1 /\ aexp_ok t N e2
    end.
  Definition stmt_ok (t : ty) (N : nat) (s : astmt F) : Prop :=
    match s with
    | StAssign _ e | StCompound _ _ e | StLet _ e => aexp_ok t N e
    | StScal _ _ s | StFill _ s => sarg_ok t N s
    end.

  (** The concrete state holds the abstract one: arrays of [N] components of type [t]. *)
  Definition holds (t : ty) (N : nat) (c : ast_ F) (s : sst) : Prop :=
    (forall x, fst (a_arr c x) = t /\ length (snd (a_arr c x)) = N /\
       forall i, (i < N)%nat -> nth_error (snd (a_arr c x)) i = Some (s_arr s x i) /\
                                num_ty (s_arr s x i) = t) /\
    (forall k, match a_obj c k, s_exp s k with
               | None, None => True
               | Some o, Some g => otype o = t /\
                   forall i, (i < N)%nat -> obj_get fo o i = g i /\ (forall v, g i = Some v -> num_ty v = t)
               | _, _ => False
               end).
End ArraySpec.
