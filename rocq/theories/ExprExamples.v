(** Concrete instances for the theorems of ExprProps.v: IEEE binary64 arithmetic, a few functions
    and variables, and deck expressions. *)
From Coq Require Import SpecFloat String Ascii ZArith List Bool Lia.
From Verif Require Import FieldModel ExprModel ExprSyntax ExprSpec ExprBuildModel ExprProofs ExprGroupSpec.
Import ListNotations.
Local Open Scope string_scope.

(** Reading of simple decimal literals. *)
Definition digit (c : ascii) : option Z :=
  let n := Z.of_nat (nat_of_ascii c) in if (Z.leb 48 n && Z.leb n 57)%bool then Some (n - 48)%Z else None.
Fixpoint digits (acc : Z) (s : string) : option Z :=
  match s with
  | EmptyString => Some acc
  | String c s' => match digit c with Some d => digits (10 * acc + d)%Z s' | None => None end
  end.
Fixpoint decimal (acc : Z) (scale : option Z) (s : string) : option spec_float :=
  match s with
  | EmptyString => Some (SFdiv 53 1024 (sf_of_Z acc) (sf_of_Z match scale with Some k => k | None => 1%Z end))
  | String c s' =>
      if Ascii.eqb c "." then decimal acc (Some 1%Z) s'
      else match digit c with
           | Some d => decimal (10 * acc + d)%Z (match scale with Some k => Some (10 * k)%Z | None => None end) s'
           | None => None
           end
  end.
Definition int_literal (s : string) : option Z :=
  match digits 0 s with Some z => if Z.ltb z (2 ^ 31) then Some z else None | None => None end.
Fixpoint sf_pow (a : spec_float) (n : nat) : spec_float :=
  match n with 0%nat => sf_of_Z 1 | S n => SFmul 53 1024 a (sf_pow a n) end.

(** binary64; [pow] for whole exponents only, numbers are not printed. *)
Definition b64 : arith :=
  mkArith spec_float (SFadd 53 1024) (SFsub 53 1024) (SFmul 53 1024) (SFdiv 53 1024)
    (fun a b => match sf_floor b with Some n => sf_pow a (Z.to_nat n) | None => S754_nan end)
    SFopp sf_of_Z sf_floor (fun _ => "#") (fun _ => "#.") int_literal (decimal 0 None).

Definition ex_vars (s : string) : option (nat * ty) :=
  if String.eqb s "n" then Some (0%nat, TInt) else if String.eqb s "x" then Some (1%nat, TFloat) else None.
Definition f_minus := mkFsig 0 [TFloat; TFloat] TFloat false.
Definition f_random := mkFsig 1 [] TFloat true.
Definition ex_reg (s : string) : option fsig :=
  if String.eqb s "minus" then Some f_minus else if String.eqb s "random" then Some f_random else None.
Definition ex_fun (r : spec_float) (f : fsig) (l : list (value b64)) : result (value b64) :=
  if ty_eqb (fs_ret f) TFloat then
    match fs_name f, l with
    | 0%nat, [VFloat a; VFloat b] => Ok (VFloat (A := b64) (f_sub b64 a b))
    | 1%nat, [] => Ok (VFloat (A := b64) r)
    | _, _ => Undefined
    end
  else Undefined.
Definition ex_store (n : Z) (x r : spec_float) : store b64 :=
  mkStore b64 (fun v => if Nat.eqb v 0 then VInt n else VFloat (A := b64) x) (fun v => Nat.eqb v 0) (fun v => Z.of_nat v + 5)%Z
    (fun _ => VInt 0) (ex_fun r).

Lemma ex_functions n x r : functions_typed (ex_store n x r).
Proof.
  intros f args v. simpl. unfold ex_fun. destruct (ty_eqb (fs_ret f) TFloat) eqn:E; [|discriminate]. apply ty_eqb_eq in E. rewrite E.
  destruct (fs_name f) as [|[|k]]; try discriminate.
  - destruct args as [|[| |] [|[| |] [|]]]; try discriminate. intros H. inversion H. reflexivity.
  - destruct args; [|discriminate]. intros H. inversion H. reflexivity.
Qed.

(** The tree built, if there is one. *)
Definition tree (b : built (expr b64)) : expr b64 := match b with Built e => e | Failed _ => EValue (VInt 0) end.
Definition is_built (b : built (expr b64)) : bool := match b with Built _ => true | Failed _ => false end.
Lemma tree_built b : is_built b = true -> b = Built (tree b).
Proof. destruct b; [reflexivity|discriminate]. Qed.
Ltac vmeq := match goal with |- ?a = ?b => vm_cast_no_check (@eq_refl _ b) end.

Definition st0 := ex_store 3 (sf_of_Z 4) (sf_of_Z 7).
Definition at_ (a : atom) : sum := Sum None (Term (FAtom a) []) [].
Definition tm (a : atom) : term := Term (FAtom a) [].

(** [-2^n*5 - (n - 10)/2 - 1] *)
Definition ex_int : sum :=
  Sum (Some false) (Term (FPow (AInt "2") None (AId "n")) [(true, FAtom (AInt "5"))])
    [(false, Term (FAtom (APar (Sum None (tm (AId "n")) [(false, tm (AInt "10"))]))) [(false, FAtom (AInt "2"))]);
     (false, tm (AInt "1"))].
Example ex_int_hyp : schains ex_vars ex_reg one_type ex_int /\ swf b64 ex_vars ex_reg ex_int /\
  svalue b64 ex_vars ex_reg st0 ex_int = Ok (VInt (-38)).
Proof.
  split; [|split].
  - assert (H : forall l, Forall (fun t => t = TInt) l -> one_type l).
    { intros l Hl a b Ha Hb. rewrite Forall_forall in Hl. rewrite (Hl a Ha), (Hl b Hb). reflexivity. }
    repeat first [exact Logic.I | apply H; vm_compute; repeat constructor; fail | split].
  - vm_compute. repeat split; eauto.
  - vmeq.
Qed.

(** [1 - minus(n, x)/2.0 - n]: types int, float, int. *)
Definition ex_mixed : sum :=
  Sum None (tm (AInt "1"))
    [(false, Term (FAtom (ACall "minus" [at_ (AId "n"); at_ (AId "x")])) [(false, FAtom (AFloat "2.0"))]);
     (false, tm (AId "n"))].
Example ex_mixed_hyp : schains ex_vars ex_reg late_largest ex_mixed /\ ~ schains ex_vars ex_reg one_type ex_mixed /\
  swf b64 ex_vars ex_reg ex_mixed /\
  svalue b64 ex_vars ex_reg st0 ex_mixed = Ok (VFloat (A := b64) (S754_finite true 6755399441055744 (-52))).
Proof.
  split; [|split; [|split]].
  - assert (H : forall l, (exists b, In b (firstn 2 (rev l)) /\ Forall (fun t => ty_le t b) l) -> late_largest l).
    { intros l (b & Hb & Hl) a Ha. exists b. split; [exact Hb|]. rewrite Forall_forall in Hl. apply Hl, Ha. }
    repeat first [exact Logic.I
      | apply H; exists TFloat; vm_compute; split; [auto; fail|repeat constructor; fail]
      | apply H; exists TInt; vm_compute; split; [auto; fail|repeat constructor; fail]
      | split].
  - intros (H & _). specialize (H TInt TFloat). vm_compute in H. discriminate H; auto.
  - vm_compute. repeat split; eauto.
  - vmeq.
Qed.

(** [1.5 - 3 - 2] *)
Definition ex_wrong : sum := Sum None (tm (AFloat "1.5")) [(false, tm (AInt "3")); (false, tm (AInt "2"))].
(** [10.0/4/2] *)
Definition ex_wrong_div : sum := Sum None (Term (FAtom (AFloat "10.0")) [(false, FAtom (AInt "4")); (false, FAtom (AInt "2"))]) [].

Lemma wrong_values : exists e e',
  build_sum b64 ex_vars ex_reg ex_wrong = Built e /\
  eval st0 e = Ok (VFloat (A := b64) (binary_normalize 53 1024 1 (-1) false)) /\
  svalue b64 ex_vars ex_reg st0 ex_wrong = Ok (VFloat (A := b64) (binary_normalize 53 1024 (-7) (-1) false)) /\
  build_sum b64 ex_vars ex_reg ex_wrong_div = Built e' /\
  eval st0 e' = Ok (VFloat (A := b64) (sf_of_Z 5)) /\
  svalue b64 ex_vars ex_reg st0 ex_wrong_div = Ok (VFloat (A := b64) (binary_normalize 53 1024 5 (-2) false)).
Proof.
  exists (tree (build_sum b64 ex_vars ex_reg ex_wrong)), (tree (build_sum b64 ex_vars ex_reg ex_wrong_div)).
  split; [apply tree_built; vm_compute; reflexivity|]. split; [vmeq|]. split; [vmeq|].
  split; [apply tree_built; vm_compute; reflexivity|]. split; vmeq.
Qed.

(** [n*2] is constant (n is fixed), [x + n] depends on x and n, [random()] always changes. *)
Definition ex_const : sum := Sum None (Term (FAtom (AId "n")) [(true, FAtom (AInt "2"))]) [].
Definition ex_dep : sum := Sum None (tm (AId "x")) [(true, tm (AId "n"))].
Example ex_const_case : exists e, build_sum b64 ex_vars ex_reg ex_const = Built e /\ is_constant st0 e = true.
Proof. exists (tree (build_sum b64 ex_vars ex_reg ex_const)). split; [apply tree_built|]; vm_compute; reflexivity. Qed.
Example ex_dep_case : exists e, build_sum b64 ex_vars ex_reg ex_dep = Built e /\ is_constant st0 e = false /\
  dependencies st0 e = [6; 5]%Z.
Proof. exists (tree (build_sum b64 ex_vars ex_reg ex_dep)). split; [apply tree_built; vm_compute; reflexivity|]. split; vm_compute; reflexivity. Qed.
(** Two different states that agree on the dependencies of [n*2]. *)
Example ex_agree : agree_on [5%Z] st0 (ex_store 3 (sf_of_Z 9) (sf_of_Z 7)) /\
  s_val st0 1%nat <> s_val (ex_store 3 (sf_of_Z 9) (sf_of_Z 7)) 1%nat.
Proof.
  split; [|discriminate]. split; [|split].
  - intros x [H|[]]. simpl in H. assert (x = 0%nat) by lia. subst x. reflexivity.
  - reflexivity.
  - reflexivity.
Qed.

(** [minus(x)] has the wrong number of arguments; [minus(n, x)] receives 3.0 and 4.0. *)
Example ex_calls :
  build_atom b64 ex_vars ex_reg (ACall "minus" [at_ (AId "x")]) = Failed WrongArity /\
  build_atom b64 ex_vars ex_reg (ACall "plus" [at_ (AId "x")]) = Failed UndefinedFunction /\
  exists e, build_atom b64 ex_vars ex_reg (ACall "minus" [at_ (AId "n"); at_ (AId "x")]) = Built e /\
            eval st0 e = Ok (VFloat (A := b64) (sf_of_Z (-1))).
Proof.
  split; [vmeq|]. split; [vmeq|]. exists (tree (build_atom b64 ex_vars ex_reg (ACall "minus" [at_ (AId "n"); at_ (AId "x")]))).
  split; [apply tree_built; vm_compute; reflexivity|vmeq].
Qed.

(** [1.5 - 3 - 2] is read as [1.5 - (3 - 2)], [10.0/4/2] as [10.0/(4/2)]. *)
Example ex_grouped_case : functions_typed st0 /\ parenthesised ex_vars ex_reg ex_wrong =
  Sum None (tm (AFloat "1.5")) [(false, tm (APar (Sum None (tm (AInt "3")) [(false, tm (AInt "2"))])))] /\
  parenthesised ex_vars ex_reg ex_wrong_div =
  Sum None (Term (FAtom (AFloat "10.0")) [(false, FAtom (APar (Sum None (Term (FAtom (AInt "4")) [(false, FAtom (AInt "2"))]) [])))]) [].
Proof. split; [apply ex_functions|split; vm_compute; reflexivity]. Qed.
