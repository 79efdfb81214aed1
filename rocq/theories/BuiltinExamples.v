(** Deck expressions that call the functions of the library, and concrete cases. *)
From Coq Require Import ZArith List Bool String Lia SpecFloat.
From Verif Require Import FieldModel ExprModel ExprSyntax ExprSpec ExprBuildModel ExprProofs ExprExamples BuiltinModel BuiltinSpec BuiltinProofs.
Import ListNotations.
Local Open Scope string_scope.

(** The store calls the functions of the library. *)
Definition calls_library {A : arith} (M : mathlib A) (st : store A) : Prop :=
  exists app, (forall f args v, app f args = Ok v -> type_of v = fs_ret f) /\ s_fun st = builtin_fun A M app.

Section Two.
  Variable A : arith.
  Variable M : mathlib A.
  Variable vars : string -> option (nat * ty).
  Variable old reg : string -> option fsig.
  Hypothesis R : adds documented old reg.

  (** The value of a call with two arguments. *)
  Lemma two_args name t1 t2 f s1 s2 e1 e2 st v1 v2 w1 w2 :
    In (name, [t1; t2], f) documented -> calls_library M st ->
    build_sum A vars reg s1 = Built e1 -> build_sum A vars reg s2 = Built e2 ->
    eval st e1 = Ok v1 -> eval st e2 = Ok v2 -> cast_to t1 v1 = Ok w1 -> cast_to t2 v2 = Ok w2 ->
    exists e, build_atom A vars reg (ACall name [s1; s2]) = Built e /\ eval st e = call A M f [w1; w2].
  Proof.
    intros I (app & T & S) B1 B2 E1 E2 C1 C2.
    destruct (documented_calls A M vars reg old name [t1; t2] f [s1; s2] [e1; e2] R I) as [_ D].
    { constructor; [exact B1|]. constructor; [exact B2|constructor]. }
    destruct (D eq_refl) as (e & B & _ & _ & V). exists e. split; [exact B|]. rewrite (proj1 (V st app T S)). cbn [map arg_values].
    rewrite E1, E2. cbn [rbind]. rewrite !converted_eq, C1, C2. cbn [rbind]. reflexivity.
  Qed.

  Lemma min_integers s1 s2 e1 e2 st a b : calls_library M st ->
    build_sum A vars reg s1 = Built e1 -> build_sum A vars reg s2 = Built e2 ->
    eval st e1 = Ok (VInt a) -> eval st e2 = Ok (VInt b) ->
    (exists e, build_atom A vars reg (ACall "minI" [s1; s2]) = Built e /\ eval st e = Ok (VFloat (f_of_int A (Z.min a b)))) /\
    (exists e, build_atom A vars reg (ACall "maxI" [s1; s2]) = Built e /\ eval st e = Ok (VFloat (f_of_int A (Z.max a b)))).
  Proof.
    intros S B1 B2 E1 E2. split.
    - destruct (two_args "minI" TInt TInt FminI s1 s2 e1 e2 st _ _ (VInt a) (VInt b) ltac:(cbn; tauto) S B1 B2 E1 E2 eq_refl eq_refl) as (e & B & V).
      exists e. split; [exact B|]. rewrite V. cbn. unfold c_minI, c_min. repeat f_equal. destruct (Z.ltb_spec b a); lia.
    - destruct (two_args "maxI" TInt TInt FmaxI s1 s2 e1 e2 st _ _ (VInt a) (VInt b) ltac:(cbn; tauto) S B1 B2 E1 E2 eq_refl eq_refl) as (e & B & V).
      exists e. split; [exact B|]. rewrite V. cbn. unfold c_maxI, c_max. repeat f_equal. destruct (Z.ltb_spec a b); lia.
  Qed.

  Lemma min_floats num s1 s2 e1 e2 st a b : calls_library M st -> float_order (m_lt M) num ->
    build_sum A vars reg s1 = Built e1 -> build_sum A vars reg s2 = Built e2 ->
    eval st e1 = Ok (VFloat a) -> eval st e2 = Ok (VFloat b) -> num a = true -> num b = true ->
    (exists e c, build_atom A vars reg (ACall "min" [s1; s2]) = Built e /\ eval st e = Ok (VFloat c) /\
       (c = a \/ c = b) /\ at_most (m_lt M) c a /\ at_most (m_lt M) c b) /\
    (exists e c, build_atom A vars reg (ACall "max" [s1; s2]) = Built e /\ eval st e = Ok (VFloat c) /\
       (c = a \/ c = b) /\ at_most (m_lt M) a c /\ at_most (m_lt M) b c).
  Proof.
    intros S O B1 B2 E1 E2 Na Nb. split.
    - destruct (two_args "min" TFloat TFloat Fmin s1 s2 e1 e2 st _ _ (VFloat a) (VFloat b) ltac:(cbn; tauto) S B1 B2 E1 E2 eq_refl eq_refl) as (e & B & V).
      destruct (min_spec (m_lt M) num O a b Na Nb) as (H1 & H2 & H3 & _).
      exists e, (c_min (m_lt M) a b). split; [exact B|]. split; [rewrite V; reflexivity|]. split; [exact H1|]. split; assumption.
    - destruct (two_args "max" TFloat TFloat Fmax s1 s2 e1 e2 st _ _ (VFloat a) (VFloat b) ltac:(cbn; tauto) S B1 B2 E1 E2 eq_refl eq_refl) as (e & B & V).
      destruct (max_spec (m_lt M) num O a b Na Nb) as (H1 & H2 & H3 & _).
      exists e, (c_max (m_lt M) a b). split; [exact B|]. split; [rewrite V; reflexivity|]. split; [exact H1|]. split; assumption.
  Qed.

  (** Neither argument below the other. *)
  Lemma min_unordered s1 s2 e1 e2 st a b : calls_library M st -> m_lt M a b = false -> m_lt M b a = false ->
    build_sum A vars reg s1 = Built e1 -> build_sum A vars reg s2 = Built e2 ->
    eval st e1 = Ok (VFloat a) -> eval st e2 = Ok (VFloat b) ->
    (exists e, build_atom A vars reg (ACall "min" [s1; s2]) = Built e /\ eval st e = Ok (VFloat a)) /\
    (exists e, build_atom A vars reg (ACall "max" [s1; s2]) = Built e /\ eval st e = Ok (VFloat a)).
  Proof.
    intros S La Lb B1 B2 E1 E2. split.
    - destruct (two_args "min" TFloat TFloat Fmin s1 s2 e1 e2 st _ _ (VFloat a) (VFloat b) ltac:(cbn; tauto) S B1 B2 E1 E2 eq_refl eq_refl) as (e & B & V).
      exists e. split; [exact B|]. rewrite V. cbn. unfold c_min. rewrite Lb. reflexivity.
    - destruct (two_args "max" TFloat TFloat Fmax s1 s2 e1 e2 st _ _ (VFloat a) (VFloat b) ltac:(cbn; tauto) S B1 B2 E1 E2 eq_refl eq_refl) as (e & B & V).
      exists e. split; [exact B|]. rewrite V. cbn. unfold c_max. rewrite La. reflexivity.
  Qed.

  (** A variable as an expression. *)
  Definition of_atom (a : atom) : sum := Sum None (Term (FAtom a) []) [].
  Definition power (a b : atom) : sum := Sum None (Term (FPow a None b) []) [].
  Lemma build_id x n t st v : vars x = Some (n, t) -> s_val st n = v -> type_of v = t ->
    exists e, build_sum A vars reg (of_atom (AId x)) = Built e /\ eval st e = Ok v.
  Proof.
    intros X V T. eexists. split; [cbn; unfold assign_identifier; rewrite X; cbn; reflexivity|].
    cbn. unfold get. rewrite V, T. destruct t; reflexivity.
  Qed.

  Lemma powers x y nx ny st : calls_library M st ->
    vars x = Some (nx, TFloat) -> vars y = Some (ny, TFloat) ->
    forall a b, s_val st nx = VFloat a -> s_val st ny = VFloat b ->
    exists e e', build_atom A vars reg (ACall "pow" [of_atom (AId x); of_atom (AId y)]) = Built e /\
                 build_sum A vars reg (power (AId x) (AId y)) = Built e' /\
                 eval st e = eval st e' /\ eval st e = Ok (VFloat (f_pow A a b)).
  Proof.
    intros S X Y a b Va Vb.
    destruct (build_id x nx TFloat st (VFloat a) X Va eq_refl) as (e1 & B1 & E1). destruct (build_id y ny TFloat st (VFloat b) Y Vb eq_refl) as (e2 & B2 & E2).
    destruct (two_args "pow" TFloat TFloat Fpow _ _ _ _ st (VFloat a) (VFloat b) (VFloat a) (VFloat b) ltac:(cbn; tauto) S B1 B2 E1 E2 eq_refl eq_refl) as (e & B & V).
    exists e. eexists. split; [exact B|]. split.
    - unfold power. cbn. unfold assign_identifier. rewrite X, Y. cbn. reflexivity.
    - rewrite V. cbn. rewrite Va, Vb. cbn. split; reflexivity.
  Qed.
  Lemma powers_integers x y nx ny st : calls_library M st ->
    vars x = Some (nx, TInt) -> vars y = Some (ny, TInt) ->
    forall a b, s_val st nx = VInt a -> s_val st ny = VInt b ->
    exists e e', build_atom A vars reg (ACall "pow" [of_atom (AId x); of_atom (AId y)]) = Built e /\
                 build_sum A vars reg (power (AId x) (AId y)) = Built e' /\
                 eval st e = Ok (VFloat (f_pow A (f_of_int A a) (f_of_int A b))) /\
                 eval st e' = rbind (eval st e) (cast_to TInt).
  Proof.
    intros S X Y a b Va Vb.
    destruct (build_id x nx TInt st (VInt a) X Va eq_refl) as (e1 & B1 & E1). destruct (build_id y ny TInt st (VInt b) Y Vb eq_refl) as (e2 & B2 & E2).
    destruct (two_args "pow" TFloat TFloat Fpow _ _ _ _ st (VInt a) (VInt b) (VFloat (f_of_int A a)) (VFloat (f_of_int A b)) ltac:(cbn; tauto) S B1 B2 E1 E2 eq_refl eq_refl) as (e & B & V).
    exists e. eexists. split; [exact B|]. split.
    - unfold power. cbn. unfold assign_identifier. rewrite X, Y. cbn. reflexivity.
    - rewrite V. cbn. rewrite Va, Vb. cbn. split; [reflexivity|]. destruct (f_to_int A _); reflexivity.
  Qed.
End Two.

(** Concrete cases: a registry with the functions of the library, used through a copy; the deck
    variables [n = 3] and [x]. *)
Definition b64_math : mathlib b64 := mkMath b64 SFltb (fun _ x => x) (fun x _ => x) (fun x _ => x) (fun x _ => x) (fun _ _ x => x).
Definition no_app (f : fsig) (l : list (value b64)) : result (value b64) := Undefined.
Definition lib_store (x y : spec_float) : store b64 :=
  mkStore b64 (fun v => match v with 0%nat => VInt 3 | 1%nat => VFloat (A := b64) x | _ => VFloat (A := b64) y end) (fun v => Nat.eqb v 0) Z.of_nat
    (fun _ => VInt 0) (builtin_fun b64 b64_math no_app).
Definition lib_vars (s : string) : option (nat * ty) :=
  if String.eqb s "n" then Some (0%nat, TInt) else if String.eqb s "x" then Some (1%nat, TFloat)
  else if String.eqb s "y" then Some (2%nat, TFloat) else None.
Definition lib_regs : regs := registerAllFunctions (reg_run regs0 [RNew; RCopy 0]) 1.
Lemma lib_store_calls x y : calls_library b64_math (lib_store x y).
Proof. exists no_app. split; [|reflexivity]. intros f args v E. discriminate. Qed.
Lemma lib_adds : adds documented (fun _ => None) (reg_lookup lib_regs 1).
Proof.
  pose proof (registers (reg_run regs0 [RNew; RCopy 0]) 1 (reg_valid [RNew; RCopy 0] 1 ltac:(cbn; lia))) as (_ & _ & _ & [H1 H2]).
  split; [exact H1|]. intros name H. unfold lib_regs. rewrite (H2 name H). reflexivity.
Qed.

(** [minI(n, 7)] through the original registry, [max(x, n)], [pow(n, 2)] and [n ^ 2]; wrong
    numbers of arguments and unknown names. *)
Example library_case :
  let reg := reg_lookup lib_regs 0 in
  let bld a := build_atom b64 lib_vars reg a in
  eval (lib_store (sf_of_Z 5) (sf_of_Z 1)) (tree (bld (ACall "minI" [of_atom (AId "n"); of_atom (AInt "7")]))) = Ok (VFloat (A := b64) (sf_of_Z 3)) /\
  eval (lib_store (sf_of_Z 5) (sf_of_Z 1)) (tree (bld (ACall "max" [of_atom (AId "x"); of_atom (AId "n")]))) = Ok (VFloat (A := b64) (sf_of_Z 5)) /\
  eval (lib_store (sf_of_Z 5) (sf_of_Z 1)) (tree (bld (ACall "pow" [of_atom (AId "n"); of_atom (AInt "2")]))) = Ok (VFloat (A := b64) (sf_of_Z 9)) /\
  bld (ACall "normal" [of_atom (AId "x"); of_atom (AId "n")]) = Failed WrongArity /\
  bld (ACall "frexp" [of_atom (AId "x")]) = Failed UndefinedFunction /\
  is_built (bld (ACall "besselj" [of_atom (AId "n"); of_atom (AId "x")])) = true.
Proof.
  cbv zeta. repeat (split; [vmeq|]). vmeq.
Qed.

(** A registry that registers a name again, an unrelated one, and an assignment. *)
Example registrations_case :
  let f := mkFsig 100 [TInt] TFloat false in
  let g := mkFsig 101 [] TFloat true in
  let h := [RNew; RNew; RCopy 0; RRegister 0 "f" f; RRegister 2 "f" g; RRegister 1 "g" f; RAssign 1 2] in
  group (rev h) 1 = group (rev h) 0 /\
  reg_lookup (reg_run regs0 h) 0 "f" = Some g /\ reg_lookup (reg_run regs0 h) 1 "f" = Some g /\
  reg_lookup (reg_run regs0 h) 1 "g" = None.
Proof. vm_compute. repeat split. Qed.

(** [min(x, y)] and [min(y, x)] when [x] is not a number. *)
Lemma nan_order :
  let reg := reg_lookup lib_regs 0 in
  let one := sf_of_Z 1 in
  exists e e',
    build_atom b64 lib_vars reg (ACall "min" [of_atom (AId "x"); of_atom (AId "y")]) = Built e /\
    build_atom b64 lib_vars reg (ACall "min" [of_atom (AId "y"); of_atom (AId "x")]) = Built e' /\
    eval (lib_store S754_nan one) e = Ok (VFloat (A := b64) S754_nan) /\
    eval (lib_store S754_nan one) e' = Ok (VFloat (A := b64) one).
Proof.
  cbv zeta. exists (tree (build_atom b64 lib_vars (reg_lookup lib_regs 0) (ACall "min" [of_atom (AId "x"); of_atom (AId "y")]))).
  exists (tree (build_atom b64 lib_vars (reg_lookup lib_regs 0) (ACall "min" [of_atom (AId "y"); of_atom (AId "x")]))).
  split; [apply tree_built; vmeq|]. split; [apply tree_built; vmeq|]. split; vmeq.
Qed.

Lemma nan_unordered : forall x, SFltb S754_nan x = false /\ SFltb x S754_nan = false.
Proof. intros x. split; [reflexivity|]. destruct x; reflexivity. Qed.
