(** Property theorems C17, C18, C64: fixed-length arrays. *)
From Coq Require Import QArith Floats.SpecFloat.
From Verif Require Import Vec ShareModel ArrayModel ArraySpec ArrayProofs ArrayExamples.
Open Scope Z_scope.

(** C17.  For arrays of any length [N] with components of one type [t], any program of
    assignments, compound assignments, scalar assignments, fills and stored expressions, with any
    aliasing between targets, operands and scalar arguments, behaves component-wise on the values
    the arrays had before each statement ([spec_run]); both directions, so the program also has
    undefined behaviour exactly when a component divides an integer by zero. *)
Theorem C17_elementwise_alias_safe : forall F (fo : fops F) t N p c s,
  holds fo t N c s -> Forall (stmt_ok t N) p ->
  (forall c', run_a fo c p = Some c' -> exists s', spec_run fo N s p s' /\ holds fo t N c' s') /\
  (forall s', spec_run fo N s p s' -> exists c', run_a fo c p = Some c' /\ holds fo t N c' s').
Proof. exact @array_programs. Qed.
Print Assumptions C17_elementwise_alias_safe.

Example C17_hypotheses :
  holds zops TI 3 ex_arrays ex_arrays_spec /\ Forall (stmt_ok TI 3) ex_array_prog /\
  option_map (fun c => (snd (a_arr c 0%nat), snd (a_arr c 1%nat))) (run_a zops ex_arrays ex_array_prog) =
  Some ([NI (-18); NI (-18); NI (-18)], [NI 5; NI 7; NI 9]).
Proof. exact ex_array_ok. Qed.

(** With operands of different component types the operator's type parameter, not the usual
    arithmetic conversions, decides: [(a+b)*2] on floating point arrays is computed in [int]. *)
Theorem C17_mixed_types_refuted : exists (F : Type) (fo : fops F) c e i v w,
  (* a, b are floating point arrays, the scalar is an int *)
  fst (a_arr c 0%nat) = TF /\ fst (a_arr c 1%nat) = TF /\
  e = AScalR Mult (ABin Plus (AArr 0%nat) (AArr 1%nat)) (SLit (NI 2)) /\
  (exists a b s, nth_error (snd (a_arr c 0%nat)) i = Some a /\ nth_error (snd (a_arr c 1%nat)) i = Some b /\
     scalar_op fo Plus a b = Some s /\ scalar_op fo Mult s (NI 2) = Some v) /\
  (exists o, build c e = Some o /\ obj_get fo o i = Some w) /\ v <> w.
Proof. exact mixed_types. Qed.
Print Assumptions C17_mixed_types_refuted.

(** C18.  [==] is component-wise equality, an equivalence; [!=] its negation; [<], [<=] hold iff
    they hold in every component; [<=] is a partial order.  The component type is any type with
    a decidable total order [le] whose built-in operators [!=], [>=], [>] agree with it. *)
Theorem C18_comparisons_partial : forall T (le : T -> T -> Prop) (ne ge gt : T -> T -> bool),
  (forall x y, ne x y = false <-> x = y) ->
  (forall x y, ge x y = true <-> le y x) ->
  (forall x y, gt x y = true <-> le y x /\ x <> y) ->
  (forall x, le x x) -> (forall x y z, le x y -> le y z -> le x z) ->
  (forall x y, le x y -> le y x -> x = y) -> (forall x y, le x y \/ le y x) ->
  let c := mkCmp ne ge gt in
  let eq_ := arr_eq c in let le_ := arr_le c in let lt_ := arr_lt c in
  forall a b, length a = length b ->
  (eq_ a b = true <-> a = b) /\
  (arr_ne c a b = negb (eq_ a b)) /\
  (le_ a b = true <-> Forall2 le a b) /\
  (lt_ a b = true <-> Forall2 (fun x y => le x y /\ x <> y) a b) /\
  le_ a a = true /\
  (le_ a b = true -> le_ b a = true -> eq_ a b = true) /\
  (forall d, length d = length a -> le_ a b = true -> le_ b d = true -> le_ a d = true).
Proof. exact array_comparisons. Qed.
Print Assumptions C18_comparisons_partial.

Example C18_hypotheses :
  arr_lt Z_cmp [1; 2; -3] [2; 5; 0] = true /\ arr_lt Z_cmp [1; 2; -3] [2; 5; -3] = false /\
  arr_le Z_cmp [1; 2; -3] [2; 5; -3] = true /\ arr_le Z_cmp [1; 6; -3] [2; 5; -3] = false /\
  (forall x y, Z.geb x y = true <-> y <= x) /\ (forall x y, Z.gtb x y = true <-> y <= x /\ x <> y) /\
  (forall x y, negb (x =? y) = false <-> x = y).
Proof. exact Z_comparisons. Qed.

(** With floating point components and a NaN the operators are not what they say: [<] and [<=]
    hold although they hold in no component, [==] is not reflexive. *)
Theorem C18_nan_refuted : exists a b : spec_float,
  SFltb a b = false /\ SFleb a b = false /\
  arr_lt sf_cmp [a] [b] = true /\ arr_le sf_cmp [a] [b] = true /\
  arr_eq sf_cmp [a] [a] = false.
Proof. exact nan_comparisons. Qed.
Print Assumptions C18_nan_refuted.

(** What the operators say on arrays of doubles, for all of them: [==] and [!=] are component-wise,
    [<] and [<=] hold iff they hold in every component in which neither array has a NaN; an array equals
    itself iff it has no NaN. *)
Theorem C18_doubles_exact : forall a b : list spec_float, length a = length b ->
  (arr_eq sf_cmp a b = true <-> Forall2 (fun x y => SFeqb x y = true) a b) /\
  arr_ne sf_cmp a b = negb (arr_eq sf_cmp a b) /\
  (arr_lt sf_cmp a b = true <-> Forall2 (fun x y => SFltb x y = true \/ x = S754_nan \/ y = S754_nan) a b) /\
  (arr_le sf_cmp a b = true <-> Forall2 (fun x y => SFleb x y = true \/ x = S754_nan \/ y = S754_nan) a b) /\
  (arr_eq sf_cmp a a = true <-> Forall (fun x => x <> S754_nan) a).
Proof. exact double_comparisons. Qed.
Print Assumptions C18_doubles_exact.

(** [product()], [sum()], [sqr()] on integer arrays. *)
Theorem C18_product_sum : forall a : list Z,
  arr_product a = fold_right Z.mul 1 a /\ arr_sum a = fold_right Z.add 0 a /\
  arr_sqr a = fold_right Z.add 0 (map (fun v => v * v) a).
Proof. exact array_product_sum. Qed.
Print Assumptions C18_product_sum.

(** C64.  With a result array different from both operands [crossProduct] stores the vector
    product and changes nothing else. *)
Theorem C64_cross_product_partial : forall T (mul sub : T -> T -> T) r a b (s : store3),
  r <> a -> r <> b ->
  let s' := cross_product mul sub r a b s in
  let '(a0, a1, a2) := s a in let '(b0, b1, b2) := s b in
  s' r = (sub (mul a1 b2) (mul a2 b1), sub (mul a2 b0) (mul a0 b2), sub (mul a0 b1) (mul a1 b0)) /\
  forall x, x <> r -> s' x = s x.
Proof. exact @cross_product_spec. Qed.
Print Assumptions C64_cross_product_partial.

Theorem C64_aliased_result_refuted : exists s : store3,
  s 0%nat = (1, 2, 3) /\ s 1%nat = (4, 5, 6) /\
  cross_product Z.mul Z.sub 2 0 1 s 2%nat = (-3, 6, -3) /\
  cross_product Z.mul Z.sub 0 0 1 s 0%nat <> (-3, 6, -3) /\
  cross_product Z.mul Z.sub 1 0 1 s 1%nat <> (-3, 6, -3).
Proof. exact cross_product_alias. Qed.
Print Assumptions C64_aliased_result_refuted.

Example C64_hypotheses : (2 <> 0 /\ 2 <> 1)%nat.
Proof. split; discriminate. Qed.

(** C64, every aliasing, exactly: components 0 and 1 of the result are stored before the later
    components are computed, so that an operand that is the result is read with its new components. *)
Theorem C64_exact : forall T (mul sub : T -> T -> T) r a b (s : store3),
  let s' := cross_product mul sub r a b s in
  let '(a0, a1, a2) := s a in let '(b0, b1, b2) := s b in
  let r0 := sub (mul a1 b2) (mul a2 b1) in
  let a0' := if Nat.eqb a r then r0 else a0 in let b0' := if Nat.eqb b r then r0 else b0 in
  let r1 := sub (mul a2 b0') (mul a0' b2) in
  let a1' := if Nat.eqb a r then r1 else a1 in let b1' := if Nat.eqb b r then r1 else b1 in
  s' r = (r0, r1, sub (mul a0' b1') (mul a1' b0')) /\ forall x, x <> r -> s' x = s x.
Proof. exact cross_exact. Qed.
Print Assumptions C64_exact.

(** On integers the result is right in place of the first operand exactly in these cases... *)
Theorem C64_aliased_left : forall a b (s : store3), a <> b ->
  let '(a0, a1, a2) := s a in let '(b0, b1, b2) := s b in
  let p0 := a1 * b2 - a2 * b1 in let p1 := a2 * b0 - a0 * b2 in let p2 := a0 * b1 - a1 * b0 in
  cross_product Z.mul Z.sub a a b s a = (p0, p1, p2) <->
  (p0 = a0 \/ b2 = 0) /\ (p0 - a0) * b1 = (p1 - a1) * b0.
Proof. exact cross_aliased_left. Qed.
Print Assumptions C64_aliased_left.

(** ... in place of the second operand exactly in these ... *)
Theorem C64_aliased_right : forall a b (s : store3), a <> b ->
  let '(a0, a1, a2) := s a in let '(b0, b1, b2) := s b in
  let p0 := a1 * b2 - a2 * b1 in let p1 := a2 * b0 - a0 * b2 in let p2 := a0 * b1 - a1 * b0 in
  cross_product Z.mul Z.sub b a b s b = (p0, p1, p2) <->
  (p0 = b0 \/ a2 = 0) /\ a1 * (p0 - b0) = a0 * (p1 - b1).
Proof. exact cross_aliased_right. Qed.
Print Assumptions C64_aliased_right.

(** ... and the product of an array with itself is zero wherever it is stored. *)
Theorem C64_self : forall r a (s : store3), cross_product Z.mul Z.sub r a a s r = (0, 0, 0).
Proof. exact cross_self. Qed.
Print Assumptions C64_self.

(** There are arrays that meet the conditions and others that do not. *)
Example C64_aliased_hypotheses : exists s : store3,
  cross_product Z.mul Z.sub 0 0 1 s 0%nat = (6, -12, 30) /\ s 0%nat = (6, 3, 0) /\ s 1%nat = (0, 5, 2) /\
  cross_product Z.mul Z.sub 1 0 1 s 1%nat <> (6, -12, 30).
Proof. exact ex_cross_aliased. Qed.
