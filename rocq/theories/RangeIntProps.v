(** Property theorems C88: loops over ranges of machine integers. *)
From Verif Require Import Vec GridSpec RangeModel RangeIntModel RangeInt.

(** C88, iterators.  [M] is the largest value of the integer type.  The loop over [begin()..end()] visits the
    indices of the range in order and ends if every upper bound is below [M]; if an upper bound is [M] it
    increments [M], which is undefined. *)
Theorem C88_iterator : forall M lo hi, box_ok lo hi -> Forall (fun h => h <= M) hi ->
  exists l, enumerates lex_lt lo hi l /\
    forall fuel, (Z.to_nat (box_size lo hi) <= fuel)%nat ->
      (Forall (fun h => h < M) hi -> range_visits_int M fuel (mkRange lo hi) = Done l) /\
      (Exists (fun h => h = M) hi -> range_visits_int M fuel (mkRange lo hi) = Overflow).
Proof. exact iterate_int. Qed.
Print Assumptions C88_iterator.

(** C88, [forEach].  A function object that only reads the index is called for exactly the indices of the range
    in the order of the policy if every upper bound is below [M]; each call is made on a copy of the object
    passed ([fo] at every call). *)
Theorem C88_forEach : forall M (F S : Type) (func : vec -> F -> S -> vec * F * S) lo hi fo s, length hi = length lo ->
  (forall p f s, fst (fst (func p f s)) = p) -> Forall (fun h => h < M) hi ->
  exists l l', enumerates lex_lt lo hi l /\ enumerates colex_lt lo hi l' /\
  exists N, forall fuel, (N <= fuel)%nat -> exists p p',
    c_forEach_int M func fuel (mkRange lo hi) fo s = Done (p, fold_left (fun s p => snd (func p fo s)) l s) /\
    f_forEach_int M func fuel (mkRange lo hi) fo s = Done (p', fold_left (fun s p => snd (func p fo s)) l' s).
Proof. exact forEach_int. Qed.
Print Assumptions C88_forEach.

(** If an upper bound is [M] both policies overflow. *)
Theorem C88_forEach_overflow : forall M (F S : Type) (func : vec -> F -> S -> vec * F * S) lo hi fo s, box_ok lo hi ->
  (forall p f s, fst (fst (func p f s)) = p) -> Forall (fun h => h <= M) hi -> Exists (fun h => h = M) hi ->
  exists N, forall fuel, (N <= fuel)%nat ->
    c_forEach_int M func fuel (mkRange lo hi) fo s = Overflow /\ f_forEach_int M func fuel (mkRange lo hi) fo s = Overflow.
Proof. exact forEach_int_over. Qed.
Print Assumptions C88_forEach_overflow.

Example C88_hypotheses : box_ok [5; 0] [7; 2] /\ Forall (fun h => h <= 7) [7; 2] /\ Exists (fun h => h = 7) [7; 2] /\
  range_visits_int 7 20 (mkRange [5; 0] [7; 2]) = Overflow /\
  range_visits_int 8 20 (mkRange [6; 1] [7; 2]) = Done [[6; 1]; [6; 2]; [7; 1]; [7; 2]] /\
  (forall p f s, fst (fst (counting p f s)) = p).
Proof. repeat split; try (simpl; lia); repeat constructor; lia. Qed.
(** A counter inside the function object stays at its start value at every call. *)
Example C88_counter : c_forEach_int 2147483647 counting 9 (mkRange [0] [2]) 0%nat [] = Done ([3], [0; 0; 0]%nat).
Proof. exact counting_lost. Qed.
