(** Model of src/util/factor.cpp.  [int] arithmetic is exact: every product formed divides [number]. *)
From Verif Require Import Vec.

(** Inner loop of [makePrimes] — factor.cpp:89-92: [for (prod = 2*i; prod<=max; prod += i)
    isprime[prod] = false]; [n] bounds the number of iterations. *)
Fixpoint cross_out (n : nat) (prod i max : Z) (isprime : Z -> bool) : Z -> bool :=
  match n with
  | O => isprime
  | S n' => if prod <=? max
            then cross_out n' (prod + i) i max (fun k => if k =? prod then false else isprime k)
            else isprime
  end.

(** Outer loop — factor.cpp:79-95. *)
Fixpoint primes_loop (n : nat) (i max : Z) (isprime : Z -> bool) : list Z :=
  match n with
  | O => []
  | S n' => if i <=? max
            then if isprime i
                 then i :: primes_loop n' (i + 1) max (cross_out (Z.to_nat max) (2 * i) i max isprime)
                 else primes_loop n' (i + 1) max isprime
            else []
  end.
Definition makePrimes (max : Z) : list Z := primes_loop (Z.to_nat max) 2 max (fun _ => true).

(** The while loop of [factorize] — factor.cpp:102-112: the first prime that divides. *)
Fixpoint first_divisor (number : Z) (primes : list Z) : option Z :=
  match primes with
  | [] => None
  | p :: ps => if Z.rem number p =? 0 then Some p else first_divisor number ps
  end.

(** [factorize] — factor.cpp:97-114; [None]: recursion deeper than [fuel]. *)
Fixpoint factorize (fuel : nat) (number : Z) (primes : list Z) (factors : list Z) : option (list Z) :=
  if number =? 1 then Some factors
  else match first_divisor number primes with
       | Some p => match fuel with
                   | O => None
                   | S f => match factorize f (Z.quot number p) primes factors with
                            | Some l => Some (p :: l)
                            | None => None
                            end
                   end
       | None => Some (number :: factors)
       end.

Section Distribute.
  (** [double] arithmetic: [fdiv a b] is [double(a)/double(b)], [fmul x a] is [x * a], the sum of
      std::for_each with calcsum, and [<]. *)
  Context {F : Type}.
  Variables (fdiv : Z -> Z -> F) (fmul : F -> Z -> F) (fsum : list F -> F) (fltb : F -> F -> bool).

  (** The loop looking for the smallest ratio — factor.cpp:131-142. *)
  Fixpoint imin_loop (i : nat) (fs ws : list Z) (imin : nat) (facmin : option F) : nat :=
    match fs, ws with
    | f :: fs', w :: ws' =>
        let df := fdiv f w in
        let better := match facmin with None => true | Some m => fltb df m end in
        if better then imin_loop (S i) fs' ws' i (Some df) else imin_loop (S i) fs' ws' imin facmin
    | _, _ => imin
    end.

  Definition vmul (v : vec) (i : nat) (f : Z) : vec := vset v i (vget v i * f).

  Fixpoint list_upd {A} (l : list A) (i : nat) (g : A -> A) : list A :=
    match l, i with
    | [], _ => []
    | x :: l', O => g x :: l'
    | x :: l', S i' => x :: list_upd l' i' g
    end.

  (** The branch for the last factor — factor.cpp:126-149. *)
  Definition distribute_last (factors : vec) (f : Z) (weights : vec) : vec * F :=
    let dfactors := map (fun fw => fdiv (fst fw) (snd fw)) (combine factors weights) in
    let imin := imin_loop 0 factors weights 0 None in
    (vmul factors imin f, fsum (list_upd dfactors imin (fun x => fmul x f))).

  (** The loop over the indices 1, 2, ... — factor.cpp:156-166, given the recursive call [rec]. *)
  Fixpoint best_loop (rec : vec -> vec * F) (factors : vec) (f : Z) (is : list nat) (best : vec * F) : vec * F :=
    match is with
    | [] => best
    | i :: is' => let r := rec (vmul factors i f) in
                  best_loop rec factors f is' (if fltb (snd r) (snd best) then r else best)
    end.

  (** [distribute] — factor.cpp:116-171; [None]: empty list of factors, undefined behaviour. *)
  Fixpoint distribute (factors : vec) (allfact : list Z) (weights : vec) : option (vec * F) :=
    match allfact with
    | [] => None
    | [f] => Some (distribute_last factors f weights)
    | f :: rest =>
        (* the recursive call is defined for every vector because [rest] is not empty *)
        let rec v := match distribute v rest weights with Some r => r | None => (v, fsum []) end in
        match distribute (vmul factors 0 f) rest weights with
        | None => None
        | Some best => Some (best_loop rec factors f (seq 1 (length factors - 1)) best)
        end
    end.

  (** [equalFactors] — factor.cpp:49-77.  [isqrt] is [int(floor(sqrt(number)))].  [nfact = 0] writes
      to an empty vector: [None]. *)
  Definition equalFactors (fuel : nat) (isqrt : Z -> Z) (number : Z) (nfact : nat) (weights : vec) : option vec :=
    match factorize fuel number (makePrimes (isqrt number)) [] with
    | None => None
    | Some [] => Some (repeat 1 nfact)
    | Some (f :: rest) =>
        match nfact with
        | O => None
        | S k => let factors := f :: repeat 1 k in
                 match rest with
                 | [] => Some factors
                 | _ => option_map fst (distribute factors rest weights)
                 end
        end
    end.
End Distribute.
