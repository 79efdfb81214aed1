(** Wrapper lemmas and examples for FactorProps. *)
From Coq Require Import Floats.SpecFloat.
From Verif Require Import Vec FactorModel FactorProofs FieldModel.

(** Binary64 as used by the code. *)
Definition b64_fdiv (a b : Z) : spec_float := SFdiv 53 1024 (sf_of_Z a) (sf_of_Z b).
Definition b64_fmul (x : spec_float) (a : Z) : spec_float := SFmul 53 1024 x (sf_of_Z a).
Definition b64_fsum (l : list spec_float) : spec_float := fold_left (SFadd 53 1024) l (sf_of_Z 0).

Lemma equalFactors_exact (F : Type) (fdiv : Z -> Z -> F) fmul fsum fltb isqrt number nfact ws :
  1 <= number -> (1 <= nfact)%nat ->
  exists v, (exists N, forall fuel, (N <= fuel)%nat -> equalFactors fdiv fmul fsum fltb fuel isqrt number nfact ws = Some v) /\
    length v = nfact /\ fold_right Z.mul 1 v = number /\ Forall (fun f => 1 <= f) v.
Proof.
  intros H1 H2.
  destruct (equalFactors_spec fdiv fmul fsum fltb isqrt number nfact ws (Z.to_nat number) H1 H2 ltac:(lia)) as (v & E & L & P & A).
  exists v. split; [|split; [exact L|split; [exact P|exact A]]]. exists (Z.to_nat number). intros fuel Hf.
  unfold equalFactors in *.
  destruct (factorize_spec (makePrimes (isqrt number)) (makePrimes_ge _) (Z.to_nat number) number [] H1 ltac:(lia)) as (l & E1 & _).
  destruct (factorize_spec (makePrimes (isqrt number)) (makePrimes_ge _) fuel number [] H1 ltac:(lia)) as (l' & E2 & _).
  assert (M : forall f n ps fs r, factorize f n ps fs = Some r -> forall f', (f <= f')%nat -> factorize f' n ps fs = Some r).
  { clear. induction f as [|f IH]; intros n ps fs r E f' Hf; destruct f' as [|f']; try lia; cbn [factorize] in *.
    - exact E.
    - destruct (n =? 1); [exact E|]. destruct (first_divisor n ps); [discriminate|exact E].
    - destruct (n =? 1); [exact E|]. destruct (first_divisor n ps) as [p|]; [|exact E].
      destruct (factorize f (Z.quot n p) ps fs) as [l|] eqn:El; [|discriminate]. rewrite (IH _ _ _ _ El) by lia. exact E. }
  rewrite (M _ _ _ _ _ E1 fuel Hf). rewrite E1 in E. exact E.
Qed.

Lemma ex_factors :
  equalFactors b64_fdiv b64_fmul b64_fsum SFltb 100 Z.sqrt 64 3 [32; 32; 256] = Some [2; 2; 16] /\
  equalFactors b64_fdiv b64_fmul b64_fsum SFltb 100 Z.sqrt 60 2 [100; 70] = Some [10; 6].
Proof. split; vm_compute; reflexivity. Qed.

(** ** C86 *)
From Coq Require Import QArith Znumtheory.
From Verif Require Import FactorSpec FactorOpt.
Local Open Scope Z_scope.
Lemma balanced isqrt number nfact w : 1 <= number -> (1 <= nfact)%nat -> isqrt number = Z.sqrt number ->
  length w = nfact -> Forall (fun x => 1 <= x) w ->
  exists v, (exists N, forall fuel, (N <= fuel)%nat -> equalFactors q_fdiv q_fmul q_fsum q_fltb fuel isqrt number nfact w = Some v) /\
    divides_among nfact number v /\ (forall p, smallest_prime number p -> (p | vget v 0)) /\
    forall u, divides_among nfact number u -> (forall p, smallest_prime number p -> (p | vget u 0)) -> (surface v w <= surface u w)%Q.
Proof.
  intros H1 H2 Hs Lw Fw. destruct (equalFactors_exact Q q_fdiv q_fmul q_fsum q_fltb isqrt number nfact w H1 H2) as (v & [N HN] & G).
  exists v. split; [exists N; exact HN|]. split; [exact G|]. apply (equalFactors_best isqrt number nfact w N v H1 H2 Hs Lw Fw). apply HN. lia.
Qed.
Lemma lopsided : exists number nfact w u, 1 <= number /\ length w = nfact /\ Forall (fun x => 1 <= x) w /\ divides_among nfact number u /\
  forall (F : Type) (fdiv : Z -> Z -> F) fmul fsum fltb, exists v,
    (exists N, forall fuel, (N <= fuel)%nat -> equalFactors fdiv fmul fsum fltb fuel Z.sqrt number nfact w = Some v) /\ (surface u w < surface v w)%Q.
Proof.
  exists 2, 2%nat, [10; 1000], [1; 2]. split; [lia|]. split; [reflexivity|]. split; [repeat constructor; lia|]. split; [split; [reflexivity|]; split; [reflexivity|]; repeat constructor; lia|].
  intros F fdiv fmul fsum fltb. exists [2; 1]. split; [|vm_compute; reflexivity]. exists 1%nat. intros [|fuel] Hf; [lia|]. reflexivity.
Qed.
Lemma prime_2 : prime 2. Proof. exact Znumtheory.prime_2. Qed.
Lemma ex_balanced : equalFactors q_fdiv q_fmul q_fsum q_fltb 100 Z.sqrt 60 3 [100; 70; 10] = Some [10; 6; 1] /\ smallest_prime 60 2.
Proof.
  split; [vm_compute; reflexivity|]. split; [exact prime_2|]. split; [exists 30; reflexivity|]. intros q P _. apply prime_ge_2 in P. exact P.
Qed.
