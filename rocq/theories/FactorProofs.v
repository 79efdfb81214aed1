(** Proofs about equalFactors. *)
From Verif Require Import Vec BoxFacts FactorModel.

Fixpoint product (l : list Z) : Z := match l with [] => 1 | x :: l' => x * product l' end.

Lemma primes_loop_ge n : forall i max ip, Forall (fun p => i <= p <= max) (primes_loop n i max ip).
Proof.
  induction n as [|n IH]; intros i max ip; cbn [primes_loop]; [constructor|].
  destruct (Z.leb_spec i max); [|constructor].
  destruct (ip i); [constructor; [lia|]|];
    (eapply Forall_impl; [|apply IH]); cbn beta; intros p Hp; lia.
Qed.

Lemma makePrimes_ge max : Forall (fun p => 2 <= p) (makePrimes max).
Proof. eapply Forall_impl; [|apply primes_loop_ge]. cbn beta. lia. Qed.

Lemma first_divisor_spec number primes p : first_divisor number primes = Some p -> In p primes /\ Z.rem number p = 0.
Proof.
  induction primes as [|q ps IH]; cbn [first_divisor]; [discriminate|].
  destruct (Z.eqb_spec (Z.rem number q) 0) as [E|E].
  - injection 1 as <-. split; [left; reflexivity|exact E].
  - intros H. destruct (IH H). split; [right; assumption|assumption].
Qed.

Lemma factorize_spec primes : Forall (fun p => 2 <= p) primes -> forall fuel number acc,
  1 <= number -> number <= Z.of_nat fuel ->
  exists l, factorize fuel number primes acc = Some (l ++ acc) /\ product l = number /\ Forall (fun x => 2 <= x) l.
Proof.
  intros Hp. induction fuel as [|fuel IH]; intros number acc H1 H2; [lia|]. cbn [factorize].
  destruct (Z.eqb_spec number 1) as [->|N1].
  - exists []. split; [reflexivity|]. split; [reflexivity|constructor].
  - destruct (first_divisor number primes) as [p|] eqn:E.
    + apply first_divisor_spec in E. destruct E as [Hin Hr]. rewrite Forall_forall in Hp. specialize (Hp p Hin).
      assert (En : number = p * Z.quot number p) by (rewrite (Z.quot_rem' number p) at 1; lia).
      assert (Hq : 1 <= Z.quot number p < number) by nia.
      destruct (IH (Z.quot number p) acc ltac:(lia) ltac:(lia)) as (l & -> & Pl & Fl).
      exists (p :: l). split; [reflexivity|]. split; [cbn [product]; rewrite Pl; lia|constructor; assumption].
    + exists [number]. split; [reflexivity|]. split; [cbn [product]; lia|]. constructor; [lia|constructor].
Qed.

Lemma product_app a b : product (a ++ b) = product a * product b.
Proof. induction a as [|x a IH]; cbn [app product]; [lia|]. rewrite IH. lia. Qed.

Lemma product_vset v i x : (i < length v)%nat -> product (vset v i (vget v i * x)) = product v * x.
Proof.
  revert i. induction v as [|y v IH]; intros i Hi; [simpl in Hi; lia|]. destruct i as [|i].
  - unfold vget. cbn [vset nth product]. lia.
  - rewrite vget_cons_S. cbn [vset product]. rewrite IH by (simpl in Hi; lia). lia.
Qed.

Lemma Forall_vset (P : Z -> Prop) v i x : Forall P v -> P x -> Forall P (vset v i x).
Proof.
  intros Hv Hx. revert i. induction Hv as [|y v Hy Hv IH]; intros i; [constructor|].
  destruct i as [|i]; cbn [vset]; constructor; auto.
Qed.

Lemma Forall_vget (P : Z -> Prop) v i : Forall P v -> (i < length v)%nat -> P (vget v i).
Proof.
  intros Hv. revert i. induction Hv as [|y v Hy Hv IH]; intros i Hi; [simpl in Hi; lia|].
  destruct i as [|i]; [exact Hy|]. rewrite vget_cons_S. apply IH. simpl in Hi. lia.
Qed.

Lemma product_repeat1 k : product (repeat 1 k) = 1.
Proof. induction k as [|k IH]; cbn [repeat product]; [reflexivity|]. rewrite IH. reflexivity. Qed.

Section Dist.
  Context {F : Type}.
  Variables (fdiv : Z -> Z -> F) (fmul : F -> Z -> F) (fsum : list F -> F) (fltb : F -> F -> bool).

  Definition good (k : nat) (n : Z) (v : vec) : Prop := length v = k /\ product v = n /\ Forall (fun x => 1 <= x) v.

  Lemma good_mul k n v i f : good k n v -> (i < k)%nat -> 1 <= f -> good k (n * f) (vmul v i f).
  Proof.
    intros (L & P & A) Hi Hf. unfold vmul. split; [rewrite vset_length; exact L|]. split.
    - rewrite product_vset by lia. rewrite P. reflexivity.
    - apply Forall_vset; [exact A|]. pose proof (Forall_vget _ v i A ltac:(lia)). cbn beta in *. nia.
  Qed.

  Lemma imin_loop_bound fs : forall i ws imin fm, (imin < i + length fs)%nat ->
    (imin_loop fdiv fltb i fs ws imin fm < i + length fs)%nat.
  Proof.
    induction fs as [|f fs IH]; intros i ws imin fm H; destruct ws as [|w ws]; cbn [imin_loop]; try exact H.
    simpl in *. destruct (match fm with None => true | Some m => fltb (fdiv f w) m end).
    - specialize (IH (S i) ws i (Some (fdiv f w)) ltac:(lia)). lia.
    - specialize (IH (S i) ws imin fm ltac:(lia)). lia.
  Qed.

  Lemma best_loop_good (rec : vec -> vec * F) k n v f :
    good k n v -> 1 <= f -> forall n', (forall i, (i < k)%nat -> good k n' (fst (rec (vmul v i f)))) ->
    forall is best, Forall (fun i => (i < k)%nat) is -> good k n' (fst best) ->
    good k n' (fst (best_loop fltb rec v f is best)).
  Proof.
    intros Hv Hf n' Hrec. induction is as [|i is IH]; intros best Hi Hb; cbn [best_loop]; [exact Hb|].
    inversion Hi; subst. apply IH; [assumption|]. destruct (fltb _ _); [apply Hrec; assumption|exact Hb].
  Qed.

  Lemma distribute_spec k ws : (1 <= k)%nat -> forall all v n, all <> [] -> Forall (fun x => 1 <= x) all -> good k n v ->
    exists r, distribute fdiv fmul fsum fltb v all ws = Some r /\ good k (n * product all) (fst r).
  Proof.
    intros Hk. induction all as [|f all IH]; intros v n Hne Ha Hv; [congruence|]. inversion Ha; subst.
    destruct all as [|f' all].
    - cbn [distribute]. eexists. split; [reflexivity|]. unfold distribute_last. cbn [fst product].
      rewrite Z.mul_1_r. apply good_mul; [exact Hv| |assumption].
      destruct Hv as (L & _ & _). pose proof (imin_loop_bound v 0 ws 0 None ltac:(lia)). lia.
    - cbn [distribute]. fold (distribute fdiv fmul fsum fltb).
      assert (R : forall i, (i < k)%nat ->
                exists r, distribute fdiv fmul fsum fltb (vmul v i f) (f' :: all) ws = Some r /\ good k (n * f * product (f' :: all)) (fst r)).
      { intros i Hi. apply IH; [discriminate|assumption|]. apply good_mul; assumption. }
      destruct (R 0%nat ltac:(lia)) as (r0 & E0 & G0).
      change (match all with
              | [] => Some (distribute_last fdiv fmul fsum fltb (vmul v 0 f) f' ws)
              | _ :: _ => _
              end) with (distribute fdiv fmul fsum fltb (vmul v 0 f) (f' :: all) ws).
      rewrite E0. eexists. split; [reflexivity|].
      replace (n * product (f :: f' :: all)) with (n * f * product (f' :: all)) by (cbn [product]; lia).
      apply (best_loop_good _ k n v f); try assumption.
      + intros i Hi. destruct (R i Hi) as (r & E & G).
        change (match all with
              | [] => Some (distribute_last fdiv fmul fsum fltb (vmul v i f) f' ws)
              | _ :: _ => _
              end) with (distribute fdiv fmul fsum fltb (vmul v i f) (f' :: all) ws).
        rewrite E. exact G.
      + apply Forall_forall. intros i Hi. apply in_seq in Hi. destruct Hv as (L & _). lia.
  Qed.

  Theorem equalFactors_spec isqrt number nfact ws fuel : 1 <= number -> (1 <= nfact)%nat -> number <= Z.of_nat fuel ->
    exists v, equalFactors fdiv fmul fsum fltb fuel isqrt number nfact ws = Some v /\ good nfact number v.
  Proof.
    intros H1 H2 H3. unfold equalFactors.
    destruct (factorize_spec (makePrimes (isqrt number)) (makePrimes_ge _) fuel number [] H1 H3) as (l & -> & Pl & Fl).
    rewrite app_nil_r. destruct l as [|f rest].
    - eexists. split; [reflexivity|]. split; [apply repeat_length|]. split; [rewrite product_repeat1; exact Pl|].
      apply Forall_forall. intros x Hx. apply repeat_spec in Hx. lia.
    - destruct nfact as [|k]; [lia|]. inversion Fl; subst.
      assert (G : good (S k) f (f :: repeat 1 k)).
      { split; [simpl; rewrite repeat_length; reflexivity|]. split; [cbn [product]; rewrite product_repeat1; lia|].
        constructor; [lia|]. apply Forall_forall. intros x Hx. apply repeat_spec in Hx. lia. }
      destruct rest as [|f2 rest].
      + eexists. split; [reflexivity|]. cbn [product] in *. rewrite Z.mul_1_r. exact G.
      + assert (F1 : Forall (fun x => 1 <= x) (f2 :: rest)) by (eapply Forall_impl; [|eassumption]; cbn beta; lia).
        destruct (distribute_spec (S k) ws ltac:(lia) (f2 :: rest) _ f ltac:(discriminate) F1 G) as (r & -> & Gr).
        eexists. split; [reflexivity|]. cbn [product] in *. exact Gr.
  Qed.
End Dist.
