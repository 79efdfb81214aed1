(** [equalFactors] finds prime factors and, in exact arithmetic, the best way to distribute them. *)
From Coq Require Import QArith Znumtheory Lqa.
From Verif Require Import Vec BoxFacts FactorModel FactorSpec FactorProofs.
Local Open Scope Z_scope.
Local Arguments Z.mul : simpl never.

(** ** Prime numbers *)
Lemma has_prime n : 2 <= n -> exists p, prime p /\ (p | n).
Proof.
  intros H. assert (K : forall m, 0 <= m -> 2 <= m -> exists p, prime p /\ (p | m)).
  { apply (Z_lt_induction (fun m => 2 <= m -> exists p, prime p /\ (p | m))). intros m IH Hm.
    destruct (prime_dec m) as [P|P]; [exists m; split; [exact P|apply Z.divide_refl]|].
    destruct (not_prime_divide m ltac:(lia) P) as (q & Hq & D). destruct (IH q ltac:(lia) ltac:(lia)) as (p & Pp & Dp).
    exists p. split; [exact Pp|eapply Z.divide_trans; eassumption]. }
  apply K; lia.
Qed.
Lemma composite_small n : 2 <= n -> ~ prime n -> exists p, prime p /\ (p | n) /\ p * p <= n.
Proof.
  intros H P. destruct (not_prime_divide n ltac:(lia) P) as (q & Hq & [r E]).
  assert (Hr : 1 < r) by nia. destruct (Z.le_gt_cases q r) as [L|L].
  - destruct (has_prime q ltac:(lia)) as (p & Pp & Dp). exists p. split; [exact Pp|]. split; [rewrite E; apply Z.divide_mul_r; exact Dp|].
    apply Z.divide_pos_le in Dp; [|lia]. pose proof (prime_ge_2 p Pp). nia.
  - destruct (has_prime r ltac:(lia)) as (p & Pp & Dp). exists p. split; [exact Pp|]. split; [rewrite E; apply Z.divide_mul_l; exact Dp|].
    apply Z.divide_pos_le in Dp; [|lia]. pose proof (prime_ge_2 p Pp). nia.
Qed.

(** The sieve. *)
Lemma cross_out_spec n : forall a i max ip, 2 <= i -> 1 <= a -> max < (a + Z.of_nat n) * i ->
  forall k, cross_out n (a * i) i max ip k = if (k <=? max) && (Z.rem k i =? 0) && (a * i <=? k) then false else ip k.
Proof.
  induction n as [|n IH]; intros a i max ip Hi Ha Hn k.
  - cbn [cross_out]. destruct (Z.leb_spec k max); cbn [andb]; [|reflexivity]. destruct (Z.leb_spec (a * i) k); [nia|]. rewrite andb_false_r. reflexivity.
  - cbn [cross_out]. destruct (Z.leb_spec (a * i) max) as [L|L].
    + replace (a * i + i) with ((a + 1) * i) by lia. rewrite IH by lia.
      destruct (Z.leb_spec k max); cbn [andb].
      2:{ destruct (Z.eqb_spec k (a * i)); [lia|reflexivity]. }
      destruct (Z.eqb_spec (Z.rem k i) 0) as [E|E]; cbn [andb].
      * destruct (Z.leb_spec ((a + 1) * i) k); destruct (Z.leb_spec (a * i) k); try nia; try reflexivity.
        -- assert (k = a * i). { pose proof (Z.quot_rem' k i) as Q. rewrite E in Q. assert (Z.quot k i = a) by nia. nia. }
           subst k. rewrite Z.eqb_refl. reflexivity.
        -- destruct (Z.eqb_spec k (a * i)); [lia|reflexivity].
      * destruct (Z.eqb_spec k (a * i)) as [->|_]; [|reflexivity]. rewrite Z.rem_mul in E by lia. congruence.
    + destruct (Z.leb_spec k max); cbn [andb]; [|reflexivity]. destruct (Z.leb_spec (a * i) k); [lia|]. rewrite andb_false_r. reflexivity.
Qed.
Lemma rem0_divide k i : 0 < i -> Z.rem k i = 0 <-> (i | k).
Proof. intros H. apply Z.rem_divide. lia. Qed.

Definition sieved (i max : Z) (ip : Z -> bool) : Prop := forall k, i <= k <= max -> (ip k = true <-> forall q, prime q -> q < i -> ~ (q | k)).
Lemma primes_loop_spec n : forall i max ip, 2 <= i -> max < i + Z.of_nat n -> sieved i max ip ->
  forall p, In p (primes_loop n i max ip) <-> prime p /\ i <= p <= max.
Proof.
  induction n as [|n IH]; intros i max ip Hi Hn HS p; cbn [primes_loop].
  - split; [intros []|lia].
  - destruct (Z.leb_spec i max) as [L|L]; [|split; [intros []|lia]].
    assert (Ip : ip i = true <-> prime i).
    { rewrite (HS i) by lia. split.
      - intros H. destruct (prime_dec i) as [P|P]; [exact P|]. exfalso. destruct (composite_small i Hi P) as (q & Pq & Dq & Sq). pose proof (prime_ge_2 q Pq). apply (H q Pq); [nia|exact Dq].
      - intros P q Pq Lq D. apply (prime_div_prime q i Pq P) in D. lia. }
    destruct (ip i) eqn:E.
    + assert (Pi : prime i) by (apply Ip; reflexivity). cbn [In]. rewrite IH; [| lia | lia |].
      * split; [intros [<-|[P1 P2]]; (split; [assumption|lia])|]. intros [P1 P2]. destruct (Z.eq_dec i p); [left; assumption|right; split; [exact P1|lia]].
      * intros k Hk. rewrite cross_out_spec by (try lia; nia). destruct (Z.leb_spec k max); [|lia]. cbn [andb].
        destruct (Z.eqb_spec (Z.rem k i) 0) as [R|R]; cbn [andb].
        -- apply rem0_divide in R; [|lia]. destruct (Z.leb_spec (2 * i) k) as [L2|L2].
           ++ split; [discriminate|]. intros H0. exfalso. apply (H0 i Pi); [lia|exact R].
           ++ destruct R as [c ->]. assert (c = 1) by nia. lia.
        -- rewrite (HS k) by lia. split; intros H0 q Pq Lq D.
           ++ destruct (Z.eq_dec q i) as [->|N]; [apply R, rem0_divide; [lia|exact D]|]. apply (H0 q Pq); [lia|exact D].
           ++ apply (H0 q Pq); [lia|exact D].
    + rewrite IH; [| lia | lia |].
      * split; intros [P1 P2]; (split; [exact P1|]); [lia|]. destruct (Z.eq_dec i p) as [<-|]; [apply Ip in P1; discriminate|lia].
      * intros k Hk. rewrite (HS k) by lia. split; intros H0 q Pq Lq D; [|apply (H0 q Pq); [lia|exact D]].
        destruct (Z.eq_dec q i) as [->|N]; [apply Ip in Pq; discriminate|]. apply (H0 q Pq); [lia|exact D].
Qed.
Lemma makePrimes_spec max p : In p (makePrimes max) <-> prime p /\ p <= max.
Proof.
  unfold makePrimes. rewrite primes_loop_spec; [|lia|lia|].
  - split; intros [P H]; (split; [exact P|]); [lia|]. pose proof (prime_ge_2 p P). lia.
  - intros k Hk. split; [|reflexivity]. intros _ q Pq Lq _. pose proof (prime_ge_2 q Pq). lia.
Qed.
Lemma primes_loop_sorted n : forall i max ip a p b, primes_loop n i max ip = a ++ p :: b -> forall q, In q a -> q < p.
Proof.
  induction n as [|n IH]; intros i max ip a p b E q Hq; cbn [primes_loop] in E; [destruct a; discriminate|].
  destruct (Z.leb_spec i max); [|destruct a; discriminate]. destruct (ip i).
  - destruct a as [|x a]; [destruct Hq|]. cbn [app] in E. injection E as <- E. destruct Hq as [<-|Hq]; [|exact (IH _ _ _ _ _ _ E q Hq)].
    pose proof (primes_loop_ge n (i + 1) max (cross_out (Z.to_nat max) (2 * i) i max ip)) as G. rewrite E in G. rewrite Forall_forall in G.
    specialize (G p ltac:(apply in_or_app; right; left; reflexivity)). lia.
  - exact (IH _ _ _ _ _ _ E q Hq).
Qed.
Lemma first_divisor_first number primes p : first_divisor number primes = Some p ->
  exists a b, primes = a ++ p :: b /\ forall q, In q a -> Z.rem number q <> 0.
Proof.
  induction primes as [|q ps IH]; cbn [first_divisor]; [discriminate|]. destruct (Z.eqb_spec (Z.rem number q) 0) as [E|E].
  - intros H. injection H as <-. exists [], ps. split; [reflexivity|]. intros q0 [].
  - intros H. destruct (IH H) as (a & b & -> & K). exists (q :: a), b. split; [reflexivity|]. intros q0 [<-|H0]; [exact E|apply K, H0].
Qed.
Lemma first_divisor_none number primes : first_divisor number primes = None -> forall q, In q primes -> Z.rem number q <> 0.
Proof.
  induction primes as [|q ps IH]; cbn [first_divisor]; [intros _ q []|]. destruct (Z.eqb_spec (Z.rem number q) 0) as [E|E]; [discriminate|].
  intros H q0 [<-|H0]; [exact E|apply IH; assumption].
Qed.

(** [factorize]: prime numbers, the smallest first. *)
Lemma factorize_primes s : forall fuel number acc r, 1 <= number -> number < (s + 1) * (s + 1) -> 0 <= s ->
  factorize fuel number (makePrimes s) acc = Some r ->
  exists l, r = l ++ acc /\ product l = number /\ Forall prime l /\ match l with [] => number = 1 | p :: _ => smallest_prime number p end.
Proof.
  induction fuel as [|fuel IH]; intros number acc r H1 H2 H0 E; cbn [factorize] in E.
  - destruct (Z.eqb_spec number 1) as [->|N]; [injection E as <-; exists []; repeat split; constructor|].
    destruct (first_divisor number (makePrimes s)) eqn:Ed; [discriminate|]. injection E as <-.
    assert (P : prime number).
    { destruct (prime_dec number) as [P|P]; [exact P|]. exfalso. destruct (composite_small number ltac:(lia) P) as (q & Pq & Dq & Sq).
      apply (first_divisor_none _ _ Ed q); [apply makePrimes_spec; split; [exact Pq|nia]|]. apply rem0_divide; [pose proof (prime_ge_2 q Pq); lia|exact Dq]. }
    exists [number]. split; [reflexivity|]. split; [cbn [product]; lia|]. split; [constructor; [exact P|constructor]|].
    split; [exact P|]. split; [apply Z.divide_refl|]. intros q Pq Dq. apply (prime_div_prime q number Pq P) in Dq. lia.
  - destruct (Z.eqb_spec number 1) as [->|N]; [injection E as <-; exists []; repeat split; constructor|].
    destruct (first_divisor number (makePrimes s)) as [p|] eqn:Ed.
    + destruct (factorize fuel (Z.quot number p) (makePrimes s) acc) as [l0|] eqn:Ef; [|discriminate]. injection E as <-.
      pose proof (first_divisor_spec _ _ _ Ed) as [Hin Hr]. apply makePrimes_spec in Hin. destruct Hin as [Pp Lp]. pose proof (prime_ge_2 p Pp) as G.
      assert (En : number = p * Z.quot number p) by (rewrite (Z.quot_rem' number p) at 1; lia).
      assert (Hq : 1 <= Z.quot number p < number) by nia.
      destruct (IH (Z.quot number p) acc l0 ltac:(lia) ltac:(lia) H0 Ef) as (l & -> & Pl & Fl & _).
      exists (p :: l). split; [reflexivity|]. split; [cbn [product]; rewrite Pl; lia|]. split; [constructor; assumption|].
      split; [exact Pp|]. split; [exists (Z.quot number p); lia|]. intros q Pq Dq.
      destruct (first_divisor_first _ _ _ Ed) as (a & b & Ep & Ha). destruct (Z.le_gt_cases p q) as [L|L]; [exact L|]. exfalso.
      assert (Iq : In q (makePrimes s)) by (apply makePrimes_spec; split; [exact Pq|lia]). pose proof (prime_ge_2 q Pq). assert (R : Z.rem number q = 0) by (apply rem0_divide; [lia|exact Dq]).
      rewrite Ep in Iq. apply in_app_or in Iq. destruct Iq as [Iq|[<-|Iq]]; [apply (Ha q Iq R)|lia|].
      apply in_split in Iq. destruct Iq as (b1 & b2 & ->). assert (Es : makePrimes s = (a ++ p :: b1) ++ q :: b2) by (rewrite Ep, <- app_assoc; reflexivity).
      pose proof (primes_loop_sorted _ _ _ _ _ _ _ Es p ltac:(apply in_or_app; right; left; reflexivity)). lia.
    + injection E as <-.
      assert (P : prime number).
      { destruct (prime_dec number) as [P|P]; [exact P|]. exfalso. destruct (composite_small number ltac:(lia) P) as (q & Pq & Dq & Sq).
        apply (first_divisor_none _ _ Ed q); [apply makePrimes_spec; split; [exact Pq|nia]|]. apply rem0_divide; [pose proof (prime_ge_2 q Pq); lia|exact Dq]. }
      exists [number]. split; [reflexivity|]. split; [cbn [product]; lia|]. split; [constructor; [exact P|constructor]|].
      split; [exact P|]. split; [apply Z.divide_refl|]. intros q Pq Dq. apply (prime_div_prime q number Pq P) in Dq. lia.
Qed.

(** ** Assigning prime numbers to dimensions *)
Inductive assigned : vec -> list Z -> vec -> Prop :=
| as_nil v : assigned v [] v
| as_cons v i f l u : (i < length v)%nat -> assigned (vmul v i f) l u -> assigned v (f :: l) u.

Lemma assigned_nil v u : assigned v [] u -> u = v.
Proof. intros H. inversion H. reflexivity. Qed.
Lemma prime_product p l : prime p -> (p | product l) -> exists i, (i < length l)%nat /\ (p | vget l i).
Proof.
  intros P. induction l as [|x l IH]; cbn [product]; intros D.
  - apply Z.divide_1_r in D. pose proof (prime_ge_2 p P). lia.
  - apply (prime_mult p P) in D. destruct D as [D|D]; [exists 0%nat; split; [cbn; lia|exact D]|].
    destruct (IH D) as (i & Hi & Di). exists (S i). split; [cbn; lia|]. rewrite vget_cons_S. exact Di.
Qed.
(** The quotients of the components. *)
Fixpoint quots (u v : vec) : vec := match u, v with x :: u', y :: v' => x / y :: quots u' v' | _, _ => [] end.
Lemma quots_product : forall u v, length u = length v -> Forall (fun x => 1 <= x) v -> (forall i, (i < length v)%nat -> (vget v i | vget u i)) ->
  product u = product v * product (quots u v) /\ length (quots u v) = length v /\ forall i, (i < length v)%nat -> vget u i = vget v i * vget (quots u v) i.
Proof.
  induction u as [|x u IH]; intros [|y v] L Fv D; try discriminate; cbn [quots product].
  - split; [reflexivity|]. split; [reflexivity|]. intros i Hi. simpl in Hi. lia.
  - inversion Fv; subst. destruct (IH v ltac:(injection L; auto) ltac:(assumption)) as (E1 & E2 & E3).
    { intros i Hi. specialize (D (S i) ltac:(simpl; lia)). rewrite !vget_cons_S in D. exact D. }
    specialize (D 0%nat ltac:(simpl; lia)). cbn in D. destruct D as [c D]. subst x. rewrite Z.div_mul by lia.
    split; [rewrite E1; ring|]. split; [cbn; lia|]. intros [|i] Hi; [cbn; lia|]. rewrite !vget_cons_S. apply E3. simpl in Hi. lia.
Qed.
Lemma vmul_get v i f j : (i < length v)%nat -> vget (vmul v i f) j = if Nat.eqb j i then vget v i * f else vget v j.
Proof.
  intros Hi. unfold vmul. revert i j Hi. induction v as [|y v IH]; intros i j Hi; [simpl in Hi; lia|]. destruct i as [|i]; destruct j as [|j]; cbn [vset]; try reflexivity.
  rewrite !vget_cons_S. cbn [Nat.eqb]. apply IH. simpl in Hi. lia.
Qed.
Lemma every_assigned l : Forall prime l -> forall v u, length u = length v -> Forall (fun x => 1 <= x) v -> Forall (fun x => 1 <= x) u ->
  product u = product v * product l -> (forall i, (i < length v)%nat -> (vget v i | vget u i)) -> assigned v l u.
Proof.
  intros Pl. induction Pl as [|p l Pp Pl IH]; intros v u L Fv Fu E D; cbn [product] in E.
  - destruct (quots_product u v L Fv D) as (E1 & E2 & E3).
    assert (Q : forall i, (i < length v)%nat -> vget (quots u v) i = 1).
    { assert (P1 : product (quots u v) = 1). { assert (0 < product v). { clear - Fv. induction Fv; cbn [product]; nia. } nia. }
      assert (Pos : Forall (fun x => 1 <= x) (quots u v)).
      { apply Forall_forall. intros x Hx. apply In_nth with (d := 0) in Hx. destruct Hx as (i & Hi & <-). change (nth i (quots u v) 0) with (vget (quots u v) i).
        specialize (E3 i ltac:(lia)). pose proof (Forall_vget _ v i Fv ltac:(lia)). pose proof (Forall_vget _ u i Fu ltac:(lia)). cbn beta in *. nia. }
      revert P1 Pos. rewrite <- E2. generalize (quots u v) as q. clear. induction q as [|x q IH]; intros P1 Pos i Hi; [simpl in Hi; lia|]. inversion Pos as [|? ? Hx H2]; subst. cbn [product] in P1.
      assert (1 <= product q). { clear - H2. induction H2; cbn [product]; nia. } assert (Ex : x = 1) by nia. destruct i as [|i]; [exact Ex|]. rewrite vget_cons_S. apply IH; [nia|assumption|simpl in Hi; lia]. }
    replace u with v; [constructor|]. apply (nth_ext v u 0 0); [lia|]. intros i Hi. change (nth i v 0) with (vget v i). change (nth i u 0) with (vget u i). rewrite (E3 i Hi), (Q i Hi). lia.
  - destruct (quots_product u v L Fv D) as (E1 & E2 & E3).
    assert (Dp : (p | product (quots u v))). { assert (0 < product v) by (clear - Fv; induction Fv; cbn [product]; nia). exists (product l). nia. }
    destruct (prime_product _ _ Pp Dp) as (i & Hi & Di). rewrite E2 in Hi. pose proof (prime_ge_2 p Pp) as G. apply (as_cons v i p l u Hi). apply IH.
    + unfold vmul. rewrite vset_length. exact L.
    + unfold vmul. apply Forall_vset; [exact Fv|]. pose proof (Forall_vget _ v i Fv Hi). cbn beta in *. nia.
    + exact Fu.
    + unfold vmul. rewrite product_vset by exact Hi. rewrite E. ring.
    + intros j Hj. unfold vmul in Hj. rewrite vset_length in Hj. rewrite vmul_get by exact Hi. destruct (Nat.eqb_spec j i) as [->|_]; [|apply D; exact Hj].
      rewrite (E3 i Hi). apply Z.mul_divide_mono_l. exact Di.
Qed.

(** ** The best way *)
Section Best.
  Variable w : vec.
  Hypothesis Hw : Forall (fun x => 1 <= x) w.
  Notation dist := (distribute q_fdiv q_fmul q_fsum q_fltb).

  Lemma q_fltb_spec x y : if q_fltb x y then (x < y)%Q else (y <= x)%Q.
  Proof. unfold q_fltb. destruct (Qle_bool y x) eqn:E; cbn [negb]; [apply Qle_bool_iff; exact E|]. apply Qnot_le_lt. intros K. apply Qle_bool_iff in K. congruence. Qed.
  Lemma q_fsum_spec l : (q_fsum l == fold_right Qplus 0 l)%Q.
  Proof.
    unfold q_fsum. assert (K : forall a, (fold_left Qplus l a == a + fold_right Qplus 0 l)%Q).
    { induction l as [|x l IH]; intros a; cbn [fold_left fold_right]; [ring|]. rewrite IH. ring. }
    rewrite K. ring.
  Qed.
  Lemma surface_sum v : length v = length w -> (surface v w == fold_right Qplus 0 (map (fun fw : Z * Z => q_fdiv (fst fw) (snd fw)) (combine v w)))%Q.
  Proof.
    clear Hw. revert v. induction w as [|y w' IH]; intros [|x v] L; try discriminate; cbn [surface combine map fold_right fst snd]; [reflexivity|].
    rewrite IH by (injection L; auto). reflexivity.
  Qed.
  Lemma surface_vmul v i f : length v = length w -> (i < length v)%nat ->
    (surface (vmul v i f) w == surface v w + inject_Z (vget v i) / inject_Z (vget w i) * (inject_Z f - 1))%Q.
  Proof.
    revert v i Hw. induction w as [|y w' IH]; intros [|x v] i Fw L Hi; try discriminate; [simpl in Hi; lia|]. inversion Fw; subst.
    assert (Ny : ~ (inject_Z y == 0)%Q) by (unfold Qeq; cbn; lia). destruct i as [|i]; unfold vmul; cbn [vset surface].
    - change (vget (x :: v) 0) with x. change (vget (y :: w') 0) with y. rewrite inject_Z_mult. field. exact Ny.
    - rewrite !vget_cons_S. change (vset v i (vget v i * f)) with (vmul v i f). rewrite IH by (try assumption; simpl in *; lia). ring.
  Qed.
  Lemma upd_sum (l : list Q) i g : (i < length l)%nat -> (fold_right Qplus 0 (list_upd l i g) == fold_right Qplus 0 l + g (nth i l 0) - nth i l 0)%Q.
  Proof.
    revert i. induction l as [|x l IH]; intros i Hi; [simpl in Hi; lia|]. destruct i as [|i]; cbn [list_upd fold_right nth]; [ring|]. rewrite IH by (simpl in Hi; lia). ring.
  Qed.
  (** The loop finds the smallest ratio. *)
  Lemma imin_least (df : nat -> Q) : forall fs ws i imin fm, length fs = length ws -> (forall j, (j < length fs)%nat -> df (i + j)%nat = q_fdiv (vget fs j) (vget ws j)) ->
    match fm with None => True | Some m => m = df imin end ->
    let r := imin_loop q_fdiv q_fltb i fs ws imin fm in
    (forall j, (i <= j < i + length fs)%nat -> (df r <= df j)%Q) /\ match fm with None => fs = [] \/ (r < i + length fs)%nat | Some m => (df r <= m)%Q end.
  Proof.
    clear Hw. induction fs as [|f fs IH]; intros [|y ws] i imin fm L Hd Hm; try discriminate; cbn [imin_loop].
    - split; [intros j Hj; simpl in Hj; lia|]. destruct fm as [m|]; [rewrite Hm; apply Qle_refl|left; reflexivity].
    - pose proof (Hd 0%nat ltac:(simpl; lia)) as D0. rewrite Nat.add_0_r in D0. cbn in D0.
      assert (Hd' : forall j, (j < length fs)%nat -> df (S i + j)%nat = q_fdiv (vget fs j) (vget ws j)).
      { intros j Hj. specialize (Hd (S j) ltac:(simpl; lia)). rewrite !vget_cons_S in Hd. rewrite <- Hd. f_equal. lia. }
      assert (K1 : let r := imin_loop q_fdiv q_fltb (S i) fs ws i (Some (q_fdiv f y)) in (forall j, (i <= j < i + length (f :: fs))%nat -> (df r <= df j)%Q) /\ (df r <= df i)%Q).
      { destruct (IH ws (S i) i (Some (q_fdiv f y)) ltac:(simpl in L; lia) Hd' ltac:(symmetry; exact D0)) as [A B]. cbv zeta. rewrite <- D0 in *. split; [|exact B]. intros j Hj. destruct (Nat.eq_dec j i) as [->|N]; [exact B|]. apply A. simpl in Hj. lia. }
      destruct fm as [m|].
      + pose proof (q_fltb_spec (q_fdiv f y) m) as Hl. destruct (q_fltb (q_fdiv f y) m).
        * destruct K1 as [A B]. split; [exact A|]. rewrite D0 in B. cbv zeta in *. eapply Qle_trans; [exact B|]. apply Qlt_le_weak. exact Hl.
        * destruct (IH ws (S i) imin (Some m) ltac:(simpl in L; lia) Hd' Hm) as [A B]. cbv zeta. split; [|exact B]. intros j Hj. destruct (Nat.eq_dec j i) as [->|N].
          { rewrite D0. eapply Qle_trans; [exact B|exact Hl]. } apply A. simpl in Hj. lia.
      + destruct K1 as [A B]. cbv zeta. split; [exact A|]. right.
        pose proof (imin_loop_bound q_fdiv q_fltb fs (S i) ws i (Some (q_fdiv f y)) ltac:(lia)). simpl. lia.
  Qed.

  Definition best_of (v : vec) (l : list Z) (r : vec * Q) : Prop :=
    (snd r == surface (fst r) w)%Q /\ assigned v l (fst r) /\ forall u, assigned v l u -> (surface (fst r) w <= surface u w)%Q.

  Lemma last_best v f : length v = length w -> Forall (fun x => 1 <= x) v -> 1 <= f -> (1 <= length v)%nat -> best_of v [f] (distribute_last q_fdiv q_fmul q_fsum q_fltb v f w).
  Proof.
    intros L Fv Hf Hl. unfold distribute_last. set (df := map (fun fw : Z * Z => q_fdiv (fst fw) (snd fw)) (combine v w)). set (i := imin_loop q_fdiv q_fltb 0 v w 0 None).
    assert (Ld : length df = length v) by (unfold df; rewrite map_length, combine_length; lia).
    assert (Hd : forall j, (j < length v)%nat -> nth j df 0%Q = q_fdiv (vget v j) (vget w j)).
    { intros j Hj. unfold df. change 0%Q with ((fun fw : Z * Z => q_fdiv (fst fw) (snd fw)) (0, 1)) at 1. rewrite map_nth. 
      destruct (nth j (combine v w) (0, 1)) as [a b] eqn:E. assert (E' : nth j (combine v w) (0, 0) = (a, b)) by (rewrite <- E; apply nth_indep; rewrite combine_length; lia).
      rewrite combine_nth in E' by exact L. injection E' as <- <-. reflexivity. }
    destruct (imin_least (fun j => nth j df 0%Q) v w 0 0 None L Hd I) as [A B]. cbv zeta in A, B. fold i in A, B.
    assert (Hi : (i < length v)%nat) by (destruct B as [->|B]; [simpl in Hl; lia|lia]).
    split; [|split].
    - cbn [fst snd]. rewrite q_fsum_spec, upd_sum by lia. rewrite surface_vmul by assumption. rewrite surface_sum by exact L. fold df. rewrite (Hd i Hi). unfold q_fmul, q_fdiv. ring.
    - cbn [fst]. apply (as_cons v i f); [exact Hi|constructor].
    - intros u H. inversion H as [|? j ? ? ? Hj H1]; subst. inversion H1; subst. cbn [fst]. rewrite !surface_vmul by assumption.
      specialize (A j ltac:(lia)). rewrite !Hd in A by assumption. unfold q_fdiv in A. 
      assert (N : (0 <= inject_Z f - 1)%Q) by (assert (Q1 : (inject_Z 1 <= inject_Z f)%Q) by (rewrite <- Zle_Qle; lia); change (inject_Z 1) with 1%Q in Q1; lra).
      apply Qplus_le_r. apply Qmult_le_compat_r; assumption.
  Qed.

  Lemma best_loop_best rec v f l : (forall i, (i < length v)%nat -> best_of (vmul v i f) l (rec (vmul v i f))) ->
    forall is best, (snd best == surface (fst best) w)%Q -> assigned v (f :: l) (fst best) -> Forall (fun i => (i < length v)%nat) is ->
    let r := best_loop q_fltb rec v f is best in
    (snd r == surface (fst r) w)%Q /\ assigned v (f :: l) (fst r) /\ (surface (fst r) w <= surface (fst best) w)%Q /\
    forall i u, In i is -> assigned (vmul v i f) l u -> (surface (fst r) w <= surface u w)%Q.
  Proof.
    intros HR. induction is as [|i is IH]; intros best E L Fi; cbn [best_loop]; cbv zeta.
    - split; [exact E|]. split; [exact L|]. split; [apply Qle_refl|]. intros i u [].
    - inversion Fi; subst. destruct (HR i ltac:(assumption)) as (R1 & R2 & R3). pose proof (q_fltb_spec (snd (rec (vmul v i f))) (snd best)) as Hl.
      destruct (q_fltb (snd (rec (vmul v i f))) (snd best)).
      + destruct (IH (rec (vmul v i f)) R1 ltac:(apply (as_cons v i); assumption) ltac:(assumption)) as (I1 & I2 & I3 & I4). cbv zeta in *. rewrite R1, E in Hl. split; [exact I1|]. split; [exact I2|].
        split; [eapply Qle_trans; [exact I3|]; apply Qlt_le_weak; exact Hl|]. intros i' u [<-|Hi] Hu; [eapply Qle_trans; [exact I3|apply R3; exact Hu]|eapply I4; eassumption].
      + destruct (IH best E L ltac:(assumption)) as (I1 & I2 & I3 & I4). cbv zeta in *. rewrite R1, E in Hl. split; [exact I1|]. split; [exact I2|]. split; [exact I3|].
        intros i' u [<-|Hi] Hu; [|eapply I4; eassumption]. eapply Qle_trans; [exact I3|]. eapply Qle_trans; [exact Hl|apply R3; exact Hu].
  Qed.

  Lemma distribute_best l : forall v, l <> [] -> Forall (fun x => 1 <= x) l -> length v = length w -> Forall (fun x => 1 <= x) v -> (1 <= length v)%nat ->
    exists r, dist v l w = Some r /\ best_of v l r.
  Proof.
    induction l as [|f l IH]; intros v Hne Fl L Fv Hl; [congruence|]. inversion Fl; subst. destruct l as [|f' l].
    - eexists. split; [reflexivity|]. apply last_best; assumption.
    - assert (R : forall i, (i < length v)%nat -> exists r, dist (vmul v i f) (f' :: l) w = Some r /\ best_of (vmul v i f) (f' :: l) r).
      { intros i Hi. apply IH; [discriminate|assumption|unfold vmul; rewrite vset_length; exact L| |unfold vmul; rewrite vset_length; exact Hl].
        unfold vmul. apply Forall_vset; [exact Fv|]. pose proof (Forall_vget _ v i Fv Hi). cbn beta in *. nia. }
      destruct (R 0%nat ltac:(lia)) as (r0 & E0 & B1 & B2 & B3).
      set (rec := fun u => match dist u (f' :: l) w with Some r => r | None => (u, q_fsum []) end).
      change (dist v (f :: f' :: l) w) with (match dist (vmul v 0 f) (f' :: l) w with None => None | Some best => Some (best_loop q_fltb rec v f (seq 1 (length v - 1)) best) end).
      rewrite E0. eexists. split; [reflexivity|].
      assert (HR : forall i, (i < length v)%nat -> best_of (vmul v i f) (f' :: l) (rec (vmul v i f))).
      { intros i Hi. unfold rec. destruct (R i Hi) as (r & -> & B). exact B. }
      destruct (best_loop_best rec v f (f' :: l) HR (seq 1 (length v - 1)) r0 B1 ltac:(apply (as_cons v 0); [lia|exact B2])) as (I1 & I2 & I3 & I4).
      { apply Forall_forall. intros i Hi. apply in_seq in Hi. lia. }
      split; [exact I1|]. split; [exact I2|]. intros u Hu. inversion Hu as [|? i ? ? ? Hi Hu']; subst. destruct i as [|i].
      + eapply Qle_trans; [exact I3|]. apply B3. exact Hu'.
      + apply (I4 (S i)); [apply in_seq; lia|exact Hu'].
  Qed.
End Best.

Lemma product_fold l : fold_right Z.mul 1 l = product l.
Proof. induction l as [|x l IH]; cbn; [reflexivity|]. rewrite IH. reflexivity. Qed.

(** The smallest prime factor goes to the first dimension, the others are distributed in the best way. *)
Theorem equalFactors_best isqrt number nfact w fuel v : 1 <= number -> (1 <= nfact)%nat -> isqrt number = Z.sqrt number ->
  length w = nfact -> Forall (fun x => 1 <= x) w ->
  equalFactors q_fdiv q_fmul q_fsum q_fltb fuel isqrt number nfact w = Some v ->
  (forall p, smallest_prime number p -> (p | vget v 0)) /\
  forall u, divides_among nfact number u -> (forall p, smallest_prime number p -> (p | vget u 0)) -> (surface v w <= surface u w)%Q.
Proof.
  intros H1 H2 Hs Lw Fw E. unfold equalFactors in E. rewrite Hs in E. pose proof (Z.sqrt_spec number ltac:(lia)) as Sq.
  destruct (factorize fuel number (makePrimes (Z.sqrt number)) []) as [l0|] eqn:Ef; [|discriminate].
  destruct (factorize_primes (Z.sqrt number) fuel number [] l0 H1 ltac:(unfold Z.succ in Sq; lia) (Z.sqrt_nonneg number) Ef) as (l & -> & Pl & Fl & Sm).
  rewrite app_nil_r in E. destruct l as [|f rest].
  - injection E as <-. split.
    + intros p (P & D & _). subst number. apply Z.divide_1_r in D. pose proof (prime_ge_2 p P). lia.
    + intros u (Lu & Pu & Fu) _. replace u with (repeat 1 nfact); [apply Qle_refl|]. subst number. rewrite product_fold in Pu. clear - Lu Pu Fu. subst nfact.
      induction Fu as [|x u Hx Fu IH]; [reflexivity|]. cbn [product] in Pu. assert (1 <= product u) by (clear - Fu; induction Fu; cbn [product]; nia).
      cbn [length repeat]. rewrite IH by (cbn [product]; nia). f_equal. nia.
  - destruct nfact as [|k]; [lia|]. inversion Fl as [|? ? Pf Fr]; subst. pose proof (prime_ge_2 f Pf) as Gf.
    set (v0 := f :: repeat 1 k) in *. assert (L0 : length v0 = S k) by (unfold v0; simpl; rewrite repeat_length; reflexivity).
    assert (F0 : Forall (fun x => 1 <= x) v0) by (constructor; [lia|]; apply Forall_forall; intros x Hx; apply repeat_spec in Hx; lia).
    assert (P0 : product v0 = f) by (unfold v0; cbn [product]; rewrite product_repeat1; lia).
    assert (A : forall u, divides_among (S k) (product (f :: rest)) u -> (forall p, smallest_prime (product (f :: rest)) p -> (p | vget u 0)) -> assigned v0 rest u).
    { intros u (Lu & Pu & Fu) D. apply every_assigned; try assumption; [lia|rewrite <- product_fold, Pu, P0; cbn [product]; reflexivity|].
      intros [|i] Hi; [exact (D f Sm)|]. unfold v0. rewrite vget_cons_S. replace (vget (repeat 1 k) i) with 1; [apply Z.divide_1_l|].
      unfold vget. rewrite (nth_indep _ 0 1) by (rewrite repeat_length; rewrite L0 in Hi; lia). symmetry. apply nth_repeat. }
    assert (U : forall p, smallest_prime (product (f :: rest)) p -> p = f).
    { intros p (P & D & M). destruct Sm as (_ & Df & Mf). specialize (M f Pf Df). specialize (Mf p P D). lia. }
    assert (B : exists r, v = r /\ assigned v0 rest r /\ forall u, assigned v0 rest u -> (surface r w <= surface u w)%Q).
    { destruct rest as [|f2 rest].
      - injection E as <-. exists v0. split; [reflexivity|]. split; [constructor|]. intros u Hu. rewrite (assigned_nil _ _ Hu). apply Qle_refl.
      - assert (F1 : Forall (fun x => 1 <= x) (f2 :: rest)) by (eapply Forall_impl; [|exact Fr]; cbn beta; intros x Px; pose proof (prime_ge_2 x Px); lia).
        destruct (distribute_best w Fw (f2 :: rest) v0 ltac:(discriminate) F1 ltac:(lia) F0 ltac:(lia)) as (r & Er & B1 & B2 & B3).
        rewrite Er in E. injection E as <-. exists (fst r). split; [reflexivity|]. split; [exact B2|exact B3]. }
    destruct B as (r & -> & B1 & B2). split; [|intros u Hu D; apply B2, A; assumption].
    intros p Hp. rewrite (U p Hp). assert (D0 : (f | vget v0 0)) by apply Z.divide_refl. clear - B1 D0. revert D0. induction B1 as [|v i x l u Hi _ IH]; intros D; [exact D|].
    apply IH. rewrite vmul_get by exact Hi. destruct (Nat.eqb_spec 0 i) as [<-|_]; [apply Z.divide_mul_l|]; exact D.
Qed.
