(** Proofs about the registry of block classes. *)
From Coq Require Import List Bool Arith String Lia.
From Verif Require Import ClassModel ClassSpec.
Import ListNotations.

(** * Lists *)
Lemma set_nth_length {X} (l : list X) : forall i x, List.length (set_nth l i x) = List.length l.
Proof. induction l as [|y l IH]; intros [|i] x; cbn; auto. Qed.
Lemma set_nth_error {X} (l : list X) : forall i x j,
  nth_error (set_nth l i x) j = if Nat.eqb j i && Nat.ltb i (List.length l) then Some x else nth_error l j.
Proof.
  induction l as [|y l IH]; intros i x j; cbn; [destruct (j =? i); destruct j; reflexivity|].
  destruct i as [|i], j as [|j]; cbn; try reflexivity. rewrite IH. reflexivity.
Qed.
Lemma set_nth_nth {X} (l : list X) i x j (d : X) : i < List.length l -> nth j (set_nth l i x) d = if Nat.eqb j i then x else nth j l d.
Proof.
  intros L. pose proof (set_nth_error l i x j) as E. apply Nat.ltb_lt in L. rewrite L, andb_true_r in E.
  destruct (Nat.eqb j i); [now apply nth_error_nth|].
  destruct (nth_error l j) as [y|] eqn:F; [now rewrite (nth_error_nth _ _ _ E), (nth_error_nth _ _ _ F)|].
  apply nth_error_None in E, F. now rewrite !nth_overflow.
Qed.
Lemma nth_map_seq {X} (f : nat -> X) n i d : nth i (map f (seq 0 n)) d = if Nat.ltb i n then f i else d.
Proof.
  destruct (Nat.ltb_spec i n).
  - rewrite nth_indep with (d' := f 0) by (now rewrite map_length, seq_length). rewrite map_nth, seq_nth by lia. reflexivity.
  - apply nth_overflow. now rewrite map_length, seq_length.
Qed.
Lemma nth_eq {X} (d : X) : forall l m, List.length l = List.length m -> (forall i, nth i l d = nth i m d) -> l = m.
Proof.
  induction l as [|x l IH]; intros [|y m] L H; try discriminate; [reflexivity|].
  f_equal; [exact (H 0)|]. apply IH; [now injection L|]. intros i. exact (H (S i)).
Qed.

(** * Maps *)
Lemma find_put m : forall n d x, find (put m n d) x = if String.eqb n x then Some d else find m x.
Proof.
  induction m as [|[a e] m IH]; intros n d x; cbn; [reflexivity|].
  destruct (String.eqb_spec a n) as [->|N]; cbn; [destruct (n =? x)%string; reflexivity|].
  rewrite IH. destruct (String.eqb_spec a x), (String.eqb_spec n x); try reflexivity. congruence.
Qed.
Lemma put_keys m n d x : In x (map fst (put m n d)) <-> x = n \/ In x (map fst m).
Proof.
  induction m as [|[a e] m IH]; cbn; [intuition|].
  destruct (String.eqb_spec a n) as [->|N]; cbn; [intuition|]. rewrite IH. intuition.
Qed.
Lemma put_nodup m n d : NoDup (map fst m) -> NoDup (map fst (put m n d)).
Proof.
  induction m as [|[a e] m IH]; cbn; intros H; [constructor; [tauto|constructor]|].
  inversion H as [|? ? H1 H2]; subst. destruct (String.eqb_spec a n) as [->|N]; cbn; constructor; auto.
  rewrite put_keys. intuition.
Qed.
Lemma find_in m n d : NoDup (map fst m) -> (In (n, d) m <-> find m n = Some d).
Proof.
  induction m as [|[a e] m IH]; cbn; intros H; [split; [tauto|discriminate]|].
  inversion H as [|? ? H1 H2]; subst. destruct (String.eqb_spec a n) as [->|N].
  - split.
    + intros [E|I]; [congruence|]. exfalso. apply H1. apply in_map_iff. now exists (n, d).
    + intros E. left. congruence.
  - rewrite <- (IH H2). split; [|tauto]. intros [E|I]; [congruence|exact I].
Qed.

Lemma same_spec x g n : same x g n = true <-> x = Some (g, n).
Proof.
  unfold same. destruct x as [[g' n']|]; [|split; discriminate].
  rewrite andb_true_iff, Nat.eqb_eq, String.eqb_eq. split; [intros [-> ->]; reflexivity|intros E; injection E; auto].
Qed.
Lemma same_refl g n : same (Some (g, n)) g n = true.
Proof. now apply same_spec. Qed.
Lemma same_other x g n : x <> Some (g, n) -> same x g n = false.
Proof. intros H. destruct (same x g n) eqn:E; [|reflexivity]. apply same_spec in E. contradiction. Qed.

(** * What the operations amount to *)
Record agrees (h : list op) (s : state) (own : nat -> nat * string) : Prop := {
  a_objects : objects s = members h;
  a_maps : List.length (maps s) = started h;
  a_members : forall b g r, member h b = Some (g, r) -> g < started h;
  a_keys : forall g, NoDup (map fst (nth g (maps s) []));
  a_refs : List.length (refs s) = List.length (references h);
  a_ref : forall k d, nth_error (refs s) k = Some d ->
            reference h k = Some (own d) /\ d < List.length (descs s) /\ fst (own d) < started h /\
            (current h k = true <-> find (nth (fst (own d)) (maps s) []) (snd (own d)) = Some d);
  a_found : forall g n d, find (nth g (maps s) []) n = Some d ->
              own d = (g, n) /\ nth_error (descs s) d = Some (mkDesc (added h g n) (set_to h g n)) /\ known h g n = true;
  a_unknown : forall g n, find (nth g (maps s) []) n = None -> known h g n = false /\ added h g n = [] /\ set_to h g n = None
}.

Lemma object_member h s own b : agrees h s own -> object s b = member h b.
Proof.
  intros A. unfold object, member. rewrite (a_objects _ _ _ A).
  destruct (nth_error (members h) b) as [o|] eqn:E; [now rewrite (nth_error_nth _ _ _ E); destruct o|].
  apply nth_error_None in E. now rewrite nth_overflow.
Qed.

Lemma alive_spec h g : alive h g = true <-> exists b r, member h b = Some (g, r).
Proof.
  unfold alive, member. rewrite existsb_exists. split.
  - intros (x & I & E). destruct x as [[g' r]|]; [|discriminate]. apply Nat.eqb_eq in E. subst.
    destruct (In_nth _ _ None I) as (b & _ & E). eauto.
  - intros (b & r & E). exists (Some (g, r)). split; [|apply Nat.eqb_refl].
    rewrite <- E. apply nth_In. destruct (Nat.ltb_spec b (List.length (members h))); [assumption|].
    rewrite nth_overflow in E by assumption. discriminate.
Qed.

Lemma exists_usable h s own k d : agrees h s own -> nth_error (refs s) k = Some d -> exists_desc s d = usable h k.
Proof.
  intros A R. destruct (a_ref _ _ _ A k d R) as (E & _ & _ & C). unfold usable. rewrite E.
  apply eq_true_iff_eq. rewrite andb_true_iff, C. unfold exists_desc. rewrite existsb_exists.
  destruct (own d) as [g n] eqn:Eo. cbn [fst snd]. split.
  - intros (o & I & H). destruct o as [[g' r]|]; [|discriminate]. apply existsb_exists in H.
    destruct H as ([n' d'] & I' & H). cbn in H. apply Nat.eqb_eq in H. subst d'.
    apply find_in in I'; [|apply (a_keys _ _ _ A)]. destruct (a_found _ _ _ A _ _ _ I') as [E' _].
    rewrite Eo in E'. injection E' as <- <-. split; [exact I'|].
    unfold alive. apply existsb_exists. exists (Some (g, r)). split; [|apply Nat.eqb_refl].
    rewrite <- (a_objects _ _ _ A). exact I.
  - intros [F L]. unfold alive in L. apply existsb_exists in L. destruct L as (o & I & H).
    destruct o as [[g' r]|]; [|discriminate]. apply Nat.eqb_eq in H. subst g'.
    exists (Some (g, r)). split; [now rewrite (a_objects _ _ _ A)|]. apply existsb_exists. exists (n, d).
    split; [apply find_in; [apply (a_keys _ _ _ A)|exact F]|apply Nat.eqb_refl].
Qed.

Lemma agrees_empty : agrees [] empty (fun _ => (0, EmptyString)).
Proof.
  constructor.
  - reflexivity.
  - reflexivity.
  - intros b g r. unfold member. cbn. destruct b; discriminate.
  - intros g. destruct g; cbn; constructor.
  - reflexivity.
  - intros [|k]; discriminate.
  - intros [|g] n d; discriminate.
  - intros g n _. repeat split.
Qed.

(** Operations that hand out nothing and register nothing. *)
Lemma agrees_objects o h s own s' :
  agrees h s own ->
  (forall b n, o <> Register b n) -> (forall b n, o <> Get b n) -> (forall k c, o <> AddChild k c) -> (forall k c, o <> SetClass k c) ->
  descs s' = descs s -> refs s' = refs s -> objects s' = members (o :: h) -> List.length (maps s') = started (o :: h) ->
  started h <= started (o :: h) ->
  (forall b g r, member (o :: h) b = Some (g, r) -> g < started (o :: h)) ->
  (forall g, nth g (maps s') [] = nth g (maps s) []) ->
  agrees (o :: h) s' own.
Proof.
  intros A O1 O2 O3 O4 ED ER EO EM LE EB EN.
  assert (Rs : references (o :: h) = references h) by (destruct o; try reflexivity; [now elim (O1 b name)|now elim (O2 b name)]).
  assert (Rf : forall k, reference (o :: h) k = reference h k) by (intros k; unfold reference; now rewrite Rs).
  assert (Kn : forall g n, known (o :: h) g n = known h g n) by (intros g n; unfold known; now rewrite Rs).
  assert (Ad : forall g n, added (o :: h) g n = added h g n) by (intros g n; destruct o; try reflexivity; [now elim (O1 b name)|now elim (O3 k child)]).
  assert (Se : forall g n, set_to (o :: h) g n = set_to h g n) by (intros g n; destruct o; try reflexivity; [now elim (O1 b name)|now elim (O4 k c)]).
  constructor; auto.
  - intros g. rewrite EN. apply (a_keys _ _ _ A).
  - rewrite ER, Rs. apply (a_refs _ _ _ A).
  - intros k d R. rewrite ER in R. destruct (a_ref _ _ _ A k d R) as (E1 & E2 & E3 & E4). rewrite Rf, ED, EN.
    split; [exact E1|]. split; [exact E2|]. split; [lia|]. rewrite <- E4. cbn [current].
    assert (L : k < List.length (references h)) by (rewrite <- (a_refs _ _ _ A); apply nth_error_Some; congruence).
    apply Nat.ltb_lt in L. rewrite L. destruct o; try (rewrite andb_true_r; reflexivity). now elim (O1 b name).
  - intros g n d F. rewrite EN in F. rewrite ED, Ad, Se, Kn. apply (a_found _ _ _ A). exact F.
  - intros g n F. rewrite EN in F. rewrite Ad, Se, Kn. apply (a_unknown _ _ _ A). exact F.
Qed.

Lemma known_app h g n x l : references l = references h ++ [x] -> known l g n = known h g n || same x g n.
Proof. intros E. unfold known. rewrite E, existsb_app. cbn. now rewrite orb_false_r. Qed.

(** [registerBlock], also when called by [get]. *)
Lemma agrees_register o h s own b m r name :
  agrees h s own -> member h b = Some (m, r) ->
  (o = Register b name \/ (o = Get b name /\ find (nth m (maps s) []) name = None)) ->
  agrees (o :: h) (register s m name) (fun d => if Nat.eqb d (List.length (descs s)) then (m, name) else own d).
Proof.
  intros A M O. pose proof (a_members _ _ _ A _ _ _ M) as Lm. rewrite <- (a_maps _ _ _ A) in Lm.
  assert (Cl : the_class h b name = Some (m, name)) by (unfold the_class, registry; now rewrite M).
  assert (Rs : references (o :: h) = references h ++ [Some (m, name)]) by (destruct O as [->|[-> _]]; cbn; now rewrite Cl).
  assert (Mb : members (o :: h) = members h) by (destruct O as [->|[-> _]]; reflexivity).
  assert (St : started (o :: h) = started h) by (destruct O as [->|[-> _]]; reflexivity).
  assert (Ad : forall g n, added (o :: h) g n = if same (Some (m, name)) g n then [] else added h g n).
  { intros g n. destruct O as [->|[-> F]]; cbn [added set_to]; [now rewrite Cl|]. destruct (same (Some (m, name)) g n) eqn:E; [|reflexivity].
    apply same_spec in E. injection E as <- <-. apply (a_unknown _ _ _ A). exact F. }
  assert (Se : forall g n, set_to (o :: h) g n = if same (Some (m, name)) g n then None else set_to h g n).
  { intros g n. destruct O as [->|[-> F]]; cbn [added set_to]; [now rewrite Cl|]. destruct (same (Some (m, name)) g n) eqn:E; [|reflexivity].
    apply same_spec in E. injection E as <- <-. apply (a_unknown _ _ _ A). exact F. }
  assert (Mp : forall g n, find (nth g (set_nth (maps s) m (put (nth m (maps s) []) name (List.length (descs s)))) []) n =
                 if same (Some (m, name)) g n then Some (List.length (descs s)) else find (nth g (maps s) []) n).
  { intros g n. rewrite set_nth_nth by exact Lm. destruct (Nat.eqb_spec g m) as [->|N].
    - rewrite find_put. unfold same. rewrite Nat.eqb_refl. reflexivity.
    - unfold same. destruct (Nat.eqb_spec m g); [congruence|reflexivity]. }
  assert (Old : forall d, d < List.length (descs s) -> Nat.eqb d (List.length (descs s)) = false) by (intros d L; apply Nat.eqb_neq; lia).
  constructor; cbn [register descs maps objects refs].
  - rewrite Mb. apply (a_objects _ _ _ A).
  - rewrite set_nth_length, St. apply (a_maps _ _ _ A).
  - intros b' g r'. unfold member. rewrite Mb, St. apply (a_members _ _ _ A).
  - intros g. rewrite set_nth_nth by exact Lm. destruct (Nat.eqb g m); [apply put_nodup|]; apply (a_keys _ _ _ A).
  - rewrite Rs, !app_length, (a_refs _ _ _ A). reflexivity.
  - intros k d R.
    assert (Lk : List.length (refs s) = List.length (references h)) by apply (a_refs _ _ _ A).
    destruct (Nat.ltb_spec k (List.length (refs s))) as [L|L].
    + rewrite nth_error_app1 in R by exact L. destruct (a_ref _ _ _ A k d R) as (E1 & E2 & E3 & E4).
      rewrite (Old d E2), Mp, app_length, St. cbn [List.length].
      assert (Rk : reference (o :: h) k = reference h k) by (unfold reference; rewrite Rs, app_nth1 by lia; reflexivity).
      rewrite Rk. split; [exact E1|]. split; [lia|]. split; [exact E3|]. cbn [current]. rewrite (proj2 (Nat.ltb_lt _ _)) by lia.
      destruct (own d) as [g n] eqn:Eo. cbn [fst snd] in *. rewrite E1.
      destruct (same (Some (m, name)) g n) eqn:Sa.
      * apply same_spec in Sa. injection Sa as <- <-. split; [|intros E; injection E as E; lia].
        intros Cu. apply andb_true_iff in Cu. destruct Cu as [Cu Ne]. destruct O as [->|[-> F]].
        -- rewrite Cl, same_refl in Ne. discriminate.
        -- apply E4 in Cu. congruence.
      * rewrite <- E4. destruct O as [->|[-> _]]; [rewrite Cl, Sa|]; now rewrite andb_true_r.
    + rewrite nth_error_app2 in R by exact L.
      assert (k = List.length (refs s)).
      { assert (k - List.length (refs s) < 1) by (apply nth_error_Some with (l := [List.length (descs s)]); congruence). lia. }
      subst k. rewrite Nat.sub_diag in R. cbn in R. injection R as <-. rewrite Nat.eqb_refl. cbn [fst snd].
      unfold reference. rewrite Rs, app_nth2 by lia. rewrite Lk, Nat.sub_diag. split; [reflexivity|].
      rewrite app_length, St, Mp, same_refl. cbn [List.length]. split; [lia|]. split; [rewrite <- (a_maps _ _ _ A); exact Lm|].
      split; [reflexivity|]. intros _. cbn [current]. rewrite Nat.ltb_irrefl, Rs, app_length. apply Nat.ltb_lt. cbn. lia.
  - intros g n d. rewrite Mp. intros F. rewrite Ad, Se, (known_app h _ _ _ _ Rs).
    destruct (same (Some (m, name)) g n) eqn:Sa.
    + injection F as <-. rewrite Nat.eqb_refl, nth_error_app2, Nat.sub_diag, orb_true_r by lia. apply same_spec in Sa. now injection Sa as <- <-.
    + destruct (a_found _ _ _ A _ _ _ F) as (E1 & E2 & E3).
      assert (L : d < List.length (descs s)) by (apply nth_error_Some; congruence).
      rewrite (Old d L), E3, nth_error_app1 by exact L. auto.
  - intros g n. rewrite Mp. intros F. rewrite Ad, Se, (known_app h _ _ _ _ Rs). destruct (same (Some (m, name)) g n) eqn:Sa; [discriminate|].
    rewrite orb_false_r. apply (a_unknown _ _ _ A). exact F.
Qed.

(** [get] of a known class. *)
Lemma agrees_get h s own b m r name d :
  agrees h s own -> member h b = Some (m, r) -> find (nth m (maps s) []) name = Some d ->
  agrees (Get b name :: h) (mkState (descs s) (maps s) (objects s) (refs s ++ [d])) own.
Proof.
  intros A M F.
  assert (Cl : the_class h b name = Some (m, name)) by (unfold the_class, registry; now rewrite M).
  assert (Rs : references (Get b name :: h) = references h ++ [Some (m, name)]) by (cbn; now rewrite Cl).
  assert (Lk : List.length (refs s) = List.length (references h)) by apply (a_refs _ _ _ A).
  pose proof (a_found _ _ _ A _ _ _ F) as (Eo & Ed & Ek).
  constructor; cbn [descs maps objects refs].
  - apply (a_objects _ _ _ A).
  - apply (a_maps _ _ _ A).
  - apply (a_members _ _ _ A).
  - apply (a_keys _ _ _ A).
  - rewrite Rs, !app_length, Lk. reflexivity.
  - intros k e R. destruct (Nat.ltb_spec k (List.length (refs s))) as [L|L].
    + rewrite nth_error_app1 in R by exact L. destruct (a_ref _ _ _ A k e R) as (E1 & E2 & E3 & E4).
      unfold reference. rewrite Rs, app_nth1 by lia. split; [exact E1|]. split; [exact E2|]. split; [exact E3|].
      rewrite <- E4. cbn [current]. rewrite (proj2 (Nat.ltb_lt _ _)) by lia. now rewrite andb_true_r.
    + rewrite nth_error_app2 in R by exact L.
      assert (k = List.length (refs s)).
      { assert (k - List.length (refs s) < 1) by (apply nth_error_Some with (l := [d]); congruence). lia. }
      subst k. rewrite Nat.sub_diag in R. cbn in R. injection R as <-.
      unfold reference. rewrite Rs, app_nth2 by lia. rewrite Lk, Nat.sub_diag, Eo. split; [reflexivity|]. cbn [fst snd].
      split; [apply nth_error_Some; congruence|]. split; [apply (a_members _ _ _ A _ _ _ M)|]. split; [intros _; exact F|].
      intros _. cbn [current]. rewrite Nat.ltb_irrefl, Rs, app_length. apply Nat.ltb_lt. cbn. lia.
  - intros g n e Fe. destruct (a_found _ _ _ A _ _ _ Fe) as (E1 & E2 & E3). rewrite (known_app h _ _ _ _ Rs), E3. auto.
  - intros g n Fe. destruct (a_unknown _ _ _ A _ _ Fe) as (E1 & E2 & E3). rewrite (known_app h _ _ _ _ Rs), E1. cbn [added set_to].
    split; [|auto]. apply same_other. intros E. injection E as <- <-. congruence.
Qed.

(** [addChildren] and [setClass]. *)
Lemma agrees_change o h s own k d x :
  agrees h s own -> nth_error (refs s) k = Some d -> usable h k = true -> nth_error (descs s) d = Some x ->
  forall y, (exists c, o = AddChild k c /\ y = mkDesc (c :: children x) (factory x)) \/
            (exists c, o = SetClass k c /\ y = mkDesc (children x) (Some c)) ->
  agrees (o :: h) (mkState (set_nth (descs s) d y) (maps s) (objects s) (refs s)) own.
Proof.
  intros A R U X y O. destruct (a_ref _ _ _ A k d R) as (E1 & E2 & E3 & E4).
  unfold usable in U. apply andb_true_iff in U. destruct U as [U _]. apply E4 in U.
  destruct (a_found _ _ _ A _ _ _ U) as (_ & Ex & Ek). rewrite X in Ex. injection Ex as Ex.
  assert (Rs : references (o :: h) = references h) by (destruct O as [(c & -> & _)|(c & -> & _)]; reflexivity).
  assert (Mb : members (o :: h) = members h) by (destruct O as [(c & -> & _)|(c & -> & _)]; reflexivity).
  assert (St : started (o :: h) = started h) by (destruct O as [(c & -> & _)|(c & -> & _)]; reflexivity).
  constructor; cbn [descs maps objects refs].
  - rewrite Mb. apply (a_objects _ _ _ A).
  - rewrite St. apply (a_maps _ _ _ A).
  - intros b g r. unfold member. rewrite Mb, St. apply (a_members _ _ _ A).
  - apply (a_keys _ _ _ A).
  - rewrite Rs. apply (a_refs _ _ _ A).
  - intros j e Rj. destruct (a_ref _ _ _ A j e Rj) as (F1 & F2 & F3 & F4). unfold reference. rewrite Rs, set_nth_length, St.
    split; [exact F1|]. split; [exact F2|]. split; [exact F3|]. rewrite <- F4. cbn [current].
    assert (L : j < List.length (references h)) by (rewrite <- (a_refs _ _ _ A); apply nth_error_Some; congruence).
    apply Nat.ltb_lt in L. rewrite L. destruct O as [(c & -> & _)|(c & -> & _)]; now rewrite andb_true_r.
  - intros g n e F. destruct (a_found _ _ _ A _ _ _ F) as (F1 & F2 & F3). split; [exact F1|].
    assert (K : known (o :: h) g n = known h g n) by (unfold known; now rewrite Rs). rewrite K. split; [|exact F3].
    rewrite set_nth_error. apply Nat.ltb_lt in E2. rewrite E2, andb_true_r.
    destruct (Nat.eqb_spec e d) as [->|N].
    + rewrite F1 in *. cbn [fst snd] in *. destruct O as [(c & -> & ->)|(c & -> & ->)]; cbn [added set_to]; rewrite E1, same_refl, Ex; reflexivity.
    + rewrite F2. destruct (own d) as [g' n'] eqn:Eo. cbn [fst snd] in *.
      assert (Sd : same (Some (g', n')) g n = false) by (apply same_other; intros E; injection E as <- <-; congruence).
      destruct O as [(c & -> & _)|(c & -> & _)]; cbn [added set_to]; rewrite E1, Sd; reflexivity.
  - intros g n F. destruct (a_unknown _ _ _ A _ _ F) as (F1 & F2 & F3).
    assert (K : known (o :: h) g n = known h g n) by (unfold known; now rewrite Rs). rewrite K. split; [exact F1|].
    assert (Sd : same (Some (own d)) g n = false).
    { apply same_other. intros E. injection E as E. rewrite E in U. cbn in U. congruence. }
    destruct O as [(c & -> & _)|(c & -> & _)]; cbn [added set_to]; rewrite E1, Sd; auto.
Qed.

Lemma set_nth_seq {X} (l : list (option X)) b y (f : nat -> option X) :
  (forall i, i < List.length l -> f i = if Nat.eqb i b then y else nth i l None) -> b < List.length l ->
  set_nth l b y = map f (seq 0 (List.length l)).
Proof.
  intros H L. apply (nth_eq None); [now rewrite set_nth_length, map_length, seq_length|]. intros i.
  rewrite set_nth_nth, nth_map_seq by exact L. destruct (Nat.ltb_spec i (List.length l)) as [Li|Li]; [now rewrite H|].
  destruct (Nat.eqb_spec i b); [lia|]. now apply nth_overflow.
Qed.
Lemma member_bound h b x : member h b = Some x -> b < List.length (members h).
Proof.
  unfold member. intros E. destruct (Nat.ltb_spec b (List.length (members h))); [assumption|]. rewrite nth_overflow in E by assumption. discriminate.
Qed.

Lemma agrees_step h s own o : agrees h s own ->
  match step s o with
  | Some s' => uses_existing h o = true /\ exists own', agrees (o :: h) s' own'
  | None => uses_existing h o = false
  end.
Proof.
  intros A. destruct o as [r|b|b c|b|b name|b name|k c|k c]; cbn [step uses_existing].
  - split; [reflexivity|]. exists own. apply (agrees_objects _ h s); try discriminate; try reflexivity; auto; cbn [objects maps].
    + cbn [members]. now rewrite (a_objects _ _ _ A), (a_maps _ _ _ A).
    + cbn [started]. rewrite app_length, (a_maps _ _ _ A). cbn. lia.
    + cbn. lia.
    + intros b g r'. unfold member. cbn [members started]. destruct (Nat.ltb_spec b (List.length (members h))) as [L|L].
      * rewrite app_nth1 by exact L. intros E. pose proof (a_members _ _ _ A b g r' E). lia.
      * rewrite app_nth2 by exact L. destruct (b - List.length (members h)) as [|[|?]]; cbn; try discriminate. intros E. injection E as <- _. lia.
    + intros g. destruct (Nat.ltb_spec g (List.length (maps s))) as [L|L]; [now rewrite app_nth1|].
      rewrite app_nth2, (nth_overflow (maps s)) by exact L. destruct (g - List.length (maps s)) as [|[|?]]; reflexivity.
  - rewrite (object_member _ _ _ _ A). destruct (member h b) as [x|] eqn:M; [|reflexivity].
    split; [reflexivity|]. exists own. apply (agrees_objects _ h s); try discriminate; try reflexivity; auto; cbn [objects maps].
    + cbn [members]. change (nth b (members h) None) with (member h b). now rewrite M, (a_objects _ _ _ A).
    + apply (a_maps _ _ _ A).
    + intros j g r'. unfold member. cbn [members started]. change (nth b (members h) None) with (member h b). rewrite M.
      destruct (Nat.ltb_spec j (List.length (members h))) as [L|L].
      * rewrite app_nth1 by exact L. apply (a_members _ _ _ A j).
      * rewrite app_nth2 by exact L. destruct (j - List.length (members h)) as [|[|?]]; cbn; try discriminate. intros E. rewrite E in M. exact (a_members _ _ _ A b _ _ M).
  - rewrite !(object_member _ _ _ _ A). destruct (member h b) as [x|] eqn:M; [|reflexivity]. destruct (member h c) as [y|] eqn:Mc; [|reflexivity].
    split; [reflexivity|]. exists own. apply (agrees_objects _ h s); try discriminate; try reflexivity; auto; cbn [objects maps].
    + cbn [members]. rewrite (a_objects _ _ _ A). apply set_nth_seq; [|now apply member_bound with x]. intros i _.
      destruct (Nat.eqb i b); [exact Mc|reflexivity].
    + apply (a_maps _ _ _ A).
    + intros j g r'. unfold member. cbn [members started]. rewrite nth_map_seq. destruct (Nat.ltb j (List.length (members h))); [|discriminate].
      intros E. exact (a_members _ _ _ A _ _ _ E).
  - rewrite (object_member _ _ _ _ A). destruct (member h b) as [x|] eqn:M; [|reflexivity].
    split; [reflexivity|]. exists own. apply (agrees_objects _ h s); try discriminate; try reflexivity; auto; cbn [objects maps].
    + cbn [members]. rewrite (a_objects _ _ _ A). apply set_nth_seq; [|now apply member_bound with x]. reflexivity.
    + apply (a_maps _ _ _ A).
    + intros j g r'. unfold member. cbn [members started]. rewrite nth_map_seq. destruct (Nat.ltb j (List.length (members h))); [|discriminate].
      destruct (Nat.eqb j b); [discriminate|]. intros E. exact (a_members _ _ _ A _ _ _ E).
  - rewrite (object_member _ _ _ _ A). destruct (member h b) as [[m r]|] eqn:M; [|reflexivity].
    split; [reflexivity|]. eexists. apply (agrees_register _ h s own b m r); auto.
  - rewrite (object_member _ _ _ _ A). destruct (member h b) as [[m r]|] eqn:M; [|reflexivity].
    destruct (find (nth m (maps s) []) name) as [d|] eqn:F; (split; [reflexivity|]); eexists.
    + apply (agrees_get h s own b m r); eassumption.
    + apply (agrees_register _ h s own b m r); auto.
  - destruct (nth_error (refs s) k) as [d|] eqn:R.
    + rewrite (exists_usable h s own k d A R). destruct (usable h k) eqn:U; [|reflexivity].
      destruct (nth_error (descs s) d) as [x|] eqn:X.
      * split; [reflexivity|]. exists own. apply (agrees_change _ h s own k d x A R U X). left. eauto.
      * apply nth_error_None in X. destruct (a_ref _ _ _ A k d R) as (_ & L & _). lia.
    + unfold usable. apply nth_error_None in R. rewrite (a_refs _ _ _ A) in R. unfold reference. rewrite nth_overflow by exact R. apply andb_false_r.
  - destruct (nth_error (refs s) k) as [d|] eqn:R.
    + rewrite (exists_usable h s own k d A R). destruct (usable h k) eqn:U; [|reflexivity].
      destruct (nth_error (descs s) d) as [x|] eqn:X.
      * split; [reflexivity|]. exists own. apply (agrees_change _ h s own k d x A R U X). right. eauto.
      * apply nth_error_None in X. destruct (a_ref _ _ _ A k d R) as (_ & L & _). lia.
    + unfold usable. apply nth_error_None in R. rewrite (a_refs _ _ _ A) in R. unfold reference. rewrite nth_overflow by exact R. apply andb_false_r.
Qed.

Lemma legal_app h : forall l, legal (l ++ h) = true -> legal h = true.
Proof. intros l. induction l as [|o l IH]; cbn; [auto|]. intros E. apply andb_true_iff in E. now apply IH. Qed.

Lemma run_agrees : forall l h s own, agrees h s own -> legal h = true ->
  match run s l with
  | Some s' => legal (rev l ++ h) = true /\ exists own', agrees (rev l ++ h) s' own'
  | None => legal (rev l ++ h) = false
  end.
Proof.
  induction l as [|o l IH]; intros h s own A Lh; cbn [run rev]; [split; [exact Lh|eauto]|].
  pose proof (agrees_step h s own o A) as St. rewrite <- app_assoc. cbn [app].
  destruct (step s o) as [s1|].
  - destruct St as [U [own1 A1]]. apply (IH _ _ _ A1). cbn. now rewrite U, Lh.
  - destruct (legal (rev l ++ o :: h)) eqn:E; [|reflexivity]. apply legal_app in E. cbn in E. rewrite St in E. discriminate.
Qed.

Lemma run_start l :
  match run empty l with
  | Some s => legal (rev l) = true /\ exists own, agrees (rev l) s own
  | None => legal (rev l) = false
  end.
Proof. pose proof (run_agrees l [] empty _ agrees_empty eq_refl) as H. now rewrite app_nil_r in H. Qed.

Lemma defined l : (exists s, run empty l = Some s) <-> legal (rev l) = true.
Proof.
  pose proof (run_start l) as H. destruct (run empty l) as [s|].
  - split; [tauto|eauto].
  - rewrite H. split; [intros [s E]; discriminate|discriminate].
Qed.

Lemma results l s b g r : run empty l = Some s -> member (rev l) b = Some (g, r) -> forall name,
  lookup s b name = if known (rev l) g name then Some (mkDesc (added (rev l) g name) (set_to (rev l) g name)) else None.
Proof.
  intros E M name. pose proof (run_start l) as H. rewrite E in H. destruct H as [_ [own A]].
  unfold lookup. rewrite (object_member _ _ _ _ A), M. destruct (find (nth g (maps s) []) name) as [d|] eqn:F.
  - destruct (a_found _ _ _ A _ _ _ F) as (_ & E2 & E3). now rewrite E3.
  - destruct (a_unknown _ _ _ A _ _ F) as (E1 & _). now rewrite E1.
Qed.

Lemma children_of l s b g r parent child : run empty l = Some s -> member (rev l) b = Some (g, r) ->
  has_child s b parent child =
  if known (rev l) g parent then Some (if in_dec string_dec child (added (rev l) g parent) then true else false) else None.
Proof.
  intros E M. unfold has_child. rewrite (results l s b g r E M). destruct (known (rev l) g parent); [|reflexivity]. cbn [children]. f_equal.
  destruct (in_dec string_dec child (added (rev l) g parent)) as [I|N].
  - apply existsb_exists. exists child. split; [exact I|apply String.eqb_refl].
  - destruct (existsb _ _) eqn:X; [|reflexivity]. apply existsb_exists in X. destruct X as (c & I & Ec). apply String.eqb_eq in Ec. now subst.
Qed.
Lemma class_of l s b g r name : run empty l = Some s -> member (rev l) b = Some (g, r) ->
  makes s b name = set_to (rev l) g name.
Proof.
  intros E M. unfold makes. pose proof (run_start l) as H. rewrite E in H. destruct H as [_ [own A]].
  unfold lookup. rewrite (object_member _ _ _ _ A), M. destruct (find (nth g (maps s) []) name) as [d|] eqn:F.
  - destruct (a_found _ _ _ A _ _ _ F) as (_ & E2 & _). now rewrite E2.
  - destruct (a_unknown _ _ _ A _ _ F) as (_ & _ & E3). now rewrite E3.
Qed.
Lemma restricts_of l s b : run empty l = Some s -> restricts s b = option_map snd (member (rev l) b).
Proof.
  intros E. pose proof (run_start l) as H. rewrite E in H. destruct H as [_ [own A]]. unfold restricts. now rewrite (object_member _ _ _ _ A).
Qed.

(** * Programs that register every class once *)
Lemma known_cons o h g n : known h g n = true -> known (o :: h) g n = true.
Proof. unfold known. destruct o; cbn [references]; auto; rewrite existsb_app; intros ->; reflexivity. Qed.
Lemma reference_known h k g n : reference h k = Some (g, n) -> known h g n = true.
Proof.
  unfold reference, known. intros E. apply existsb_exists. exists (Some (g, n)). split; [|apply same_refl].
  rewrite <- E. apply nth_In. destruct (Nat.ltb_spec k (List.length (references h))); [assumption|]. rewrite nth_overflow in E by assumption. discriminate.
Qed.

(** Every addition counts. *)
Inductive ever (g : nat) (n child : string) : list op -> Prop :=
| ever_now k h : reference h k = Some (g, n) -> ever g n child (AddChild k child :: h)
| ever_before o h : ever g n child h -> ever g n child (o :: h).
Lemma ever_known g n child h : ever g n child h -> known h g n = true.
Proof. induction 1 as [k h E|o h _ IH]; apply known_cons; [now apply reference_known with k|exact IH]. Qed.
Lemma added_ever h g n child : registered_once h = true -> (In child (added h g n) <-> ever g n child h).
Proof.
  induction h as [|o h IH]; cbn [registered_once added]; [intros _; split; [intros []|intros E; inversion E]|].
  intros R.
  assert (Old : registered_once h = true /\ (forall k c, o = AddChild k c -> same (reference h k) g n = true -> c <> child) -> 
                (In child (added h g n) <-> ever g n child (o :: h))).
  { intros [R' N]. rewrite (IH R'). split; [apply ever_before|]. intros E. inversion E as [k h' Ek|]; subst; [|assumption].
    exfalso. apply (N k child eq_refl); [|reflexivity]. rewrite Ek. apply same_refl. }
  destruct o as [r|b|b c|b|b name|b name|k c|k c]; try (apply Old; split; [exact R|discriminate]).
  - apply andb_true_iff in R. destruct R as [K R].
    destruct (same (the_class h b name) g n) eqn:Sa; [|apply Old; split; [exact R|discriminate]].
    apply same_spec in Sa. unfold the_class in Sa. destruct (registry h b) as [g'|]; [|discriminate]. cbn in Sa. injection Sa as -> ->.
    split; [intros []|]. intros E. inversion E as [|o' h' E']; subst. rewrite (ever_known _ _ _ _ E') in K. discriminate.
  - destruct (same (reference h k) g n) eqn:Sa.
    + cbn [In]. rewrite (IH R). split.
      * intros [->|E]; [apply ever_now; now apply same_spec|now apply ever_before].
      * intros E. inversion E as [k' h' Ek|o' h' E']; subst; auto.
    + apply Old. split; [exact R|]. intros k' c' E. injection E as <- <-. rewrite Sa. discriminate.
Qed.
Lemma ever_added_iff l g n child : ever_added l g n child <-> ever g n child (rev l).
Proof.
  split.
  - intros (before & k & after & -> & E). rewrite rev_app_distr. cbn [rev].
    rewrite <- app_assoc. cbn [app]. induction (rev after) as [|o t IH]; cbn [app]; [now apply ever_now|now apply ever_before].
  - intros E. remember (rev l) as h eqn:El. revert l El. induction E as [k h E|o h E IH]; intros l El.
    + apply (f_equal (@rev _)) in El. rewrite rev_involutive in El. cbn [rev] in El. subst l.
      exists (rev h), k, []. split; [reflexivity|now rewrite rev_involutive].
    + apply (f_equal (@rev _)) in El. rewrite rev_involutive in El. cbn [rev] in El.
      destruct (IH (rev h)) as (before & k & after & E1 & E2); [now rewrite rev_involutive|].
      exists before, k, (after ++ [o]). split; [|exact E2]. rewrite <- El, E1, <- app_assoc. reflexivity.
Qed.

Lemma once_children l s b g r parent child : run empty l = Some s -> registered_once (rev l) = true -> member (rev l) b = Some (g, r) ->
  (has_child s b parent child = Some true <-> ever_added l g parent child) /\
  (has_child s b parent child = None <-> known (rev l) g parent = false).
Proof.
  intros E R M. rewrite (children_of l s b g r parent child E M), ever_added_iff, <- (added_ever _ _ _ _ R).
  pose proof (added_ever (rev l) g parent child R) as Ae. pose proof (ever_known g parent child (rev l)) as Ek.
  destruct (known (rev l) g parent).
  - destruct (in_dec string_dec child (added (rev l) g parent)); split; split; intros H; try discriminate; auto. contradiction.
  - split; split; intros H; try discriminate; auto. apply Ae in H. apply Ek in H. discriminate.
Qed.

(** The references stay usable as long as there is an object of their registry. *)
Lemma once_current h : registered_once h = true -> legal h = true -> forall k, k < List.length (references h) -> current h k = true.
Proof.
  induction h as [|o h IH]; cbn [registered_once legal]; intros R L k Lk; [cbn in Lk; lia|].
  apply andb_true_iff in L. destruct L as [U L]. cbn [current].
  destruct (Nat.ltb_spec k (List.length (references h))) as [Lo|Lo]; [|now apply Nat.ltb_lt].
  assert (R' : registered_once h = true) by (destruct o; try exact R; now apply andb_true_iff in R).
  rewrite (IH R' L k Lo). cbn [andb]. destruct o as [r|b|b c|b|b name|b name|j c|j c]; try reflexivity.
  destruct (reference h k) as [[g n]|] eqn:E; [|reflexivity].
  destruct (same (the_class h b name) g n) eqn:Sa; [|reflexivity]. apply same_spec in Sa. unfold the_class in Sa.
  destruct (registry h b) as [g'|] eqn:Rb; [|discriminate]. cbn in Sa. injection Sa as -> ->.
  apply andb_true_iff in R. destruct R as [K _]. rewrite (reference_known _ _ _ _ E) in K. discriminate.
Qed.
