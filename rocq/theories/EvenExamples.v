(** Wrapper lemmas and examples for EvenProps. *)
From Verif Require Import Vec GridSpec StorageModel GridModel SerialProofs BoundaryModel MpiModel MpiSpec MpiProofs MpiFloatModel MpiFloat EvenSpec EvenProofs.
Local Open Scope Z_scope.

Lemma even_exact dims high delta : process_grid dims -> length high = length dims ->
  (forall i, (i < length dims)%nat -> 1 <= vget high i) ->
  within 2 dims (fun c => inner_width (mpi_bounds exact_cut dims high delta c)).
Proof.
  intros Hd Hl Hh c c' i [_ Hc] [_ Hc'] Hi. rewrite !wid_is by exact Hi. apply exact_differ; auto.
Qed.

Lemma extents_exact dims high delta : length high = length dims ->
  forall c i, is_process dims c -> (i < length dims)%nat -> 1 <= vget high i ->
  let n := vget dims i in
  let w := inner_width (mpi_bounds exact_cut dims high delta c) i in
  (n = 1 -> w = vget high i + 1) /\
  (2 <= n -> vget c i = 0 -> vget high i - 1 < n * w <= vget high i - 1 + n) /\
  (2 <= n -> vget c i = n - 1 -> vget high i - 1 + n <= n * w < vget high i - 1 + 2 * n) /\
  (0 < vget c i < n - 1 -> vget high i - 1 - n < n * w < vget high i - 1 + n).
Proof.
  intros Hl c i [_ Hc] Hi Hh n w. unfold w, n. rewrite wid_is by exact Hi. specialize (Hc i Hi).
  split; [|split; [|split]].
  - intros E. replace (vget c i) with 0 by lia. apply exact_only; lia.
  - intros H ->. apply exact_first; lia.
  - intros H ->. apply exact_last; lia.
  - intros H. apply exact_middle; lia.
Qed.

Lemma idle_dim cut dims high delta i : process_grid dims -> (i < length dims)%nat ->
  (nobody_idle dims (fun c => inner_width (mpi_bounds cut dims high delta c)) i <->
   forall k, 0 <= k < vget dims i -> 1 <= wid cut (vget high i) (vget dims i) k).
Proof.
  intros Hd Hi. split.
  - intros H k Hk. set (f := fun j => if Nat.eqb j i then k else 0).
    assert (G : forall j, (j < length dims)%nat -> vget (map f (seq 0 (length dims))) j = f j).
    { intros j Hj. apply (vget_map_seq f), Hj. }
    specialize (H (map f (seq 0 (length dims)))). cbv beta in H. rewrite wid_is, G in H by exact Hi.
    unfold f in H at 2. rewrite Nat.eqb_refl in H. apply H. split; [now rewrite map_length, seq_length|].
    intros j Hj. rewrite G by exact Hj. unfold f. destruct (Nat.eqb_spec j i) as [->|]; [lia|]. specialize (Hd j Hj). lia.
  - intros H c [_ Hc]. rewrite wid_is by exact Hi. apply H, Hc, Hi.
Qed.

Lemma idle_exact dims high delta : process_grid dims -> length high = length dims ->
  forall i, (i < length dims)%nat -> 1 <= vget high i ->
  (nobody_idle dims (fun c => inner_width (mpi_bounds exact_cut dims high delta c)) i <->
   vget dims i <= 2 \/ vget dims i <= vget high i).
Proof.
  intros Hd Hl i Hi Hh. rewrite <- (exact_idle (vget high i) (vget dims i) Hh (Hd i Hi)). apply idle_dim; assumption.
Qed.

Lemma close_b64 dims high delta : process_grid dims -> length high = length dims ->
  (forall i, (i < length dims)%nat -> 1 <= vget high i /\ vget high i * vget dims i <= 2 ^ 48) ->
  within 2 dims (fun c => inner_width (mpi_bounds b64_cut dims high delta c)) /\
  forall i, (i < length dims)%nat ->
    (nobody_idle dims (fun c => inner_width (mpi_bounds b64_cut dims high delta c)) i <->
     vget dims i <= 2 \/ vget dims i <= vget high i).
Proof.
  intros Hd Hl Hh.
  assert (L : forall i, (i < length dims)%nat -> vget high i <= 2 ^ 48).
  { intros i Hi. destruct (Hh i Hi). specialize (Hd i Hi). nia. }
  split.
  - intros c c' i [_ Hc] [_ Hc'] Hi. rewrite !wid_is by exact Hi. destruct (Hh i Hi) as [H1 H2]. pose proof (L i Hi).
    apply close_differ; auto; [intros k Hk; apply b64_close; auto|intros k q Hk; apply b64_divides; auto].
  - intros i Hi. destruct (Hh i Hi) as [H1 H2]. pose proof (L i Hi).
    rewrite <- (close_idle b64_cut (vget high i) (vget dims i)); auto.
    + apply idle_dim; assumption.
    + intros k Hk; apply b64_close; auto.
    + intros k Hk; apply b64_low; auto; lia.
    + intros k q Hk; apply b64_divides; auto.
Qed.

Lemma even_b64 dims high delta : process_grid dims -> length high = length dims ->
  (forall i, (i < length dims)%nat -> 1 <= vget high i <= 2 ^ 31 /\ vget dims i <= 2 ^ 31) ->
  within 3 dims (fun c => inner_width (mpi_bounds b64_cut dims high delta c)) /\
  forall i, (i < length dims)%nat -> 2 * vget dims i < vget high i ->
    nobody_idle dims (fun c => inner_width (mpi_bounds b64_cut dims high delta c)) i.
Proof.
  intros Hd Hl Hh. split.
  - intros c c' i [_ Hc] [_ Hc'] Hi. rewrite !wid_is by exact Hi. pose proof (Hd i Hi). apply b64_differ; try apply Hh; auto.
    split; [auto|apply Hh, Hi].
  - intros i Hi H c [_ Hc]. rewrite wid_is by exact Hi. pose proof (Hd i Hi). apply b64_idle; auto; try apply Hh; auto.
    split; [auto|apply Hh, Hi].
Qed.

Lemma proc1 n k : 0 <= k < n -> is_process [n] [k].
Proof. intros H. split; [reflexivity|]. intros [|i] Hi; cbn in *; [exact H|lia]. Qed.
Lemma pgrid1 n : 1 <= n -> process_grid [n].
Proof. intros H [|i] Hi; cbn in *; [exact H|lia]. Qed.

Lemma uneven : exists dims high delta c c',
  process_grid dims /\ is_process dims c /\ is_process dims c' /\ 10 * vget dims 0 < vget high 0 /\
  inner_width (mpi_bounds exact_cut dims high delta c) 0 = 15 /\ inner_width (mpi_bounds exact_cut dims high delta c') 0 = 17.
Proof.
  exists [4], [62], 2, [1], [3]. split; [apply pgrid1; lia|]. split; [apply proc1; lia|]. split; [apply proc1; lia|].
  split; [cbn; lia|]. vm_compute. auto.
Qed.

Lemma idle_process : exists dims high delta c c',
  process_grid dims /\ is_process dims c /\ is_process dims c' /\ vget dims 0 <= vget high 0 + 1 /\
  inner_width (mpi_bounds exact_cut dims high delta c) 0 = 0 /\ inner_width (mpi_bounds exact_cut dims high delta c') 0 = 2.
Proof.
  exists [4], [3], 1, [2], [3]. split; [apply pgrid1; lia|]. split; [apply proc1; lia|]. split; [apply proc1; lia|].
  split; [cbn; lia|]. vm_compute. auto.
Qed.

Lemma ex_even :
  process_grid [4; 3] /\ (forall i, (i < 2)%nat -> 1 <= vget [62; 30] i <= 2 ^ 31 /\ vget [4; 3] i <= 2 ^ 31 /\ 2 * vget [4; 3] i < vget [62; 30] i /\
     vget [62; 30] i * vget [4; 3] i <= 2 ^ 48) /\
  map (fun k => inner_width (mpi_bounds exact_cut [4; 3] [62; 30] 2 [k; 0]) 0) [0; 1; 2; 3] = [16; 15; 15; 17] /\
  map (fun k => inner_width (mpi_bounds exact_cut [4; 3] [62; 30] 2 [0; k]) 1) [0; 1; 2] = [10; 10; 11].
Proof.
  split. { intros [|[|i]] Hi; cbn in *; lia. }
  split. { change (2 ^ 31) with 2147483648. change (2 ^ 48) with 281474976710656. intros [|[|i]] Hi; cbn [vget nth]; try (exfalso; cbn in Hi; lia); unfold vget; cbn [nth]; lia. }
  vm_compute. auto.
Qed.

Lemma enough_exact dims high delta k gr : process_grid dims -> length high = length dims -> 1 <= delta -> 1 <= k ->
  (forall i, (i < length dims)%nat -> k * delta * vget dims i < vget high i) ->
  (forall c p, is_process dims c -> in_local (mpi_bounds exact_cut dims high delta c) p -> in_box (g_lo (gr c)) (g_hi (gr c)) p) ->
  subdivided exact_cut dims high delta k gr.
Proof.
  intros Hd Hl H1 Hk Hh Hg. unfold subdivided. split; [exact Hd|]. split; [exact Hl|]. split; [exact H1|].
  assert (P : forall i, (i < length dims)%nat -> 1 <= vget high i).
  { intros i Hi. specialize (Hh i Hi). specialize (Hd i Hi). nia. }
  split; [|split; [|exact Hg]].
  - intros i Hi. specialize (P i Hi). specialize (Hd i Hi). apply exact_cut_ok; lia.
  - intros c i [_ Hc] Hi. rewrite wid_is by exact Hi. apply exact_at_least; auto. nia.
Qed.

Lemma enough_b64 dims high delta k gr : process_grid dims -> length high = length dims -> 1 <= delta -> 1 <= k ->
  (forall i, (i < length dims)%nat -> k * delta * vget dims i < vget high i <= 2 ^ 31 /\ vget high i * vget dims i <= 2 ^ 48) ->
  (forall c p, is_process dims c -> in_local (mpi_bounds b64_cut dims high delta c) p -> in_box (g_lo (gr c)) (g_hi (gr c)) p) ->
  subdivided b64_cut dims high delta k gr.
Proof.
  intros Hd Hl H1 Hk Hh Hg. unfold subdivided. split; [exact Hd|]. split; [exact Hl|]. split; [exact H1|].
  assert (P : forall i, (i < length dims)%nat -> 1 <= vget high i /\ vget dims i <= 2 ^ 31).
  { intros i Hi. destruct (Hh i Hi). specialize (Hd i Hi). nia. }
  split; [|split; [|exact Hg]].
  - intros i Hi. specialize (P i Hi). specialize (Hd i Hi). destruct (Hh i Hi). apply b64_cut_ok; lia.
  - intros c i [_ Hc] Hi. rewrite wid_is by exact Hi. destruct (Hh i Hi). apply b64_at_least; auto; try apply P; auto; nia.
Qed.

(** Grids just as large as the local domains. *)
Definition tight cut dims high delta (c : vec) : grid :=
  mkGrid COrder 0 (bd_lo (mpi_bounds cut dims high delta c)) (bd_hi (mpi_bounds cut dims high delta c)).

Lemma ex_enough : subdivided exact_cut [4; 3] [62; 30] 2 2 (tight exact_cut [4; 3] [62; 30] 2) /\
  subdivided b64_cut [4; 3] [62; 30] 2 2 (tight b64_cut [4; 3] [62; 30] 2).
Proof.
  assert (Hd : process_grid [4; 3]) by apply ex_even.
  split; [apply enough_exact|apply enough_b64]; auto; try lia.
  - intros [|[|i]] Hi; unfold vget; cbn in *; lia.
  - change (2 ^ 31) with 2147483648. change (2 ^ 48) with 281474976710656. intros [|[|i]] Hi; unfold vget; cbn in *; lia.
Qed.
