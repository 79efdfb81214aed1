(** Wrappers and examples for [LiveProps]. *)
From Verif Require Import Vec GridSpec StorageModel GridModel GridProofs ShareModel ShareSpec ShareProofs ShareExamples
  HdfModel HdfSpec LiveModel LiveSpec LiveProofs.

Lemma programs_live V A (junk : V) (avg0 : A) rank pol : policy_ok pol -> forall os, llegal_run (is_lazy pol) os lainit ->
  exists z l, lrun junk avg0 rank COrder pol os (linit avg0) = Some (z, l) /\ lobs_run rank os lainit (seen l).
Proof.
  intros P os H. destruct (live_refines junk avg0 rank pol P os (linit avg0) lainit (LR_init avg0 rank pol) H) as (z & l & E & O & _).
  exists z, l. auto.
Qed.
Lemma files_live V A (junk zero : V) (avg0 : A) rank pol : policy_ok pol -> forall gmin gmax progs es n, progs <> [] ->
  Forall2 (fun prog e => llegal_run (is_lazy pol) prog lainit /\ nth_error (outputs prog lainit) n = Some e) progs es ->
  Forall (fun e => o_gmin e = gmin /\ o_gmax e = gmax) es -> apart es ->
  exists snaps ds,
    Forall2 (fun prog x => exists z l, lrun junk avg0 rank COrder pol prog (linit avg0) = Some (z, l) /\ nth_error (files l) n = Some x) progs snaps /\
    parallel_write zero snaps = Done ds /\ d_dims ds = sizes gmin gmax /\
    forall e p v, In e es -> in_box (o_lo e) (o_hi e) p -> o_val e p = Some v -> stored ds (relative gmin p) v.
Proof. intros P gmin gmax progs es n. apply (live_files junk avg0 rank pol P). Qed.

(** A field of cells 0..3 with one ghost cell, part of the domain 0..7; it is written through a copy, output,
    changed, output again. *)
Definition live_prog : list (lop Z) :=
  [LProg (New 1); LProg (Resize 1 [-1] [4]); LProg (Copy 2 1); LNew 0 10 11; LProg (Write 1 [0] 5); LInit 0 1 20 (Some 1) [0] [7];
   LProg (Write 2 [3] 6); LOut 0; LProg (Write 1 [3] 8); LOut 0].
(** A field that is read into through a copy. *)
Definition live_read : list (lop Z) :=
  [LProg (New 1); LProg (Resize 1 [-1] [4]); LProg (Copy 2 1); LNew 0 10 11; LInit 0 2 20 (Some 1) [0] [7];
   LIn 0 (mkDs [8] [10; 11; 12; 13; 14; 15; 16; 17]); LProg (Read 1 [2])].
(** Another process with the cells 4..7. *)
Definition live_prog2 : list (lop Z) :=
  [LProg (New 1); LProg (Resize 1 [3] [8]); LNew 0 10 11; LInit 0 1 20 (Some 1) [0] [7]; LProg (Write 1 [4] 9); LOut 0; LOut 0].

Lemma shape1 lo hi : -100 < lo -> lo <= hi -> hi < 100 -> shape_ok COrder [lo] [hi].
Proof.
  intros H1 H2 H3. split; [discriminate|]. split; [cbn; lia|]. split; [cbn; lia|]. intros _. unfold c_fast. cbn [dims_of combine fold_left]. unfold s64. destruct (_ && _) eqn:E; [discriminate|].
  apply andb_false_iff in E. rewrite ?Z.leb_gt, ?Z.ltb_ge in E. lia.
Qed.
Ltac small1 := split; repeat constructor; lia.
Ltac part1 := let p := fresh in intros p; destruct p as [|? [|? ?]]; cbn; lia.
Ltac in1 := cbn; intuition discriminate.
Ltac grid_step := split; [split; [|split; [exact I|]]|].
Lemma live_legal lazy : llegal_run lazy live_prog lainit.
Proof.
  unfold live_prog.
  grid_step; [in1|intros ? ? H; discriminate H|]. cbn [lastep lainit].
  grid_step; [split; [in1|apply shape1; lia]|intros ? ? H; discriminate H|].
  grid_step; [split; in1|intros ? ? H; discriminate H|].
  split; [split; [reflexivity|]; split; [in1|]; split; in1|].
  grid_step; [split; [in1|]; eexists _, _, _; split; [reflexivity|cbn; lia]| |].
  { intros d k H. cbn in H. unfold upd in H. destruct (Nat.eqb d 0); [injection H as <-; cbn; lia|discriminate]. }
  split.
  { exists 10%nat, 11%nat, [-1], [4]. eexists. split; [reflexivity|]. split; [in1|]. split; [in1|]. split.
    - intros d k H. cbn in H. unfold upd in H. destruct (Nat.eqb d 0); [injection H as <-; cbn; lia|discriminate].
    - split; [reflexivity|]. split; [small1|]. split; [small1|]. split; [cbn; lia|]. split; [lia|]. part1. }
  grid_step; [split; [in1|]; eexists _, _, _; split; [reflexivity|cbn; lia]| |].
  { intros d k H. cbn in H. unfold upd in H. destruct (Nat.eqb d 0); [injection H as <-; cbn; lia|discriminate]. }
  split. { eexists _, _, _. split; [reflexivity|]. split; [eexists; reflexivity|exact I]. }
  grid_step; [split; [in1|]; eexists _, _, _; split; [reflexivity|cbn; lia]| |].
  { intros d k H. cbn in H. unfold upd in H. destruct (Nat.eqb d 0); [injection H as <-; cbn; lia|discriminate]. }
  split. { eexists _, _, _. split; [reflexivity|]. split; [eexists; reflexivity|exact I]. }
  exact I.
Qed.
Lemma live_legal_read lazy : llegal_run lazy live_read lainit.
Proof.
  unfold live_read.
  grid_step; [in1|intros ? ? H; discriminate H|].
  grid_step; [split; [in1|apply shape1; lia]|intros ? ? H; discriminate H|].
  grid_step; [split; in1|intros ? ? H; discriminate H|].
  split; [split; [reflexivity|]; split; [in1|]; split; in1|].
  split.
  { exists 10%nat, 11%nat, [-1], [4]. eexists. split; [reflexivity|]. split; [in1|]. split; [in1|]. split.
    - intros d k H. cbn in H. unfold upd in H. destruct (Nat.eqb d 0); [injection H as <-; cbn; lia|discriminate].
    - split; [reflexivity|]. split; [small1|]. split; [small1|]. split; [cbn; lia|]. split; [lia|]. part1. }
  split. { eexists _, _, _. split; [reflexivity|]. split; [eexists; reflexivity|]. split; reflexivity. }
  grid_step; [split; [in1|]; eexists _, _, _; split; [reflexivity|cbn; lia]| |exact I].
  intros d k H. cbn in H. unfold upd in H. destruct (Nat.eqb d 0); [injection H as <-; cbn; lia|discriminate].
Qed.
Lemma live_legal2 lazy : llegal_run lazy live_prog2 lainit.
Proof.
  unfold live_prog2.
  grid_step; [in1|intros ? ? H; discriminate H|].
  grid_step; [split; [in1|apply shape1; lia]|intros ? ? H; discriminate H|].
  split; [split; [reflexivity|]; split; [in1|]; split; in1|].
  split.
  { exists 10%nat, 11%nat, [3], [8]. eexists. split; [reflexivity|]. split; [in1|]. split; [in1|]. split.
    - intros d k H. cbn in H. unfold upd in H. destruct (Nat.eqb d 0); [injection H as <-; cbn; lia|discriminate].
    - split; [reflexivity|]. split; [small1|]. split; [small1|]. split; [cbn; lia|]. split; [lia|]. part1. }
  grid_step; [split; [in1|]; eexists _, _, _; split; [reflexivity|cbn; lia]| |].
  { intros d k H. cbn in H. unfold upd in H. destruct (Nat.eqb d 0); [injection H as <-; cbn; lia|discriminate]. }
  split. { eexists _, _, _. split; [reflexivity|]. split; [eexists; reflexivity|exact I]. }
  split. { eexists _, _, _. split; [reflexivity|]. split; [eexists; reflexivity|exact I]. }
  exact I.
Qed.
Lemma live_read_example : llegal_run false live_read lainit /\
  option_map (fun r => seen (snd r)) (lrun 0 tt 1 COrder Instant live_read (linit tt)) = Some [OVal 12].
Proof. split; [apply live_legal_read|vm_compute; reflexivity]. Qed.
(** What the second outputs contain. *)
Lemma live_example : exists es,
  Forall2 (fun prog e => llegal_run false prog lainit /\ nth_error (outputs prog lainit) 1 = Some e) [live_prog; live_prog2] es /\
  Forall (fun e => o_gmin e = [0] /\ o_gmax e = [7]) es /\ apart es /\
  map (fun e => (o_lo e, o_hi e, o_val e [0], o_val e [3], o_val e [4])) es =
    [([0], [3], Some 5, Some 8, None); ([4], [7], None, None, Some 9)].
Proof.
  destruct (nth_error (outputs live_prog lainit) 1) as [e1|] eqn:E1; [|exfalso; revert E1; vm_compute; discriminate].
  destruct (nth_error (outputs live_prog2 lainit) 1) as [e2|] eqn:E2; [|exfalso; revert E2; vm_compute; discriminate].
  exists [e1; e2].
  split; [constructor; [split; [apply live_legal|exact E1]|constructor; [split; [apply live_legal2|exact E2]|constructor]]|].
  assert (F1 : option_map (fun e => (o_lo e, o_hi e, o_gmin e, o_gmax e, (o_val e [0], o_val e [3], o_val e [4]))) (nth_error (outputs live_prog lainit) 1) =
    Some ([0], [3], [0], [7], (Some 5, Some 8, None))) by (vm_compute; reflexivity).
  assert (F2 : option_map (fun e => (o_lo e, o_hi e, o_gmin e, o_gmax e, (o_val e [0], o_val e [3], o_val e [4]))) (nth_error (outputs live_prog2 lainit) 1) =
    Some ([4], [7], [0], [7], (None, None, Some 9))) by (vm_compute; reflexivity).
  rewrite E1 in F1. rewrite E2 in F2. clear E1 E2. destruct e1 as [l1 h1 g1 k1 v1], e2 as [l2 h2 g2 k2 v2].
  cbn [option_map o_lo o_hi o_gmin o_gmax o_val] in F1, F2. injection F1 as -> -> -> -> V1 V2 V3. injection F2 as -> -> -> -> W1 W2 W3.
  split; [repeat constructor|]. split.
  - cbn [apart]. split; [|split; [intros ? ? []|exact I]]. intros e' p [<-|[]]. cbn [o_lo o_hi].
    destruct p as [|x [|y p]]; cbn; lia.
  - cbn [map o_lo o_hi o_val]. rewrite V1, V2, V3, W1, W2, W3. reflexivity.
Qed.

(** A resize after the initialisation. *)
Definition resized (lo hi x v : Z) : list (lop Z) :=
  [LProg (New 1); LProg (Resize 1 [-1] [4]); LNew 0 10 11; LInit 0 1 20 (Some 1) [0] [7];
   LProg (Resize 1 [lo] [hi]); LProg (Write 1 [x] v); LOut 0].
(** The file, and what cell [x] of the grid holds when it is written. *)
Definition written_by (prog : list (lop Z)) (x : Z) : option (io (dataset Z) * option Z) :=
  match lrun 0 tt 1 COrder Instant prog (linit tt) with
  | Some (_, [LFile c h]) => Some (parallel_write 0 [(c, h)], grid_read (c_grid c) h [x])
  | _ => None
  end.
Lemma resized_output :
  written_by (resized (-1) 6 5 7) 5 = Some (Done (mkDs [8] [0; 0; 0; 0; 0; 0; 0; 0]), Some 7) /\
  written_by (resized (-1) 2 0 7) 0 = Some (Abort, Some 7) /\
  written_by (resized 3 8 5 7) 5 = Some (Abort, Some 7).
Proof. split; [|split]; vm_compute; reflexivity. Qed.
