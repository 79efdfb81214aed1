(** Cases for the theorems on the opening of HDF files by a part of the processes. *)
From Coq Require Import List Bool Arith Lia.
From Verif Require Import GroupModel GroupSpec GroupProofs.
Import ListNotations.

(** Three processes; at first all of them are active, then process 1 is not, then processes 0 and 2 open
    once more. *)
Definition in_calls (p r : nat) : option bool := match r with 1 => Some (negb (Nat.eqb p 1)) | _ => None end.
Lemma in_calls_ok :
  0 < 3 /\ all_or_none 3 3 in_calls /\
  (forall r, r < 3 -> no_call 3 in_calls r -> (forall r', r' < r -> ~ no_call 3 in_calls r') ->
     participants 3 in_calls r = seq 0 3 \/ participants 3 in_calls r = []) /\
  expected 3 3 in_calls = [[0; 1; 2]; [0; 2]; [0; 2]].
Proof.
  repeat split; try lia.
  - intros r p q _ _ _. unfold in_calls. destruct r as [|[|r]]; try reflexivity. discriminate.
  - intros r Hr N F. destruct r as [|r]; [left; reflexivity|]. exfalso. apply (F 0); [lia|]. intros p _. reflexivity.
Qed.
(** A schedule in which process 1 runs ahead. *)
Definition in_schedule : list event :=
  [Step 0; Step 1; Step 2; File World; Step 1; Step 0; Step 2; Group; Step 1; File (Sub 0 [0; 2]); Step 2; Step 0; File (Sub 0 [0; 2])].
Lemma in_runs :
  match run Input 3 3 in_calls start in_schedule with
  | Some s => forallb (fun p => Nat.eqb (round (procs s p)) 3) [0; 1; 2] = true /\ opened s = [World; Sub 0 [0; 2]; Sub 0 [0; 2]]
  | None => False
  end.
Proof. vm_compute. split; reflexivity. Qed.

(** Three processes of which only process 2 opens an output stream, three times; it is said so twice. *)
Definition out_calls (p r : nat) : option bool := match r with 0 | 2 => Some (Nat.eqb p 2) | _ => None end.
Lemma out_calls_ok :
  0 < 3 /\ all_or_none 3 3 out_calls /\
  (forall r, r < 3 -> participants 3 out_calls r = participants 3 out_calls 0) /\
  expected 3 3 out_calls = [[2]; [2]; [2]].
Proof.
  repeat split; try lia.
  - intros r p q _ _ _. unfold out_calls. destruct r as [|[|[|r]]]; try reflexivity; discriminate.
  - intros r Hr. destruct r as [|[|[|r]]]; try reflexivity. lia.
Qed.

(** No event is possible. *)
Lemma nothing_possible kd n R calls s :
  (forall p, p < n -> ph (procs s p) = Start -> round (procs s p) = R) ->
  (exists p, p < n /\ ph (procs s p) <> AtGroup) ->
  (forall p c, ph (procs s p) = AtFile (Some c) -> exists q, In q (ranks_of n c) /\ ph (procs s q) <> AtFile (Some c)) ->
  forall e, step kd n R calls s e = None.
Proof.
  intros HS HG HF [p| |c]; cbn [step].
  - destruct (ph (procs s p)) eqn:E; try reflexivity. destruct (Nat.ltb_spec p n); [|reflexivity].
    rewrite (HS p) by assumption. rewrite Nat.ltb_irrefl. reflexivity.
  - destruct HG as (p & L & G). destruct (forallb _ (seq 0 n)) eqn:E; [|reflexivity]. exfalso. rewrite forallb_forall in E.
    specialize (E p ltac:(apply in_seq; lia)). unfold at_group in E. destruct (ph (procs s p)); try discriminate. now apply G.
  - destruct (ranks_of n c) as [|p0 l0] eqn:Er; [reflexivity|]. destruct (forallb _ (p0 :: l0)) eqn:E; [|reflexivity]. exfalso.
    rewrite forallb_forall in E.
    assert (K : forall q, In q (p0 :: l0) -> ph (procs s q) = AtFile (Some c)).
    { intros q L. specialize (E q L). unfold at_file in E. destruct (ph (procs s q)) as [| |[d|]]; try discriminate.
      apply comm_eqb_eq in E. now subst. }
    destruct (HF p0 c (K p0 ltac:(now left))) as (q & Lq & Nq). rewrite Er in Lq. now apply Nq, K.
Qed.

(** After a schedule of two processes. *)
Definition after (kd : kind) (R : nat) (calls : nat -> nat -> option bool) (es : list event) (x y : nat * phase) : Prop :=
  match run kd 2 R calls start es with
  | Some s => (round (procs s 0), ph (procs s 0)) = x /\ (round (procs s 1), ph (procs s 1)) = y /\
              forall p, ph (procs s (S (S p))) = Start
  | None => False
  end.
Lemma deadlock_after kd R calls es x y :
  after kd R calls es x y -> (fst x <> R \/ fst y <> R) ->
  (snd x = Start -> fst x = R) -> (snd y = Start -> fst y = R) -> (snd x <> AtGroup \/ snd y <> AtGroup) ->
  (forall c, snd x = AtFile (Some c) \/ snd y = AtFile (Some c) ->
     (In 0 (ranks_of 2 c) /\ snd x <> AtFile (Some c)) \/ (In 1 (ranks_of 2 c) /\ snd y <> AtFile (Some c))) ->
  deadlock kd 2 R calls.
Proof.
  unfold after. destruct (run kd 2 R calls start es) as [s|] eqn:E; [|tauto].
  intros (<- & <- & O) U SX SY G F. cbn [fst snd] in *. exists es, s. split; [exact E|]. split.
  - intros Fi. destruct U as [U|U]; apply U, Fi; lia.
  - apply nothing_possible.
    + intros [|[|p]] L; auto. lia.
    + destruct G as [G|G]; [exists 0|exists 1]; (split; [lia|exact G]).
    + intros [|[|p]] c H.
      * destruct (F c (or_introl H)) as [K|K]; [exists 0|exists 1]; exact K.
      * destruct (F c (or_intror H)) as [K|K]; [exists 0|exists 1]; exact K.
      * rewrite O in H. discriminate.
Qed.

(** Process 0 alone reads a file, twice. *)
Definition again_calls (p r : nat) : option bool := match r with 0 => Some (Nat.eqb p 0) | _ => None end.
Lemma again_after :
  after Input 2 again_calls [Step 0; Step 1; Group; File (Sub 0 [0]); Step 0; Step 1] (1, AtFile (Some World)) (2, Start).
Proof. vm_compute. repeat split. Qed.
Lemma again_deadlock : deadlock Input 2 2 again_calls.
Proof.
  apply (deadlock_after _ _ _ _ _ _ again_after); cbn [fst snd]; [now left|discriminate|reflexivity|now left|].
  intros c [E|E]; [injection E as <-|discriminate]. right. split; [cbn; tauto|discriminate].
Qed.

(** Process 0 alone writes a file, then both write one. *)
Definition change_calls (p r : nat) : option bool := match r with 0 => Some (Nat.eqb p 0) | _ => Some true end.
Lemma change_after :
  after Output 2 change_calls [Step 0; Step 1; Group; File (Sub 0 [0]); Step 0; Step 1; Group; File (Sub 0 [0])]
    (2, Start) (1, AtFile (Some (Sub 1 [0; 1]))).
Proof. vm_compute. repeat split. Qed.
Lemma change_deadlock : deadlock Output 2 2 change_calls.
Proof.
  apply (deadlock_after _ _ _ _ _ _ change_after); cbn [fst snd]; [now right|reflexivity|discriminate|now left|].
  intros c [E|E]; [discriminate|injection E as <-]. left. split; [cbn; tauto|discriminate].
Qed.

(** Only process 0 calls [setActive], and says that it is active, as it is anyway. *)
Definition one_calls (p r : nat) : option bool := match p with 0 => Some true | _ => None end.
Lemma one_after kd : after kd 1 one_calls [Step 0; Step 1] (0, AtGroup) (0, AtFile (Some World)).
Proof. destruct kd; vm_compute; repeat split. Qed.
Lemma one_deadlock kd : deadlock kd 2 1 one_calls.
Proof.
  apply (deadlock_after _ _ _ _ _ _ (one_after kd)); cbn [fst snd]; [left; discriminate|discriminate|discriminate|right; discriminate|].
  intros c [E|E]; [discriminate|injection E as <-]. left. split; [cbn; tauto|discriminate].
Qed.
Lemma again_together : all_or_none 2 2 again_calls.
Proof. intros r p q _ _ _. unfold again_calls. destruct r; [discriminate|reflexivity]. Qed.
Lemma change_together : all_or_none 2 2 change_calls.
Proof. intros r p q _ _ _. unfold change_calls. destruct r; discriminate. Qed.
Lemma one_all p r : is_active one_calls p r = true.
Proof. induction r as [|r IH]; cbn; destruct p; auto. Qed.
