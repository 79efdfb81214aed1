(** Cases that meet the hypotheses of the theorems in [ActiveProps], and the cases that refute the full statements. *)
From Coq Require Import List Arith Bool Lia.
Import ListNotations.
From Verif Require Import ActiveModel ActiveSpec ActiveProofs.

Definition only (l : list nat) (p : nat) : bool := existsb (Nat.eqb p) l.
Definition choose (l : list nat) : call := Choose (fun p => Some (only l p)).

Lemma choose_everyone n l : everyone n (fun p => Some (only l p)).
Proof. intros p Hp. discriminate. Qed.

Lemma writer_runs n s l : 0 < n -> orderly Writer n l everywhere None -> steady n s l everywhere ->
  exists c, crun Writer n l cstart = Some (c, expected Writer n l everywhere).
Proof.
  intros Hn Ho Hs. destruct (W_run n s (Nat.neq_sym _ _ (Nat.lt_neq _ _ Hn)) l _ _ _ _ _ (W_start n s (Nat.neq_sym _ _ (Nat.lt_neq _ _ Hn))) Ho Hs) as (c & md & o & ib & E & _).
  eauto.
Qed.
Lemma writer_changes n s l1 l2 a : 0 < n ->
  orderly Writer n (l1 ++ OpenAll :: l2) everywhere None -> steady n s (l1 ++ OpenAll :: l2) everywhere ->
  those n (activity l1 everywhere) = s -> those n a <> s -> (exists p, In p s /\ In p (those n a)) ->
  crun Writer n ((l1 ++ OpenAll :: l2) ++ [Choose (fun p => Some (a p)); OpenAll]) cstart = None.
Proof. intros Hn. apply W_change. lia. Qed.
Lemma reader_runs n l : 0 < n -> orderly Reader n l everywhere None -> announced n true l false false everywhere ->
  exists c, crun Reader n l cstart = Some (c, expected Reader n l everywhere).
Proof.
  intros Hn Ho Hs. destruct (R_run n true (Nat.neq_sym _ _ (Nat.lt_neq _ _ Hn)) l _ _ _ _ _ (R_start n true) Ho Hs) as (c & md & o & b & E & _).
  eauto.
Qed.
Lemma reader_again n l a p q : orderly Reader n l everywhere None -> announced n false l false false everywhere ->
  p < n -> a p = true -> q < n -> a q = false ->
  crun Reader n (l ++ [Choose (fun p => Some (a p)); OpenAll; OpenAll]) cstart = None.
Proof. intros Ho Hs Hp Pa Hq Qa. apply (R_again n l a p q); auto. lia. Qed.

(** Four processes; 1 and 3 write two files, with an interlude without any active process. *)
Definition two_writers : list call := [choose [1; 3]; OpenAll; TransferAll; choose []; OpenAll; choose [1; 3]; OpenAll; TransferAll].
Example two_writers_orderly : orderly Writer 4 two_writers everywhere None /\ steady 4 [1; 3] two_writers everywhere.
Proof. vm_compute. repeat split; auto; intros; discriminate. Qed.
Example two_writers_run : exists c, crun Writer 4 two_writers cstart =
  Some (c, [Opened [(1, [1; 3]); (3, [1; 3])]; Moved [1; 3] false; Opened []; Opened [(1, [1; 3]); (3, [1; 3])]; Moved [1; 3] false]).
Proof. eexists. vm_compute. reflexivity. Qed.
(** All read a file; 0 and 2 open two other ones, having called [setActive]; then all again. *)
Definition some_readers : list call := [OpenAll; TransferAll; choose [0; 2]; OpenAll; OpenAll; choose [0; 1; 2; 3]; OpenAll; TransferAll].
Example some_readers_orderly : orderly Reader 4 some_readers everywhere None /\ announced 4 true some_readers false false everywhere.
Proof. vm_compute. repeat split; auto; intros; discriminate. Qed.
Example readers_again : orderly Reader 4 [choose [0; 2]; OpenAll] everywhere None /\ announced 4 false [choose [0; 2]; OpenAll] false false everywhere.
Proof. vm_compute. repeat split; auto; intros; discriminate. Qed.

(** Programs that use the streams as intended and hang. *)
Definition changing_writers : list call := [choose [0; 1]; OpenAll; TransferAll; choose [1; 2]; OpenAll; TransferAll].
Lemma changing_writers_orderly : orderly Writer 3 changing_writers everywhere None.
Proof. vm_compute. repeat split; auto; intros; discriminate. Qed.
Lemma changing_writers_hang : crun Writer 3 changing_writers cstart = None.
Proof. vm_compute. reflexivity. Qed.
Definition opening_twice : list call := [choose [1]; OpenAll; OpenAll].
Lemma opening_twice_orderly : orderly Reader 2 opening_twice everywhere None.
Proof. vm_compute. repeat split; auto; intros; discriminate. Qed.
Lemma opening_twice_hang : crun Reader 2 opening_twice cstart = None.
Proof. vm_compute. reflexivity. Qed.

Lemma writers_refuted : ~ forall n l, 0 < n -> orderly Writer n l everywhere None ->
  exists c, crun Writer n l cstart = Some (c, expected Writer n l everywhere).
Proof. intros H. destruct (H 3 changing_writers ltac:(lia) changing_writers_orderly) as (c & E). rewrite changing_writers_hang in E. discriminate. Qed.
Lemma readers_refuted : ~ forall n l, 0 < n -> orderly Reader n l everywhere None ->
  exists c, crun Reader n l cstart = Some (c, expected Reader n l everywhere).
Proof. intros H. destruct (H 2 opening_twice ltac:(lia) opening_twice_orderly) as (c & E). rewrite opening_twice_hang in E. discriminate. Qed.
Lemma attributes_refuted : ~ forall n l c e p ps b, 0 < n -> orderly Writer n l everywhere None ->
  crun Writer n l cstart = Some (c, e) -> In (Moved (p :: ps) b) e -> b = true.
Proof.
  intros H. destruct two_writers_run as (c & E).
  assert (false = true); [|discriminate].
  refine (H 4 two_writers c _ 1 [3] false _ (proj1 two_writers_orderly) E _); [lia|]. right. left. reflexivity.
Qed.

Lemma active_hypotheses :
  (orderly Writer 4 two_writers everywhere None /\ steady 4 [1; 3] two_writers everywhere) /\
  (orderly Reader 4 some_readers everywhere None /\ announced 4 true some_readers false false everywhere) /\
  (orderly Reader 4 [choose [0; 2]; OpenAll] everywhere None /\ announced 4 false [choose [0; 2]; OpenAll] false false everywhere) /\
  (exists c, crun Writer 4 two_writers cstart =
     Some (c, [Opened [(1, [1; 3]); (3, [1; 3])]; Moved [1; 3] false; Opened []; Opened [(1, [1; 3]); (3, [1; 3])]; Moved [1; 3] false])).
Proof. exact (conj two_writers_orderly (conj some_readers_orderly (conj readers_again two_writers_run))). Qed.
