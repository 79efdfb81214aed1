(** Concrete cases for the utilities. *)
From Coq Require Import ZArith QArith List Lia.
From Verif Require Import Vec GridSpec RangeModel UtilModel UtilSpec UtilProofs.
Import ListNotations.
Local Open Scope Z_scope.

Lemma ex_mean : q_mean [1; 2; 4 # 3]%Q = Some ((0 + 1 + 2 + (4 # 3)) / 3)%Q.
Proof. reflexivity. Qed.
Lemma ex_sums : sums_fit [5; -7; -9] /\ zsum [5; -7; -9] = -11 /\ Z.quot (-11) 3 = -3.
Proof. split; [|split; reflexivity]. intros [|[|[|[|n]]]]; cbn; lia. Qed.
Lemma ex_int_mean : int_mean [5; -7; -9] = Some (-3).
Proof. rewrite mean_int_ok; [reflexivity|discriminate|cbn; lia|apply ex_sums]. Qed.
Lemma mean_none : q_mean [] = None /\ int_mean [] = None.
Proof. split; reflexivity. Qed.
Lemma mean_overflow : int_mean [2 ^ 31 - 1; 1] = None.
Proof. reflexivity. Qed.

Lemma ex_ids : True /\
  map (fun x => uid (ubuild [(0, 0); (0, 1); (1, 0); (0, 2)]%nat) (fst x) (snd x)) [(0, 0); (0, 1); (1, 0); (0, 2); (1, 1)]%nat =
  [Some 0; Some 1; Some 0; Some 2; None].
Proof. split; [exact I|reflexivity]. Qed.
(** Objects are numbered in the order of creation. *)
Definition ex_create (c : nat) (w : list nat) : nat * list nat := (length w, w ++ [c]).
Lemma ex_single : instances ex_create [3; 5; 3; 3; 5; 7]%nat (fun _ => None) [] = ([0; 1; 0; 0; 1; 2]%nat, [3; 5; 7]%nat).
Proof. reflexivity. Qed.

Lemma ex_kokkos : kokkos_bounds (mkRange [0; -1] [1; 0]) = Some ([0; -1], [2; 1]) /\ kokkos_calls [0; -1] [2; 1] [[1; 0]; [0; -1]; [0; 0]; [1; -1]].
Proof.
  split; [reflexivity|]. split; [repeat constructor; cbn; intuition discriminate|].
  intros [|x [|y [|]]]; cbn.
  - split; [intuition discriminate|intros [H _]; discriminate].
  - split; [intuition discriminate|intros [H _]; discriminate].
  - split.
    + intros H. split; [reflexivity|]. intros d Hd. assert (E : (x, y) = (1, 0) \/ (x, y) = (0, -1) \/ (x, y) = (0, 0) \/ (x, y) = (1, -1)) by (destruct H as [H|[H|[H|[H|[]]]]]; injection H as <- <-; auto).
      destruct d as [|[|d]]; [| |lia]; cbn; destruct E as [E|[E|[E|E]]]; injection E as -> ->; lia.
    + intros [_ H]. pose proof (H 0%nat ltac:(lia)) as H0. pose proof (H 1%nat ltac:(lia)) as H1. cbn in H0, H1.
      assert (Ex : x = 0 \/ x = 1) by lia. assert (Ey : y = -1 \/ y = 0) by lia. destruct Ex as [-> | ->], Ey as [-> | ->]; auto.
  - split; [intuition discriminate|intros [H _]; discriminate].
Qed.
