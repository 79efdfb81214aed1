(** Concrete cases for the theorems on printed grids. *)
From Coq Require Import String Ascii.
From Verif Require Import Vec GridSpec GridModel StreamModel StreamSpec.
Local Open Scope string_scope.

(** A 2 x 3 x 2 grid of booleans with lower corner (-1, 0, 4). *)
Definition show_bool (b : bool) : string := if b then "yes" else "no".
Definition box3 : grid := mkGrid COrder 7 [-1; 0; 4]%Z [0; 2; 5]%Z.
Definition heap3 : heap bool := fun b => if Nat.eqb b 7 then [true; false; true; true; false; false; false; true; false; false; true; true] else [].
Definition text3 : string :=
  "yes no
yes no
no yes

no yes
yes no
no yes

".
Example bools_are_words : forall v, one_word (show_bool v).
Proof. intros []; split; easy. Qed.
Example box3_printed : print_grid show_bool box3 heap3 = Some text3.
Proof. vm_compute. reflexivity. Qed.
Example box3_words : words text3 = ["yes"; "no"; "yes"; "no"; "no"; "yes"; "no"; "yes"; "yes"; "no"; "no"; "yes"].
Proof. vm_compute. reflexivity. Qed.
(** The hypotheses of the theorems are met. *)
Definition value3 (p : vec) : bool := match grid_read box3 heap3 p with Some v => v | None => false end.
Example box3_values : box_ok (g_lo box3) (g_hi box3) /\ (forall p, in_box (g_lo box3) (g_hi box3) p -> grid_read box3 heap3 p = Some (value3 p)).
Proof.
  split; [cbn; lia|]. intros p H. unfold value3.
  destruct p as [|i [|j [|k [|? ?]]]]; try (cbn in H; tauto). destruct H as (Hi & Hj & Hk & _).
  assert (i = -1 \/ i = 0)%Z as [-> | ->] by lia; assert (j = 0 \/ j = 1 \/ j = 2)%Z as [-> | [-> | ->]] by lia;
    assert (k = 4 \/ k = 5)%Z as [-> | ->] by lia; reflexivity.
Qed.
(** An empty grid; a grid of rank 1. *)
Example empty_text : print_grid show_bool (mkGrid COrder 7 [3; 0] [2; 5])%Z heap3 = Some "".
Proof. reflexivity. Qed.
Example rank1_text : print_grid show_bool (mkGrid FOrder 7 [3] [6])%Z heap3 = Some "yes no yes yes".
Proof. vm_compute. reflexivity. Qed.
