(** Concrete cases for the theorems on HDF files. *)
From Coq Require Import String Ascii.
From Verif Require Import Vec GridSpec BoxFacts RangeModel StorageModel StorageSpec StorageProofs GridModel GridProofs HdfModel HdfSpec HdfProofs HdfSerialProofs.

(** The global domain [0..3] x [10..11]; two processes with fields of 2 x 2 inner cells and one ghost cell;
    cells hold 100 x + y, ghost cells 0. *)
Definition ex_gmin : vec := [0; 10].
Definition ex_gmax : vec := [3; 11].
Definition ex_val (p : vec) : Z := 100 * vget p 0 + vget p 1.
Definition ex_c1 : container := copy_to_container (mkGrid COrder 1 [-1; 9] [2; 12]) (Some 1) ex_gmin ex_gmax.
Definition ex_c2 : container := copy_to_container (mkGrid COrder 1 [1; 9] [4; 12]) (Some 1) ex_gmin ex_gmax.
Definition ex_h1 : heap Z := fun b => if Nat.eqb b 1 then [0; 0; 0; 0;  0; 10; 11; 0;  0; 110; 111; 0;  0; 0; 0; 0] else [].
Definition ex_h2 : heap Z := fun b => if Nat.eqb b 1 then [0; 0; 0; 0;  0; 210; 211; 0;  0; 310; 311; 0;  0; 0; 0; 0] else [].
Definition ex_procs : list (container * heap Z) := [(ex_c2, ex_h2); (ex_c1, ex_h1)].
(** One process with a grid without ghost cells, not yet filled. *)
Definition ex_c : container := copy_to_container (mkGrid COrder 5 [0; 10] [3; 11]) None ex_gmin ex_gmax.
Definition ex_h : heap Z := fun b => if Nat.eqb b 5 then [0; 0; 0; 0; 0; 0; 0; 0] else [].

Ltac boxes := let p := fresh "p" in intros p;
  destruct p as [|? [|? [|? ?]]]; cbn; try tauto; lia.
Ltac fit := repeat match goal with |- _ /\ _ => split end; try reflexivity; try (cbn; lia); try (cbn; discriminate); try (repeat constructor; cbn; lia); try boxes.
Example ex_fits : Forall (fun x => fits ex_gmin ex_gmax (fst x) (snd x)) ex_procs /\ disjoint (map fst ex_procs) /\ fits ex_gmin ex_gmax ex_c ex_h.
Proof.
  split; [|split].
  - repeat constructor; unfold fits, part_of, small, grid_wf; cbn [fst snd]; fit.
  - cbn [map fst ex_procs disjoint]. split; [|split; [|exact I]].
    + intros c' p [<-|[]]. destruct p as [|? [|? [|? ?]]]; cbn; try tauto; lia.
    + intros c' p [].
  - unfold fits, part_of, small, grid_wf; cbn [fst snd]; fit.
Qed.
Example ex_covered : forall p, in_box ex_gmin ex_gmax p -> exists c h, In (c, h) ex_procs /\ local_to c p.
Proof.
  intros p H. destruct p as [|x [|y [|? ?]]]; cbn in H; try tauto. destruct (Z_le_dec x 1).
  - exists ex_c1, ex_h1. split; [right; now left|]. unfold local_to; cbn. lia.
  - exists ex_c2, ex_h2. split; [now left|]. unfold local_to; cbn. lia.
Qed.
Example ex_held : forall c h p, In (c, h) ex_procs -> local_to c p -> grid_read (c_grid c) h p = Some (ex_val p).
Proof.
  intros c h p [E|[E|[]]] H; injection E as <- <-; destruct p as [|x [|y [|? ?]]]; unfold local_to in H; cbn in H; try tauto.
  - assert (x = 2 \/ x = 3) as [-> | ->] by lia; assert (y = 10 \/ y = 11) as [-> | ->] by lia; reflexivity.
  - assert (x = 0 \/ x = 1) as [-> | ->] by lia; assert (y = 10 \/ y = 11) as [-> | ->] by lia; reflexivity.
Qed.
(** The file, and what the single process then holds. *)
Example ex_file : parallel_write 0 ex_procs = Done (mkDs [4; 2] [10; 11; 110; 111; 210; 211; 310; 311]).
Proof. vm_compute. reflexivity. Qed.
Example ex_read : match parallel_read ex_c ex_h (mkDs [4; 2] [10; 11; 110; 111; 210; 211; 310; 311]) with
  | Done h => h 5%nat = [10; 11; 110; 111; 210; 211; 310; 311] | _ => False end.
Proof. vm_compute. reflexivity. Qed.
(** A container whose local cells are not in the global domain. *)
Example ex_outside : let c := copy_to_container (mkGrid COrder 1 [-1; 9] [2; 12]) None ex_gmin ex_gmax in
  ~ part_of (c_lmin c) (c_lmax c) ex_gmin ex_gmax /\ write_part c ex_h1 (mkDs [4; 2] (repeat 0 8)) = Abort.
Proof.
  split; [|vm_compute; reflexivity]. intros H. specialize (H [-1; 9]). cbn in H. lia.
Qed.

(** ** Fortran order *)

(** The 2 x 3 cells of the domain [0..1] x [0..2], cell (x, y) holds 10 x + y. *)
Definition fo_gmin : vec := [0; 0].
Definition fo_gmax : vec := [1; 2].
Definition fo_c : container := copy_to_container (mkGrid FOrder 1 [0; 0] [1; 2]) None fo_gmin fo_gmax.
Definition fo_h : heap Z := fun b => if Nat.eqb b 1 then [0; 10; 1; 11; 2; 12] else [].
(** A process that reads only one row. *)
Definition fo_row : container := copy_to_container (mkGrid FOrder 1 [0; 0] [0; 2]) None fo_gmin fo_gmax.
Definition fo_row_h : heap Z := fun b => if Nat.eqb b 1 then [0; 0; 0] else [].
Lemma fortran_scrambled :
  fits_any fo_gmin fo_gmax fo_c fo_h /\ fits_any fo_gmin fo_gmax fo_row fo_row_h /\
  exists ds, parallel_write 0 [(fo_c, fo_h)] = Done ds /\ d_dims ds = sizes fo_gmin fo_gmax /\
    grid_read (c_grid fo_c) fo_h [0; 1] = Some 1 /\ stored ds (relative fo_gmin [0; 1]) 10 /\
    exists h', parallel_read fo_row fo_row_h ds = Done h' /\ grid_read (c_grid fo_row) h' [0; 1] = Some 10.
Proof.
  split; [unfold fits_any, part_of, small, grid_wf; fit|]. split; [unfold fits_any, part_of, small, grid_wf; fit|].
  eexists. split; [vm_compute; reflexivity|]. split; [reflexivity|]. split; [reflexivity|]. split; [reflexivity|].
  eexists. split; [reflexivity|]. reflexivity.
Qed.

(** ** Without parallel HDF5 *)

(** One process, a field of 2 cells with one ghost cell at each end. *)
Definition se_gmin : vec := [0].
Definition se_gmax : vec := [1].
Definition se_c : container := copy_to_container (mkGrid COrder 1 [-1] [2]) (Some 1) se_gmin se_gmax.
Definition se_h : heap Z := fun b => if Nat.eqb b 1 then [7; 20; 21; 8] else [].
(** The same cells without ghost cells. *)
Definition se_c0 : container := copy_to_container (mkGrid COrder 2 [0] [1]) None se_gmin se_gmax.
Definition se_h0 : heap Z := fun b => if Nat.eqb b 2 then [0; 0] else [].
Example se_fits : fits_any se_gmin se_gmax se_c se_h /\ fits_any se_gmin se_gmax se_c0 se_h0.
Proof. split; unfold fits_any, part_of, small, grid_wf; repeat match goal with |- _ /\ _ => split end; try reflexivity; try (cbn; lia); try (cbn; discriminate); try (repeat constructor; cbn; lia);
  intros p; destruct p as [|? [|? ?]]; cbn; try tauto; lia. Qed.
Lemma serial_ghosts :
  fits se_gmin se_gmax se_c se_h /\ fits se_gmin se_gmax se_c0 se_h0 /\
  exists ds, serial_write 0 se_c se_h = Done ds /\
    d_dims ds <> sizes se_gmin se_gmax /\
    grid_read (c_grid se_c) se_h [0] = Some 20 /\ stored ds (relative se_gmin [0]) 7 /\
    serial_read se_c0 se_h0 ds = Undef.
Proof.
  assert (fits se_gmin se_gmax se_c se_h /\ fits se_gmin se_gmax se_c0 se_h0) as [A B].
  { destruct se_fits as [A B]. split; (split; [apply A || apply B|]; split; [reflexivity|]); [apply A|apply B]. }
  split; [exact A|]. split; [exact B|]. eexists. split; [vm_compute; reflexivity|]. split; [discriminate|]. repeat split.
Qed.

(** ** Names *)
Example ex_names : names (opened new_stream) [Transfer; Transfer; SetName "pressure"; Transfer; Transfer; Transfer; SetName "data"] =
  ["data0"; "data1"; "pressure"; "pressure1"; "pressure2"]%string.
Proof. vm_compute. reflexivity. Qed.
Lemma not_digits_p : forall a b : string, a = "data"%string -> b = "pressure"%string -> ~ extends a b /\ ~ extends b a.
Proof. intros a b -> ->. split; intros (t & _ & E); discriminate E. Qed.
Example ex_unrelated : unrelated (used "data" true [Transfer; Transfer; SetName "pressure"; Transfer; Transfer; Transfer; SetName "data"]).
Proof. cbn. split; [|split; [|exact I]]; [|intros y []]. intros y [<-|[]]. now apply not_digits_p. Qed.
(** What [HDFGridDiagnostic] does: [open], then [setBlockName("data")] and one [writeGrid] for each output. *)
Example ex_diagnostic : used "data" true [SetName "data"; Transfer] = ["data"%string].
Proof. reflexivity. Qed.
Lemma names_clash :
  written new_stream [SetName "data"; Transfer; SetName "data"; Transfer] [1; 2] = Abort /\
  written new_stream [SetName "rho"; Transfer; Transfer; SetName "rho1"; Transfer] [1; 2; 3] = Abort.
Proof. split; vm_compute; reflexivity. Qed.
