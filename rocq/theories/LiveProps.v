(** C100: diagnostics and readers of grids within a program.  [LiveModel] holds the program, [LiveSpec] the
    words used here. *)
From Verif Require Import Vec GridSpec StorageModel GridModel ShareModel ShareSpec ShareProofs ShareExamples
  HdfModel HdfSpec LiveModel LiveSpec LiveExamples.

(** C100, output.  Several processes run programs that create, copy, assign, resize, destroy, read and write
    grids and construct, initialise and use diagnostics and readers.  The [n]-th output of the
    processes makes a data set of the global domain that has, for each inner cell, the value it was given last, by whichever
    copy of the grid or by a reader.
    Missing: diagnostics whose grid has been resized since [init] (see the refutation), Fortran order and
    the serial library (C81), assignments as in C11 and C12. *)
Theorem C100_output_partial : forall V A (junk zero : V) (avg0 : A) rank pol, policy_ok pol ->
  forall gmin gmax progs es n, progs <> [] ->
  Forall2 (fun prog e => llegal_run (is_lazy pol) prog lainit /\ nth_error (outputs prog lainit) n = Some e) progs es ->
  Forall (fun e => o_gmin e = gmin /\ o_gmax e = gmax) es -> apart es ->
  exists snaps ds,
    Forall2 (fun prog x => exists z l, lrun junk avg0 rank COrder pol prog (linit avg0) = Some (z, l) /\
                                       nth_error (files l) n = Some x) progs snaps /\
    parallel_write zero snaps = Done ds /\ d_dims ds = sizes gmin gmax /\
    forall e p v, In e es -> in_box (o_lo e) (o_hi e) p -> o_val e p = Some v -> stored ds (relative gmin p) v.
Proof. exact files_live. Qed.
Print Assumptions C100_output_partial.

Example C100_output_hypotheses : exists es,
  Forall2 (fun prog e => llegal_run false prog lainit /\ nth_error (outputs prog lainit) 1 = Some e) [live_prog; live_prog2] es /\
  Forall (fun e => o_gmin e = [0] /\ o_gmax e = [7]) es /\ apart es /\
  map (fun e => (o_lo e, o_hi e, o_val e [0], o_val e [3], o_val e [4])) es =
    [([0], [3], Some 5, Some 8, None); ([4], [7], None, None, Some 9)].
Proof. exact live_example. Qed.

(** C100, input and the rest of the program.  Such programs run without undefined behaviour, and all that they read
    from grids is what the specification says: a reader changes the inner cells for all copies of its
    grid, a diagnostic changes nothing. *)
Theorem C100_input_partial : forall V A (junk : V) (avg0 : A) rank pol, policy_ok pol ->
  forall os, llegal_run (is_lazy pol) os lainit ->
  exists z l, lrun junk avg0 rank COrder pol os (linit avg0) = Some (z, l) /\ lobs_run rank os lainit (seen l).
Proof. exact programs_live. Qed.
Print Assumptions C100_input_partial.

Example C100_input_hypotheses : llegal_run false live_read lainit /\
  option_map (fun r => seen (snd r)) (lrun 0 tt 1 COrder Instant live_read (linit tt)) = Some [OVal 12].
Proof. exact live_read_example. Qed.

(** The grid of cells 0..3 (with a ghost cell) is resized after the diagnostic has been initialised.  Grown to 0..5:
    cell 5, which holds 7, is missing in the file.  Shrunk to 0..1, or moved to 4..7: the output
    aborts the program. *)
Theorem C100_resized_refuted :
  written_by (resized (-1) 6 5 7) 5 = Some (Done (mkDs [8] [0; 0; 0; 0; 0; 0; 0; 0]), Some 7) /\
  written_by (resized (-1) 2 0 7) 0 = Some (Abort, Some 7) /\
  written_by (resized 3 8 5 7) 5 = Some (Abort, Some 7).
Proof. exact resized_output. Qed.
Print Assumptions C100_resized_refuted.
