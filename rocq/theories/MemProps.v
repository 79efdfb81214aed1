(** C102: the memory of grids.  [ShareModel] holds the program. *)
From Verif Require Import Vec StorageModel GridModel ShareModel MemSpec MemProofs.

(** C102.  At any time of any program that constructs, copies, assigns, resizes, reads, writes and destroys grids without undefined
    behaviour: the memory blocks that are allocated are exactly the arrays of the grids that exist; grids that share
    no data have different arrays, so none is released twice; and the pointer through which a grid accesses its
    elements is that to its current array. *)
Theorem C102_memory : forall V A (junk : V) (avg0 : A) rank ord pol os s out,
  run junk avg0 rank ord pol os (init avg0) = Some (s, out) ->
  (forall b, (exists l, s_blk s b = Some l) <-> exists h, In h (s_live s) /\ points s h b) /\
  (forall h k b, In h (s_live s) -> In k (s_live s) -> points s h b -> points s k b -> h_data (s_h s h) = h_data (s_h s k)) /\
  (forall h, In h (s_live s) -> fst (h_fast (s_h s h)) = d_ptr (s_d s (h_data (s_h s h)))).
Proof. exact memory_held. Qed.
Print Assumptions C102_memory.

(** When all grids are destroyed nothing is left. *)
Theorem C102_released : forall V A (junk : V) (avg0 : A) rank ord pol os s out,
  run junk avg0 rank ord pol os (init avg0) = Some (s, out) -> s_live s = [] -> forall b, s_blk s b = None.
Proof. exact memory_released. Qed.
Print Assumptions C102_released.

(** The first four blocks in a program: block 1 goes when its grid is resized, block 0 when the last of its grids is assigned to. *)
Example C102_case :
  blocks (firstn 9 mem_prog) = Some ([3; 2; 1]%nat, [Some 4; None; Some 3; None]%nat) /\
  blocks mem_prog = Some ([3; 2; 1]%nat, [None; None; Some 3; None]%nat) /\
  blocks mem_end = Some ([], [None; None; None; None]).
Proof. exact mem_example. Qed.
