(** Property theorems C05-C08: linear storage. *)
From Verif Require Import Vec GridSpec StorageSpec StorageModel StorageProofs.

(** C05.  [base] is the address of the allocation, [sz] the element size; the allocation lies in
    the 64 bit address space.  [L] bounds the magnitude of the lower bounds: the last hypothesis
    keeps the signed bias computation inside 64 bits (C07 is about the rest).  Every index has an
    address, the addresses of the indices of the box are the elements of the allocation, one to
    one, and the last index is the fastest. *)
Theorem C05_c_order_bijection : forall base sz lo hi L,
  lo <> [] -> box_ok lo hi -> 0 <= base -> 0 < sz -> base + sz * box_size lo hi <= 2 ^ 64 ->
  Forall (fun l => Z.abs l <= L) lo -> L * Z.of_nat (length lo) * box_size lo hi < 2 ^ 63 ->
  exists addr, (forall p, c_addr base sz lo (dims_of lo hi) p = Some (addr p)) /\
    addresses_block addr base sz (box_size lo hi) lo hi /\
    (forall p q, in_box lo hi p -> in_box lo hi q -> next_in (length lo - 1) p q -> addr q = addr p + sz).
Proof. exact c_storage_block_small. Qed.
Print Assumptions C05_c_order_bijection.

(** The number of allocated elements, computed in wrapping arithmetic, is the size of the box. *)
Theorem C05_allocation_size : forall lo hi,
  box_ok lo hi -> box_size lo hi < 2 ^ 64 -> alloc_size (dims_of lo hi) = box_size lo hi.
Proof. exact alloc_size_exact. Qed.
Print Assumptions C05_allocation_size.

Example C05_hypotheses :
  box_ok [-2; -2; 3] [9; 9; 5] /\ 4096 + 8 * box_size [-2; -2; 3] [9; 9; 5] <= 2 ^ 64 /\
  Forall (fun l => Z.abs l <= 3) [-2; -2; 3] /\
  3 * Z.of_nat (length [-2; -2; 3]) * box_size [-2; -2; 3] [9; 9; 5] < 2 ^ 63 /\
  c_addr 4096 8 [-2; -2; 3] (dims_of [-2; -2; 3] [9; 9; 5]) [-2; -2; 3] = Some 4096 /\
  c_addr 4096 8 [-2; -2; 3] (dims_of [-2; -2; 3] [9; 9; 5]) [9; 9; 5] = Some (4096 + 8 * 431).
Proof. split; [simpl; lia|]. split; [vm_compute; congruence|]. split; [repeat constructor; simpl; lia|].
  split; [vm_compute; reflexivity|]. split; vm_compute; reflexivity. Qed.

(** C06. *)
Theorem C06_fortran_order_bijection : forall base sz lo hi,
  lo <> [] -> box_ok lo hi -> 0 <= base -> 0 < sz -> base + sz * box_size lo hi <= 2 ^ 64 ->
  addresses_block (f_addr base sz lo (dims_of lo hi)) base sz (box_size lo hi) lo hi /\
  (forall p q, in_box lo hi p -> in_box lo hi q -> next_in 0 p q ->
     f_addr base sz lo (dims_of lo hi) q = f_addr base sz lo (dims_of lo hi) p + sz).
Proof. exact f_storage_block_first. Qed.
Print Assumptions C06_fortran_order_bijection.

Example C06_hypotheses :
  box_ok [-2; 7; 3] [9; 9; 5] /\ 4096 + 8 * box_size [-2; 7; 3] [9; 9; 5] <= 2 ^ 64 /\
  f_addr 4096 8 [-2; 7; 3] (dims_of [-2; 7; 3] [9; 9; 5]) [-1; 7; 3] = 4096 + 8 /\
  f_addr 4096 8 [-2; 7; 3] (dims_of [-2; 7; 3] [9; 9; 5]) [-2; 8; 3] = 4096 + 8 * 12.
Proof. split; [simpl; lia|]. split; [vm_compute; congruence|]. split; vm_compute; reflexivity. Qed.

(** C07, what holds: for lower bounds of any magnitude the address is the exact position; in
    Fortran order always, in C order whenever the bias computation has defined behaviour. *)
Theorem C07_wrapped_bias_exact_partial : forall base sz lo hi p,
  lo <> [] -> 0 <= base -> 0 < sz -> base + sz * box_size lo hi <= 2 ^ 64 -> in_box lo hi p ->
  f_addr base sz lo (dims_of lo hi) p = base + sz * col_major lo hi p /\
  (forall a, c_addr base sz lo (dims_of lo hi) p = Some a -> a = base + sz * row_major lo hi p).
Proof. exact storage_exact. Qed.
Print Assumptions C07_wrapped_bias_exact_partial.

(** The Fortran bias of this grid wraps (it is a huge unsigned number), and so does the address
    computation. *)
Example C07_hypotheses :
  f_fast [5; 6] (dims_of [5; 6] [9; 9]) = 2 ^ 64 - 35 /\
  f_addr 4096 8 [5; 6] (dims_of [5; 6] [9; 9]) [6; 7] = 4096 + 8 * 6 /\
  c_addr 4096 8 [5; 6] (dims_of [5; 6] [9; 9]) [6; 7] = Some (4096 + 8 * 5).
Proof. split; [|split]; vm_compute; reflexivity. Qed.

(** C07, what does not: in C order the bias is computed in signed arithmetic, and there is an
    allocatable shape with [int] bounds for which this overflows, so that no element has a defined
    address. *)
Theorem C07_c_order_bias_overflow_refuted :
  exists lo hi, box_ok lo hi /\ box_size lo hi < 2 ^ 64 /\
    Forall (fun x => - 2 ^ 31 <= x < 2 ^ 31) (lo ++ hi) /\
    forall base sz p, c_addr base sz lo (dims_of lo hi) p = None.
Proof. exact c_bias_overflow_witness. Qed.
Print Assumptions C07_c_order_bias_overflow_refuted.

(** C08. *)
Theorem C08_strides_address_neighbours : forall base sz lo hi p q d,
  lo <> [] -> box_ok lo hi -> 0 <= base -> 0 < sz -> base + sz * box_size lo hi <= 2 ^ 64 ->
  box_size lo hi < 2 ^ 64 ->
  in_box lo hi p -> in_box lo hi q -> next_in d p q ->
  (forall a b, c_addr base sz lo (dims_of lo hi) p = Some a -> c_addr base sz lo (dims_of lo hi) q = Some b ->
     b = a + sz * c_stride (dims_of lo hi) d) /\
  f_addr base sz lo (dims_of lo hi) q =
  f_addr base sz lo (dims_of lo hi) p + sz * f_stride (dims_of lo hi) d.
Proof. exact strides_address_neighbours. Qed.
Print Assumptions C08_strides_address_neighbours.

Example C08_hypotheses :
  in_box [-2; 7; 3] [9; 9; 5] [0; 8; 4] /\ in_box [-2; 7; 3] [9; 9; 5] [0; 9; 4] /\
  next_in 1 [0; 8; 4] [0; 9; 4] /\
  c_stride (dims_of [-2; 7; 3] [9; 9; 5]) 1 = 3 /\ f_stride (dims_of [-2; 7; 3] [9; 9; 5]) 1 = 12 /\
  c_addr 4096 8 [-2; 7; 3] (dims_of [-2; 7; 3] [9; 9; 5]) [0; 8; 4] <> None.
Proof.
  split; [simpl; lia|]. split; [simpl; lia|]. split.
  - split; [reflexivity|]. split; [simpl; lia|]. intros [|[|[|[|i]]]]; reflexivity.
  - split; [vm_compute; reflexivity|]. split; [vm_compute; reflexivity|]. vm_compute. discriminate.
Qed.
