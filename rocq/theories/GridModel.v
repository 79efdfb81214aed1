(** Model of element access, checking policies and whole-grid operations:
    src/grid/grid.t, src/grid/gridcheck.hpp. *)
From Verif Require Import Vec RangeModel StorageModel.

(** ** Checking policies *)

(** [GridNoArgCheck::check] — src/grid/gridcheck.hpp:94-99. *)
Definition noarg_check (pos lo hi : vec) : vec := pos.

(** [GridAssertCheck::check] — src/grid/gridcheck.hpp:101-114.  [None]: an assertion fails, the
    program aborts. *)
Fixpoint assert_check_loop (rank i : nat) (pos lo hi : vec) : option vec :=
  match rank with
  | O => Some pos
  | S r => if negb (vget pos i >=? vget lo i) then None
           else if negb (vget pos i <=? vget hi i) then None
           else assert_check_loop r (S i) pos lo hi
  end.
Definition assert_check (pos lo hi : vec) : option vec :=
  assert_check_loop (length pos) 0 pos lo hi.

(** The static members of [GridDebugCheck] — src/grid/gridcheck.hpp:68-70,117-124. *)
Record dbg := mkDbg { dbg_flag : bool; dbg_info : Z; dbg_off : vec }.

(** Body of the loop of [GridDebugCheck::check] — src/grid/gridcheck.hpp:134-151; [pos] is the
    argument, [pc] is [pos_copy]. *)
Definition debug_check_dim (i : nat) (pos lo hi : vec) (s : vec * dbg) : vec * dbg :=
  let '(pc, d) := s in
  let '(pc, d) := if vget pc i <? vget lo i
                  then (vset pc i (vget lo i), mkDbg true (- Z.of_nat i) pos) else (pc, d) in
  if vget pc i >? vget hi i
  then (vset pc i (vget hi i), mkDbg true (Z.of_nat i) pos) else (pc, d).

(** [GridDebugCheck::check] — src/grid/gridcheck.hpp:126-153. *)
Definition debug_check (d : dbg) (pos lo hi : vec) : vec * dbg :=
  fold_left (fun s i => debug_check_dim i pos lo hi s) (seq 0 (length pos)) (pos, d).

(** ** Element access *)

Inductive order := COrder | FOrder.

(** A grid handle: storage order (the storage policy), the block it uses and its bounds.
    The members [size], [dims], [data_fast] are functions of the bounds
    (src/grid/gridstorage/single-array-allocation.hpp:319-333). *)
Record grid := mkGrid { g_order : order; g_block : nat; g_lo : vec; g_hi : vec }.

Definition g_dims (g : grid) : vec := dims_of (g_lo g) (g_hi g).

(** [get(index)] as an element offset in the block: the address arithmetic of
    src/grid/gridstorage/single-array-storage-base.hpp:335-397,436-491 with base address 0 and
    element size 1.  [None]: signed overflow of the bias, undefined behaviour. *)
Definition g_offset (g : grid) (idx : vec) : option Z :=
  match g_order g with
  | COrder => c_addr 0 1 (g_lo g) (g_dims g) idx
  | FOrder => Some (f_addr 0 1 (g_lo g) (g_dims g) idx)
  end.

Section Memory.
  Context {V : Type}.

  (** The heap: the contents of each allocated block. *)
  Definition heap := nat -> list V.

  (** Reading / writing element [k] of block [b]; [None] is an access outside the block. *)
  Definition read_elem (h : heap) (b : nat) (k : Z) : option V :=
    if k <? 0 then None else nth_error (h b) (Z.to_nat k).

  Fixpoint list_set (l : list V) (i : nat) (v : V) : list V :=
    match l, i with
    | [], _ => []
    | _ :: l', O => v :: l'
    | x :: l', S i' => x :: list_set l' i' v
    end.

  Definition write_elem (h : heap) (b : nat) (k : Z) (v : V) : option heap :=
    if (k <? 0) || (Z.of_nat (length (h b)) <=? k) then None
    else Some (fun b' => if Nat.eqb b' b then list_set (h b) (Z.to_nat k) v else h b').

  (** [grid[idx]] / [grid(i,j,...)] read and write with [GridNoArgCheck] —
      src/grid/grid.t:89-382 ([return this->get(this->check(pos,lo,hi))]). *)
  Definition grid_read (g : grid) (h : heap) (idx : vec) : option V :=
    match g_offset g (noarg_check idx (g_lo g) (g_hi g)) with
    | None => None
    | Some k => read_elem h (g_block g) k
    end.

  Definition grid_write (g : grid) (h : heap) (idx : vec) (v : V) : option heap :=
    match g_offset g (noarg_check idx (g_lo g) (g_hi g)) with
    | None => None
    | Some k => write_elem h (g_block g) k v
    end.

  (** A client program: a list of element reads and writes; the reads are returned. *)
  Inductive gop := GRead (idx : vec) | GWrite (idx : vec) (v : V).

  Fixpoint grid_run (g : grid) (h : heap) (ops : list gop) : option (heap * list V) :=
    match ops with
    | [] => Some (h, [])
    | GRead p :: ops' =>
        match grid_read g h p with
        | None => None
        | Some v => match grid_run g h ops' with
                    | None => None
                    | Some (h', out) => Some (h', v :: out)
                    end
        end
    | GWrite p v :: ops' =>
        match grid_write g h p v with
        | None => None
        | Some h1 => grid_run g h1 ops'
        end
    end.

  (** ** Whole-grid operations *)

  (** [begin()] is [data->ptr], [end()] is [data->ptr + size]
      (single-array-storage-base.hpp:90-94), so a storage iterator is an element offset running
      from 0 to [size]. *)
  Definition g_size (g : grid) : nat := Z.to_nat (alloc_size (g_dims g)).

  (** [operator=(const T&)] — src/grid/grid.t:385-406; [n] iterations are left, [k] is [dest]. *)
  Fixpoint fill_loop (n : nat) (k : Z) (b : nat) (v : V) (h : heap) : option heap :=
    match n with
    | O => Some h
    | S n' => match write_elem h b k v with
              | None => None
              | Some h' => fill_loop n' (k + 1) b v h'
              end
    end.
  Definition grid_fill (g : grid) (v : V) (h : heap) : option heap :=
    fill_loop (g_size g) 0 (g_block g) v h.

  Section Op.
    (** [op a b] is the new value of [a] after [a += b] respectively [a -= b]. *)
    Variable op : V -> V -> V.

    (** [operator+=], [operator-=] for a grid with the same storage policy —
        src/grid/grid.t:409-436, 468-495: both storage iterators run in step until the source
        is exhausted. *)
    Fixpoint iop_lin_loop (n : nat) (k : Z) (a b : nat) (h : heap) : option heap :=
      match n with
      | O => Some h
      | S n' =>
          match read_elem h b k with
          | None => None
          | Some y =>
              match read_elem h a k with
              | None => None
              | Some x => match write_elem h a k (op x y) with
                          | None => None
                          | Some h' => iop_lin_loop n' (k + 1) a b h'
                          end
              end
          end
      end.
    Definition grid_iop_same (a b : grid) (h : heap) : option heap :=
      iop_lin_loop (g_size b) 0 (g_block a) (g_block b) h.

    (** [operator+=], [operator-=] for a grid with a different storage policy —
        src/grid/grid.t:438-465, 497-524: loop over the range of [this]. *)
    Fixpoint iop_idx_loop (l : list vec) (a b : grid) (h : heap) : option heap :=
      match l with
      | [] => Some h
      | p :: l' =>
          match grid_read b h p with
          | None => None
          | Some y =>
              match grid_read a h p with
              | None => None
              | Some x => match grid_write a h p (op x y) with
                          | None => None
                          | Some h' => iop_idx_loop l' a b h'
                          end
              end
          end
      end.
    (** The inner [option]: undefined behaviour; the outer: the range loop needs more fuel. *)
    Definition grid_iop_mixed (fuel : nat) (a b : grid) (h : heap) : option (option heap) :=
      match range_visits fuel (mkRange (g_lo a) (g_hi a)) with
      | None => None
      | Some l => Some (iop_idx_loop l a b h)
      end.
  End Op.
End Memory.
Arguments heap : clear implicits.
Arguments gop : clear implicits.
