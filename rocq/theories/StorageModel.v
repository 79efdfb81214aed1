(** Model of the index arithmetic of
    src/grid/gridstorage/single-array-storage-base.hpp and of the size computation of
    src/grid/gridstorage/single-array-allocation.hpp.

    [size_t] is 64 bit unsigned (wraps), [ptrdiff_t] is 64 bit signed (overflow is undefined
    behaviour), pointers are addresses modulo 2^64.  Coordinates ([int]) are unbounded [Z]; their
    conversion to [size_t] is reduction modulo 2^64. *)
From Verif Require Import Vec.

Definition two64 : Z := 2 ^ 64.
Definition w64 (x : Z) : Z := x mod two64.

(** Result of a signed 64 bit operation: [None] is signed overflow, undefined behaviour. *)
Definition s64 (x : Z) : option Z :=
  if (- 2 ^ 63 <=? x) && (x <? 2 ^ 63) then Some x else None.

(** [dims[d] = hi[d] - lo[d] + 1] — single-array-allocation.hpp:319-327 ([updateSizeInfo]) and
    :354-366 ([newData]).  The C++ type is [int]; no overflow is modelled here. *)
Definition dims_of (lo hi : vec) : vec := vmap2 (fun l h => h - l + 1) lo hi.

(** [size = 1; size *= dims[d]] in [size_t] — single-array-allocation.hpp:321,327. *)
Definition alloc_size (dims : vec) : Z := fold_left (fun s d => w64 (s * d)) dims 1.

(** The position computed by [SingleArrayGridCOrderStorageBase::get] —
    single-array-storage-base.hpp:335-355: [pos = index[0]], then
    [pos = index[i] + dims[i]*pos] for i = 1 .. rank-1, in [size_t]. *)
Definition c_pos (dims idx : vec) : Z :=
  match idx, dims with
  | i0 :: idx', _ :: dims' =>
      fold_left (fun pos xd => w64 (fst xd + snd xd * pos)) (combine idx' dims') (w64 i0)
  | _, _ => 0
  end.

(** [SingleArrayGridCOrderStorageBase::updateDataFast] — single-array-storage-base.hpp:387-397:
    [ptrdiff_t p = -lo(0)], then [p = p*dims[d] - lo(d)].  [None]: signed overflow. *)
Definition c_fast (lo dims : vec) : option Z :=
  match lo, dims with
  | l0 :: lo', _ :: dims' =>
      fold_left (fun p xd => match p with
                             | None => None
                             | Some p => match s64 (p * snd xd) with
                                         | None => None
                                         | Some q => s64 (q - fst xd)
                                         end
                             end) (combine lo' dims') (s64 (- l0))
  | _, _ => Some 0
  end.

(** Byte address of [get(index)]: [data_fast[pos]] with [data_fast = ptr + p]; [base] is the value
    of [data->ptr], [sz] is [sizeof(T)] — single-array-storage-base.hpp:343,396.
    Simplification: forming [ptr + p] outside the array is undefined behaviour by the letter of
    the C++ standard; here it is address arithmetic modulo 2^64, as on the usual flat targets. *)
Definition c_addr (base sz : Z) (lo dims idx : vec) : option Z :=
  match c_fast lo dims with
  | None => None
  | Some p => Some (w64 (w64 (base + sz * p) + sz * c_pos dims idx))
  end.

(** [SingleArrayGridFortranOrderStorageBase::get] — single-array-storage-base.hpp:436-456:
    [pos = index[rank-1]], then [pos = index[i] + dims[i]*pos] for i = rank-2 downto 0. *)
Definition f_pos (dims idx : vec) : Z :=
  match rev idx, rev dims with
  | i0 :: idx', _ :: dims' =>
      fold_left (fun pos xd => w64 (fst xd + snd xd * pos)) (combine idx' dims') (w64 i0)
  | _, _ => 0
  end.

(** [SingleArrayGridFortranOrderStorageBase::updateDataFast] —
    single-array-storage-base.hpp:481-491; [p] is a [size_t] here. *)
Definition f_fast (lo dims : vec) : Z :=
  match rev lo, rev dims with
  | l0 :: lo', _ :: dims' =>
      fold_left (fun p xd => w64 (p * snd xd - fst xd)) (combine lo' dims') (w64 (- l0))
  | _, _ => 0
  end.

(** Byte address of [get(index)] in Fortran order. *)
Definition f_addr (base sz : Z) (lo dims idx : vec) : Z :=
  w64 (w64 (base + sz * f_fast lo dims) + sz * f_pos dims idx).

(** [stride(dim)] in C order — single-array-storage-base.hpp:376-385: product of
    [dims[i]] for i = rank-1 downto dim+1, in [size_t]. *)
Definition c_stride (dims : vec) (d : nat) : Z :=
  fold_left (fun s x => w64 (s * x)) (rev (skipn (S d) dims)) 1.

(** [stride(dim)] in Fortran order — single-array-storage-base.hpp:470-479: product of
    [dims[i]] for i = 0 .. dim-1.  (The C++ type is [ptrdiff_t]; modelled as wrapping.) *)
Definition f_stride (dims : vec) (d : nat) : Z :=
  fold_left (fun s x => w64 (s * x)) (firstn d dims) 1.
