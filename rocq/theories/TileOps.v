(** Model of the MLI 3.0 runtime objects whose input and output tiles differ in shape: MoveBroadcast (lib/src/move/mli_move_broadcast_runtime.cc),
    ReduceSum and ReduceMax (lib/src/kernels/conversion/mli_reduce_{sum,max}_runtime.cc), MatMul (lib/src/kernels/convolution/mli_krn_matmul_runtime.cc). *)
From Coq Require Import ZArith List Lia Bool.
From Verif Require Import Base FxMath Tensor Permute Relu Ops3 Iter TileRun TileElt.
Import ListNotations.
Open Scope Z_scope.

(** * MoveBroadcast *)

(** mli_move_broadcast_runtime.cc:108-116: src_idx, the source position read for the destination position [c]; a difference in size that is
    not a broadcast fails the assertion of line 110. *)
Fixpoint bc_index (src dst c : list Z) : option (list Z) :=
  match src, dst, c with
  | s :: src', d :: dst', k :: c' =>
      do r <- bc_index src' dst' c';
      if s =? d then Some (k :: r) else if s =? 1 then Some (0 :: r) else None
  | _, _, _ => Some []
  end.

(** mli_move_broadcast_runtime.cc:71-124 MoveBroadcastRun. [addr] stops at the rank of the tensor, as Tensor::get_offset does. The buffers of
    source and destination are separate memories; both have the same element size, so values are not changed by tensor_read and tensor_write
    (lines 33-69). *)
Definition bc_run (src dst : tensor) (ms m : mem) : option mem :=
  if negb (Nat.eqb (length (t_shape src)) (length (t_shape dst))) then None
  else foldM (fun c m =>
    do i <- bc_index (t_shape src) (t_shape dst) c;
    do x <- load ms (t_data src + addr (t_stride src) i);
    store m (t_data dst + addr (t_stride dst) c) x) (coords (pad4 1 (t_shape dst))) m.

(** mli_move_broadcast_runtime.cc:20-31, 126-129, 135-150: the constructor and Update are [un_create] and [un_update]; this is Issue. *)
Definition bc_issue (ob : un_obj) (ms m : mem) : option mem := bc_run (uo_tin ob) (uo_tout ob) ms m.

(** * ReduceSum, ReduceMax *)

(** mli_reduce_sum_runtime.cc:22-80, 103-111: the constructor and Update are [un_create] and [un_update]; lines 83-99: Issue, [n_bits] is the
    width of the element type. *)
Definition rsum_issue (n_bits : Z) (axis : nat) (ob : un_obj) (mi m : mem) : option mem := reduce_sum n_bits axis (uo_tin ob) (uo_tout ob) mi m.

(** mli_reduce_max_runtime.cc:21-77: the constructor takes the shapes from TensorIterator::get_dim (mli_iterator.hpp:1105-1107), which are
    those of the whole tensors. *)
Definition rmax_create (i o : titer) (bi bo : lbuf) : un_obj :=
  mkUo i o (with_shape (tile_of bi i) (ti_shape i)) (with_shape (tile_of bo o) (ti_shape o)).

(** mli_reduce_max_runtime.cc:79-95 Issue; Update (lines 99-106) is [un_update]. *)
Definition rmax_issue (axis : nat) (ob : un_obj) (mi m : mem) : option mem := reduce_max axis (uo_tin ob) (uo_tout ob) mi m.

(** * MatMul *)

(** The members: iterators and tile tensors. *)
Record mm_obj := mkMm { mm_left : titer; mm_right : titer; mm_out : titer; mm_tl : tensor; mm_tr : tensor; mm_to : tensor }.

(** mli_krn_matmul_runtime.cc:15-44: the constructor *)
Definition mm_create (l r o : titer) (bl br bo : lbuf) : mm_obj := mkMm l r o (tile_of bl l) (tile_of br r) (tile_of bo o).

(** mli_krn_matmul_runtime.cc:63-87 Update *)
Definition mm_update (ob : mm_obj) : mm_obj :=
  let l := ti_next (mm_left ob) in let r := ti_next (mm_right ob) in let o := ti_next (mm_out ob) in
  mkMm l r o (with_shape (mm_tl ob) (ti_size l)) (with_shape (mm_tr ob) (ti_size r)) (with_shape (mm_to ob) (ti_size o)).

Fixpoint mm_updates (n : nat) (ob : mm_obj) : mm_obj := match n with O => ob | S k => mm_update (mm_updates k ob) end.

(** mli_krn_matmul_ref.hpp:42-44: the assertions on the shapes *)
Definition mm_shapes (tl tr tout : tensor) : bool :=
  (nth 1 (t_shape tl) 0 =? nth 0 (t_shape tr) 0) && (nth 0 (t_shape tout) 0 =? nth 0 (t_shape tl) 0) && (nth 1 (t_shape tout) 0 =? nth 1 (t_shape tr) 0).

(** mli_krn_matmul_runtime.cc:46-59 Issue; the zero points are the first two elements of the buffer [pm] (mli_krn_matmul_ref.hpp:56-57). *)
Definition mm_issue (pm : mem) (p : Z) (ob : mm_obj) (ml mr m : mem) : option mem :=
  if mm_shapes (mm_tl ob) (mm_tr ob) (mm_to ob) then
    do zl <- load pm p; do zr <- load pm (p + 1); matmul zl zr (mm_tl ob) (mm_tr ob) (mm_to ob) ml mr m
  else None.

(** mli_krn_matmul_runtime.cc:89-101 GetIOSizesAndOffsets: the offsets reported for left input, right input and output; those of the right
    input are taken from the iterator of the left one. *)
Definition mm_offsets (ob : mm_obj) : list Z * list Z * list Z := (ti_pos (mm_left ob), ti_pos (mm_left ob), ti_pos (mm_out ob)).
