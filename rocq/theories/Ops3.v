(** Model of further MLI 3.0 reference kernels: rescale and clip (lib/src/kernels/conversion/impl/mli_krn_rescale_ref.hpp,
    lib/src/kernels/clip/impl/mli_krn_clip_ref.hpp), reductions (mli_reduce_max_ref.hpp, mli_reduce_sum_ref.hpp), bilinear resizing
    (mli_resize_bilinear_ref.hpp) and matrix multiplication (lib/src/kernels/convolution/mli_krn_matmul_ref.hpp). *)
From Coq Require Import ZArith List Lia Bool.
From Verif Require Import Base FxMath Tensor Permute.
Import ListNotations.
Open Scope Z_scope.

(** Generic tensors (mli_prv_tensor.h:396-463 mli_prv_get_generic_tensor) have four dimensions: missing ones get the size 1 and the
    stride 0. [pad4] is defined in Permute.v. *)

(** * Rescale *)

(** mli_krn_rescale_ref.hpp:21-38 rescale_value<i_T, o_T>; [ni] and [no] are the widths of i_T and o_T. The difference has the input
    type. mli_math_ashift_right_fx is the rounding shift. *)
Definition rescale_value (rm : rmode) (ni no in_val in_bias out_bias scale shift_right : Z) : Z :=
  let shift := Z.max (-63) (Z.min shift_right 63) in
  let value := sub_fx ni in_val in_bias in
  cast_narrow rm 64 no (add_fx 64 (asr_rnd_fx rm 64 (value * scale) shift) out_bias) 0.

(** The parameters of the operator: buffers indexed by the position on the axis, read at 0 without an axis. *)
Record rescale_params := mkRescale { rs_bias_in : mem; rs_scale : mem; rs_shift : mem; rs_bias_out : mem }.

(** mli_krn_rescale_ref.hpp:40-142: mli_krn_rescale with compute_rescale_per_axis and compute_rescale_per_tensor (whose parameters are
    read before the loops). Input and output buffers are separate memories since their element types may differ. *)
Definition rescale (rm : rmode) (ni no : Z) (p : rescale_params) (axis : Z) (tin tout : tensor) (mi m : mem) : option mem :=
  foldM (fun c m =>
    let k := if axis <? 0 then 0 else nth (Z.to_nat axis) c 0 in
    do x <- load mi (t_data tin + addr (pad4 0 (t_stride tin)) c);
    do bi <- load (rs_bias_in p) k;
    do bo <- load (rs_bias_out p) k;
    do sc <- load (rs_scale p) k;
    do sh <- load (rs_shift p) k;
    store m (t_data tout + addr (pad4 0 (t_stride tout)) c) (rescale_value rm ni no x bi bo sc sh))
    (coords (pad4 1 (t_shape tin))) m.

(** mli_krn_rescale_runtime.cc:166-221 Rescale::Issue: the types i_T and o_T of the kernel, as their sizes in bytes, that is run for
    elements of the given sizes; none is run for 32-bit input and output, the assertions are left out. *)
Definition rescale_issue (in_size out_size : Z) : option (Z * Z) :=
  if in_size =? 4 then (if out_size =? 1 then Some (4, 1) else None)
  else if in_size =? 2 then (if out_size =? 4 then Some (4, 4) else None)
  else if in_size =? 1 then (if out_size =? 1 then Some (1, 1) else if out_size =? 4 then Some (4, 4) else None)
  else None.

(** * Clip *)

(** mli_krn_clip_ref.hpp:20-27 clip_value *)
Definition clip_value (x lo hi : Z) : Z := min_fx (max_fx x lo) hi.

(** mli_krn_clip_ref.hpp:29-75 compute_clip_per_tensor and mli_krn_clip; [lo] and [hi] are the values of the parameter tensors. *)
Definition clip (lo hi : Z) (tin tout : tensor) (m : mem) : option mem :=
  foldM (fun c m => do x <- load m (t_data tin + addr (pad4 0 (t_stride tin)) c);
                    store m (t_data tout + addr (pad4 0 (t_stride tout)) c) (clip_value x lo hi)) (coords (pad4 1 (t_shape tin))) m.

(** * Reductions *)

(** Assignment to an entry of an array. *)
Fixpoint set_at {A} (k : nat) (v : A) (l : list A) : list A :=
  match l, k with [], _ => [] | _ :: l', O => v :: l' | x :: l', S k' => x :: set_at k' v l' end.

(** mli_reduce_max_ref.hpp:49-52 (mli_reduce_sum_ref.hpp:49-52): the order of the loops; the axis is the innermost one. *)
Definition reorder_dim (axis : nat) : list nat :=
  let r := [0; 1; 2; 3]%nat in set_at 3 axis (set_at axis (nth 3 r 0%nat) r).

(** The arrays pos_in and pos_out of mli_reduce_max_ref.hpp:55-68: the outer three loop variables at the reordered positions, [k] on the axis. *)
Definition reduce_pos (axis : nat) (q : list Z) (k : Z) : list Z :=
  let r := reorder_dim axis in
  set_at (nth 3 r 0%nat) k (set_at (nth 2 r 0%nat) (nth 2 q 0) (set_at (nth 1 r 0%nat) (nth 1 q 0) (set_at (nth 0 r 0%nat) (nth 0 q 0) [0; 0; 0; 0]))).

(** The three outer loops of both kernels; [body] computes the result of a slice from its read function. Sizes of 0 count as 1
    (mli_reduce_max_ref.hpp:40-47). Input and output are separate memories: the buffers must not overlap. *)
Definition reduce_loops (body : (Z -> option Z) -> Z -> option Z) (axis : nat) (tin tout : tensor) (mi m : mem) : option mem :=
  let sh := map (fun n => if n =? 0 then 1 else n) (pad4 1 (t_shape tin)) in
  let r := reorder_dim axis in
  foldM (fun q m =>
    let read k := load mi (t_data tin + addr (pad4 0 (t_stride tin)) (reduce_pos axis q k)) in
    do v <- body read (nth (nth 3 r 0%nat) sh 0);
    store m (t_data tout + addr (pad4 0 (t_stride tout)) (reduce_pos axis q 0)) v)
    (coords [nth (nth 0 r 0%nat) sh 0; nth (nth 1 r 0%nat) sh 0; nth (nth 2 r 0%nat) sh 0]) m.

(** mli_reduce_max_ref.hpp:67-77 *)
Definition max_body (read : Z -> option Z) (n : Z) : option Z :=
  do v0 <- read 0;
  foldM (fun k acc => do x <- read k; Some (max_fx acc x)) (zrange 0 n) v0.

(** mli_reduce_sum_ref.hpp:68-78 with [n_bits] the width of io_T; the assertion on the range is left out. *)
Definition sum_body (n_bits : Z) (read : Z -> option Z) (n : Z) : option Z :=
  foldM (fun k acc => do x <- read k; Some (wrap n_bits (wrap 64 (acc + x)))) (zrange 0 n) 0.

(** mli_reduce_max_ref.hpp:23-86 mli_reduce_max *)
Definition reduce_max (axis : nat) (tin tout : tensor) (mi m : mem) : option mem := reduce_loops max_body axis tin tout mi m.

(** mli_reduce_sum_ref.hpp:25-87 mli_reduce_sum *)
Definition reduce_sum (n_bits : Z) (axis : nat) (tin tout : tensor) (mi m : mem) : option mem := reduce_loops (sum_body n_bits) axis tin tout mi m.

(** * Bilinear resizing *)

(** Arithmetic of the type int: overflow is undefined. *)
Definition int32 (x : Z) : option Z := if (smin 32 <=? x) && (x <=? smax 32) then Some x else None.

(** mli_resize_bilinear_ref.hpp:39-43 and 45-49: the two input positions and the distance from the first for an output position;
    [n] is the size of the input. The left shift of a possibly negative number is a multiplication. *)
Definition resize_pos (stride offset shift n h : Z) : option (Z * Z * Z) :=
  do p <- int32 (h * stride);
  do row_fx <- int32 (p + offset);
  let row_int := Z.shiftr row_fx shift in
  do base <- int32 (row_int * 2 ^ shift);
  do delta <- int32 (row_fx - base);
  do next <- int32 (row_int + 1);
  Some (Z.min (Z.max row_int 0) (n - 1), Z.min next (n - 1), delta).

(** A product of three factors, evaluated from the left. *)
Definition mul3 (a b c : Z) : option Z := do x <- int32 (a * b); int32 (x * c).

(** mli_resize_bilinear_ref.hpp:58-61 *)
Definition resize_mix (one dr dc v00 v01 v10 v11 : Z) : option Z :=
  do a <- mul3 v00 (one - dr) (one - dc);
  do b <- mul3 v01 (one - dr) dc;
  do c <- mul3 v10 dr (one - dc);
  do d <- mul3 v11 dr dc;
  do s <- int32 (a + b);
  do s <- int32 (s + c);
  int32 (s + d).

(** struct ResizeOpConfig, mli_types.hpp:1038-1056 *)
Record resize_cfg := mkResize { rz_stride_h : Z; rz_stride_w : Z; rz_offset_h : Z; rz_offset_w : Z; rz_shift : Z }.

(** mli_resize_bilinear_ref.hpp:24-70 mli_resize_bilinear; the tensors have rank 4 with the layout BHWC. *)
Definition resize_bilinear (cfg : resize_cfg) (tin tout : tensor) (mi m : mem) : option mem :=
  let one := 2 ^ rz_shift cfg in
  foldM (fun c4 m =>
    let b := nth 0 c4 0 in let h := nth 1 c4 0 in let w := nth 2 c4 0 in let c := nth 3 c4 0 in
    do rows <- resize_pos (rz_stride_h cfg) (rz_offset_h cfg) (rz_shift cfg) (nth 1 (t_shape tin) 0) h;
    do cols <- resize_pos (rz_stride_w cfg) (rz_offset_w cfg) (rz_shift cfg) (nth 2 (t_shape tin) 0) w;
    let '(r0, r1, dr) := rows in
    let '(c0, c1, dc) := cols in
    let read i j := load mi (t_data tin + addr (t_stride tin) [b; i; j; c]) in
    do v00 <- read r0 c0;
    do v01 <- read r0 c1;
    do v10 <- read r1 c0;
    do v11 <- read r1 c1;
    do v <- resize_mix one dr dc v00 v01 v10 v11;
    store m (t_data tout + addr (t_stride tout) c4) v) (coords (t_shape tout)) m.

(** * Matrix multiplication *)

(** mli_krn_matmul_ref.hpp:31-76 MatMul_prepare_and_run<int8_t, int8_t, int32_t>, the instantiation in mli_krn_matmul_runtime.cc; [zl]
    and [zr] are the two encoded zero points. The inner strides are not read, and the output is written as if it was contiguous.
    Arithmetic of int: the differences are narrowed to 8 bits, the sum must not overflow. *)
Definition matmul (zl zr : Z) (tl tr tout : tensor) (ml mr m : mem) : option mem :=
  let left_h := nth 0 (t_shape tl) 0 in
  let left_w := nth 1 (t_shape tl) 0 in
  let right_w := nth 1 (t_shape tr) 0 in
  foldM (fun c m =>
    let i := nth 0 c 0 in let j := nth 1 c 0 in
    do acc <- foldM (fun k acc =>
        do x <- load ml (t_data tl + (i * nth 0 (t_stride tl) 0 + k));
        do y <- load mr (t_data tr + (k * nth 0 (t_stride tr) 0 + j));
        let val1 := wrap 8 (x - zl) in
        let val2 := wrap 8 (y - zr) in
        int32 (acc + val1 * val2)) (zrange 0 left_w) 0;
    store m (t_data tout + (i * right_w + j)) acc) (coords [left_h; right_w]) m.
