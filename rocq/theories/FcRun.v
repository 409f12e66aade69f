(** Model of the MLI 3.0 fully connected operator from the compile time object to Issue, and of the buffer sizes that compile time objects report. *)
From Coq Require Import ZArith List Lia Bool.
From Verif Require Import Base FxMath Tensor Quant DotProd Layout Conv FullyConn Encode.
Import ListNotations.
Open Scope Z_scope.

(** include/mli_service_functions.hpp:26-38 and :41-49 GetBufferSize for shape and strides: the sum of stride * (size - 1), and one; in uint32_t. In elements. *)
Fixpoint buf_sum (shape stride : list Z) : Z :=
  match shape, stride with d :: sh, s :: st => uwrap 32 (buf_sum sh st + uwrap 32 (s * uwrap 32 (d - 1))) | _, _ => 0 end.
Definition buf_size (shape stride : list Z) : Z := uwrap 32 (buf_sum shape stride + 1).

(** :52-61 GetBufferSize for a shape alone: state: the sum and the stride (int32_t) of the next dimension, from the last dimension on *)
Fixpoint buf_dense_loop (shape : list Z) : Z * Z :=
  match shape with
  | [] => (0, 1)
  | d :: sh => let '(r, s) := buf_dense_loop sh in (uwrap 32 (r + uwrap 32 (s * uwrap 32 (d - 1))), wrap 32 (s * d))
  end.
Definition buf_dense (shape : list Z) : Z := uwrap 32 (fst (buf_dense_loop shape) + 1).

(** lib/src/kernels/common/impl/mli_krn_fully_connected_compiler.cc:44-56 the compile time object: shapes and strides of input [N, IC], weights [IC, OC] and output [N, OC], and the number of
    zero points. Simplification: the zero points are dense, so that :203-205 GetEncodedWtsZeroPtsSize is their number. *)
Record fc_cs := mkFc { fc_in : list Z * list Z; fc_w : list Z * list Z; fc_nz : Z; fc_out : list Z * list Z }.

(** The local buffers (address, size in bytes): input, weights with zero points, output. *)
Record fc_bufs := mkFb { fb_in : Z; fb_w : Z; fb_wsize : Z; fb_out : Z; fb_isize : Z; fb_osize : Z }.

(** mli_krn_fully_connected_runtime.cc: the runtime object: its three tensors, the quantization axis and the zero point: read ([inl]) or the address from which to read it at Issue ([inr]) *)
Record fc_obj := mkFo { fo_in : tensor; fo_w : tensor; fo_out : tensor; fo_zp : Z + Z }.

(** mli_krn_fully_connected_compiler.cc:66-108 GetKernelPrivateData, :128-138 AttachBufferOffsets and mli_krn_fully_connected_runtime.cc:23-118 the constructor. [m] is the memory, in bytes; a
    failed assertion is [None]. The cases in which the quantization axis and the number of zero points disagree, so that a value was stored in the union and Issue takes it for a pointer or the other way round, are [None] as well. *)
Definition fc_create (c : fc_cs) (b : fc_bufs) (m : mem) : option fc_obj :=
  let d l k := nth k (fst l) 0 in
  let nw := buf_size (fst (fc_w c)) (snd (fc_w c)) in
  let axis := if fc_nz c =? 1 then -1 else 1 in
  if negb ((d (fc_in c) 0%nat =? d (fc_out c) 0%nat) && (d (fc_in c) 1%nat =? d (fc_w c) 0%nat) && (d (fc_w c) 1%nat =? d (fc_out c) 1%nat) && (d (fc_in c) 0%nat =? 1)) then None
  else if fb_wsize b <? nw then None
  else
    let zsize := fb_wsize b - nw in let za := fb_w b + nw in
    let tin := mkTensor (fb_in b) (fb_isize b) 1 (fst (fc_in c)) (snd (fc_in c)) true (-1) 0 in
    let tw := mkTensor (fb_w b) (fb_wsize b) 1 (fst (fc_w c)) (snd (fc_w c)) true axis 0 in
    let tout := mkTensor (fb_out b) (fb_osize b) 4 (fst (fc_out c)) (snd (fc_out c)) true (-1) 0 in
    if 1 <? zsize / 2 then
      if d (fc_w c) 1%nat =? zsize / 2 then
        if axis =? 1 then Some (mkFo tin tw tout (inr za)) else None
      else None
    else if zsize / 2 =? 1 then if axis =? -1 then do z <- get_obj 2 za m; Some (mkFo tin tw tout (inl z)) else None
    else None.

(** :120-137 Issue: lib/src/bricks/impl/mli_prv_quant_ref.h:136-153 takes the stored zero point or the first one of the array; then the kernel. [mi] is the memory of the input's elements, [mw] of the
    weights and zero points in bytes, [m] of the output's elements; [zi] is the input's zero point, which the kernel does not use. *)
Definition fc_issue (rm : rmode) (full : bool) (zi : Z) (oq : qpar) (o : fc_obj) (mi mw m : mem) : option mem :=
  do zw <- (match fo_zp o with inl z => Some z | inr a => get_obj 2 a mw end);
  fully_connected rm full (Q_int zi zw) true 32 oq RELU_NONE mi (array_at 1 0 mw) None (fo_in o) (fo_w o) (fo_out o) m.

