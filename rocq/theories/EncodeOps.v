(** Model of the parameter buffers of Clip and MatMul, from the compile time object to the runtime object (see Encode.v: one cell of the memory is one byte). *)
From Coq Require Import ZArith List Bool.
From Verif Require Import Base Encode.
Import ListNotations.
Open Scope Z_scope.

(** include/mli_types.hpp:229-309 Buffer and :400-493 InternalBuffer: address, size in bytes, element size *)
Record pbuf := mkPbuf { pb_ptr : Z; pb_size : Z; pb_esz : Z }.

(** include/mli_types.hpp:286-296 Buffer::read and write of an int8_t, and :468-478 of InternalBuffer; the assertion on the element size *)
Definition pb_read8 (b : pbuf) (off : Z) (m : mem) : option Z := if pb_esz b =? 1 then get_obj 1 (pb_ptr b + off) m else None.
Definition pb_write8 (b : pbuf) (off v : Z) (m : mem) : option mem := if pb_esz b =? 1 then put_obj 1 (pb_ptr b + off) v m else None.

(** lib/src/kernels/clip/mli_krn_clip_compiler.cc:117-130 Clip_CS::EncodeParams: [bmin] and [bmax] are the buffers of the two tensors *)
Definition clip_encode (bmin bmax enc : pbuf) (m : mem) : option mem :=
  if negb (pb_size bmin + pb_size bmax =? pb_size enc) then None
  else if negb (pb_size bmin =? pb_size bmax) then None
  else if negb (pb_esz bmin =? 1) then None
  else do lo <- pb_read8 bmin 0 m; do m1 <- pb_write8 enc 0 lo m; do hi <- pb_read8 bmax 0 m1; pb_write8 enc 1 hi m1.

(** lib/src/kernels/clip/mli_krn_clip_compiler.cc:145-147 Clip_CS::GetEncodedParamsSize *)
Definition clip_enc_size : Z := 1 + 1.

(** lib/src/kernels/clip/mli_krn_clip_runtime.cc:77-110: the parameters in the constructor of Clip as an array with the minimum first; [esz] is the element size of the
    input. InternalBuffer::set_elem_size (include/mli_types.hpp:436-439) asserts that an element fits; inc adds one element to the address and keeps the size. *)
Definition clip_params (esz : Z) (b : pbuf) (m : mem) : option mem :=
  if negb ((esz =? 1) || (esz =? 4)) then None
  else if negb (esz <=? pb_size b) then None
  else Some (array_at (Z.to_nat esz) (pb_ptr b) m).

(** include/mli_types.hpp:124-125 *)
Definition mm_height_dim : Z := 0.
Definition mm_width_dim : Z := 1.

(** lib/src/kernels/convolution/mli_krn_matmul_compiler.cc:69-83 MatMul_CS::EncodeParams. Line 74 compares the result of the first comparison, 0 or 1, with 1. *)
Definition mm_encode (b1 b2 enc : pbuf) (m : mem) : option mem :=
  if negb (pb_size b1 + pb_size b2 =? pb_size enc) then None
  else if negb ((if pb_size b1 =? pb_size b2 then 1 else 0) =? 1) then None
  else if negb (pb_esz b1 =? 1) then None
  else do z1 <- pb_read8 b1 0 m; do m1 <- pb_write8 enc mm_height_dim z1 m; do z2 <- pb_read8 b2 0 m1; pb_write8 enc mm_width_dim z2 m1.

(** lib/src/kernels/convolution/mli_krn_matmul_compiler.cc:26 and :85-87 GetEncodedParamsSize, kMatMulRank = 2 *)
Definition mm_enc_size : Z := 1 * 2.

(** lib/src/kernels/convolution/mli_krn_matmul_ref.hpp:45-46, 56-57: assertions on the parameter buffer of MatMul, and the array from which the zero points are read *)
Definition mm_params (b : pbuf) (m : mem) : option mem :=
  if negb (pb_esz b =? 1) then None else if negb (pb_size b =? 2) then None else Some (array_at 1 (pb_ptr b) m).

(** include/mli_service_functions.hpp:63-78 EncodeWeights (Conv2d, DepthwiseConv2d, TransposeConv2D): the loop from index [i] for [n] more bytes. Tensor::read
    (include/mli_types.hpp:832-835) adds [off], the offset of the tensor in its buffer [wb]. *)
Fixpoint copy_weights (wb enc : pbuf) (off : Z) (n : nat) (i : Z) (m : mem) : option mem :=
  match n with O => Some m | S k => do v <- pb_read8 wb (i + off) m; do m1 <- pb_write8 enc i v m; copy_weights wb enc off k (i + 1) m1 end.
Definition encode_weights (wb enc : pbuf) (off : Z) (m : mem) : option (enc_status * mem) :=
  if negb (pb_size wb =? pb_size enc) then None
  else if pb_esz wb =? 1 then do m1 <- copy_weights wb enc off (Z.to_nat (pb_size wb)) 0 m; Some (ENC_OK, m1)
  else Some (ENC_NOT_SUPPORTED, m).
