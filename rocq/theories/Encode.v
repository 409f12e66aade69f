(** Model of the parameter buffers that the MLI 3.0 compile time objects write and the runtime objects read: Rescale and Prelu parameters, weights and zero points.
    One cell of the memory is one byte. *)
From Coq Require Import ZArith List Lia Bool.
From Verif Require Import Base Tensor Relu Ops3 Iter TileRun TileElt.
Import ListNotations.
Open Scope Z_scope.

(** include/mli_types.hpp:298-303 Buffer::write_obj: memcpy of an object of [sz] bytes to byte [a]; lowest byte first (both sides use the byte order of the
    platform, taken as little-endian). *)
Fixpoint put_obj (sz : nat) (a v : Z) (m : mem) : option mem :=
  match sz with O => Some m | S k => do m1 <- store m a (v mod 256); put_obj k (a + 1) (v / 256) m1 end.

(** include/mli_types.hpp:468-472 InternalBuffer::read, and the access through a pointer from get_ptr (:455-459): an object of [sz] bytes at byte [a]. Simplification:
    defined for every address (see [aligned]). *)
Fixpoint get_raw (sz : nat) (a : Z) (m : mem) : option Z :=
  match sz with O => Some 0 | S k => do b <- load m a; do r <- get_raw k (a + 1) m; Some (b + 256 * r) end.
Definition get_obj (sz : nat) (a : Z) (m : mem) : option Z := do u <- get_raw sz a m; Some (wrap (8 * Z.of_nat sz) u).

(** C++ requires the address of an object to be a multiple of its size (of its alignment, which for these types is its size). *)
Definition aligned (sz : nat) (a : Z) : Prop := a mod Z.of_nat sz = 0.

(** The array of objects of [sz] bytes at byte [p]. *)
Definition array_at (sz : nat) (p : Z) (m : mem) : mem := fun k => get_obj sz (p + Z.of_nat sz * k) m.

(** One of the encoding loops: the values one after the other; state: the offset and the memory. *)
Fixpoint put_all (sz : nat) (vals : list Z) (st : Z * mem) : option (Z * mem) :=
  match vals with [] => Some st | v :: tl => do m <- put_obj sz (fst st) v (snd st); put_all sz tl (fst st + Z.of_nat sz, m) end.

(** lib/src/kernels/conversion/mli_krn_rescale_compiler.cc:94-143 Rescale_CS::EncodeParams: [n] is m_params_elem_num, [isz] and [osz] the element sizes of the biases. *)
Definition rescale_encode (n : nat) (isz osz : nat) (bi sc sh bo : list Z) (a : Z) (m : mem) : option mem :=
  if negb (Nat.eqb n (length bi) && Nat.eqb n (length sc) && Nat.eqb n (length sh) && Nat.eqb n (length bo)) then None
  else if negb ((Nat.eqb isz 1 || Nat.eqb isz 4) && (Nat.eqb osz 1 || Nat.eqb osz 4)) then None
  else do s <- put_all isz bi (a, m); do s <- put_all 2 sc s; do s <- put_all 1 sh s; do s <- put_all osz bo s; Some (snd s).

(** :107-108 and :163-165 GetEncodedParamsSize after EncodeParams *)
Definition rescale_enc_size (n isz osz : Z) : Z := n * (isz + 2 + 1 + osz).

(** lib/src/kernels/conversion/mli_krn_rescale_runtime.cc:77-158: the parameter arrays of the runtime object; [cnt] is m_tile_param_max_size, [a] the local buffer. *)
Definition rescale_decode (isz osz : nat) (cnt a : Z) (m : mem) : rescale_params :=
  let l := rescale_layout (Z.of_nat isz) cnt in let at_ k := a + nth k l 0 in
  mkRescale (array_at isz (at_ 0%nat) m) (array_at 2 (at_ 1%nat) m) (array_at 1 (at_ 2%nat) m) (array_at osz (at_ 3%nat) m).

(** lib/src/kernels/transform/mli_krn_prelu_compiler.cc:108-157 Prelu_CS::EncodeParams: the loops run over the sizes of the given buffers; no assertions. *)
Definition prelu_encode (bi ps ns pk nk bo : list Z) (a : Z) (m : mem) : option mem :=
  do s <- put_all 4 bi (a, m); do s <- put_all 2 ps s; do s <- put_all 2 ns s; do s <- put_all 1 pk s; do s <- put_all 1 nk s; do s <- put_all 1 bo s; Some (snd s).

(** :65-67: m_encoded_params_buffer_size, from the size of the last axis *)
Definition prelu_enc_size (shape : list Z) : Z := nth (length shape - 1) shape 0 * (4 + 2 + 2 + 1 + 1 + 1).

(** :97-100 GetKernelPrivateData: tile_params_max_elem_num, from the increments of the last iteration dimension; kGroupTensorChannelDim = 4 *)
Definition prelu_cnt (i : titer) : Z :=
  let d := nth (length (ti_shape i) - 1) (ti_cfg i) (mkIdim 0 0 0 0 0 0 0 0) in
  let c := Z.max (it_first_inc d) (it_inc d) in if c =? 0 then nth 4 (ti_shape i) 0 else c.

(** lib/src/kernels/transform/mli_krn_prelu_runtime.cc:33-56: the parameter arrays of the runtime object *)
Definition prelu_decode (cnt a : Z) (m : mem) : prelu3_params :=
  let l := prelu_layout cnt in let at_ k := a + nth k l 0 in
  mkPrelu3 (array_at 4 (at_ 0%nat) m) (array_at 1 (at_ 5%nat) m) (array_at 2 (at_ 1%nat) m) (array_at 2 (at_ 2%nat) m) (array_at 1 (at_ 3%nat) m) (array_at 1 (at_ 4%nat) m).

(** The statuses of the two functions below; include/mli_types.h:34-53 mli_status: MLI_STATUS_OK, MLI_STATUS_NOT_SUPPORTED, MLI_STATUS_SHAPE_MISMATCH *)
Inductive enc_status := ENC_OK | ENC_NOT_SUPPORTED | ENC_SHAPE_MISMATCH.

(** include/mli_service_functions.hpp:130-154 EncodeWeightsAndZeroPts: [w] and [z] are the contents of the buffers of weights and zero points, [wsz], [zsz], [esz] the element
    sizes and [size] the size of the destination. *)
Definition encode_weights_zp (wsz zsz esz size : Z) (w z : list Z) (a : Z) (m : mem) : option (enc_status * mem) :=
  if negb (wsz * Z.of_nat (length w) + zsz * Z.of_nat (length z) =? size) then None
  else if negb ((wsz =? zsz) && (wsz =? esz)) then None
  else if (wsz =? 1) && (zsz =? 1) then do s <- put_all 1 w (a, m); do s <- put_all 1 z s; Some (ENC_OK, snd s)
  else Some (ENC_NOT_SUPPORTED, m).

(** include/mli_service_functions.hpp:81-128 EncodeZeroPts for zero points of rank 1: the chosen quantization axis is returned with the status; [axis0] is its value before. *)
Definition encode_zp (channel_axis channel_length axis0 zsz esz size : Z) (z : list Z) (a : Z) (m : mem) : option (enc_status * Z * mem) :=
  let n := Z.of_nat (length z) in
  if negb ((zsz * n =? size) && (zsz =? esz) && (n =? size / esz)) then None
  else if (n =? 1) || (n =? channel_length) then
    let axis := if n =? 1 then -1 else channel_axis in
    if zsz =? 1 then do s <- put_all 1 z (a, m); Some (ENC_OK, axis, snd s) else Some (ENC_NOT_SUPPORTED, axis, m)
  else Some (ENC_SHAPE_MISMATCH, axis0, m).
