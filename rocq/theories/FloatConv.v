(** Model of the conversions between integer tensors and tensors of single precision numbers: convert_float_data
    (lib/src/helpers/src/impl/mli_hlp_convert_tensor_ref.h:168-247) and mli_math_float_scale (lib/src/pal/ref/mli_math.h:286-289).
    A [float] is an IEEE 754 binary32 number with rounding to nearest even, every operation rounded on its own (no contraction to a
    fused multiply-add). *)
From Coq Require Import ZArith List Bool.
From Flocq Require Import IEEE754.BinarySingleNaN IEEE754.Binary IEEE754.Bits.
From Verif Require Import Base FxMath Tensor Quant ArgMax Eltwise Relu Convert.
Import ListNotations.
Open Scope Z_scope.

Lemma f_prec : 0 < 24. Proof. reflexivity. Qed.
Lemma f_prec_emax : 24 < 128. Proof. reflexivity. Qed.

(** The number with the given bits, the bits of a number, and the positive infinity *)
Definition f_of_bits (b : Z) : binary32 := b32_of_bits b.
Definition f_bits (v : binary32) : Z := bits_of_b32 v.
Definition f_inf : binary32 := B754_infinity 24 128 false.

(** The conversion of an int32_t to float *)
Definition f_of_int (z : Z) : binary32 := binary_normalize 24 128 f_prec f_prec_emax mode_NE z 0 false.

(** (float)ldexp(x, e): the argument is converted to double, scaled there without rounding, and rounded to float. *)
Definition f_ldexp (x : binary32) (e : Z) : binary32 := Bldexp 24 128 f_prec f_prec_emax mode_NE x e.

(** The constants 0.5f and -0.5f *)
Definition f_half (neg : bool) : binary32 := f_ldexp (f_of_int (if neg then -1 else 1)) (-1).

(** lib/src/pal/ref/mli_math.h:286-289 mli_math_float_scale. The conversion to int32_t truncates; for a value outside of its range, an infinity or
    a NaN the behaviour is undefined ([None]). *)
Definition float_scale (value scale : binary32) : option Z :=
  let round_val := f_half (match b32_compare value (f_of_int 0) with Some Gt => false | _ => true end) in
  let r := b32_plus mode_NE (b32_mult mode_NE value scale) round_val in
  let t := Btrunc 24 128 r in
  if is_finite 24 128 r && (smin 32 <=? t) && (t <=? smax 32) then Some t else None.

(** mli_hlp_convert_tensor_ref.h:207-216: the scale of one slice for QUANTIZE and for DEQUANTIZE *)
Definition quant_scale (q : qpar) : binary32 := f_ldexp (b32_div mode_NE (f_of_int 1) (f_of_int (q_scale q))) (q_frac q).
Definition deq_scale (q : qpar) : binary32 := f_ldexp (f_of_int (q_scale q)) (- q_frac q).

(** :233-234: one element, to an integer format with elements of [no] bits *)
Definition quantize_elem (rm : rmode) (no : Z) (q : qpar) (v : binary32) : option Z :=
  do t <- float_scale v (quant_scale q); Some (conv_cast rm no (add_fx 32 t (q_zp q))).

(** :236-237: one element, from an integer format *)
Definition dequantize_elem (q : qpar) (x : Z) : binary32 := b32_mult mode_NE (f_of_int (sub_fx 32 x (q_zp q))) (deq_scale q).

(** :186-247: the loops over the slices and their elements, for an integer tensor [t] and the element-wise operation [f] on the cells of the memory, in the direction from [ts] to
    [td]. A float is in memory as its 32 bits. :197-202: the quantization axis is that of the integer tensor. *)
Definition fl_dim (t : qtensor) : Z := if el_sa (qt_el t) && (t_qdim (qt_t t) >=? 0) then t_qdim (qt_t t) + (4 - t_rank (qt_t t)) else -1.
Definition fl_num (t : qtensor) : Z := if el_sa (qt_el t) && (t_qdim (qt_t t) >=? 0) then nth (Z.to_nat (fl_dim t)) (pad_front 4 1 (t_shape (qt_t t))) 0 else 1.
Definition float_loop (t : qtensor) (f : qpar -> Z -> option Z) (ts td : tensor) (m : mem) : option mem :=
  let sh := pad_front 4 1 (t_shape (qt_t t)) in
  let sti := pad_front 4 0 (t_stride ts) in let sto := pad_front 4 0 (t_stride td) in
  let d := fl_dim t in
  foldM (fun k m =>
    foldM (fun c m => do x <- load m (t_data ts + addr sti c); do y <- f (q_at t k) x; store m (t_data td + addr sto c) y) (am_box (am_cont d k) (am_end d k sh)) m)
    (zrange 0 (fl_num t)) m.

(** convert_float_data with QUANTIZE ([tf] to [t]) and DEQUANTIZE ([t] to [tf]) *)
Definition quantize_run (rm : rmode) (tf : tensor) (t : qtensor) (m : mem) : option mem :=
  float_loop t (fun q x => quantize_elem rm (el_bits (qt_el t)) q (f_of_bits x)) tf (qt_t t) m.
Definition dequantize_run (t : qtensor) (tf : tensor) (m : mem) : option mem :=
  float_loop t (fun q x => Some (f_bits (dequantize_elem q x))) (qt_t t) tf m.

(** lib/src/private/src/mli_check.cc:2738-2768 mli_chk_convert_tensor for a float tensor and an integer tensor: the comparisons of data pointers and of quantization axes do not apply. *)
Definition chk_float (ts td : tensor) : status :=
  match chk_tensor ts with ST_OK =>
  match chk_tensor td with ST_OK =>
  if negb (same_shape ts td) then ST_SHAPE_MISMATCH else if negb (inner_stride_is_one ts && inner_stride_is_one td) then ST_INCOMPATIBLE else ST_OK
  | s => s end | s => s end.

(** lib/src/helpers/src/mli_helpers.cc:258-288 mli_hlp_convert_tensor from float and to float *)
Definition quantize_tensor (rm : rmode) (tf : tensor) (t : qtensor) (m : mem) : status * option mem :=
  match chk_float tf (qt_t t) with ST_OK => (ST_OK, quantize_run rm tf t m) | s => (s, Some m) end.
Definition dequantize_tensor (t : qtensor) (tf : tensor) (m : mem) : status * option mem :=
  match chk_float (qt_t t) tf with ST_OK => (ST_OK, dequantize_run t tf m) | s => (s, Some m) end.
