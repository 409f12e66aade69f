(** Model of the element-wise kernels (lib/src/kernels/eltwise/impl/mli_krn_eltwise_ref.h), the squashing of
    adjacent dimensions (lib/src/private/mli_prv_tensor.h) and the checkers (lib/src/private/src/mli_check.cc).
    All operands live in one memory of elements of the same type, so that in-place use can be expressed. *)
From Coq Require Import ZArith List Lia Bool.
From Verif Require Import Base FxMath Tensor ArgMax Quant.
Import ListNotations.
Open Scope Z_scope.

(** lib/src/kernels/eltwise/mli_krn_eltwise_decl.h:19-25 mli_eltwise_type *)
Inductive elt_op := ELT_ADD | ELT_SUB | ELT_MUL | ELT_MAX | ELT_MIN.

(** mli_krn_eltwise_ref.h:255-266 convert_params (without the scalar flags) *)
Record elt_params := mkElt { e_pre1 : Z; e_pre2 : Z; e_post : Z; e_scale1 : Z; e_scale2 : Z; e_off1 : Z; e_off2 : Z; e_offo : Z }.

(** mli_krn_eltwise_ref.h:38-109 eltwise_perform_operation, convert = false: [n] bits of the operands, [no] of the
    result. mli_math_ashift_right_fx is the rounding shift (mli_math.h:263-281). *)
Definition elt_fx (rm : rmode) (op : elt_op) (n no : Z) (p : elt_params) (a b : Z) : Z :=
  let x := asr_rnd_fx rm 32 a (e_pre1 p) in
  let y := asr_rnd_fx rm 32 b (e_pre2 p) in
  match op with
  | ELT_ADD => cast_narrow rm 64 no (add_fx 32 x y) (e_post p)
  | ELT_SUB => cast_narrow rm 64 no (sub_fx 32 x y) (e_post p)
  | ELT_MUL => cast_narrow rm 64 no (x * y) (e_post p)
  | ELT_MAX => cast_same rm no (wrap n (Z.max x y)) (e_post p)
  | ELT_MIN => cast_same rm no (wrap n (Z.min x y)) (e_post p)
  end.

(** mli_krn_eltwise_ref.h:38-109 eltwise_perform_operation<int8_t, int8_t, _, true>, and :112-145 the
    specialization for the multiplication. *)
Definition elt_sa8 (rm : rmode) (op : elt_op) (p : elt_params) (a b : Z) : Z :=
  let x := sub_fx 16 a (e_off1 p) in
  let y := sub_fx 16 b (e_off2 p) in
  let t16 :=
    match op with
    | ELT_MUL =>
        let pre := Z.min (Z.max (e_post p - 21) 0) 3 in
        cast_narrow rm 32 16 (cast_narrow rm 32 16 (x * y) pre * e_scale1 p) (e_post p - pre)
    | ELT_ADD | ELT_SUB =>
        let x := asr_rnd_fx rm 32 (x * e_scale1 p) (e_pre1 p) in
        let y := asr_rnd_fx rm 32 (y * e_scale2 p) (e_pre2 p) in
        cast_narrow rm 64 16 (match op with ELT_ADD => add_fx 32 x y | _ => sub_fx 32 x y end) (e_post p)
    | ELT_MAX => cast_narrow rm 32 16 (Z.max (x * e_scale1 p) (y * e_scale2 p)) (e_post p)
    | ELT_MIN => cast_narrow rm 32 16 (Z.min (x * e_scale1 p) (y * e_scale2 p)) (e_post p)
    end in
  cast_narrow rm 16 8 (add_fx 16 t16 (e_offo p)) 0.

(** mli_krn_eltwise_ref.h:268-348 calc_convert_params, convert = false, [n]-bit elements; [f1], [f2], [fo] are the
    fractional bits. mli_prv_calc_shift (mli_prv_tensor.h:843-864) is f1 + f2 - fo. *)
Definition elt_params_fx (op : elt_op) (n f1 f2 fo : Z) : elt_params :=
  match op with
  | ELT_MUL => mkElt 0 0 (Z.min (f1 + f2 - fo) (2 * n - 1)) 1 1 0 0 0
  | ELT_MAX | ELT_MIN => mkElt 0 0 (Z.min (f1 - fo) (n - 1)) 1 1 0 0 0
  | ELT_ADD | ELT_SUB => mkElt (Z.min (f1 - f2) 0) (Z.min (f2 - f1) 0) (Z.min (Z.max f1 f2 - fo) (2 * n - 1)) 1 1 0 0 0
  end.

(** The part of calc_convert_params shared by its branches: a scale [s] (32-bit) divided by [so] as a normalized
    16-bit factor with its shift, limited to -31 .. [lim]. [sh] is the shift before normalization. *)
Definition elt_scale (rm : rmode) (s so sh lim : Z) : Z * Z :=
  let '(f, n1) := norm_cast_fx rm 32 32 s in
  let '(f, n2) := norm_cast_fx rm 32 16 (Z.quot f so) in
  let sh := sh - n1 - n2 in
  let d := Z.max (sh - lim) 0 + Z.min (31 + sh) 0 in
  (asr_rnd_fx rm 16 f d, sh - d).

(** mli_krn_eltwise_ref.h:268-322 calc_convert_params, convert = true. [i1], [i2], [o] are the per-tensor quantization
    parameters. The shifts are stored to int16_t members in the branch of ADD and SUB only after they are
    in range. *)
Definition elt_params_sa8 (rm : rmode) (op : elt_op) (i1 i2 o : qpar) : elt_params :=
  match op with
  | ELT_MUL =>
      let '(s, sh) := elt_scale rm (q_scale i1 * q_scale i2) (q_scale o) (q_frac i1 + q_frac i2 - q_frac o) 31 in
      mkElt 0 0 sh s 1 (q_zp i1) (q_zp i2) (q_zp o)
  | ELT_MAX | ELT_MIN =>
      let '(s, sh) := elt_scale rm (q_scale i1) (q_scale o) (q_frac i1 - q_frac o) 23 in
      mkElt 0 0 sh s s (q_zp i1) (q_zp i2) (q_zp o)
  | ELT_ADD | ELT_SUB =>
      let '(s1, sh1) := elt_scale rm (q_scale i1) (q_scale o) (q_frac i1 - q_frac o) 23 in
      let '(s2, sh2) := elt_scale rm (q_scale i2) (q_scale o) (q_frac i2 - q_frac o) 23 in
      mkElt sh1 sh2 0 s1 s2 (q_zp i1) (q_zp i2) (q_zp o)
  end.

(** * Loops *)

(** An operand: the constant of a scalar, or the index of its first element. *)
Definition operand (m : mem) (scalar : bool) (s idx : Z) : option Z := if scalar then Some s else load m idx.

(** mli_krn_eltwise_ref.h:147-179 eltwise_innerloop. [f] is eltwise_perform_operation. *)
Definition elt_inner (f : Z -> Z -> Z) (sc1 sc2 : bool) (s1 s2 i1 i2 io count : Z) (m : mem) : option mem :=
  foldM (fun k m =>
    do a <- operand m sc1 s1 (i1 + k);
    do b <- operand m sc2 s2 (i2 + k);
    store m (io + k) (f a b)) (zrange 0 count) m.

(** The dimensions of tensors of the shape [sh] with strides [sts], as the squash functions (Tensor.v) take them.
    The checkers require equal shapes. *)
Definition dims_of (sh : list Z) (sts : list (list Z)) : dims :=
  combine sh (map (fun k => map (fun st => nth k st 0) sts) (seq 0 (length sh))).

(** mli_krn_eltwise_ref.h:181-216 eltwise_op_basic on private tensors: three loops around the inner loop, which has
    unit steps. [ds] are the four squashed dimensions, [k1], [k2], [ko] select the strides of the operands and the
    result; for a scalar operand the C++ code computes an index from an unset private tensor and does not use
    it. *)
Definition elt_nest (f : Z -> Z -> Z) (sc1 sc2 : bool) (s1 s2 p1 p2 po : Z) (ds : dims) (k1 k2 ko : nat) (m : mem) : option mem :=
  match ds with
  | [d0; d1; d2; d3] =>
      let l := [d0; d1; d2] in
      foldM (fun c m => elt_inner f sc1 sc2 s1 s2 (p1 + addr (d_stride k1 l) c) (p2 + addr (d_stride k2 l) c) (po + addr (d_stride ko l) c) (fst d3) m)
        (coords (d_shape l)) m
  | _ => None
  end.

(** mli_prv_tensor.h:264-309 mli_prv_tensor_data_val; [imm] is the immediate value of a rank 0 tensor. *)
Definition data_val (m : mem) (t : tensor) (imm : Z) : option Z := if t_rank t =? 0 then Some imm else load m (t_data t).

(** mli_prv_tensor.h:934 mli_prv_count_elem_num == 1 *)
Definition one_elem (t : tensor) : bool := count_elem_num_part (t_shape t) =? 1.

(** mli_krn_eltwise_ref.h:350-474 eltwise_prepare_and_run with no_scalar, no_out_update and shape_1d false. *)
Definition eltwise (f : Z -> Z -> Z) (t1 t2 tout : tensor) (imm1 imm2 : Z) (m : mem) : option mem :=
  let sc1 := one_elem t1 in
  let sc2 := one_elem t2 in
  do s1 <- data_val m t1 imm1;
  do s2 <- data_val m t2 imm2;
  let '(sh, sts) :=
    if sc1 then (t_shape t2, [t_stride t2; t_stride tout])
    else if sc2 then (t_shape t1, [t_stride t1; t_stride tout])
    else (t_shape t1, [t_stride t1; t_stride t2; t_stride tout]) in
  let flat := if sc1 && sc2 then 1 else squash_to_one_dim (dims_of sh sts) in
  if negb (flat =? 0) then elt_inner f sc1 sc2 s1 s2 (t_data t1) (t_data t2) (t_data tout) flat m
  else elt_nest f sc1 sc2 s1 s2 (t_data t1) (t_data t2) (t_data tout) (squash_generic (length sts) (dims_of sh sts))
    0 (if sc1 || sc2 then 0 else 1) (if sc1 || sc2 then 1 else 2) m.

(** * Checkers *)

(** mli_check.cc:378-385 check_same_shape *)
Definition same_shape (t1 t2 : tensor) : bool :=
  (t_rank t1 =? t_rank t2) && forallb (fun p => fst p =? snd p) (combine (t_shape t1) (t_shape t2)).

(** mli_check.cc:211-243 mli_chk_scalar_tensor, mli_tensor_is_scalar *)
Definition is_scalar (t : tensor) : bool := (t_rank t =? 0) || one_elem t.
Definition chk_scalar (t : tensor) : status :=
  if t_rank t =? 0 then ST_OK
  else match chk_tensor t with ST_OK => if one_elem t then ST_OK else ST_SHAPE_MISMATCH | s => s end.

(** mli_check.cc:1530-1593 mli_chk_eltwise. MLI_STATUS_NOT_SUPPORTED is written ST_BAD_FUNC_CFG. Null pointer and element
    type tests are not modelled. *)
Definition chk_eltwise (t1 t2 tout : tensor) : status :=
  match (if is_scalar t1 then chk_scalar t1 else chk_tensor t1) with ST_OK =>
  match (if is_scalar t2 then chk_scalar t2 else chk_tensor t2) with ST_OK =>
  match chk_tensor tout with ST_OK =>
  if (t_rank t1 =? 0) && (t_rank t2 =? 0) then ST_BAD_FUNC_CFG
  else if negb ((is_scalar t1 || inner_stride_is_one t1) && (is_scalar t2 || inner_stride_is_one t2) && inner_stride_is_one tout) then ST_INCOMPATIBLE
  else if negb (((is_scalar t1 || is_scalar t2) || same_shape t1 t2)
      && (if negb (is_scalar t1) then same_shape t1 tout else same_shape t2 tout)) then ST_SHAPE_MISMATCH
  else ST_OK
  | s => s end | s => s end | s => s end.

(** mli_check.cc:1595-1618 check_same_data_format, used by the checkers of max and min (:1620-1676): equal formats. *)
Definition same_format_fx (f1 f2 : Z) : bool := f1 =? f2.
Definition same_format_sa (i1 i2 : qpar) : bool :=
  (q_zp i1 =? q_zp i2) && (q_scale i1 =? q_scale i2) && (q_frac i1 =? q_frac i2).

(** mli_check.cc:1620-1709 and :130-181, the quantization tests of the SA8 checkers (per-tensor parameters). *)
Definition chk_elt_quant (op : elt_op) (i1 i2 o : qpar) : bool :=
  forallb (fun q => (0 <? q_scale q) && (-128 <=? q_zp q) && (q_zp q <=? 127)) [i1; i2; o]
  && match op with ELT_MAX | ELT_MIN => same_format_sa i1 i2 | _ => true end.

(** * MLI 3.0 operators *)

(** lib/src/kernels/eltwise/mli_krn_{add,sub,mul,max,min}_runtime.cc Issue: the same kernels on integers. mul has 8 or 16-bit
    inputs and a 32-bit output, for which calc_convert_params is skipped (mli_krn_eltwise_ref.h:374-379); the
    others have equal types and read frac_bits from el_params, which the runtime constructors do not set:
    taken as 0 here. *)
Definition elt_int (rm : rmode) (op : elt_op) (n no a b : Z) : Z :=
  elt_fx rm op n no (match op with ELT_MUL => mkElt 0 0 0 1 1 0 0 0 | _ => elt_params_fx op n 0 0 0 end) a b.

(** mli_krn_add_compiler.cc:28-48 (the other operators are alike): the shape assertions of the compile time class. *)
Definition elt_cs_shapes (sh1 sh2 sho : list Z) : bool :=
  forallb (fun p => let '(l, (r, o)) := p in
    (if l =? 1 then o =? r else o =? l) && (if r =? 1 then o =? l else o =? r)) (combine sh1 (combine sh2 sho)).
(** m_is_left_scalar / m_is_right_scalar, same lines. *)
Definition elt_cs_scalar (sh : list Z) : bool := forallb (fun d => d =? 1) sh.
