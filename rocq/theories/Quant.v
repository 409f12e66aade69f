(** Model of the quantization bricks, lib/src/bricks/impl/mli_prv_quant_ref.h, the fused ReLU limits of
    lib/src/private/mli_prv_tensor.h and the accumulator helpers of lib/src/helpers/src/mli_helpers.cc.
    The build option ROUND_MODE is the parameter [rm], FULL_ACCU the boolean parameter [full]. *)
From Coq Require Import ZArith List Lia Bool.
From Verif Require Import Base FxMath.
Import ListNotations.
Open Scope Z_scope.

(** Quantization parameters of one (per-tensor or selected per-axis) slice of an SA tensor:
    el_params.sa.scale, .scale_frac_bits, .zero_point (include/mli_types.h:122-138), as returned by
    mli_hlp_tensor_scale / _scale_shift / _zero_offset (mli_helpers.cc:46-103). FX tensors are the
    instance scale = 1, frac = frac_bits, zp = 0. *)
Record qpar := mkQ { q_scale : Z; q_frac : Z; q_zp : Z }.

(** mli_prv_quant_decl.h:45-49 struct s8asym_quant_params *)
Record requant := mkRequant { rq_scale : Z; rq_shift : Z; rq_offset : Z }.

(** mli_prv_quant_ref.h:37-89 define_requant_params. The int32 [<<] wraps, [/] is C division,
    assignments to the int16 members truncate. *)
Definition define_requant_params (rm : rmode) (i o : qpar) : requant :=
  let pre := norm_fx 32 (q_scale i) - norm_fx 16 (wrap 16 (q_scale o)) in
  let '(scale, norm_shift) :=
    norm_cast_fx rm 32 16 (Z.quot (wrap 32 (Z.shiftl (q_scale i) pre)) (q_scale o)) in
  let shift := wrap 16 (wrap 16 (wrap 16 pre + (q_frac i - q_frac o)) - norm_shift) in
  mkRequant scale shift (sub_fx 16 (q_zp o) (cast_narrow rm 32 16 (scale * q_zp i) shift)).

(** mli_prv_quant_decl.h:72-75 struct fx_quant_specific_params and mli_prv_quant_ref.h:91-101
    define_quant_params; arguments are the frac_bits of in, weights, bias and out. *)
Record fx_params := mkFx { fx_bias_shift : Z; fx_out_shift : Z }.
Definition define_fx_params (fin fw fb fout : Z) : fx_params :=
  mkFx (fin + fw - fb) (fin + fw - fout).

(** mli_prv_quant_decl.h:30-43 struct s8asym_quant_specific_params. The weight scale arrays are
    functions of the output channel index. *)
Record s8_params := mkS8 {
  s8_in_off : Z; s8_out_off : Z; s8_w_off : Z;
  s8_w_scales : Z -> Z; s8_w_shifts : Z -> Z; s8_w_dim : Z;
  s8_ratio : Z; s8_in_to_out_shift : Z;
  s8_out_mul : Z; s8_out_shift : Z }.

(** mli_prv_quant_ref.h:103-133 define_quant_params for SA8. The weights are given by their axis
    (-1: per tensor) and functions for zero point, scale and frac bits by index. *)
Definition define_s8_params (rm : rmode) (i o : qpar) (wdim : Z) (wzp wscale wfrac : Z -> Z) : s8_params :=
  let '(norm_in, norm_shift) := norm_cast_fx rm 32 32 (q_scale i) in
  let unfinished := Z.quot norm_in (q_scale o) in
  let n := norm_fx 32 unfinished in
  mkS8 (q_zp i) (q_zp o) (wzp 0) wscale wfrac wdim
    (cast_narrow rm 32 16 unfinished (16 - n))
    (q_frac i + (- norm_shift - q_frac o) - (16 - n)) 0 0.

(** mli_prv_quant_ref.h:161-181 adjust_quant_params for SA8 *)
Definition adjust_s8 (full : bool) (p : s8_params) (k : Z) : s8_params :=
  let k := if s8_w_dim p <? 0 then 0 else k in
  let mul := wrap 32 (s8_ratio p * s8_w_scales p k) in
  let sh := s8_in_to_out_shift p + s8_w_shifts p k in
  let '(mul, sh) :=
    if full then (mul, sh)
    else let n := norm_fx 32 mul in (wrap 32 (Z.shiftl mul n), sh + n) in
  mkS8 (s8_in_off p) (s8_out_off p) (s8_w_off p) (s8_w_scales p) (s8_w_shifts p) (s8_w_dim p)
    (s8_ratio p) (s8_in_to_out_shift p) mul sh.

(** mli_prv_quant_ref.h:410-416 bias_additive<int8_t, acc32, fx> *)
Definition bias_additive_fx8 (rm : rmode) (bias acc : Z) (p : fx_params) : Z :=
  add_fx 32 acc (asr_rnd_fx rm 32 (bias * 1) (- fx_bias_shift p)).

(** mli_prv_quant_ref.h:418-422 bias_additive<int16_t, acc40, fx> *)
Definition bias_additive_fx16 (rm : rmode) (bias acc : Z) (p : fx_params) : Z :=
  add_fx 64 acc (cast_16_acc40 rm bias (- fx_bias_shift p)).

(** mli_prv_quant_ref.h:424-438 bias_additive<int32_t, acc32, s8asym> *)
Definition bias_additive_s8 (rm : rmode) (full : bool) (bias acc : Z) : Z :=
  let bias32 :=
    if full then bias
    else let sh := max_fx (16 - norm_fx 32 bias) 0 in asl_fx 32 (Z.shiftr bias sh) sh in
  add_fx 32 acc (cast_same rm 32 bias32 0).

(** mli_prv_quant_ref.h:443-456 result_cast for FX: accumulator width [nacc], output width [no]. *)
Definition result_cast_fx (rm : rmode) (nacc no acc : Z) (p : fx_params) : Z :=
  cast_narrow rm nacc no acc (fx_out_shift p).

(** mli_prv_quant_ref.h:458-499 result_cast<int8_t, acc32, s8asym> *)
Definition result_cast_s8 (rm : rmode) (full : bool) (acc : Z) (p : s8_params) : Z :=
  let '(accu, mul, sh, pre) :=
    if full then (acc, s8_out_mul p, s8_out_shift p, 0)
    else
      let mul := asr_rnd_fx rm 32 (s8_out_mul p) 16 in
      let sh := s8_out_shift p - 16 in
      let pre := min_fx (max_fx (sh - (32 - 8 - 3)) 0) 8 in
      (sat_fx 32 (asr_rnd_fx rm 32 acc pre) 16, mul, sh, pre) in
  let accu_result := cast_same rm 32 accu 0 in
  let scaled := accu_result * mul in
  let shift := Z.min (sh - pre) 63 in
  let no_offset := cast_narrow rm 64 16 scaled shift in
  cast_narrow rm 16 8 (add_fx 16 no_offset (s8_out_off p)) 0.

(** mli_prv_quant_ref.h:501-504 result_cast<int32_t, acc32, int_quant_specific_params> (MLI 3.0) *)
Definition result_cast_int (rm : rmode) (acc : Z) : Z := cast_same rm 32 acc 0.

(** mli_prv_quant_ref.h:507-520 result_cast_relu_store and convolution_ref.h:118-120: clipping of the
    cast value by the limits of the fused ReLU. *)
Definition relu_clip (v lo hi : Z) : Z := max_fx (min_fx v hi) lo.

(** include/mli_types.h mli_relu_type *)
Inductive relu_type := RELU_NONE | RELU_GEN | RELU_1 | RELU_6.

(** mli_prv_tensor.h:942-1010 mli_prv_get_relu_limits: [n] is the width of out_T, [o] the output
    parameters (FX: scale 1, zp 0). [int] arithmetic wraps at 32 bits, the results are cast to int16_t. *)
Definition get_relu_limits (n : Z) (t : relu_type) (o : qpar) : Z * Z :=
  let zero := q_zp o in
  let scale := q_scale o in
  let shift := q_frac o in
  let min_val := smin n in
  let max_val := smax n in
  match t with
  | RELU_GEN => (wrap 16 (Z.max zero min_val), wrap 16 max_val)
  | RELU_6 =>
      let six :=
        if shift >=? 0 then (if shift <? 28 then Z.quot (Z.shiftl 6 shift) scale else max_val)
        else (if shift >? -3 then Z.quot (Z.shiftr 6 (- shift)) scale else 0) in
      let six := wrap 32 (six + zero) in
      (wrap 16 (Z.max zero min_val), wrap 16 (Z.min six max_val))
  | RELU_1 =>
      let one :=
        if shift >=? 0 then (if shift <? 30 then Z.quot (Z.shiftl 1 shift) scale else max_val) else 0 in
      let neg_one := wrap 32 (- one + zero) in
      let one := wrap 32 (one + zero) in
      (wrap 16 (Z.max neg_one min_val), wrap 16 (Z.min one max_val))
  | RELU_NONE => (wrap 16 min_val, wrap 16 max_val)
  end.

(** mli_helpers.cc:337-345 mli_hlp_accu_guard_bits_{sa8_sa8, fx16_fx16, fx16_fx8}: width of the
    accumulator minus the widths of the operands. *)
Definition guard_bits (nacc na nb : Z) : Z := nacc - (na + nb).
Definition accu_guard_bits_sa8_sa8 : Z := guard_bits 32 8 8.
Definition accu_guard_bits_fx16_fx16 : Z := guard_bits 64 16 16.
Definition accu_guard_bits_fx16_fx8 : Z := guard_bits 32 8 16.

(** mli_prv_quant_ref.h:627-634 mli_prv_convert_sa8_fx16 with an integer scale; [no] is the width of
    out_T. The int16 difference truncates. *)
Definition convert_sa8_fx16 (rm : rmode) (no v zp scale : Z) : Z :=
  cast_narrow rm 64 no (wrap 16 (v - zp) * scale) 0.

(** mli_prv_quant_ref.h:636-645 mli_prv_convert_sa8_fx16 with int16 scale and shift *)
Definition convert_sa8_fx16_sh (rm : rmode) (no v zp scale shift : Z) : Z :=
  cast_narrow rm 32 no (wrap 16 (v - zp) * scale) shift.

(** mli_prv_quant_ref.h:647-657 mli_prv_convert_fx16_sa8 with out_T = int8_t *)
Definition convert_fx16_sa8 (rm : rmode) (v zp scale : Z) : Z :=
  acc_cast_8 rm (wrap 32 (asr_rnd_fx rm 32 v scale + zp)) 0.
