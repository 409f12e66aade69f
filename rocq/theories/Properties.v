(** The proved properties, one section per property of properties.jsonl. Generated by tools/manifest.py:
    each statement is repeated verbatim from the file that proves it. *)
From Coq Require Import Reals ZArith QArith Qabs List Lia Bool Permutation Sorted.
From Verif Require Import Base FxMath FxMathProofs Tensor TensorProofs Permute PermuteProofs Mov MovProofs Dma DmaProofs ArgMax ArgMaxProofs QSpec Quant QuantProofs QuantCastProofs DotProd DotProdProofs Layout Pool PoolProofs PoolKernels Conv ConvSpec ConvProofs ConvValues ConvKernels ConvTheorems ConvInt TransConv TransConvProofs TransConvTheorems FullyConn FullyConnProofs Eltwise EltwiseProofs EltwiseSa8Proofs Relu ReluProofs ReluSa8Proofs Prelu3Proofs Lut LutProofs Softmax SoftmaxProofs L2 L2Table L2Proofs Ops3 Ops3Proofs Iter IterProofs IterTheorems Views ViewsProofs Convert ConvertProofs Rnn RnnSpec RnnProofs RnnGru RnnDense RnnTheorems RnnStream RealBounds LutReal TileRun TileProofs TileConv TileDw TilePool TileElt TilePoint TileTrans TransTiles TileMove MoveTiles TilePipe TileOps TileStep TilePerm Encode EncodeProofs FcRun FcRunProofs FloatConv FloatConvProofs Ring RingProofs IterAdj IterAdjProofs EncodeOps EncodeOpsProofs Create CreateProofs.
Import ListNotations.
Open Scope Z_scope.

(** * C01: Arithmetic shifts are exact or saturate *)

(** from FxMathProofs.v *)
Theorem C01_asr_fx_spec n x k : 1 <= n -> in_bits n x -> asr_fx n x k = shift_spec n x k.
Proof. exact (@asr_fx_spec n x k). Qed.
Print Assumptions C01_asr_fx_spec.

(** from FxMathProofs.v *)
Theorem C01_asl_fx_spec n x k : 1 <= n -> in_bits n x -> asl_fx n x k = shift_spec n x (- k).
Proof. exact (@asl_fx_spec n x k). Qed.
Print Assumptions C01_asl_fx_spec.

(** * C02: Rounding right shift rounds to nearest *)

(** from FxMathProofs.v *)
Theorem C02_asr_rnd_fx_spec rm n x k : 1 <= n -> in_bits n x -> rnd_safe rm n x k ->
  asr_rnd_fx rm n x k = rshift_spec rm n x k.
Proof. exact (@asr_rnd_fx_spec rm n x k). Qed.
Print Assumptions C02_asr_rnd_fx_spec.

(** from FxMathProofs.v *)
Theorem C02_rnd_nearest rm x k : 0 <= k -> nearest rm x k (rnd rm x k).
Proof. exact (@rnd_nearest rm x k). Qed.
Print Assumptions C02_rnd_nearest.

(** from FxMathProofs.v *)
Theorem C02_nearest_unique rm x k r r' : 0 <= k -> nearest rm x k r -> nearest rm x k r' -> r = r'.
Proof. exact (@nearest_unique rm x k r r'). Qed.
Print Assumptions C02_nearest_unique.

(** from FxMathProofs.v *)
Theorem C02_asr_rnd_fx_total rm n x k : 1 <= n -> in_bits n x ->
  in_bits n (asr_rnd_fx rm n x k)
  /\ (0 <= k -> - 2 ^ k < x - asr_rnd_fx rm n x k * 2 ^ k < 2 ^ k)
  /\ (k <= 0 -> asr_rnd_fx rm n x k = sat n (x * 2 ^ (- k))).
Proof. exact (@asr_rnd_fx_total rm n x k). Qed.
Print Assumptions C02_asr_rnd_fx_total.

(** from FxMathProofs.v *)
Theorem C02_asr_rnd_up_nearest_refuted :
  exists x k, in_bits 32 x /\ 1 <= k <= 31 /\ ~ nearest RM_UP x k (asr_rnd_fx RM_UP 32 x k).
Proof. exact (asr_rnd_up_nearest_refuted). Qed.
Print Assumptions C02_asr_rnd_up_nearest_refuted.

(** * C03: Scalar fixed-point arithmetic saturates instead of wrapping *)

(** from FxMathProofs.v *)
Theorem C03_add_fx_spec n l r : 1 <= n -> in_bits n l -> in_bits n r -> add_fx n l r = sat n (l + r).
Proof. exact (@add_fx_spec n l r). Qed.
Print Assumptions C03_add_fx_spec.

(** from FxMathProofs.v *)
Theorem C03_sub_fx_spec n l r : 1 <= n -> in_bits n l -> in_bits n r -> sub_fx n l r = sat n (l - r).
Proof. exact (@sub_fx_spec n l r). Qed.
Print Assumptions C03_sub_fx_spec.

(** from FxMathProofs.v *)
Theorem C03_neg_fx_spec n x : 1 <= n -> in_bits n x -> neg_fx n x = sat n (- x).
Proof. exact (@neg_fx_spec n x). Qed.
Print Assumptions C03_neg_fx_spec.

(** from FxMathProofs.v *)
Theorem C03_abs_fx_spec n x : 1 <= n -> in_bits n x -> abs_fx n x = sat n (Z.abs x).
Proof. exact (@abs_fx_spec n x). Qed.
Print Assumptions C03_abs_fx_spec.

(** from FxMathProofs.v *)
Theorem C03_bound_range_spec x lo hi : lo <= hi -> bound_range_fx x lo hi = clamp lo hi x.
Proof. exact (@bound_range_spec x lo hi). Qed.
Print Assumptions C03_bound_range_spec.

(** from FxMathProofs.v *)
Theorem C03_sat_fx_spec n x d : 1 <= n -> in_bits n x -> 0 <= d < n -> sat_fx n x d = sat (n - d) x.
Proof. exact (@sat_fx_spec n x d). Qed.
Print Assumptions C03_sat_fx_spec.

(** from FxMathProofs.v *)
Theorem C03_cast_narrow_spec rm ni no x k : 1 <= no -> no <= ni -> in_bits ni x ->
  cast_narrow rm ni no x k = sat no (asr_rnd_fx rm ni x k).
Proof. exact (@cast_narrow_spec rm ni no x k). Qed.
Print Assumptions C03_cast_narrow_spec.

(** from FxMathProofs.v *)
Theorem C03_cast_narrow_exact rm ni no x k : 1 <= no -> no < ni -> in_bits ni x ->
  (rnd_safe rm ni x k \/ k <= ni - no) ->
  cast_narrow rm ni no x k = sat no (if 0 <=? k then rnd rm x k else x * 2 ^ (- k)).
Proof. exact (@cast_narrow_exact rm ni no x k). Qed.
Print Assumptions C03_cast_narrow_exact.

(** from FxMathProofs.v *)
Theorem C03_cast_same_spec rm no x k : 1 <= no -> in_bits no x -> cast_same rm no x k = asr_rnd_fx rm no x k.
Proof. exact (@cast_same_spec rm no x k). Qed.
Print Assumptions C03_cast_same_spec.

(** from FxMathProofs.v *)
Theorem C03_cast_noshift_16_spec ni x : 16 <= ni -> in_bits ni x -> cast_noshift_16 ni x = sat 16 x.
Proof. exact (@cast_noshift_16_spec ni x). Qed.
Print Assumptions C03_cast_noshift_16_spec.

(** from FxMathProofs.v *)
Theorem C03_acc_cast_8_spec rm x k : in_bits 32 x -> acc_cast_8 rm x k = sat 8 (asr_rnd_fx rm 32 x k).
Proof. exact (@acc_cast_8_spec rm x k). Qed.
Print Assumptions C03_acc_cast_8_spec.

(** from FxMathProofs.v *)
Theorem C03_acc_cast_16_spec rm x k : in_bits 32 x -> acc_cast_16 rm x k = sat 16 (asr_rnd_fx rm 32 x k).
Proof. exact (@acc_cast_16_spec rm x k). Qed.
Print Assumptions C03_acc_cast_16_spec.

(** from FxMathProofs.v *)
Theorem C03_cast_16_acc40_spec rm x k : in_bits 16 x -> in_bits 32 (asr_rnd_fx rm 64 x k) ->
  cast_16_acc40 rm x k = asr_rnd_fx rm 64 x k.
Proof. exact (@cast_16_acc40_spec rm x k). Qed.
Print Assumptions C03_cast_16_acc40_spec.

(** from FxMathProofs.v *)
Theorem C03_cast_16_acc40_refuted : exists x k, in_bits 16 x /\ in_bits 40 (asr_rnd_fx RM_CONV 64 x k)
  /\ cast_16_acc40 RM_CONV x k <> asr_rnd_fx RM_CONV 64 x k.
Proof. exact (cast_16_acc40_refuted). Qed.
Print Assumptions C03_cast_16_acc40_refuted.

(** * C04: Normalization finds exactly the redundant sign bits *)

(** from FxMathProofs.v *)
Theorem C04_norm_fx_spec n x : 1 <= n -> in_bits n x -> x <> 0 ->
  let k := norm_fx n x in
  0 <= k <= n - 1 /\ in_bits n (x * 2 ^ k) /\ ~ in_bits n (x * 2 ^ (k + 1)).
Proof. exact (@norm_fx_spec n x). Qed.
Print Assumptions C04_norm_fx_spec.

(** from FxMathProofs.v *)
Theorem C04_norm_fx_range n x : 1 <= n -> in_bits n x -> 0 <= norm_fx n x <= n - 1.
Proof. exact (@norm_fx_range n x). Qed.
Print Assumptions C04_norm_fx_range.

(** from FxMathProofs.v *)
Theorem C04_norm_fx_pos n x : 1 <= n -> in_bits n x -> 0 < x ->
  2 ^ (n - 2) <= x * 2 ^ norm_fx n x < 2 ^ (n - 1) /\ norm_fx n x <= n - 2.
Proof. exact (@norm_fx_pos n x). Qed.
Print Assumptions C04_norm_fx_pos.

(** * C05: FX kernels' bias is applied at accumulator precision *)

(** from QuantProofs.v *)
Theorem C05_bias_fx8_spec rm fin fw fb fout bias acc : in_bits 8 bias -> in_bits 32 acc ->
  bias_additive_fx8 rm bias acc (define_fx_params fin fw fb fout)
  = sat 32 (acc + sat 32 (align_bias rm (fin + fw) fb bias)).
Proof. exact (@bias_fx8_spec rm fin fw fb fout bias acc). Qed.
Print Assumptions C05_bias_fx8_spec.

(** from QuantProofs.v *)
Theorem C05_bias_fx16_spec rm fin fw fb fout bias acc : in_bits 16 bias -> in_bits 64 acc ->
  in_bits 32 (align_bias rm (fin + fw) fb bias) ->
  bias_additive_fx16 rm bias acc (define_fx_params fin fw fb fout)
  = sat 64 (acc + align_bias rm (fin + fw) fb bias).
Proof. exact (@bias_fx16_spec rm fin fw fb fout bias acc). Qed.
Print Assumptions C05_bias_fx16_spec.

(** from QuantProofs.v *)
Theorem C05_align_bias_real rm fa fb bias :
  (fb <= fa -> (fxval fa (align_bias rm fa fb bias) == fxval fb bias)%Q)
  /\ within ((1 # 2) * pow2q (- fa)) (fxval fa (align_bias rm fa fb bias)) (fxval fb bias).
Proof. exact (@align_bias_real rm fa fb bias). Qed.
Print Assumptions C05_align_bias_real.

(** from QuantProofs.v *)
Theorem C05_bias_fx16_shift_ok rm fin fw fb bias : in_bits 16 bias -> fin + fw - fb <= 16 ->
  in_bits 32 (align_bias rm (fin + fw) fb bias).
Proof. exact (@bias_fx16_shift_ok rm fin fw fb bias). Qed.
Print Assumptions C05_bias_fx16_shift_ok.

(** from QuantProofs.v *)
Theorem C05_bias_fx16_refuted : exists bias acc fin fw fb fout, in_bits 16 bias /\ in_bits 40 acc
  /\ in_bits 40 (acc + align_bias RM_CONV (fin + fw) fb bias)
  /\ bias_additive_fx16 RM_CONV bias acc (define_fx_params fin fw fb fout) <> acc + align_bias RM_CONV (fin + fw) fb bias.
Proof. exact (bias_fx16_refuted). Qed.
Print Assumptions C05_bias_fx16_refuted.

(** from QuantCastProofs.v *)
Theorem C05_result_cast_fx_spec rm nacc no acc fin fw fb fout : 1 <= no -> no < nacc -> in_bits nacc acc ->
  rnd_safe rm nacc acc (fin + fw - fout) \/ fin + fw - fout <= nacc - no ->
  result_cast_fx rm nacc no acc (define_fx_params fin fw fb fout) = sat no (scale_rnd rm acc (fin + fw - fout))
  /\ within ((1 # 2) * pow2q (- fout)) (fxval (fin + fw) acc) (fxval fout (scale_rnd rm acc (fin + fw - fout))).
Proof. exact (@result_cast_fx_spec rm nacc no acc fin fw fb fout). Qed.
Print Assumptions C05_result_cast_fx_spec.

(** * C06: SA8 requantization error is bounded *)

(** from QuantCastProofs.v *)
Theorem C06_result_cast_s8_full rm i o wdim wzp wsc wfr k acc : qpar_ok i -> qpar_ok o ->
  0 < wsc (wsel wdim k) <= 32767 -> in_bits 32 acc ->
  let p := adjust_s8 true (define_s8_params rm i o wdim wzp wsc wfr) k in
  let F := out_factor i o (wsc (wsel wdim k)) (wfr (wsel wdim k)) in
  within ((1 # 2) + (1 # 32)) (inject_Z (result_cast_s8 rm true acc p))
    (qclamp (- (128)) 127 (inject_Z acc * F + inject_Z (q_zp o))).
Proof. exact (@result_cast_s8_full rm i o wdim wzp wsc wfr k acc). Qed.
Print Assumptions C06_result_cast_s8_full.

(** from QuantCastProofs.v *)
Theorem C06_result_cast_s8_reduced rm i o wdim wzp wsc wfr k acc : qpar_ok i -> qpar_ok o ->
  0 < wsc (wsel wdim k) <= 32767 -> in_bits 24 acc ->
  let p := adjust_s8 false (define_s8_params rm i o wdim wzp wsc wfr) k in
  let F := out_factor i o (wsc (wsel wdim k)) (wfr (wsel wdim k)) in
  within ((1 # 2) + (1 # 16)) (inject_Z (result_cast_s8 rm false acc p))
    (qclamp (- (128)) 127 (inject_Z acc * F + inject_Z (q_zp o))).
Proof. exact (@result_cast_s8_reduced rm i o wdim wzp wsc wfr k acc). Qed.
Print Assumptions C06_result_cast_s8_reduced.

(** from QuantCastProofs.v *)
Theorem C06_result_cast_s8_reduced_refuted : exists rm i o wsc wfr acc, qpar_ok i /\ qpar_ok o /\ 0 < wsc <= 32767 /\ in_bits 32 acc
  /\ (inject_Z acc * out_factor i o wsc wfr == 64)%Q
  /\ result_cast_s8 rm false acc (adjust_s8 false (define_s8_params rm i o (-1) (fun _ => 0) (fun _ => wsc) (fun _ => wfr)) 0) = 0.
Proof. exact (result_cast_s8_reduced_refuted). Qed.
Print Assumptions C06_result_cast_s8_reduced_refuted.

(** * C07: SA8 dot product decomposition is exact *)

(** from DotProdProofs.v *)
Theorem C07_sa_dotprod_exact n mi mw p q w h ch icol irow ich kcol krow kch zi zw Z0 acc :
  mem_bits 8 mi -> mem_bits 8 mw -> 0 <= w -> 0 <= h -> 0 <= ch ->
  Z.abs zi <= Z0 -> Z.abs zw <= Z0 -> Z0 <= 32767 ->
  (forall k r cl, 0 <= k < ch -> 0 <= r < h -> 0 <= cl < w ->
     allocated mi (p + k * ich + r * irow + cl * icol) /\ allocated mw (q + k * kch + r * krow + cl * kcol)) ->
  Z.abs acc + w * h * ch * (128 + Z0) ^ 2 <= smax n ->
  sa_dotprod n mi mw p q w h ch icol irow ich kcol krow kch zi zw acc
  = Some (acc + zsum 0 ch (fun k => zsum 0 h (fun r => zsum 0 w (fun cl =>
      (rd mi (p + k * ich + r * irow + cl * icol) - zi) * (rd mw (q + k * kch + r * krow + cl * kcol) - zw))))).
Proof. exact (@sa_dotprod_exact n mi mw p q w h ch icol irow ich kcol krow kch zi zw Z0 acc). Qed.
Print Assumptions C07_sa_dotprod_exact.

(** * C08: Accumulators do not overflow within the guard-bit bound *)

(** from DotProdProofs.v *)
Theorem C08_dotprod3D_guard na nb nacc mi mw p q w h ch icol irow ich kcol krow kch :
  1 <= na -> 1 <= nb -> na + nb <= nacc -> 0 <= w -> 0 <= h -> 0 <= ch ->
  mem_bits na mi -> mem_bits nb mw ->
  (forall k r cl, 0 <= k < ch -> 0 <= r < h -> 0 <= cl < w ->
     allocated mi (p + k * ich + r * irow + cl * icol) /\ allocated mw (q + k * kch + r * krow + cl * kcol)) ->
  w * h * ch <= 2 ^ guard_bits nacc na nb ->
  dotprod3D nacc mi mw p q w h ch icol irow ich kcol krow kch 0
  = Some (zsum 0 ch (fun k => zsum 0 h (fun r => zsum 0 w (fun cl =>
      rd mi (p + k * ich + r * irow + cl * icol) * rd mw (q + k * kch + r * krow + cl * kcol))))).
Proof. exact (@dotprod3D_guard na nb nacc mi mw p q w h ch icol irow ich kcol krow kch). Qed.
Print Assumptions C08_dotprod3D_guard.

(** from DotProdProofs.v *)
Theorem C08_guard_bits_values : accu_guard_bits_sa8_sa8 = 16 /\ accu_guard_bits_fx16_fx16 = 32 /\ accu_guard_bits_fx16_fx8 = 8.
Proof. exact (guard_bits_values). Qed.
Print Assumptions C08_guard_bits_values.

(** from DotProdProofs.v *)
Theorem C08_dotprod_overflow_refuted : exists vals, vals <= 2 ^ (guard_bits 32 8 8 + 1)
  /\ dotprod1D 32 (fun _ => Some (-128)) (fun _ => Some (-128)) 0 0 0 vals 1 1 = None.
Proof. exact (dotprod_overflow_refuted). Qed.
Print Assumptions C08_dotprod_overflow_refuted.

(** * C09: Fused ReLU keeps outputs inside the activation range *)

(** from QuantProofs.v *)
Theorem C09_relu_limits_exact n t o v : (n = 8 \/ n = 16) -> 0 < q_scale o <= 32767 -> in_bits 8 (q_frac o) -> in_bits n (q_zp o) ->
  relu_frac_ok t o -> in_bits n v ->
  let '(lo, hi) := get_relu_limits n t o in
  in_bits n lo /\ in_bits n hi /\ lo <= hi
  /\ (lo <= v <= hi <-> relu_range t (saval (q_scale o) (q_frac o) (q_zp o) v)).
Proof. exact (@relu_limits_exact n t o v). Qed.
Print Assumptions C09_relu_limits_exact.

(** from QuantProofs.v *)
Theorem C09_relu_clip_spec n t o v : (n = 8 \/ n = 16) -> 0 < q_scale o <= 32767 -> in_bits 8 (q_frac o) -> in_bits n (q_zp o) ->
  relu_frac_ok t o -> in_bits n v ->
  let '(lo, hi) := get_relu_limits n t o in
  let real := saval (q_scale o) (q_frac o) (q_zp o) in
  in_bits n (relu_clip v lo hi)
  /\ relu_range t (real (relu_clip v lo hi))
  /\ (relu_range t (real v) -> relu_clip v lo hi = v)
  /\ relu_clip v lo hi = clamp lo hi v.
Proof. exact (@relu_clip_spec n t o v). Qed.
Print Assumptions C09_relu_clip_spec.

(** from QuantProofs.v *)
Theorem C09_relu6_small_scale_refuted : exists o v, 0 < q_scale o <= 32767 /\ in_bits 8 (q_frac o) /\ in_bits 8 (q_zp o) /\ in_bits 8 v
  /\ relu_range RELU_6 (saval (q_scale o) (q_frac o) (q_zp o) v)
  /\ relu_clip v (fst (get_relu_limits 8 RELU_6 o)) (snd (get_relu_limits 8 RELU_6 o)) <> v.
Proof. exact (relu6_small_scale_refuted). Qed.
Print Assumptions C09_relu6_small_scale_refuted.

(** from QuantProofs.v *)
Theorem C09_relu1_small_scale_refuted : exists o v, 0 < q_scale o <= 32767 /\ in_bits 8 (q_frac o) /\ q_zp o = 0 /\ in_bits 8 v
  /\ relu_range RELU_1 (saval (q_scale o) (q_frac o) (q_zp o) v)
  /\ relu_clip v (fst (get_relu_limits 8 RELU_1 o)) (snd (get_relu_limits 8 RELU_1 o)) <> v.
Proof. exact (relu1_small_scale_refuted). Qed.
Print Assumptions C09_relu1_small_scale_refuted.

(** from QuantProofs.v *)
Theorem C09_relu_limits_32_refuted : get_relu_limits 32 RELU_NONE (mkQ 1 0 0) = (0, -1).
Proof. exact (relu_limits_32_refuted). Qed.
Print Assumptions C09_relu_limits_32_refuted.

(** * C10: SA8 to SA8 requantization parameters represent the scale ratio *)

(** from QuantProofs.v *)
Theorem C10_requant_ratio rm i o : qpar_ok i -> qpar_ok o ->
  let r := define_requant_params rm i o in
  let ratio := (real_scale (q_scale i) (q_frac i) / real_scale (q_scale o) (q_frac o))%Q in
  2 ^ 14 <= rq_scale r < 2 ^ 15
  /\ within (ratio * (1 # 16384)) (fxval (rq_shift r) (rq_scale r)) ratio.
Proof. exact (@requant_ratio rm i o). Qed.
Print Assumptions C10_requant_ratio.

(** from QuantProofs.v *)
Theorem C10_requant_zero_point rm i o : qpar_ok i -> qpar_ok o ->
  let r := define_requant_params rm i o in
  let scaled_zp := fxval (rq_shift r) (rq_scale r * q_zp i) in
  (Qabs scaled_zp <= 32000 # 1)%Q ->
  within (1 # 2) (scaled_zp + inject_Z (rq_offset r)) (inject_Z (q_zp o)).
Proof. exact (@requant_zero_point rm i o). Qed.
Print Assumptions C10_requant_zero_point.

(** * C11: Element count is the product of trailing dimensions *)

(** from TensorProofs.v *)
Theorem C11_count_elem_num_correct sh start :
  (length sh <= 4)%nat -> Forall (fun d => 0 <= d) sh -> 0 <= start < Z.of_nat (length sh) ->
  let trailing := skipn (Z.to_nat start) sh in
  hlp_count_elem_num sh start = Z.of_nat (length (coords trailing)) mod 2 ^ 32
  /\ (prod trailing < 2 ^ 32 -> hlp_count_elem_num sh start = prod trailing
       /\ (hlp_count_elem_num sh start = 0 <-> In 0 trailing)).
Proof. exact (@count_elem_num_correct sh start). Qed.
Print Assumptions C11_count_elem_num_correct.

(** from TensorProofs.v *)
Theorem C11_count_elem_num_refuted : exists sh, Forall (fun d => 0 < d <= 2 ^ 31 - 1) sh
  /\ hlp_count_elem_num sh 0 = 0 /\ 0 < prod sh.
Proof. exact (count_elem_num_refuted). Qed.
Print Assumptions C11_count_elem_num_refuted.

(** * C12: A tensor accepted by the checker is memory safe *)

(** from TensorProofs.v *)
Theorem C12_chk_tensor_sound t :
  length (t_shape t) = length (t_stride t) -> 1 <= t_esz t ->
  (* no 32-bit overflow in the checker *)
  Forall (fun ds => in_bits 32 (fst ds * snd ds)) (combine (t_shape t) (t_stride t)) ->
  span (t_shape t) (t_stride t) * t_esz t <= 2 ^ 31 - 1 ->
  chk_tensor t = ST_OK ->
  (forall c, valid (t_shape t) c ->
     0 <= addr (t_stride t) c * t_esz t /\ (addr (t_stride t) c + 1) * t_esz t <= t_cap t)
  /\ (forall c1 c2, valid (t_shape t) c1 -> valid (t_shape t) c2 ->
       addr (t_stride t) c1 = addr (t_stride t) c2 -> c1 = c2).
Proof. exact (@chk_tensor_sound t). Qed.
Print Assumptions C12_chk_tensor_sound.

(** from MovProofs.v *)
Theorem C12_chk_tensor_complete t : fits32 t -> (length (t_shape t) <= 4)%nat -> t_cap t <= 2 ^ 31 - 1 ->
  nested (t_shape t) (t_stride t) -> span (t_shape t) (t_stride t) * t_esz t <= t_cap t -> chk_tensor t = ST_OK.
Proof. exact (@chk_tensor_complete t). Qed.
Print Assumptions C12_chk_tensor_complete.

(** from TensorProofs.v *)
Theorem C12_chk_tensor_refuted : exists t c,
  chk_tensor t = ST_OK /\ valid (t_shape t) c /\ t_cap t < (addr (t_stride t) c + 1) * t_esz t.
Proof. exact (chk_tensor_refuted). Qed.
Print Assumptions C12_chk_tensor_refuted.

(** * C13: A sub-tensor is a window of its parent *)

(** from TensorProofs.v *)
Theorem C13_create_subtensor_correct t off size orank s :
  length (t_shape t) = length (t_stride t) -> 1 <= t_esz t ->
  Forall (fun ds => in_bits 32 (fst ds * snd ds)) (combine (t_shape t) (t_stride t)) ->
  span (t_shape t) (t_stride t) * t_esz t <= 2 ^ 31 - 1 ->
  length off = length (t_shape t) -> length size = length (t_shape t) ->
  Forall (fun o => 0 <= o) off -> Forall (fun x => 0 <= x) size ->
  Forall (fun os => fst os + snd os < 2 ^ 32) (combine off size) ->
  0 <= t_rank t - orank <= units size ->
  create_subtensor t off size orank = (ST_OK, s) ->
  t_rank s = orank
  /\ (forall c, valid (t_shape s) c -> exists p, squeezed size (t_shape s) c p /\ valid size p
        /\ valid (t_shape t) (vadd off p)
        /\ t_data s + addr (t_stride s) c = t_data t + addr (t_stride t) (vadd off p)
        /\ 0 <= addr (t_stride s) c /\ (addr (t_stride s) c + 1) * t_esz s <= t_cap s
        (* per-axis quantization: same parameter entry, if the axis is not squeezed away *)
        /\ (t_asym t = true -> 0 <= t_qdim t < t_rank t -> nth (Z.to_nat (t_qdim t)) size 1 <> 1 ->
             0 <= t_qdim s /\
             t_qoff s + nth (Z.to_nat (t_qdim s)) c 0
             = t_qoff t + nth (Z.to_nat (t_qdim t)) (vadd off p) 0))
  /\ (forall p, valid size p -> exists c, valid (t_shape s) c /\ squeezed size (t_shape s) c p
        /\ t_data s + addr (t_stride s) c = t_data t + addr (t_stride t) (vadd off p))
  /\ t_data s * t_esz s + t_cap s = t_data t * t_esz t + t_cap t.
Proof. exact (@create_subtensor_correct t off size orank s). Qed.
Print Assumptions C13_create_subtensor_correct.

(** from TensorProofs.v *)
Theorem C13_create_subtensor_wrap_refuted : exists t off size orank s c,
  create_subtensor t off size orank = (ST_OK, s) /\ valid (t_shape s) c
  /\ t_cap t < (t_data s - t_data t + addr (t_stride s) c + 1) * t_esz s.
Proof. exact (create_subtensor_wrap_refuted). Qed.
Print Assumptions C13_create_subtensor_wrap_refuted.

(** from TensorProofs.v *)
Theorem C13_create_subtensor_rank_refuted : exists t off size orank s p,
  create_subtensor t off size orank = (ST_OK, s) /\ valid size p
  /\ forall c, valid (t_shape s) c ->
       t_data s + addr (t_stride s) c <> t_data t + addr (t_stride t) (vadd off p).
Proof. exact (create_subtensor_rank_refuted). Qed.
Print Assumptions C13_create_subtensor_rank_refuted.

(** from TensorProofs.v *)
Theorem C13_create_subtensor_qaxis_refuted : exists t off size orank s,
  create_subtensor t off size orank = (ST_OK, s) /\ t_asym t = true /\ t_qdim t = 0
  /\ t_qdim s = -1 /\ t_qoff s <> t_qoff t + nth 0 off 0.
Proof. exact (create_subtensor_qaxis_refuted). Qed.
Print Assumptions C13_create_subtensor_qaxis_refuted.

(** * C14: Pointing to a sub-tensor addresses the requested slice *)

(** from TensorProofs.v *)
Theorem C14_point_to_subtensor_correct t start fods os data shape cap c :
  length (t_shape t) = length (t_stride t) -> 1 <= t_esz t ->
  Forall (fun ds => in_bits 32 (fst ds * snd ds)) (combine (t_shape t) (t_stride t)) ->
  0 <= fods -> Forall (fun x => 0 <= x) start -> last start 0 + fods < 2 ^ 32 ->
  chk_point_to_subtensor t start fods os = Some ST_OK ->
  point_to_subtensor t start fods = (data, shape, cap) ->
  valid shape c ->
  let p := removelast start ++ last start 0 + hd 0 c :: tl c in
  valid (t_shape t) p
  /\ data + addr (contiguous_strides shape) c = t_data t + addr (t_stride t) p
  /\ cap = Z.of_nat (length (coords shape)) * t_esz t
  /\ length shape = 1%nat /\ os = 1.
Proof. exact (@point_to_subtensor_correct t start fods os data shape cap c). Qed.
Print Assumptions C14_point_to_subtensor_correct.

(** from TensorProofs.v *)
Theorem C14_point_to_subtensor_rank_refuted t start fods os :
  (length start < length (t_shape t))%nat -> chk_point_to_subtensor t start fods os <> Some ST_OK.
Proof. exact (@point_to_subtensor_rank_refuted t start fods os). Qed.
Print Assumptions C14_point_to_subtensor_rank_refuted.

(** from TensorProofs.v *)
Theorem C14_point_to_subtensor_nocoord_refuted : exists t, chk_point_to_subtensor t [] 1 1 = None.
Proof. exact (point_to_subtensor_nocoord_refuted). Qed.
Print Assumptions C14_point_to_subtensor_nocoord_refuted.

(** * C15: Collapsing dimensions preserves the element sequence *)

(** from TensorProofs.v *)
Theorem C15_squash_generic_correct nt k l inner :
  (k < nt)%nat -> well_formed nt (l ++ [inner]) -> (length l < 4)%nat -> nth k (snd inner) 0 = 1 ->
  let r := squash_generic nt (l ++ [inner]) in
  visited (d_shape r) (d_stride k r) = visited (d_shape (l ++ [inner])) (d_stride k (l ++ [inner]))
  /\ length r = 4%nat.
Proof. exact (@squash_generic_correct nt k l inner). Qed.
Print Assumptions C15_squash_generic_correct.

(** from TensorProofs.v *)
Theorem C15_squash_to_one_dim_correct nt k l inner :
  (k < nt)%nat -> well_formed nt (l ++ [inner]) -> nth k (snd inner) 0 = 1 ->
  squash_to_one_dim (l ++ [inner]) <> 0 ->
  visited (d_shape (l ++ [inner])) (d_stride k (l ++ [inner])) = zrange 0 (squash_to_one_dim (l ++ [inner])).
Proof. exact (@squash_to_one_dim_correct nt k l inner). Qed.
Print Assumptions C15_squash_to_one_dim_correct.

(** from TensorProofs.v *)
Theorem C15_squash_inner_stride_refuted : exists l, squash_to_one_dim l = 4 /\ visited (d_shape l) (d_stride 0 l) <> zrange 0 4.
Proof. exact (squash_inner_stride_refuted). Qed.
Print Assumptions C15_squash_inner_stride_refuted.

(** * C16: The overlap check is sound *)

(** from TensorProofs.v *)
Theorem C16_not_overlapped_sound p1 c1 p2 c2 :
  in_bits 32 (p1 + c1) -> in_bits 32 (p2 + c2) -> not_overlapped p1 c1 p2 c2 = true ->
  forall a, ~ (p1 <= a < p1 + c1 /\ p2 <= a < p2 + c2).
Proof. exact (@not_overlapped_sound p1 c1 p2 c2). Qed.
Print Assumptions C16_not_overlapped_sound.

(** from TensorProofs.v *)
Theorem C16_not_overlapped_complete p1 c1 p2 c2 :
  in_bits 32 (p1 + c1) -> in_bits 32 (p2 + c2) -> 0 < c1 -> 0 < c2 ->
  (forall a, ~ (p1 <= a < p1 + c1 /\ p2 <= a < p2 + c2)) -> not_overlapped p1 c1 p2 c2 = true.
Proof. exact (@not_overlapped_complete p1 c1 p2 c2). Qed.
Print Assumptions C16_not_overlapped_complete.

(** from TensorProofs.v *)
Theorem C16_not_overlapped_refuted : exists p c, in_bits 32 p /\ 0 < c <= 2 ^ 31 - 1
  /\ not_overlapped p c p c = true.
Proof. exact (not_overlapped_refuted). Qed.
Print Assumptions C16_not_overlapped_refuted.

(** * C17: Permute places every element by the permuted coordinates *)

(** from PermuteProofs.v *)
Theorem C17_permute_correct tin tout perm min mout :
  fits32 tin -> fits32 tout -> length perm = length (t_shape tin) -> length (t_shape tout) = length (t_shape tin) ->
  backed tin min -> backed tout mout ->
  chk_permute tin tout perm = ST_OK ->
  exists m', permute_run tin tout perm min mout = Some m'
  /\ (forall c, valid (t_shape tout) c -> exists p, permuted perm c p)
  /\ (forall c p, permuted perm c p -> valid (t_shape tout) c ->
        valid (t_shape tin) p
        /\ m' (t_data tout + addr (t_stride tout) c) = min (t_data tin + addr (t_stride tin) p)
        /\ m' (t_data tout + addr (t_stride tout) c) <> None)
  /\ (forall a, (forall c, valid (t_shape tout) c -> t_data tout + addr (t_stride tout) c <> a) -> m' a = mout a).
Proof. exact (@permute_correct tin tout perm min mout). Qed.
Print Assumptions C17_permute_correct.

(** from PermuteProofs.v *)
Theorem C17_permuted_exists perm c : Permutation perm (seq 0 (length perm)) -> length c = length perm -> exists p, permuted perm c p.
Proof. exact (@permuted_exists perm c). Qed.
Print Assumptions C17_permuted_exists.

(** from PermuteProofs.v *)
Theorem C17_permute_qdim_correct tin perm c p :
  length perm = length (t_shape tin) -> Permutation perm (seq 0 (length perm)) ->
  0 <= t_qdim tin < t_rank tin -> permuted perm c p ->
  0 <= permute_qdim tin perm < t_rank tin
  /\ nth (Z.to_nat (permute_qdim tin perm)) c 0 = nth (Z.to_nat (t_qdim tin)) p 0.
Proof. exact (@permute_qdim_correct tin perm c p). Qed.
Print Assumptions C17_permute_qdim_correct.

(** * C18: Permute by a permutation and then by its inverse is the identity *)

(** from PermuteProofs.v *)
Theorem C18_permute_inverse tin tmid tout perm inv m0 m1 m2 mid out :
  fits32 tin -> fits32 tmid -> fits32 tout ->
  length perm = length (t_shape tin) -> length (t_shape tmid) = length (t_shape tin) -> length (t_shape tout) = length (t_shape tin) ->
  backed tin m0 -> backed tmid m1 -> backed tout m2 -> inverse_perm perm inv ->
  chk_permute tin tmid perm = ST_OK -> permute_run tin tmid perm m0 m1 = Some mid ->
  chk_permute tmid tout inv = ST_OK -> permute_run tmid tout inv mid m2 = Some out ->
  t_shape tout = t_shape tin
  /\ forall c, valid (t_shape tin) c ->
       out (t_data tout + addr (t_stride tout) c) = m0 (t_data tin + addr (t_stride tin) c).
Proof. exact (@permute_inverse tin tmid tout perm inv m0 m1 m2 mid out). Qed.
Print Assumptions C18_permute_inverse.

(** * C19: Data movement computes the documented function of its configuration *)

(** from MovProofs.v *)
Theorem C19_mov_prepare_correct src cfg dst msrc m :
  cfg_ok src cfg -> cfg_inside src cfg -> fits32 src -> (1 <= length (t_shape src))%nat ->
  length (t_stride dst) = length (t_shape src) ->
  let dst' := mov_dst_tensor src cfg dst in
  fits32 dst' -> backed src msrc -> backed dst' m ->
  (Forall (eq 0) (mc_dst_offset cfg) \/ t_shape dst' <> t_shape src) ->
  chk_data_movement src cfg = ST_OK -> chk_tensor dst' = ST_OK ->
  exists m', mov_prepare msrc src cfg dst m = Some (ST_OK, dst', m')
  /\ (forall c, valid (t_shape dst') c -> past_offset cfg c -> exists p, mov_source cfg c p)
  /\ (forall c p, valid (t_shape dst') c -> past_offset cfg c -> mov_source cfg c p ->
        (valid (t_shape src) p ->
           m' (t_data dst + addr (t_stride dst') c) = msrc (t_data src + addr (t_stride src) p))
        /\ (~ valid (t_shape src) p -> m' (t_data dst + addr (t_stride dst') c) = Some 0))
  /\ (forall a, (forall c, valid (t_shape dst') c -> past_offset cfg c ->
                   t_data dst + addr (t_stride dst') c <> a) -> m' a = m a).
Proof. exact (@mov_prepare_correct src cfg dst msrc m). Qed.
Print Assumptions C19_mov_prepare_correct.

(** from MovProofs.v *)
Theorem C19_mov_dst_shape_correct src cfg d :
  cfg_ok src cfg -> (d < length (t_shape src))%nat ->
  let j := nth d (mc_perm cfg) 0%nat in
  let n := if nth j (mc_size cfg) 0 =? 0
           then nth j (t_shape src) 0 + nth j (mc_pre cfg) 0 + nth j (mc_post cfg) 0 - nth j (mc_offset cfg) 0
           else nth j (mc_size cfg) 0 in
  exists w, nth d (mov_dst_shape src cfg) 0 = nth d (mc_dst_offset cfg) 0 + w
         /\ (w - 1) * nth j (mc_sub cfg) 0 < n <= w * nth j (mc_sub cfg) 0.
Proof. exact (@mov_dst_shape_correct src cfg d). Qed.
Print Assumptions C19_mov_dst_shape_correct.

(** from MovProofs.v *)
Theorem C19_mov_fast_path_refuted : exists src cfg dst msrc m m',
  cfg_ok src cfg /\ cfg_inside src cfg
  /\ mov_prepare msrc src cfg dst m = Some (ST_OK, mov_dst_tensor src cfg dst, m')
  /\ (* element 2 of the destination should be element 0 of the source *)
     mov_source cfg [2] [0] /\ past_offset cfg [2]
  /\ m' (t_data dst + 2) <> msrc (t_data src + 0)
  /\ (* and element 0 should be unchanged *) m' (t_data dst) <> m (t_data dst).
Proof. exact (mov_fast_path_refuted). Qed.
Print Assumptions C19_mov_fast_path_refuted.

(** from MovProofs.v *)
Theorem C19_mov_inside_refuted : exists src cfg dst msrc m,
  cfg_ok src cfg /\ chk_data_movement src cfg = ST_OK /\ chk_tensor (mov_dst_tensor src cfg dst) = ST_OK
  /\ backed src msrc /\ backed (mov_dst_tensor src cfg dst) m /\ mov_prepare msrc src cfg dst m = None.
Proof. exact (mov_inside_refuted). Qed.
Print Assumptions C19_mov_inside_refuted.

(** * C20: Data movement writes only the addressed destination region *)

(** from MovProofs.v *)
Theorem C20_mov_prepare_correct src cfg dst msrc m :
  cfg_ok src cfg -> cfg_inside src cfg -> fits32 src -> (1 <= length (t_shape src))%nat ->
  length (t_stride dst) = length (t_shape src) ->
  let dst' := mov_dst_tensor src cfg dst in
  fits32 dst' -> backed src msrc -> backed dst' m ->
  (Forall (eq 0) (mc_dst_offset cfg) \/ t_shape dst' <> t_shape src) ->
  chk_data_movement src cfg = ST_OK -> chk_tensor dst' = ST_OK ->
  exists m', mov_prepare msrc src cfg dst m = Some (ST_OK, dst', m')
  /\ (forall c, valid (t_shape dst') c -> past_offset cfg c -> exists p, mov_source cfg c p)
  /\ (forall c p, valid (t_shape dst') c -> past_offset cfg c -> mov_source cfg c p ->
        (valid (t_shape src) p ->
           m' (t_data dst + addr (t_stride dst') c) = msrc (t_data src + addr (t_stride src) p))
        /\ (~ valid (t_shape src) p -> m' (t_data dst + addr (t_stride dst') c) = Some 0))
  /\ (forall a, (forall c, valid (t_shape dst') c -> past_offset cfg c ->
                   t_data dst + addr (t_stride dst') c <> a) -> m' a = m a).
Proof. exact (@mov_prepare_correct src cfg dst msrc m). Qed.
Print Assumptions C20_mov_prepare_correct.

(** * C21: Slices and concatenations compose *)

(** from MovProofs.v *)
Theorem C21_mov_slices_correct src whole dst msrc m (l : list (list Z * list Z)) :
  Forall (fun w => slice_of (t_shape src) (fst w) (snd w)) l -> fits32 src -> (1 <= length (t_shape src))%nat ->
  length (t_stride dst) = length (t_shape src) -> chk_tensor src = ST_OK -> t_asym src = false -> backed src msrc ->
  t_shape whole = t_shape src -> t_esz whole = t_esz src -> t_data whole = t_data dst -> t_cap whole = t_cap dst ->
  fits32 whole -> chk_tensor whole = ST_OK -> backed whole m ->
  exists dst' m', mov_all (map (fun w => (msrc, src, cfg_window (fst w) (snd w) (t_stride whole))) l) dst m = Some (dst', m')
  /\ (forall c, (exists w, In w l /\ in_slice (fst w) (snd w) c) ->
        m' (t_data whole + addr (t_stride whole) c) = msrc (t_data src + addr (t_stride src) c))
  /\ (forall c, valid (t_shape src) c ->
        m' (t_data whole + addr (t_stride whole) c) = m (t_data whole + addr (t_stride whole) c)
        \/ m' (t_data whole + addr (t_stride whole) c) = msrc (t_data src + addr (t_stride src) c))
  /\ (forall a, (forall c, valid (t_shape src) c -> t_data whole + addr (t_stride whole) c <> a) -> m' a = m a).
Proof. exact (@mov_slices_correct src whole dst msrc m l). Qed.
Print Assumptions C21_mov_slices_correct.

(** from MovProofs.v *)
Theorem C21_mov_slices_whole src whole dst msrc m l l' :
  Forall (fun w => slice_of (t_shape src) (fst w) (snd w)) l -> Forall (fun w => slice_of (t_shape src) (fst w) (snd w)) l' ->
  fits32 src -> (1 <= length (t_shape src))%nat ->
  length (t_stride dst) = length (t_shape src) -> chk_tensor src = ST_OK -> t_asym src = false -> backed src msrc ->
  t_shape whole = t_shape src -> t_esz whole = t_esz src -> t_data whole = t_data dst -> t_cap whole = t_cap dst ->
  fits32 whole -> chk_tensor whole = ST_OK -> backed whole m ->
  (forall c, valid (t_shape src) c -> exists w, In w l /\ in_slice (fst w) (snd w) c) ->
  (forall c, valid (t_shape src) c -> exists w, In w l' /\ in_slice (fst w) (snd w) c) ->
  exists d1 m1 d2 m2,
    mov_all (map (fun w => (msrc, src, cfg_window (fst w) (snd w) (t_stride whole))) l) dst m = Some (d1, m1)
    /\ mov_all (map (fun w => (msrc, src, cfg_window (fst w) (snd w) (t_stride whole))) l') dst m = Some (d2, m2)
    /\ forall a, m1 a = m2 a.
Proof. exact (@mov_slices_whole src whole dst msrc m l l'). Qed.
Print Assumptions C21_mov_slices_whole.

(** from MovProofs.v *)
Theorem C21_mov_concat_correct whole dst m (l : list (mem * tensor * list Z)) :
  fits32 whole -> chk_tensor whole = ST_OK -> backed whole m -> (1 <= length (t_shape whole))%nat ->
  t_data whole = t_data dst -> t_cap whole = t_cap dst -> length (t_stride dst) = length (t_shape whole) ->
  Forall (fun '(ms, src, off) =>
    slice_of (t_shape whole) off (t_shape src) /\ fits32 src /\ chk_tensor src = ST_OK /\ t_asym src = false
    /\ backed src ms /\ t_esz whole = t_esz src) l ->
  ForallOrdPairs (fun '(_, src1, off1) '(_, src2, off2) =>
    forall c, ~ (in_slice off1 (t_shape src1) c /\ in_slice off2 (t_shape src2) c)) l ->
  exists dst' m',
    mov_all (map (fun '(ms, src, off) => (ms, src, cfg_for_concat (length (t_shape src)) off (t_stride whole))) l) dst m = Some (dst', m')
  /\ (forall ms src off c, In (ms, src, off) l -> valid (t_shape src) c ->
        m' (t_data whole + addr (t_stride whole) (zip_add c off)) = ms (t_data src + addr (t_stride src) c))
  /\ (forall a, (forall ms src off c, In (ms, src, off) l -> in_slice off (t_shape src) c ->
        t_data whole + addr (t_stride whole) c <> a) -> m' a = m a).
Proof. exact (@mov_concat_correct whole dst m l). Qed.
Print Assumptions C21_mov_concat_correct.

(** * C22: The contiguous fast path agrees with the general copy *)

(** from MovProofs.v *)
Theorem C22_mov_fast_path_agrees src cfg dst msrc m :
  cfg_ok src cfg -> cfg_inside src cfg -> fits32 src -> length (t_stride dst) = length (t_shape src) ->
  (1 <= length (t_shape src))%nat ->
  chk_tensor src = ST_OK -> Forall (eq 0) (mc_dst_offset cfg) ->
  mov_single src cfg dst = true ->
  mov_memcpy msrc (t_data src) (t_data dst) (hlp_count_elem_num (t_shape src) 0) m
  = mov_general msrc src (mov_dst_tensor src cfg dst) (eff_strides (t_shape src) (t_stride src)) cfg m.
Proof. exact (@mov_fast_path_agrees src cfg dst msrc m). Qed.
Print Assumptions C22_mov_fast_path_agrees.

(** from MovProofs.v *)
Theorem C22_mov_fast_path_refuted : exists src cfg dst msrc m m',
  cfg_ok src cfg /\ cfg_inside src cfg
  /\ mov_prepare msrc src cfg dst m = Some (ST_OK, mov_dst_tensor src cfg dst, m')
  /\ (* element 2 of the destination should be element 0 of the source *)
     mov_source cfg [2] [0] /\ past_offset cfg [2]
  /\ m' (t_data dst + 2) <> msrc (t_data src + 0)
  /\ (* and element 0 should be unchanged *) m' (t_data dst) <> m (t_data dst).
Proof. exact (mov_fast_path_refuted). Qed.
Print Assumptions C22_mov_fast_path_refuted.

(** * C23: DMA channel handles never share a channel *)

(** from DmaProofs.v *)
Theorem C23_dma_no_ub base size hist w o : 0 <= base -> base + size <= max_dma_chan ->
  dma_reach base size hist w -> good_op base size hist w o -> exists w', dma_step o w = Some w'.
Proof. exact (@dma_no_ub base size hist w o). Qed.
Print Assumptions C23_dma_no_ub.

(** from DmaProofs.v *)
Theorem C23_dma_handles_disjoint base size hist w i j c : 0 <= base -> base + size <= max_dma_chan ->
  dma_reach base size hist w -> i <> j -> live (w_handle w i) -> live (w_handle w j) ->
  ~ (owns (w_handle w i) c /\ owns (w_handle w j) c).
Proof. exact (@dma_handles_disjoint base size hist w i j c). Qed.
Print Assumptions C23_dma_handles_disjoint.

(** from DmaProofs.v *)
Theorem C23_dma_acquire_complete base size hist w id n : 0 <= base -> base + size <= max_dma_chan ->
  dma_reach base size hist w -> good_op base size hist w (OpAcquire id n) ->
  exists w', dma_step (OpAcquire id n) w = Some w'
  /\ (forall j, j <> id -> w_handle w' j = w_handle w j)
  /\ ((exists i, free_run base size w i n) ->
        live (w_handle w' id) /\ h_num (w_handle w' id) = n /\ free_run base size w (h_ch (w_handle w' id)) n)
  /\ ((forall i, ~ free_run base size w i n) -> w_handle w' id = w_handle w id /\ ~ live (w_handle w' id)).
Proof. exact (@dma_acquire_complete base size hist w id n). Qed.
Print Assumptions C23_dma_acquire_complete.

(** from DmaProofs.v *)
Theorem C23_dma_release_reacquire base size hist w id n : 0 <= base -> base + size <= max_dma_chan ->
  dma_reach base size hist w -> live (w_handle w id) -> n = h_num (w_handle w id) -> base + size + n - 1 <= max_dma_chan ->
  exists w1 w2, dma_step (OpRelease id) w = Some w1 /\ ~ live (w_handle w1 id)
  /\ dma_step (OpAcquire id n) w1 = Some w2 /\ live (w_handle w2 id) /\ h_num (w_handle w2 id) = n.
Proof. exact (@dma_release_reacquire base size hist w id n). Qed.
Print Assumptions C23_dma_release_reacquire.

(** from DmaProofs.v *)
Theorem C23_dma_acquire_ub_refuted :
  option_map (fun w => h_num (w_handle w 0)) (dma_go 0 16 [OpAcquire 0 16]) = Some 16
  /\ dma_go 0 16 [OpAcquire 0 16; OpAcquire 1 2] = None.
Proof. exact (dma_acquire_ub_refuted). Qed.
Print Assumptions C23_dma_acquire_ub_refuted.

(** from DmaProofs.v *)
Theorem C23_dma_init_refuted : dp_size dma_pool_init = 16 /\ acquire_handle 1 dma_pool_init = Some (None, dma_pool_init).
Proof. exact (dma_init_refuted). Qed.
Print Assumptions C23_dma_init_refuted.

(** from DmaProofs.v *)
Theorem C23_dma_sync_ok w id : w_handle w id = handle_zero -> 0 <= dp_base (w_pool w) < max_dma_chan -> 0 < dp_size (w_pool w) ->
  w_cb w (dp_base (w_pool w)) = None ->
  exists w', sync_control w id = Some (true, w') /\ w_pool w' = w_pool w /\ w_cb w' = w_cb w /\ w_log w' = w_log w
  /\ (forall j, w_handle w' j = w_handle w j).
Proof. exact (@dma_sync_ok w id). Qed.
Print Assumptions C23_dma_sync_ok.

(** from DmaProofs.v *)
Theorem C23_dma_sync_empty_pool_refuted : option_map fst (do w <- dma_go 0 0 []; sync_control w 0) = Some false.
Proof. exact (dma_sync_empty_pool_refuted). Qed.
Print Assumptions C23_dma_sync_empty_pool_refuted.

(** * C24: Acquired channels lie inside the pool *)

(** from DmaProofs.v *)
Theorem C24_dma_channels_in_pool base size hist w id c : 0 <= base -> base + size <= max_dma_chan ->
  dma_reach base size hist w -> live (w_handle w id) -> owns (w_handle w id) c ->
  base <= c < base + size /\ 0 <= c < max_dma_chan.
Proof. exact (@dma_channels_in_pool base size hist w id c). Qed.
Print Assumptions C24_dma_channels_in_pool.

(** from DmaProofs.v *)
Theorem C24_dma_pool_refuted : exists p p' h p'',
  set_num_dma_ch 0 8 dma_pool_init = Some p /\ set_num_dma_ch 0 4 p = Some p'
  /\ acquire_handle 5 p' = Some (Some h, p'') /\ owns h 4 /\ ~ (dp_base p' <= 4 < dp_base p' + dp_size p').
Proof. exact (dma_pool_refuted). Qed.
Print Assumptions C24_dma_pool_refuted.

(** * C25: A transfer's callback fires exactly once, with its own cookie *)

(** from DmaProofs.v *)
Theorem C25_dma_callback_once base size hist w id : 0 <= base -> base + size <= max_dma_chan ->
  dma_reach base size hist w -> live (w_handle w id) -> last_reg hist id <> None ->
  exists w' r, dma_step (OpStart id) w = Some w' /\ last_reg hist id = Some r
  /\ w_log w' = (id, r) :: w_log w
  /\ mov_isdone (w_handle w' id) = true /\ mov_wait (w_handle w' id) = Some (w_handle w' id).
Proof. exact (@dma_callback_once base size hist w id). Qed.
Print Assumptions C25_dma_callback_once.

(** from DmaProofs.v *)
Theorem C25_dma_no_spurious_callback o w w' : dma_step o w = Some w' -> (forall id, o <> OpStart id) -> w_log w' = w_log w.
Proof. exact (@dma_no_spurious_callback o w w'). Qed.
Print Assumptions C25_dma_no_spurious_callback.

(** from DmaProofs.v *)
Theorem C25_dma_callback_count base size hist w : 0 <= base -> base + size <= max_dma_chan ->
  dma_reach base size hist w -> length (w_log w) = length (filter is_start hist).
Proof. exact (@dma_callback_count base size hist w). Qed.
Print Assumptions C25_dma_callback_count.

(** from DmaProofs.v *)
Theorem C25_dma_sync_callback_refuted :
  option_map w_log (dma_go 0 4 [OpAcquire 0 1; OpRegister 0 7 42]) = Some []
  /\ option_map (fun r => (fst r, w_log (snd r)))
       (do w <- dma_go 0 4 [OpAcquire 0 1; OpRegister 0 7 42]; sync_control w 1) = Some (true, [(1%nat, (7, 42))]).
Proof. exact (dma_sync_callback_refuted). Qed.
Print Assumptions C25_dma_sync_callback_refuted.

(** from DmaProofs.v *)
Theorem C25_dma_stale_callback_refuted :
  option_map w_log (dma_go 0 4 [OpAcquire 0 1; OpRegister 0 7 42; OpRelease 0; OpAcquire 1 1; OpPrepare 1; OpStart 1])
  = Some [(1%nat, (7, 42))].
Proof. exact (dma_stale_callback_refuted). Qed.
Print Assumptions C25_dma_stale_callback_refuted.

(** * C26: ArgMax returns the k largest elements *)

(** from ArgMaxProofs.v *)
Theorem C26_argmax_correct tin tout axis topk min mout :
  fits32 tin -> fits32 tout -> length (t_shape tout) = 2%nat -> backed tin min -> backed tout mout ->
  chk_argmax tin tout axis topk = ST_OK ->
  exists m', argmax_run tin tout axis topk min mout = Some m'
  /\ (forall s, 0 <= s < nth 0 (t_shape tout) 0 -> exists R, Z.of_nat (length R) = topk
        /\ (forall i, 0 <= i < topk -> m' (t_data tout + addr (t_stride tout) [s; i]) = Some (nth (Z.to_nat i) R 0))
        /\ am_result tin min axis s R)
  /\ (forall a, (forall c, valid (t_shape tout) c -> a <> t_data tout + addr (t_stride tout) c) -> m' a = mout a).
Proof. exact (@argmax_correct tin tout axis topk min mout). Qed.
Print Assumptions C26_argmax_correct.

(** * C27: Max pooling computes window maxima *)

(** from PoolKernels.v *)
Theorem C27_maxpool_correct mi m tin tout c fixed :
  chk_pool tin tout c fixed = ST_OK -> pool_fits tin tout c -> pool_padding_small tin tout c ->
  fits32 tin -> fits32 tout -> backed tin mi -> backed tout m ->
  exists m', maxpool mi fixed tin tout c m = Some m'
    /\ (forall H W ch, valid (t_shape tout) [H; W; ch] ->
          exists v, hwc_elem m' tout H W ch = Some v /\ is_window_max mi tin c H W ch v)
    /\ frame_ok tout m m'.
Proof. exact (@maxpool_correct mi m tin tout c fixed). Qed.
Print Assumptions C27_maxpool_correct.

(** * C28: Average pooling is the rounded mean of the valid window *)

(** from PoolKernels.v *)
Theorem C28_avepool_fx_correct rm nacc no mi m tin tout c fixed fi fo :
  chk_pool tin tout c fixed = ST_OK -> pool_fits tin tout c -> pool_padding_small tin tout c ->
  fits32 tin -> fits32 tout -> backed tin mi -> backed tout m ->
  ave_fx_ok nacc no (pl_kw c * pl_kh c) fi fo -> mem_bits no mi ->
  exists m', avepool_fx rm nacc no mi fixed tin tout c fi fo m = Some m'
    /\ (forall H W ch, valid (t_shape tout) [H; W; ch] ->
          0 < window_count tin c H W /\
          let exact := (window_mean mi tin c H W ch * pow2q (fo - fi))%Q in
          exists v, hwc_elem m' tout H W ch = Some v
            /\ within ((1 # 2) + Qabs exact * (1 # 8192)) (inject_Z v) (qclamp (inject_Z (smin no)) (inject_Z (smax no)) exact))
    /\ frame_ok tout m m'.
Proof. exact (@avepool_fx_correct rm nacc no mi m tin tout c fixed fi fo). Qed.
Print Assumptions C28_avepool_fx_correct.

(** from PoolKernels.v *)
Theorem C28_avepool_sa8_correct rm mul16 mi m tin tout c fixed qi qo :
  chk_pool tin tout c fixed = ST_OK -> pool_fits tin tout c -> pool_padding_small tin tout c ->
  fits32 tin -> fits32 tout -> backed tin mi -> backed tout m ->
  ave_sa_ok mul16 (pl_kw c * pl_kh c) qi qo -> mem_bits 8 mi ->
  exists m', avepool_sa8 rm mul16 mi fixed tin tout c qi qo m = Some m'
    /\ (forall H W ch, valid (t_shape tout) [H; W; ch] ->
          0 < window_count tin c H W /\
          let mean := window_mean mi tin c H W ch in
          let ratio := scale_ratio qi qo in
          let exact := (inject_Z (q_zp qo) + ratio * (mean - inject_Z (q_zp qi)))%Q in
          exists v, hwc_elem m' tout H W ch = Some v
            /\ within (1 + ratio * Qabs mean * ave_rel mul16 + ratio * (1 # 128)) (inject_Z v) (qclamp (- (128)) 127 exact))
    /\ frame_ok tout m m'.
Proof. exact (@avepool_sa8_correct rm mul16 mi m tin tout c fixed qi qo). Qed.
Print Assumptions C28_avepool_sa8_correct.

(** from PoolKernels.v *)
Theorem C28_avepool_fx8_area_refuted : exists tin tout c mi m,
  chk_pool tin tout c 0 = ST_OK /\ pool_fits tin tout c /\ pool_padding_small tin tout c
  /\ fits32 tin /\ fits32 tout /\ backed tin mi /\ backed tout m /\ mem_bits 8 mi
  /\ avepool_fx RM_UP 32 8 mi 0 tin tout c 7 7 m = None.
Proof. exact (avepool_fx8_area_refuted). Qed.
Print Assumptions C28_avepool_fx8_area_refuted.

(** * C29: Pooling touches only its tensors *)

(** from PoolKernels.v *)
Theorem C29_maxpool_correct mi m tin tout c fixed :
  chk_pool tin tout c fixed = ST_OK -> pool_fits tin tout c -> pool_padding_small tin tout c ->
  fits32 tin -> fits32 tout -> backed tin mi -> backed tout m ->
  exists m', maxpool mi fixed tin tout c m = Some m'
    /\ (forall H W ch, valid (t_shape tout) [H; W; ch] ->
          exists v, hwc_elem m' tout H W ch = Some v /\ is_window_max mi tin c H W ch v)
    /\ frame_ok tout m m'.
Proof. exact (@maxpool_correct mi m tin tout c fixed). Qed.
Print Assumptions C29_maxpool_correct.

(** from PoolKernels.v *)
Theorem C29_avepool_fx_correct rm nacc no mi m tin tout c fixed fi fo :
  chk_pool tin tout c fixed = ST_OK -> pool_fits tin tout c -> pool_padding_small tin tout c ->
  fits32 tin -> fits32 tout -> backed tin mi -> backed tout m ->
  ave_fx_ok nacc no (pl_kw c * pl_kh c) fi fo -> mem_bits no mi ->
  exists m', avepool_fx rm nacc no mi fixed tin tout c fi fo m = Some m'
    /\ (forall H W ch, valid (t_shape tout) [H; W; ch] ->
          0 < window_count tin c H W /\
          let exact := (window_mean mi tin c H W ch * pow2q (fo - fi))%Q in
          exists v, hwc_elem m' tout H W ch = Some v
            /\ within ((1 # 2) + Qabs exact * (1 # 8192)) (inject_Z v) (qclamp (inject_Z (smin no)) (inject_Z (smax no)) exact))
    /\ frame_ok tout m m'.
Proof. exact (@avepool_fx_correct rm nacc no mi m tin tout c fixed fi fo). Qed.
Print Assumptions C29_avepool_fx_correct.

(** from PoolKernels.v *)
Theorem C29_avepool_sa8_correct rm mul16 mi m tin tout c fixed qi qo :
  chk_pool tin tout c fixed = ST_OK -> pool_fits tin tout c -> pool_padding_small tin tout c ->
  fits32 tin -> fits32 tout -> backed tin mi -> backed tout m ->
  ave_sa_ok mul16 (pl_kw c * pl_kh c) qi qo -> mem_bits 8 mi ->
  exists m', avepool_sa8 rm mul16 mi fixed tin tout c qi qo m = Some m'
    /\ (forall H W ch, valid (t_shape tout) [H; W; ch] ->
          0 < window_count tin c H W /\
          let mean := window_mean mi tin c H W ch in
          let ratio := scale_ratio qi qo in
          let exact := (inject_Z (q_zp qo) + ratio * (mean - inject_Z (q_zp qi)))%Q in
          exists v, hwc_elem m' tout H W ch = Some v
            /\ within (1 + ratio * Qabs mean * ave_rel mul16 + ratio * (1 # 128)) (inject_Z v) (qclamp (- (128)) 127 exact))
    /\ frame_ok tout m m'.
Proof. exact (@avepool_sa8_correct rm mul16 mi m tin tout c fixed qi qo). Qed.
Print Assumptions C29_avepool_sa8_correct.

(** from PoolKernels.v *)
Theorem C29_sumpool_correct mi m tin tout c fixed :
  chk_pool tin tout c fixed = ST_OK -> pool_fits tin tout c -> pool_padding_small tin tout c ->
  fits32 tin -> fits32 tout -> backed tin mi -> backed tout m -> mem_bits 8 mi ->
  exists m', sumpool mi fixed tin tout c m = Some m'
    /\ (forall H W ch, valid (t_shape tout) [H; W; ch] -> hwc_elem m' tout H W ch = Some (window_sum mi tin c H W ch))
    /\ frame_ok tout m m'.
Proof. exact (@sumpool_correct mi m tin tout c fixed). Qed.
Print Assumptions C29_sumpool_correct.

(** from PoolKernels.v *)
Theorem C29_pool_padding_refuted : exists tin tout c mi m,
  chk_pool tin tout c 0 = ST_OK /\ pool_fits tin tout c /\ fits32 tin /\ fits32 tout /\ backed tin mi /\ backed tout m
  /\ maxpool mi 0 tin tout c m = None.
Proof. exact (pool_padding_refuted). Qed.
Print Assumptions C29_pool_padding_refuted.

(** from PoolKernels.v *)
Theorem C29_pool_padding_before_refuted : exists tin tout c mi m,
  chk_pool tin tout c 0 = ST_OK /\ pool_fits tin tout c /\ fits32 tin /\ fits32 tout /\ backed tin mi /\ backed tout m
  /\ maxpool mi 0 tin tout c m = None.
Proof. exact (pool_padding_before_refuted). Qed.
Print Assumptions C29_pool_padding_before_refuted.

(** * C30: FX convolution equals the mathematical convolution *)

(** from ConvTheorems.v *)
Theorem C30_conv2d_fx_correct rm full na nb no fin fw fb fout fixed mi mw mb m tin tw tb tout c :
  chk_conv2d tin tw tb tout c fixed = ST_OK -> conv_fits tin tw tout c ->
  fits32 tin -> fits32 tw -> fits32 tb -> fits32 tout -> backed tin mi -> backed tw mw -> backed tb mb -> backed tout m ->
  mem_bits na mi -> mem_bits nb mw -> mem_bits nb mb ->
  1 <= na -> (no = 8 \/ no = 16) -> (nb = 16 -> no = 16) -> in_bits 8 fout -> (cv_relu c = RELU_1 -> fout < 30) ->
  fx_acc_ok na nb no (dim tin 2 * dim tw 0 * dim tw 1) fin fw fb fout ->
  exists m', conv2d rm full (fx_quant nb no fin fw fb fout) no (fx_qpar fout) fixed mi mw (Some (mb, t_data tb)) tin tw tout c m = Some m'
    /\ fx_results rm no (cv_relu c) fin fw fb fout (conv_sum mi mw tin tw c 0 0) (at1 mb tb) tout m m'.
Proof. exact (@conv2d_fx_correct rm full na nb no fin fw fb fout fixed mi mw mb m tin tw tb tout c). Qed.
Print Assumptions C30_conv2d_fx_correct.

(** from ConvTheorems.v *)
Theorem C30_conv2d_overflow_refuted :
  ~ (forall rm full tin tw tb tout c mi mw mb m, chk_conv2d tin tw tb tout c 0 = ST_OK -> conv_fits tin tw tout c ->
      fits32 tin -> fits32 tw -> fits32 tb -> fits32 tout -> backed tin mi -> backed tw mw -> backed tb mb -> backed tout m ->
      mem_bits 16 mi -> mem_bits 8 mw -> mem_bits 8 mb ->
      conv2d rm full (fx_quant 8 16 15 7 7 15) 16 (fx_qpar 15) 0 mi mw (Some (mb, t_data tb)) tin tw tout c m <> None).
Proof. exact (conv2d_overflow_refuted). Qed.
Print Assumptions C30_conv2d_overflow_refuted.

(** * C31: SA8 convolution treats padding as the input zero point *)

(** from ConvTheorems.v *)
Theorem C31_conv2d_sa8_correct rm i o wdim wzp wsc wfr fixed mi mw mb m tin tw tb tout c :
  chk_conv2d tin tw tb tout c fixed = ST_OK -> chk_quant_sa8 i o wdim (dim tw 3) wzp wsc = true -> conv_fits tin tw tout c ->
  fits32 tin -> fits32 tw -> fits32 tb -> fits32 tout -> backed tin mi -> backed tw mw -> backed tb mb -> backed tout m ->
  mem_bits 8 mi -> mem_bits 8 mw -> mem_bits 32 mb ->
  sa_fields i -> sa_fields o -> (forall k, wsc k <= 32767) -> relu_frac_ok (cv_relu c) o ->
  (forall oc, 0 <= oc < dim tw 3 -> sa8_acc_ok (dim tin 2 * dim tw 0 * dim tw 1) (at1 mb tb oc)) ->
  exists m', conv2d rm true (Q_s8 (define_s8_params rm i o wdim wzp wsc wfr)) 8 o fixed mi mw (Some (mb, t_data tb)) tin tw tout c m = Some m'
    /\ sa8_results (cv_relu c) i o wdim wsc wfr (conv_sum mi mw tin tw c (q_zp i) 0) (at1 mb tb) tout m m'.
Proof. exact (@conv2d_sa8_correct rm i o wdim wzp wsc wfr fixed mi mw mb m tin tw tb tout c). Qed.
Print Assumptions C31_conv2d_sa8_correct.

(** * C32: Convolution stays inside its tensors *)

(** from ConvTheorems.v *)
Theorem C32_conv_stays_inside rm full q no oq fixed mi mw mb m tin tw tb tout c :
  scheme_ok q -> conv_fits tin tw tout c ->
  fits32 tin -> fits32 tw -> fits32 tb -> fits32 tout -> backed tin mi -> backed tw mw -> backed tb mb -> backed tout m ->
  (chk_conv2d tin tw tb tout c fixed = ST_OK ->
     exists m', conv2d rm full q no oq fixed (zeroed mi) (zeroed mw) (Some (mb, t_data tb)) tin tw tout c m = Some m' /\ frame_ok tout m m')
  /\ (chk_depthwise tin tw tb tout c fixed = ST_OK ->
     exists m', depthwise_conv2d rm full q no oq fixed (zeroed mi) (zeroed mw) (Some (mb, t_data tb)) tin tw tout c m = Some m' /\ frame_ok tout m m')
  /\ (chk_group tin tw tb tout c fixed = Some ST_OK ->
     exists m', group_conv2d rm full q no oq fixed (zeroed mi) (zeroed mw) mb (t_data tb) tin tw tout c m = Some m' /\ frame_ok tout m m').
Proof. exact (@conv_stays_inside rm full q no oq fixed mi mw mb m tin tw tb tout c). Qed.
Print Assumptions C32_conv_stays_inside.

(** from ConvTheorems.v *)
Theorem C32_conv2d_fx_correct rm full na nb no fin fw fb fout fixed mi mw mb m tin tw tb tout c :
  chk_conv2d tin tw tb tout c fixed = ST_OK -> conv_fits tin tw tout c ->
  fits32 tin -> fits32 tw -> fits32 tb -> fits32 tout -> backed tin mi -> backed tw mw -> backed tb mb -> backed tout m ->
  mem_bits na mi -> mem_bits nb mw -> mem_bits nb mb ->
  1 <= na -> (no = 8 \/ no = 16) -> (nb = 16 -> no = 16) -> in_bits 8 fout -> (cv_relu c = RELU_1 -> fout < 30) ->
  fx_acc_ok na nb no (dim tin 2 * dim tw 0 * dim tw 1) fin fw fb fout ->
  exists m', conv2d rm full (fx_quant nb no fin fw fb fout) no (fx_qpar fout) fixed mi mw (Some (mb, t_data tb)) tin tw tout c m = Some m'
    /\ fx_results rm no (cv_relu c) fin fw fb fout (conv_sum mi mw tin tw c 0 0) (at1 mb tb) tout m m'.
Proof. exact (@conv2d_fx_correct rm full na nb no fin fw fb fout fixed mi mw mb m tin tw tb tout c). Qed.
Print Assumptions C32_conv2d_fx_correct.

(** from ConvTheorems.v *)
Theorem C32_conv2d_sa8_correct rm i o wdim wzp wsc wfr fixed mi mw mb m tin tw tb tout c :
  chk_conv2d tin tw tb tout c fixed = ST_OK -> chk_quant_sa8 i o wdim (dim tw 3) wzp wsc = true -> conv_fits tin tw tout c ->
  fits32 tin -> fits32 tw -> fits32 tb -> fits32 tout -> backed tin mi -> backed tw mw -> backed tb mb -> backed tout m ->
  mem_bits 8 mi -> mem_bits 8 mw -> mem_bits 32 mb ->
  sa_fields i -> sa_fields o -> (forall k, wsc k <= 32767) -> relu_frac_ok (cv_relu c) o ->
  (forall oc, 0 <= oc < dim tw 3 -> sa8_acc_ok (dim tin 2 * dim tw 0 * dim tw 1) (at1 mb tb oc)) ->
  exists m', conv2d rm true (Q_s8 (define_s8_params rm i o wdim wzp wsc wfr)) 8 o fixed mi mw (Some (mb, t_data tb)) tin tw tout c m = Some m'
    /\ sa8_results (cv_relu c) i o wdim wsc wfr (conv_sum mi mw tin tw c (q_zp i) 0) (at1 mb tb) tout m m'.
Proof. exact (@conv2d_sa8_correct rm i o wdim wzp wsc wfr fixed mi mw mb m tin tw tb tout c). Qed.
Print Assumptions C32_conv2d_sa8_correct.

(** * C33: Depthwise convolution is per-channel convolution *)

(** from ConvTheorems.v *)
Theorem C33_depthwise_fx_correct rm full na nb no fin fw fb fout fixed mi mw mb m tin tw tb tout c :
  chk_depthwise tin tw tb tout c fixed = ST_OK -> conv_fits tin tw tout c ->
  fits32 tin -> fits32 tw -> fits32 tb -> fits32 tout -> backed tin mi -> backed tw mw -> backed tb mb -> backed tout m ->
  mem_bits na mi -> mem_bits nb mw -> mem_bits nb mb ->
  1 <= na -> (no = 8 \/ no = 16) -> (nb = 16 -> no = 16) -> in_bits 8 fout -> (cv_relu c = RELU_1 -> fout < 30) ->
  fx_acc_ok na nb no (dim tw 0 * dim tw 1) fin fw fb fout ->
  exists m', depthwise_conv2d rm full (fx_quant nb no fin fw fb fout) no (fx_qpar fout) fixed mi mw (Some (mb, t_data tb)) tin tw tout c m = Some m'
    /\ fx_results rm no (cv_relu c) fin fw fb fout (depthwise_sum mi mw tin tw c 0 0) (at1 mb tb) tout m m'.
Proof. exact (@depthwise_fx_correct rm full na nb no fin fw fb fout fixed mi mw mb m tin tw tb tout c). Qed.
Print Assumptions C33_depthwise_fx_correct.

(** from ConvTheorems.v *)
Theorem C33_depthwise_sa8_correct rm i o wdim wzp wsc wfr fixed mi mw mb m tin tw tb tout c :
  chk_depthwise tin tw tb tout c fixed = ST_OK -> chk_quant_sa8 i o wdim (dim tw 3) wzp wsc = true -> conv_fits tin tw tout c ->
  fits32 tin -> fits32 tw -> fits32 tb -> fits32 tout -> backed tin mi -> backed tw mw -> backed tb mb -> backed tout m ->
  mem_bits 8 mi -> mem_bits 8 mw -> mem_bits 32 mb ->
  sa_fields i -> sa_fields o -> (forall k, wsc k <= 32767) -> relu_frac_ok (cv_relu c) o ->
  (forall oc, 0 <= oc < dim tw 3 -> sa8_acc_ok (dim tw 0 * dim tw 1) (at1 mb tb oc)) ->
  exists m', depthwise_conv2d rm true (Q_s8 (define_s8_params rm i o wdim wzp wsc wfr)) 8 o fixed mi mw (Some (mb, t_data tb)) tin tw tout c m = Some m'
    /\ sa8_results (cv_relu c) i o wdim wsc wfr (depthwise_sum mi mw tin tw c (q_zp i) 0) (at1 mb tb) tout m m'.
Proof. exact (@depthwise_sa8_correct rm i o wdim wzp wsc wfr fixed mi mw mb m tin tw tb tout c). Qed.
Print Assumptions C33_depthwise_sa8_correct.

(** * C34: Group convolution is convolution of channel groups *)

(** from ConvTheorems.v *)
Theorem C34_group_conv2d_fx_correct rm full na nb no fin fw fb fout fixed mi mw mb m tin tw tb tout c :
  chk_group tin tw tb tout c fixed = Some ST_OK -> conv_fits tin tw tout c ->
  fits32 tin -> fits32 tw -> fits32 tb -> fits32 tout -> backed tin mi -> backed tw mw -> backed tb mb -> backed tout m ->
  mem_bits na mi -> mem_bits nb mw -> mem_bits nb mb ->
  1 <= na -> (no = 8 \/ no = 16) -> (nb = 16 -> no = 16) -> in_bits 8 fout -> (cv_relu c = RELU_1 -> fout < 30) ->
  fx_acc_ok na nb no (dim tw 2 * dim tw 0 * dim tw 1) fin fw fb fout ->
  exists m', group_conv2d rm full (fx_quant nb no fin fw fb fout) no (fx_qpar fout) fixed mi mw mb (t_data tb) tin tw tout c m = Some m'
    /\ fx_results rm no (cv_relu c) fin fw fb fout (group_sum mi mw tin tw c 0 0) (at1 mb tb) tout m m'.
Proof. exact (@group_conv2d_fx_correct rm full na nb no fin fw fb fout fixed mi mw mb m tin tw tb tout c). Qed.
Print Assumptions C34_group_conv2d_fx_correct.

(** from ConvTheorems.v *)
Theorem C34_group_conv2d_sa8_correct rm i o wdim wzp wsc wfr fixed mi mw mb m tin tw tb tout c :
  chk_group tin tw tb tout c fixed = Some ST_OK -> chk_quant_sa8 i o wdim (dim tw 3) wzp wsc = true -> conv_fits tin tw tout c ->
  fits32 tin -> fits32 tw -> fits32 tb -> fits32 tout -> backed tin mi -> backed tw mw -> backed tb mb -> backed tout m ->
  mem_bits 8 mi -> mem_bits 8 mw -> mem_bits 32 mb ->
  sa_fields i -> sa_fields o -> (forall k, wsc k <= 32767) -> relu_frac_ok (cv_relu c) o ->
  (forall oc, 0 <= oc < dim tw 3 -> sa8_acc_ok (dim tw 2 * dim tw 0 * dim tw 1) (at1 mb tb oc)) ->
  exists m', group_conv2d rm true (Q_s8 (define_s8_params rm i o wdim wzp wsc wfr)) 8 o fixed mi mw mb (t_data tb) tin tw tout c m = Some m'
    /\ sa8_results (cv_relu c) i o wdim wsc wfr (group_sum mi mw tin tw c (q_zp i) 0) (at1 mb tb) tout m m'.
Proof. exact (@group_conv2d_sa8_correct rm i o wdim wzp wsc wfr fixed mi mw mb m tin tw tb tout c). Qed.
Print Assumptions C34_group_conv2d_sa8_correct.

(** from ConvTheorems.v *)
Theorem C34_chk_group_division_refuted :
  ~ (forall tin tw tb tout c fixed, fits32 tin -> fits32 tw -> fits32 tb -> fits32 tout -> conv_fits tin tw tout c ->
      chk_group tin tw tb tout c fixed <> None).
Proof. exact (chk_group_division_refuted). Qed.
Print Assumptions C34_chk_group_division_refuted.

(** * C35: Transposed convolution equals its scatter definition *)

(** from TransConvTheorems.v *)
Theorem C35_transpose_conv2d_fx_correct rm full na nb no fin fw fb fout mi mw mb m tin tw tb tout c :
  chk_transpose tin tw tb tout c = ST_OK -> conv_fits tin tw tout c ->
  fits32 tin -> fits32 tw -> fits32 tb -> fits32 tout -> backed tin mi -> backed tw mw -> backed tb mb -> backed tout m ->
  mem_bits na mi -> mem_bits nb mw -> mem_bits nb mb ->
  1 <= na -> (no = 8 \/ no = 16) -> (nb = 16 -> no = 16) -> in_bits 8 fout -> (cv_relu c = RELU_1 -> fout < 30) ->
  fx_acc_ok na nb no (dim tin 2 * dim tw 0 * dim tw 1) fin fw fb fout ->
  exists m', transpose_conv2d rm full (fx_quant nb no fin fw fb fout) no (fx_qpar fout) mi mw (Some (mb, t_data tb)) tin tw tout c m = Some m'
    /\ fx_results rm no (cv_relu c) fin fw fb fout (transpose_sum mi mw tin tw c 0 0) (at1 mb tb) tout m m'.
Proof. exact (@transpose_conv2d_fx_correct rm full na nb no fin fw fb fout mi mw mb m tin tw tb tout c). Qed.
Print Assumptions C35_transpose_conv2d_fx_correct.

(** from TransConvTheorems.v *)
Theorem C35_transpose_conv2d_sa8_correct rm i o wdim wzp wsc wfr mi mw mb m tin tw tb tout c :
  chk_transpose tin tw tb tout c = ST_OK -> chk_quant_sa8 i o wdim (dim tw 3) wzp wsc = true -> conv_fits tin tw tout c ->
  fits32 tin -> fits32 tw -> fits32 tb -> fits32 tout -> backed tin mi -> backed tw mw -> backed tb mb -> backed tout m ->
  mem_bits 8 mi -> mem_bits 8 mw -> mem_bits 32 mb ->
  sa_fields i -> sa_fields o -> (forall k, wsc k <= 32767) -> relu_frac_ok (cv_relu c) o ->
  (forall oc, 0 <= oc < dim tw 3 -> sa8_acc_ok (dim tin 2 * dim tw 0 * dim tw 1) (at1 mb tb oc)) ->
  exists m', transpose_conv2d rm true (Q_s8 (define_s8_params rm i o wdim wzp wsc wfr)) 8 o mi mw (Some (mb, t_data tb)) tin tw tout c m = Some m'
    /\ sa8_results (cv_relu c) i o wdim wsc wfr (transpose_sum mi mw tin tw c (q_zp i) 0) (at1 mb tb) tout m m'.
Proof. exact (@transpose_conv2d_sa8_correct rm i o wdim wzp wsc wfr mi mw mb m tin tw tb tout c). Qed.
Print Assumptions C35_transpose_conv2d_sa8_correct.

(** from TransConvTheorems.v *)
Theorem C35_transpose_stays_inside rm full q no oq mi mw mb m tin tw tb tout c :
  scheme_ok q -> chk_transpose tin tw tb tout c = ST_OK -> conv_fits tin tw tout c ->
  fits32 tin -> fits32 tw -> fits32 tb -> fits32 tout -> backed tin mi -> backed tw mw -> backed tb mb -> backed tout m ->
  exists m', transpose_conv2d rm full q no oq (zeroed mi) (zeroed mw) (Some (mb, t_data tb)) tin tw tout c m = Some m' /\ frame_ok tout m m'.
Proof. exact (@transpose_stays_inside rm full q no oq mi mw mb m tin tw tb tout c). Qed.
Print Assumptions C35_transpose_stays_inside.

(** * C36: Fully connected equals matrix-vector product *)

(** from FullyConnProofs.v *)
Theorem C36_fully_connected_fx_correct rm full na nb no fin fw fb fout relu mi mw mb m tin tw tb tout :
  chk_fully_connected tin tw tb tout = ST_OK ->
  fits32 tin -> fits32 tw -> fits32 tb -> fits32 tout -> backed tin mi -> backed tw mw -> backed tb mb -> backed tout m ->
  mem_bits na mi -> mem_bits nb mw -> mem_bits nb mb ->
  1 <= na -> (no = 8 \/ no = 16) -> (nb = 16 -> no = 16) -> in_bits 8 fout -> (relu = RELU_1 -> fout < 30) ->
  fx_acc_ok na nb no (prod (t_shape tin)) fin fw fb fout ->
  exists m', fully_connected rm full (fx_quant nb no fin fw fb fout) false no (fx_qpar fout) relu mi mw (Some (mb, t_data tb)) tin tw tout m = Some m'
    /\ fx_results1 rm no relu fin fw fb fout (fc_sum mi mw tin tw 0 0) (at1 mb tb) tout m m'.
Proof. exact (@fully_connected_fx_correct rm full na nb no fin fw fb fout relu mi mw mb m tin tw tb tout). Qed.
Print Assumptions C36_fully_connected_fx_correct.

(** from FullyConnProofs.v *)
Theorem C36_fully_connected_sa8_correct rm ext i o wdim wzp wsc wfr relu mi mw mb m tin tw tb tout :
  chk_fully_connected tin tw tb tout = ST_OK -> chk_quant_fc i o wdim (dim tw 1) wzp wsc = true ->
  fits32 tin -> fits32 tw -> fits32 tb -> fits32 tout -> backed tin mi -> backed tw mw -> backed tb mb -> backed tout m ->
  mem_bits 8 mi -> mem_bits 8 mw -> mem_bits 32 mb ->
  sa_fields i -> sa_fields o -> (forall k, wsc k <= 32767) -> relu_frac_ok relu o ->
  (forall oc, 0 <= oc < dim tw 1 -> sa8_acc_ok (prod (t_shape tin)) (at1 mb tb oc)) ->
  exists m', fully_connected rm true (Q_s8 (define_s8_params rm i o wdim wzp wsc wfr)) ext 8 o relu mi mw (Some (mb, t_data tb)) tin tw tout m = Some m'
    /\ sa8_results1 relu i o wdim wsc wfr (fc_sum mi mw tin tw (if ext then 0 else q_zp i) 0) (at1 mb tb) tout m m'.
Proof. exact (@fully_connected_sa8_correct rm ext i o wdim wzp wsc wfr relu mi mw mb m tin tw tb tout). Qed.
Print Assumptions C36_fully_connected_sa8_correct.

(** from FullyConnProofs.v *)
Theorem C36_fully_connected_stays_inside rm full q ext no oq relu mi mw mb m tin tw tb tout :
  scheme_ok q -> chk_fully_connected tin tw tb tout = ST_OK ->
  fits32 tin -> fits32 tw -> fits32 tb -> fits32 tout -> backed tin mi -> backed tw mw -> backed tb mb -> backed tout m ->
  exists m', fully_connected rm full q ext no oq relu (zeroed mi) (zeroed mw) (Some (mb, t_data tb)) tin tw tout m = Some m' /\ frame_ok tout m m'.
Proof. exact (@fully_connected_stays_inside rm full q ext no oq relu mi mw mb m tin tw tb tout). Qed.
Print Assumptions C36_fully_connected_stays_inside.

(** from FullyConnProofs.v *)
Theorem C36_fully_connected_overflow_refuted :
  ~ (forall rm full mi mw mb m tin tw tb tout, chk_fully_connected tin tw tb tout = ST_OK ->
      fits32 tin -> fits32 tw -> fits32 tb -> fits32 tout -> backed tin mi -> backed tw mw -> backed tb mb -> backed tout m ->
      mem_bits 16 mi -> mem_bits 8 mw -> mem_bits 8 mb ->
      fully_connected rm full (fx_quant 8 16 15 7 7 15) false 16 (fx_qpar 15) RELU_NONE mi mw (Some (mb, t_data tb)) tin tw tout m <> None).
Proof. exact (fully_connected_overflow_refuted). Qed.
Print Assumptions C36_fully_connected_overflow_refuted.

(** * C37: Element-wise kernels broadcast scalars and saturate *)

(** from EltwiseProofs.v *)
Theorem C37_eltwise_fx_correct rm op n t1 t2 tout imm1 imm2 f1 f2 fo m :
  n = 8 \/ n = 16 -> chk_eltwise t1 t2 tout = ST_OK -> elt_formats op n f1 f2 fo ->
  operand_ok t1 m -> operand_ok t2 m -> t_rank tout <> 0 -> fits32 tout -> backed tout m ->
  no_hazard t1 tout -> no_hazard t2 tout ->
  mem_bits n m -> in_bits n imm1 -> in_bits n imm2 ->
  exists m', eltwise (elt_fx rm op n n (elt_params_fx op n f1 f2 fo)) t1 t2 tout imm1 imm2 m = Some m'
    /\ (forall c, valid (t_shape tout) c ->
         m' (t_data tout + addr (t_stride tout) c) = Some (elt_exact rm op n f1 f2 fo (elt_arg m t1 imm1 c) (elt_arg m t2 imm2 c)))
    /\ frame_ok tout m m'.
Proof. exact (@eltwise_fx_correct rm op n t1 t2 tout imm1 imm2 f1 f2 fo m). Qed.
Print Assumptions C37_eltwise_fx_correct.

(** from EltwiseProofs.v *)
Theorem C37_elt_exact_nearest rm n F fo v : fo <= F -> in_bits n (rnd rm v (F - fo)) ->
  nearest rm v (F - fo) (to_format rm n F fo v).
Proof. exact (@elt_exact_nearest rm n F fo v). Qed.
Print Assumptions C37_elt_exact_nearest.

(** from EltwiseProofs.v *)
Theorem C37_eltwise_inplace_ok t tout : chk_tensor tout = ST_OK -> fits32 tout ->
  t_data t = t_data tout -> t_stride t = t_stride tout -> no_hazard t tout.
Proof. exact (@eltwise_inplace_ok t tout). Qed.
Print Assumptions C37_eltwise_inplace_ok.

(** from EltwiseProofs.v *)
Theorem C37_eltwise_align_refuted : exists rm a b f1 f2 fo, in_bits 16 a /\ in_bits 16 b /\ -128 <= f1 <= 127 /\ -128 <= f2 <= 127 /\ -128 <= fo <= 127
  /\ elt_exact rm ELT_ADD 16 f1 f2 fo a b = 32767 /\ elt_fx rm ELT_ADD 16 16 (elt_params_fx ELT_ADD 16 f1 f2 fo) a b = 2048.
Proof. exact (eltwise_align_refuted). Qed.
Print Assumptions C37_eltwise_align_refuted.

(** from EltwiseProofs.v *)
Theorem C37_eltwise_shift_refuted : exists rm a b f1 f2 fo, in_bits 16 a /\ in_bits 16 b /\ -128 <= f1 <= 127 /\ -128 <= f2 <= 127 /\ -128 <= fo <= 127
  /\ elt_exact rm ELT_MUL 16 f1 f2 fo a b = 0 /\ elt_fx rm ELT_MUL 16 16 (elt_params_fx ELT_MUL 16 f1 f2 fo) a b = 1.
Proof. exact (eltwise_shift_refuted). Qed.
Print Assumptions C37_eltwise_shift_refuted.

(** from EltwiseProofs.v *)
Theorem C37_eltwise_max_round_refuted : exists a b f1 fo, in_bits 8 a /\ in_bits 8 b
  /\ to_format RM_UP 8 f1 fo (Z.max a b) = 64 /\ elt_fx RM_UP ELT_MAX 8 8 (elt_params_fx ELT_MAX 8 f1 f1 fo) a b = 63.
Proof. exact (eltwise_max_round_refuted). Qed.
Print Assumptions C37_eltwise_max_round_refuted.

(** from EltwiseProofs.v *)
Theorem C37_eltwise_scalar_output_refuted : exists t1 t2 tout tout0, t_rank t1 = 1 /\ t_rank t2 = 0 /\ t_shape tout = t_shape t1
  /\ t_rank tout0 = 0 /\ chk_eltwise t1 t2 tout = ST_SHAPE_MISMATCH /\ chk_eltwise t1 t2 tout0 = ST_OK.
Proof. exact (eltwise_scalar_output_refuted). Qed.
Print Assumptions C37_eltwise_scalar_output_refuted.

(** * C38: ReLU family kernels compute their function *)

(** from ReluProofs.v *)
Theorem C38_relu_correct n t q tin tout m :
  n = 8 \/ n = 16 -> 0 < q_scale q <= 32767 -> in_bits 8 (q_frac q) -> in_bits n (q_zp q) -> relu_frac_ok t q ->
  chk_relu tin tout = ST_OK -> t_rank tin <> 0 -> fits32 tin -> fits32 tout -> backed tin m -> backed tout m -> unary_ok tin tout ->
  mem_bits n m ->
  exists m', relu n t q tin tout m = Some m'
    /\ (forall c, valid (t_shape tout) c -> exists v, m' (t_data tout + addr (t_stride tout) c) = Some v
         /\ relu_nearest n t q (rd m (t_data tin + addr (t_stride tin) c)) v)
    /\ frame_ok tout m m'.
Proof. exact (@relu_correct n t q tin tout m). Qed.
Print Assumptions C38_relu_correct.

(** from ReluProofs.v *)
Theorem C38_leaky_relu_fx_correct rm n f fs tin tslope tout imm m :
  leaky_formats n fs -> chk_leaky_relu tin tslope tout = ST_OK -> t_rank tin <> 0 ->
  fits32 tin -> fits32 tout -> backed tin m -> backed tout m -> unary_ok tin tout -> operand_ok tslope m ->
  mem_bits n m -> in_bits n imm ->
  exists m', leaky_relu_fx rm n f fs f tin tslope tout imm m = Some m'
    /\ (forall c, valid (t_shape tout) c -> m' (t_data tout + addr (t_stride tout) c)
         = Some (leaky_exact rm n fs (elt_arg m tslope imm []) (rd m (t_data tin + addr (t_stride tin) c))))
    /\ frame_ok tout m m'.
Proof. exact (@leaky_relu_fx_correct rm n f fs tin tslope tout imm m). Qed.
Print Assumptions C38_leaky_relu_fx_correct.

(** from ReluProofs.v *)
Theorem C38_prelu_fx_correct rm n f fs tin tslope tout axis imm m :
  prelu_formats n fs -> chk_prelu tin tslope tout axis = ST_OK -> t_rank tin <> 0 -> 0 <= axis ->
  fits32 tin -> fits32 tslope -> fits32 tout -> backed tin m -> backed tslope m -> backed tout m -> unary_ok tin tout -> slope_ok tslope tout axis ->
  mem_bits n m ->
  exists m', prelu_fx rm n f fs f tin tslope tout axis imm m = Some m'
    /\ (forall c, valid (t_shape tout) c -> m' (t_data tout + addr (t_stride tout) c)
         = Some (leaky_exact rm n fs (rd m (slope_addr tslope axis (nth (Z.to_nat axis) c 0))) (rd m (t_data tin + addr (t_stride tin) c))))
    /\ frame_ok tout m m'.
Proof. exact (@prelu_fx_correct rm n f fs tin tslope tout axis imm m). Qed.
Print Assumptions C38_prelu_fx_correct.

(** from ReluProofs.v *)
Theorem C38_prelu_no_axis rm n fi fs fo i s o tin tslope tout imm m :
  prelu_fx rm n fi fs fo tin tslope tout (-1) imm m = leaky_relu_fx rm n fi fs fo tin tslope tout imm m
  /\ prelu_sa8 rm i s o tin tslope tout (-1) imm m = leaky_relu_sa8 rm i s o tin tslope tout imm m
  /\ (chk_prelu tin tslope tout (-1) = ST_OK -> chk_leaky_relu tin tslope tout = ST_OK).
Proof. exact (@prelu_no_axis rm n fi fs fo i s o tin tslope tout imm m). Qed.
Print Assumptions C38_prelu_no_axis.

(** from ReluSa8Proofs.v *)
Theorem C38_leaky_relu_sa8_correct rm i s o tin tslope tout imm m :
  chk_leaky_quant i s o = true -> qpar_typed i -> qpar_typed s -> qpar_typed o -> leaky_scales i o ->
  chk_leaky_relu tin tslope tout = ST_OK -> t_rank tin <> 0 ->
  fits32 tin -> fits32 tout -> backed tin m -> backed tout m -> unary_ok tin tout -> operand_ok tslope m ->
  mem_bits 8 m -> in_bits 8 imm ->
  exists m', leaky_relu_sa8 rm i s o tin tslope tout imm m = Some m'
    /\ (forall c, valid (t_shape tout) c -> exists r, m' (t_data tout + addr (t_stride tout) c) = Some r
         /\ within ((1 # 2) + (1 # 28)) (inject_Z r)
              (qclamp (- (128)) 127 (leaky_real (sa_real s (elt_arg m tslope imm [])) (sa_real i (rd m (t_data tin + addr (t_stride tin) c)))
                                      / real_scale (q_scale o) (q_frac o) + inject_Z (q_zp o))))
    /\ frame_ok tout m m'.
Proof. exact (@leaky_relu_sa8_correct rm i s o tin tslope tout imm m). Qed.
Print Assumptions C38_leaky_relu_sa8_correct.

(** from ReluSa8Proofs.v *)
Theorem C38_prelu_sa8_correct rm i s o tin tslope tout axis imm m :
  chk_leaky_quant i s o = true -> qpar_typed i -> qpar_typed s -> qpar_typed o -> leaky_scales i o ->
  chk_prelu tin tslope tout axis = ST_OK -> t_rank tin <> 0 -> 0 <= axis ->
  fits32 tin -> fits32 tslope -> fits32 tout -> backed tin m -> backed tslope m -> backed tout m -> unary_ok tin tout -> slope_ok tslope tout axis ->
  mem_bits 8 m ->
  exists m', prelu_sa8 rm i s o tin tslope tout axis imm m = Some m'
    /\ (forall c, valid (t_shape tout) c -> exists r, m' (t_data tout + addr (t_stride tout) c) = Some r
         /\ within ((1 # 2) + (1 # 28)) (inject_Z r)
              (qclamp (- (128)) 127 (leaky_real (sa_real s (rd m (slope_addr tslope axis (nth (Z.to_nat axis) c 0)))) (sa_real i (rd m (t_data tin + addr (t_stride tin) c)))
                                      / real_scale (q_scale o) (q_frac o) + inject_Z (q_zp o))))
    /\ frame_ok tout m m'.
Proof. exact (@prelu_sa8_correct rm i s o tin tslope tout axis imm m). Qed.
Print Assumptions C38_prelu_sa8_correct.

(** from ReluProofs.v *)
Theorem C38_leaky_fx16_refuted : exists a x fs, in_bits 16 a /\ in_bits 16 x /\ fs = 16
  /\ leaky_exact RM_UP 16 fs a x = 1 /\ (let '(s, k) := leaky_norm RM_UP 16 a in leaky_fx_one RM_UP 16 s (fs - k) x) = 0.
Proof. exact (leaky_fx16_refuted). Qed.
Print Assumptions C38_leaky_fx16_refuted.

(** from ReluProofs.v *)
Theorem C38_prelu_strided_slope_refuted : chk_prelu sl_in sl_slope sl_out 0 = ST_OK
  /\ backed sl_in sl_mem /\ backed sl_out sl_mem /\ backed sl_slope sl_mem
  /\ exists c, valid (t_shape sl_out) c
    /\ leaky_exact RM_UP 8 0 (rd sl_mem (slope_addr sl_slope 0 (nth 0 c 0))) (rd sl_mem (t_data sl_in + addr (t_stride sl_in) c)) = -128
    /\ (do m <- prelu_fx RM_UP 8 0 0 0 sl_in sl_slope sl_out 0 0 sl_mem; load m (t_data sl_out + addr (t_stride sl_out) c)) = Some (-100).
Proof. exact (prelu_strided_slope_refuted). Qed.
Print Assumptions C38_prelu_strided_slope_refuted.

(** from ReluProofs.v *)
Theorem C38_prelu_negative_axis_refuted : exists tin ts tout axis, axis < -1 /\ chk_prelu tin ts tout axis = ST_OK
  /\ forall rm n fi fs fo imm m, prelu_fx rm n fi fs fo tin ts tout axis imm m = None.
Proof. exact (prelu_negative_axis_refuted). Qed.
Print Assumptions C38_prelu_negative_axis_refuted.

(** from ReluSa8Proofs.v *)
Theorem C38_leaky_sa8_scales_refuted : exists rm i s o a x, chk_leaky_quant i s o = true /\ qpar_typed i /\ qpar_typed s /\ qpar_typed o /\ in_bits 8 a /\ in_bits 8 x
  /\ (leaky_real (sa_real s a) (sa_real i x) / real_scale (q_scale o) (q_frac o) == 64)%Q
  /\ leaky_sa8_one rm (q_zp i) (leaky_identity rm i o) (leaky_alpha rm s o (leaky_identity rm i o) a) x = 0.
Proof. exact (leaky_sa8_scales_refuted). Qed.
Print Assumptions C38_leaky_sa8_scales_refuted.

(** * C39: Table activations are memory safe, interpolate and are monotone *)

(** from LutProofs.v *)
Theorem C39_act_fx_correct rm n l fin tin tout m : n = 8 \/ n = 16 ->
  chk_basic_activation tin tout = ST_OK -> t_rank tin <> 0 -> fits32 tin -> fits32 tout -> backed tin m -> backed tout m -> unary_ok tin tout ->
  mem_bits n m -> lut_ok l -> lut_smooth l -> in_bits 8 fin ->
  exists m', act_fx rm n l fin tin tout m = Some m'
    /\ (forall c, valid (t_shape tout) c -> exists r,
        table_spec l (fin - l_fi l) (rd m (t_data tin + addr (t_stride tin) c)) r
        /\ m' (t_data tout + addr (t_stride tout) c) = Some (sat n (rnd rm r (16 - n))))
    /\ frame_ok tout m m'.
Proof. exact (@act_fx_correct rm n l fin tin tout m). Qed.
Print Assumptions C39_act_fx_correct.

(** from LutProofs.v *)
Theorem C39_act_sa8_correct rm l i o tin tout m :
  chk_basic_activation tin tout = ST_OK -> t_rank tin <> 0 -> fits32 tin -> fits32 tout -> backed tin m -> backed tout m -> unary_ok tin tout ->
  mem_bits 8 m -> lut_ok l -> lut_smooth l -> qpar_typed i -> chk_act_quant i = true -> o = sigm_sa8_out \/ o = tanh_sa8_out -> 8 <= l_fo l ->
  exists m', act_sa8 rm o l i tin tout m = Some m'
    /\ (forall c, valid (t_shape tout) c -> exists r,
        table_value l 8 (sa_to_fx rm i (l_fi l + 8) (rd m (t_data tin + addr (t_stride tin) c))) r
        /\ m' (t_data tout + addr (t_stride tout) c) = Some (sat 8 (rnd rm r (l_fo l - q_frac o) + q_zp o)))
    /\ frame_ok tout m m'.
Proof. exact (@act_sa8_correct rm l i o tin tout m). Qed.
Print Assumptions C39_act_sa8_correct.

(** from LutProofs.v *)
Theorem C39_lut_elem_safe rm ik ok l fin x : lut_ok l -> exists v, lut_elem rm ik ok l fin x = Some v.
Proof. exact (@lut_elem_safe rm ik ok l fin x). Qed.
Print Assumptions C39_lut_elem_safe.

(** from LutProofs.v *)
Theorem C39_act_fx_monotone rm n l fin tin tout m m' c c' : n = 8 \/ n = 16 ->
  chk_basic_activation tin tout = ST_OK -> t_rank tin <> 0 -> fits32 tin -> fits32 tout -> backed tin m -> backed tout m -> unary_ok tin tout ->
  mem_bits n m -> lut_ok l -> lut_smooth l -> lut_mono l -> in_bits 8 fin -> act_fx rm n l fin tin tout m = Some m' ->
  valid (t_shape tout) c -> valid (t_shape tout) c' ->
  let x := rd m (t_data tin + addr (t_stride tin) c) in
  let y := rd m (t_data tin + addr (t_stride tin) c') in
  let d := fin - l_fi l in
  let out r := sat n (rnd rm r (16 - n)) in
  (d <= 30 /\ in_table l d x /\ in_table l d y
   \/ out (tab l 0) = out (tab l 1) /\ out (tab l (l_len l - 2)) = out (tab l (l_len l - 1))) ->
  x <= y -> rd m' (t_data tout + addr (t_stride tout) c) <= rd m' (t_data tout + addr (t_stride tout) c').
Proof. exact (@act_fx_monotone rm n l fin tin tout m m' c c'). Qed.
Print Assumptions C39_act_fx_monotone.

(** from LutProofs.v *)
Theorem C39_act_sa8_monotone rm l i o tin tout m m' c c' :
  chk_basic_activation tin tout = ST_OK -> t_rank tin <> 0 -> fits32 tin -> fits32 tout -> backed tin m -> backed tout m -> unary_ok tin tout ->
  mem_bits 8 m -> lut_ok l -> lut_smooth l -> lut_mono l -> qpar_typed i -> chk_act_quant i = true -> o = sigm_sa8_out \/ o = tanh_sa8_out -> 8 <= l_fo l ->
  act_sa8 rm o l i tin tout m = Some m' -> valid (t_shape tout) c -> valid (t_shape tout) c' ->
  let x := rd m (t_data tin + addr (t_stride tin) c) in
  let y := rd m (t_data tin + addr (t_stride tin) c') in
  let out r := sat 8 (rnd rm r (l_fo l - q_frac o) + q_zp o) in
  (in_table l 8 (sa_to_fx rm i (l_fi l + 8) x) /\ in_table l 8 (sa_to_fx rm i (l_fi l + 8) y)
   \/ out (tab l 0) = out (tab l 1) /\ out (tab l (l_len l - 2)) = out (tab l (l_len l - 1))) ->
  x <= y -> rd m' (t_data tout + addr (t_stride tout) c) <= rd m' (t_data tout + addr (t_stride tout) c').
Proof. exact (@act_sa8_monotone rm l i o tin tout m m' c c'). Qed.
Print Assumptions C39_act_sa8_monotone.

(** from LutProofs.v *)
Theorem C39_library_tables_ok :
  (lut_ok sigmoid_lut /\ lut_smooth sigmoid_lut /\ lut_mono sigmoid_lut)
  /\ (lut_ok tanh_lut /\ lut_smooth tanh_lut /\ lut_mono tanh_lut)
  /\ (lut_ok expneg_lut /\ lut_smooth expneg_lut /\ lut_mono expneg_lut)
  /\ (lut_ok invsqrt_lut /\ lut_smooth invsqrt_lut).
Proof. exact (library_tables_ok). Qed.
Print Assumptions C39_library_tables_ok.

(** from LutProofs.v *)
Theorem C39_sigm_tanh_fx8_monotone rm l fin tin tout m m' c c' : l = sigmoid_lut \/ l = tanh_lut ->
  chk_basic_activation tin tout = ST_OK -> t_rank tin <> 0 -> fits32 tin -> fits32 tout -> backed tin m -> backed tout m -> unary_ok tin tout ->
  mem_bits 8 m -> in_bits 8 fin -> act_fx rm 8 l fin tin tout m = Some m' ->
  valid (t_shape tout) c -> valid (t_shape tout) c' ->
  rd m (t_data tin + addr (t_stride tin) c) <= rd m (t_data tin + addr (t_stride tin) c') ->
  rd m' (t_data tout + addr (t_stride tout) c) <= rd m' (t_data tout + addr (t_stride tout) c').
Proof. exact (@sigm_tanh_fx8_monotone rm l fin tin tout m m' c c'). Qed.
Print Assumptions C39_sigm_tanh_fx8_monotone.

(** from LutProofs.v *)
Theorem C39_sigm_tanh_sa8_monotone rm l i o tin tout m m' c c' : l = sigmoid_lut /\ o = sigm_sa8_out \/ l = tanh_lut /\ o = tanh_sa8_out ->
  chk_basic_activation tin tout = ST_OK -> t_rank tin <> 0 -> fits32 tin -> fits32 tout -> backed tin m -> backed tout m -> unary_ok tin tout ->
  mem_bits 8 m -> qpar_typed i -> chk_act_quant i = true -> act_sa8 rm o l i tin tout m = Some m' ->
  valid (t_shape tout) c -> valid (t_shape tout) c' ->
  rd m (t_data tin + addr (t_stride tin) c) <= rd m (t_data tin + addr (t_stride tin) c') ->
  rd m' (t_data tout + addr (t_stride tout) c) <= rd m' (t_data tout + addr (t_stride tout) c').
Proof. exact (@sigm_tanh_sa8_monotone rm l i o tin tout m m' c c'). Qed.
Print Assumptions C39_sigm_tanh_sa8_monotone.

(** from LutProofs.v *)
Theorem C39_sigm_tanh_fx16_monotone rm l fin tin tout m m' c c' : l = sigmoid_lut \/ l = tanh_lut ->
  chk_basic_activation tin tout = ST_OK -> t_rank tin <> 0 -> fits32 tin -> fits32 tout -> backed tin m -> backed tout m -> unary_ok tin tout ->
  mem_bits 16 m -> in_bits 8 fin -> act_fx rm 16 l fin tin tout m = Some m' ->
  valid (t_shape tout) c -> valid (t_shape tout) c' ->
  let x := rd m (t_data tin + addr (t_stride tin) c) in
  let y := rd m (t_data tin + addr (t_stride tin) c') in
  x <= y ->
  rd m' (t_data tout + addr (t_stride tout) c) <= rd m' (t_data tout + addr (t_stride tout) c') + 1
  /\ (fin - l_fi l <= 30 -> in_table l (fin - l_fi l) x -> in_table l (fin - l_fi l) y ->
      rd m' (t_data tout + addr (t_stride tout) c) <= rd m' (t_data tout + addr (t_stride tout) c')).
Proof. exact (@sigm_tanh_fx16_monotone rm l fin tin tout m m' c c'). Qed.
Print Assumptions C39_sigm_tanh_fx16_monotone.

(** from LutProofs.v *)
Theorem C39_create_lut_correct t fi fo off dst : Z.of_nat (length t) <= 65536 ->
  (forall i, 0 <= i -> (i + 1) * 2 <= l_cap dst -> allocated (l_data dst) i) ->
  let src := const_lut t fi fo off in
  if get_lut_size src <=? l_cap dst
  then exists l, create_lut src dst = (ST_OK, Some l)
    /\ (forall i, 0 <= i < l_len src -> l_data l i = l_data src i) /\ (forall i, ~ 0 <= i < l_len src -> l_data l i = l_data dst i)
    /\ l_len l = l_len src /\ l_fi l = fi /\ l_fo l = fo /\ l_off l = off
  else create_lut src dst = (ST_NOT_ENGH_MEM, Some dst).
Proof. exact (@create_lut_correct t fi fo off dst). Qed.
Print Assumptions C39_create_lut_correct.

(** from LutProofs.v *)
Theorem C39_sigm_tanh_fx16_monotone_refuted :
  (lut_elem RM_UP LIN_FX (LOUT_FX 16) sigmoid_lut 11 (-20481) = Some 2 /\ lut_elem RM_UP LIN_FX (LOUT_FX 16) sigmoid_lut 11 (-20480) = Some 1)
  /\ (lut_elem RM_UP LIN_FX (LOUT_FX 16) tanh_lut 12 (171 * 128 - 1) = Some 32767 /\ lut_elem RM_UP LIN_FX (LOUT_FX 16) tanh_lut 12 (171 * 128) = Some 32766).
Proof. exact (sigm_tanh_fx16_monotone_refuted). Qed.
Print Assumptions C39_sigm_tanh_fx16_monotone_refuted.

(** * C40: Softmax outputs the normalized exponentials of each slice *)

(** from SoftmaxProofs.v *)
Theorem C40_softmax_fx16_correct rm fin l axis tin tout m :
  chk_softmax tin tout axis = ST_OK -> t_rank tin <> 0 -> fits32 tin -> fits32 tout -> backed tin m -> backed tout m -> unary_ok tin tout ->
  mem_bits 16 m -> exp_lut l -> in_bits 8 fin ->
  (forall c, valid (t_shape tin) c -> Z.of_nat (length (axis_slice axis (t_shape tin) c)) <= 65538) ->
  exists m', softmax_fx rm 16 fin l axis tin tout m = Some m' /\ frame_ok tout m m'
    /\ forall c, valid (t_shape tin) c ->
       let X := fun c => rd m (t_data tin + addr (t_stride tin) c) in
       let Y := fun c => rd m' (t_data tout + addr (t_stride tout) c) in
       let sl := axis_slice axis (t_shape tin) c in
       exists mx E, is_max mx (map X sl)
         /\ (forall c', In c' sl -> 0 <= E c' /\ table_spec l (fin - l_fi l) (X c' - mx) (E c'))
         /\ is_softmax (2 ^ 15) 8 sl E Y
         /\ (forall c1 c2, In c1 sl -> In c2 sl -> X c1 <= X c2 -> Y c1 <= Y c2).
Proof. exact (@softmax_fx16_correct rm fin l axis tin tout m). Qed.
Print Assumptions C40_softmax_fx16_correct.

(** from SoftmaxProofs.v *)
Theorem C40_softmax_sa8_correct rm q l axis tin tout m :
  chk_softmax tin tout axis = ST_OK -> t_rank tin <> 0 -> fits32 tin -> fits32 tout -> backed tin m -> backed tout m -> unary_ok tin tout ->
  mem_bits 8 m -> exp_lut l -> qpar_typed q -> chk_act_quant q = true ->
  (forall c, valid (t_shape tin) c -> Z.of_nat (length (axis_slice axis (t_shape tin) c)) <= 65538) ->
  exists m', softmax_sa8 rm q l axis tin tout m = Some m' /\ frame_ok tout m m'
    /\ forall c, valid (t_shape tin) c ->
       let X := fun c => rd m (t_data tin + addr (t_stride tin) c) in
       let Y := fun c => rd m' (t_data tout + addr (t_stride tout) c) - q_zp softmax_out in
       let sl := axis_slice axis (t_shape tin) c in
       exists mx E, is_max mx (map X sl)
         /\ (forall c', In c' sl -> 0 <= E c' /\ table_value l 8 (sa_to_fx rm (mkQ (q_scale q) (q_frac q) mx) (l_fi l + 8) (X c')) (E c'))
         /\ is_softmax (2 ^ q_frac softmax_out) 2 sl E Y
         /\ (forall c1 c2, In c1 sl -> In c2 sl -> X c1 <= X c2 -> Y c1 <= Y c2).
Proof. exact (@softmax_sa8_correct rm q l axis tin tout m). Qed.
Print Assumptions C40_softmax_sa8_correct.

(** from SoftmaxProofs.v *)
Theorem C40_softmax_fx16_total rm fin l axis tin tout m m' :
  chk_softmax tin tout axis = ST_OK -> t_rank tin <> 0 -> fits32 tin -> fits32 tout -> backed tin m -> backed tout m -> unary_ok tin tout ->
  mem_bits 16 m -> exp_lut l -> in_bits 8 fin ->
  (forall c, valid (t_shape tin) c -> Z.of_nat (length (axis_slice axis (t_shape tin) c)) <= 65538) ->
  softmax_fx rm 16 fin l axis tin tout m = Some m' ->
  forall c, valid (t_shape tin) c ->
    let Y := fun c => rd m' (t_data tout + addr (t_stride tout) c) in
    let sl := axis_slice axis (t_shape tin) c in
    0 <= Y c < 2 ^ 15 /\ 2 * Z.abs (lsum (map Y sl) - 2 ^ 15) <= Z.of_nat (length sl) + 8.
Proof. exact (@softmax_fx16_total rm fin l axis tin tout m m'). Qed.
Print Assumptions C40_softmax_fx16_total.

(** from SoftmaxProofs.v *)
Theorem C40_softmax_sa8_total rm q l axis tin tout m m' :
  chk_softmax tin tout axis = ST_OK -> t_rank tin <> 0 -> fits32 tin -> fits32 tout -> backed tin m -> backed tout m -> unary_ok tin tout ->
  mem_bits 8 m -> exp_lut l -> qpar_typed q -> chk_act_quant q = true ->
  (forall c, valid (t_shape tin) c -> Z.of_nat (length (axis_slice axis (t_shape tin) c)) <= 65538) ->
  softmax_sa8 rm q l axis tin tout m = Some m' ->
  forall c, valid (t_shape tin) c ->
    let Y := fun c => rd m' (t_data tout + addr (t_stride tout) c) + 128 in
    let sl := axis_slice axis (t_shape tin) c in
    0 <= Y c < 2 ^ 8 /\ 2 * Z.abs (lsum (map Y sl) - 2 ^ 8) <= Z.of_nat (length sl) + 2.
Proof. exact (@softmax_sa8_total rm q l axis tin tout m m'). Qed.
Print Assumptions C40_softmax_sa8_total.

(** from SoftmaxProofs.v *)
Theorem C40_expneg_exp_lut : exp_lut expneg_lut.
Proof. exact (expneg_exp_lut). Qed.
Print Assumptions C40_expneg_exp_lut.

(** from SoftmaxProofs.v *)
Theorem C40_softmax_recip_fx8 rm s : 1 <= s <= 2 ^ 31 - 1 -> exists e, softmax_recip rm 8 s = Some (-1, e).
Proof. exact (@softmax_recip_fx8 rm s). Qed.
Print Assumptions C40_softmax_recip_fx8.

(** from SoftmaxProofs.v *)
Theorem C40_softmax_fx8_refuted : exists tin m m',
  chk_softmax tin tin 0 = ST_OK /\ mem_bits 8 m /\ softmax_fx RM_UP 8 4 expneg_lut 0 tin tin m = Some m'
  /\ map (rd m') (zrange 0 4) = [0; 0; 0; 0].
Proof. exact (softmax_fx8_refuted). Qed.
Print Assumptions C40_softmax_fx8_refuted.

(** * C41: L2 normalization divides by the norm of each slice *)

(** from L2Proofs.v *)
Theorem C41_l2_fx16_correct rm l axis tin tout m :
  chk_l2_normalize tin tout axis = ST_OK -> -1 <= axis -> t_rank tin <> 0 -> fits32 tin -> fits32 tout -> backed tin m -> backed tout m -> unary_ok tin tout ->
  mem_bits 16 m -> lut_same l invsqrt_lut ->
  exists m', l2_fx16 rm l axis tin tout m = Some m' /\ frame_ok tout m m'
    /\ forall c, valid (t_shape tin) c ->
       let X := fun c => rd m (t_data tin + addr (t_stride tin) c) in
       let Y := fun c => rd m' (t_data tout + addr (t_stride tout) c) in
       let sl := axis_slice axis (t_shape tin) c in
       is_l2 16 15 (sum_squares X sl) (X c) (Y c)
       /\ (0 <= X c -> 0 <= Y c) /\ (X c <= 0 -> Y c <= 0)
       /\ (forall c', In c' sl -> X c <= X c' -> Y c <= Y c').
Proof. exact (@l2_fx16_correct rm l axis tin tout m). Qed.
Print Assumptions C41_l2_fx16_correct.

(** from L2Proofs.v *)
Theorem C41_l2_sa8_correct rm q l axis tin tout m :
  chk_l2_normalize tin tout axis = ST_OK -> -1 <= axis -> t_rank tin <> 0 -> fits32 tin -> fits32 tout -> backed tin m -> backed tout m -> unary_ok tin tout ->
  mem_bits 8 m -> lut_same l invsqrt_lut -> chk_act_quant q = true ->
  exists m', l2_sa8 rm q l axis tin tout m = Some m' /\ frame_ok tout m m'
    /\ forall c, valid (t_shape tin) c ->
       let X := fun c => rd m (t_data tin + addr (t_stride tin) c) - q_zp q in
       let Y := fun c => rd m' (t_data tout + addr (t_stride tout) c) in
       let sl := axis_slice axis (t_shape tin) c in
       is_l2 8 7 (sum_squares X sl) (X c) (Y c)
       /\ (0 <= X c -> 0 <= Y c) /\ (X c <= 0 -> Y c <= 0)
       /\ (forall c', In c' sl -> X c <= X c' -> Y c <= Y c').
Proof. exact (@l2_sa8_correct rm q l axis tin tout m). Qed.
Print Assumptions C41_l2_sa8_correct.

(** from L2Proofs.v *)
Theorem C41_l2_axis_refuted : exists l axis tin tout m, chk_l2_normalize tin tout axis = ST_OK /\ t_rank tin <> 0 /\ fits32 tin /\ fits32 tout /\ backed tin m /\ backed tout m
  /\ unary_ok tin tout /\ mem_bits 16 m /\ lut_same l invsqrt_lut /\ forall rm, l2_fx16 rm l axis tin tout m = None.
Proof. exact (l2_axis_refuted). Qed.
Print Assumptions C41_l2_axis_refuted.

(** * C42: Recurrent cells compute their equations over the sequence *)

(** from RnnTheorems.v *)
Theorem C42_lstm_cell_correct rm full S N c m : rnn_call true S N c m -> rnn_acc_ok rm full true S N (lstm_ir_fmt S (rn_iq N) (rn_wiq N)) ->
  fmt_bits S (rn_cq N) -> lstm_apart N c ->
  let n := rnn_n N in
  let s0 := (vec_at m (t_data (rn_cell N)) n, vec_at m (t_data (rn_prev N)) n) in
  let states := recur (fun first x s => lstm_eq rm full S N c n (if first : bool then rn_pq N else rn_oq N) x s) true (rnn_seq N c m) s0 in
  exists m', lstm_cell rm full S N c m = Some m'
    /\ vec_at m' (t_data (rn_cell N)) n = fst (final states s0)
    /\ rows_at m' (t_data (rn_out N)) (rnn_outlen N c) n = (if rc_all c then map snd states else [snd (final states s0)])
    /\ rnn_out_shape N c = ([rnn_outlen N c; n], [n; 1])
    /\ (forall a, a < t_data (rn_out N) \/ t_data (rn_out N) + rnn_outlen N c * n <= a -> a < t_data (rn_cell N) \/ t_data (rn_cell N) + n <= a ->
          a < rc_ps c \/ rc_ps c + 4 * n <= a -> m' a = m a)
    /\ (forall a, allocated m a -> allocated m' a) /\ mem_bits (rs_bits S) m'.
Proof. exact (@lstm_cell_correct rm full S N c m). Qed.
Print Assumptions C42_lstm_cell_correct.

(** from RnnTheorems.v *)
Theorem C42_gru_cell_correct rm full S N c m : rnn_call false S N c m -> rnn_acc_ok rm full false S N (gru_ir_fmt S (rn_iq N) (rn_wiq N)) ->
  (S = RS_sa8 -> wq_dim (rn_wiq N) = 0) -> gru_apart N c ->
  let n := rnn_n N in
  let s0 := vec_at m (t_data (rn_prev N)) n in
  let states := recur (fun first x h => gru_eq rm full S N n (if first : bool then rn_pq N else rn_oq N) x h) true (rnn_seq N c m) s0 in
  exists m', gru_cell rm full S N c m = Some m'
    /\ rows_at m' (t_data (rn_out N)) (rnn_outlen N c) n = (if rc_all c then states else [final states s0])
    /\ rnn_out_shape N c = ([rnn_outlen N c; n], [n; 1])
    /\ (forall a, a < t_data (rn_out N) \/ t_data (rn_out N) + rnn_outlen N c * n <= a -> a < rc_ps c \/ rc_ps c + 3 * n <= a -> m' a = m a)
    /\ (forall a, allocated m a -> allocated m' a) /\ mem_bits (rs_bits S) m'.
Proof. exact (@gru_cell_correct rm full S N c m). Qed.
Print Assumptions C42_gru_cell_correct.

(** from RnnStream.v *)
Theorem C42_lstm_cell_stream rm full S N c m a : rnn_call true S N c m -> 0 < a < rnn_len N ->
  lstm_cell rm full S N c m = (do m' <- lstm_cell rm full S (first_part N c a) c m; lstm_cell rm full S (second_part N c a) c m').
Proof. exact (@lstm_cell_stream rm full S N c m a). Qed.
Print Assumptions C42_lstm_cell_stream.

(** from RnnStream.v *)
Theorem C42_gru_cell_stream rm full S N c m a : rnn_call false S N c m -> 0 < a < rnn_len N ->
  gru_cell rm full S N c m = (do m' <- gru_cell rm full S (first_part N c a) c m; gru_cell rm full S (second_part N c a) c m').
Proof. exact (@gru_cell_stream rm full S N c m a). Qed.
Print Assumptions C42_gru_cell_stream.

(** from RnnTheorems.v *)
Theorem C42_rnn_dense_correct rm full S fb o mb (ins : list dense_arg) tb tout m n : chk_rnn_dense (map dense_pair ins) tb tout = ST_OK -> t_shape tb = [n] ->
  fits32 tb -> fits32 tout -> backed tb mb -> backed tout m -> mem_bits (rs_bits S) m -> Forall (dense_arg_ok S m tout n) ins ->
  let dins := map (dense_din m) ins in
  let bias k := rd mb (t_data tb + addr (t_stride tb) [k]) in
  (forall i k, hd_error dins = Some i -> 0 <= k < n ->
     Z.abs (q_bias_add rm full (vi_q (din_vin rm S fb o None i)) (bias k) 0) + (let '(_, _, d, _, _) := i in d) * rs_prod S <= smax (rs_acc S)) ->
  exists m', rnn_dense rm full S fb o mb ins tb tout m = Some m'
    /\ (forall k, valid (t_shape tout) [k] -> m' (t_data tout + addr (t_stride tout) [k])
          = Some (dense_out rm full (smin (rs_bits S)) (smax (rs_bits S)) (bias k) (map (din_vin rm S fb o None) dins) k))
    /\ frame_ok tout m m'.
Proof. exact (@rnn_dense_correct rm full S fb o mb ins tb tout m n). Qed.
Print Assumptions C42_rnn_dense_correct.

(** from RnnDense.v *)
Theorem C42_dense_fx_value rm full S fb oq g ins b o : is_fx S -> ins <> [] -> (S = RS_fx16 -> Forall (fun i => din_frac i - q_frac oq <= 39) ins) ->
  let vs := map (din_vin rm S fb oq g) ins in
  let bias := match vs with [] => 0 | v :: _ => q_bias_add rm full (vi_q v) b 0 end in
  fx_terms_abs (q_frac oq) (din_sums din_frac S o bias ins) <= 2 ^ (rs_acc S - 2) - 1 ->
  dense_out rm full (smin 16) (smax 16) b vs o = sat 16 (fx_terms rm (q_frac oq) (din_sums din_frac S o bias ins)).
Proof. exact (@dense_fx_value rm full S fb oq g ins b o). Qed.
Print Assumptions C42_dense_fx_value.

(** from RnnDense.v *)
Theorem C42_dense_sa8_value rm fb oq g ins b o : ins <> [] -> (length ins <= 4)%nat -> Forall (din_ok g) ins -> qpar_ok oq -> in_bits 32 b ->
  let l := din_sums (din_factor oq g) RS_sa8 o b ins in
  Forall (fun p => in_bits 32 (snd p)) l -> (sa_terms_abs l <= inject_Z (2 ^ 29))%Q ->
  within (sa_terms_err l) (inject_Z (dense_out rm true (smin 8) (smax 8) b (map (din_vin rm RS_sa8 fb oq g) ins) o))
    (qclamp (- (128)) 127 (sa_terms l + inject_Z (q_zp oq))).
Proof. exact (@dense_sa8_value rm fb oq g ins b o). Qed.
Print Assumptions C42_dense_sa8_value.

(** from RnnStream.v *)
Theorem C42_rnn_gate_fx_value rm full lstm S N c m iq hq g x h o : rnn_call lstm S N c m -> is_fx S -> 0 <= o < rnn_n N ->
  (S = RS_fx16 -> Forall (fun i => din_frac i - q_frac iq <= 39) (gate_dins N hq g x h)) ->
  let bias := q_bias_add rm full (rnn_params rm S (rn_iq N) (rn_wiq N) (rn_bfrac N) iq) (gate_bias N g o) 0 in
  let terms := din_sums din_frac S o bias (gate_dins N hq g x h) in
  fx_terms_abs (q_frac iq) terms <= 2 ^ (rs_acc S - 2) - 1 ->
  el (rnn_gate_dense rm full S N iq hq (rnn_n N) g x h) o = sat 16 (fx_terms rm (q_frac iq) terms).
Proof. exact (@rnn_gate_fx_value rm full lstm S N c m iq hq g x h o). Qed.
Print Assumptions C42_rnn_gate_fx_value.

(** from RnnStream.v *)
Theorem C42_rnn_gate_sa8_value rm lstm N c m iq hq g x h o : rnn_call lstm RS_sa8 N c m -> 0 <= o < rnn_n N ->
  Forall (din_ok (Some g)) (gate_dins N hq g x h) -> qpar_ok iq -> in_bits 32 (gate_bias N g o) ->
  let terms := din_sums (din_factor iq (Some g)) RS_sa8 o (gate_bias N g o) (gate_dins N hq g x h) in
  Forall (fun p => in_bits 32 (snd p)) terms -> (sa_terms_abs terms <= inject_Z (2 ^ 29))%Q ->
  within (sa_terms_err terms) (inject_Z (el (rnn_gate_dense rm true RS_sa8 N iq hq (rnn_n N) g x h) o)) (qclamp (- (128)) 127 (sa_terms terms + inject_Z (q_zp iq))).
Proof. exact (@rnn_gate_sa8_value rm lstm N c m iq hq g x h o). Qed.
Print Assumptions C42_rnn_gate_sa8_value.

(** from RnnStream.v *)
Theorem C42_rnn_elt_fx_value rm S op i1 i2 o a b : is_fx S -> elt_formats op 16 (q_frac i1) (q_frac i2) (q_frac o) -> in_bits 16 a -> in_bits 16 b ->
  rnn_elt rm S op i1 i2 o a b = elt_exact rm op 16 (q_frac i1) (q_frac i2) (q_frac o) a b.
Proof. exact (@rnn_elt_fx_value rm S op i1 i2 o a b). Qed.
Print Assumptions C42_rnn_elt_fx_value.

(** from RnnStream.v *)
Theorem C42_rnn_elt_sa8_value rm op i1 i2 o a b :
  chk_elt_quant op i1 i2 o = true -> qpar_typed i1 -> qpar_typed i2 -> qpar_typed o -> elt_scales op i1 i2 o -> in_bits 8 a -> in_bits 8 b ->
  let so := real_scale (q_scale o) (q_frac o) in
  within (elt_bound op (sa_real i1 a) (sa_real i2 b) so) (inject_Z (rnn_elt rm RS_sa8 op i1 i2 o a b))
    (qclamp (- (128)) 127 (elt_real op (sa_real i1 a) (sa_real i2 b) / so + inject_Z (q_zp o))).
Proof. exact (@rnn_elt_sa8_value rm op i1 i2 o a b). Qed.
Print Assumptions C42_rnn_elt_sa8_value.

(** from RnnStream.v *)
Theorem C42_rnn_act_fx_value rm S o l i x : is_fx S -> rnn_lut_ok l -> in_bits 8 (q_frac i) -> in_bits 16 x ->
  exists r, in_bits 16 r /\ table_spec l (q_frac i - l_fi l) x r /\ rnn_act_fn rm S o l i x = r.
Proof. exact (@rnn_act_fx_value rm S o l i x). Qed.
Print Assumptions C42_rnn_act_fx_value.

(** from RnnStream.v *)
Theorem C42_gru_compl_fx rm S u : is_fx S -> 0 <= u <= 32767 ->
  rnn_elt rm S ELT_SUB (gru_one_fmt S) (rnn_sigm_fmt S) (rnn_sigm_fmt S) (smax 16) u = 32767 - u.
Proof. exact (@gru_compl_fx rm S u). Qed.
Print Assumptions C42_gru_compl_fx.

(** from RnnStream.v *)
Theorem C42_gru_per_tensor_refuted : exists N c m m', rnn_call false RS_sa8 N c m /\ rnn_acc_ok RM_UP true false RS_sa8 N (gru_ir_fmt RS_sa8 (rn_iq N) (rn_wiq N)) /\ gru_apart N c
  /\ wq_dim (rn_wiq N) = -1 /\ gru_cell RM_UP true RS_sa8 N c m = Some m'
  /\ rows_at m' (t_data (rn_out N)) (rnn_outlen N c) (rnn_n N)
     <> recur (fun first x h => gru_eq RM_UP true RS_sa8 N (rnn_n N) (if first : bool then rn_pq N else rn_oq N) x h) true (rnn_seq N c m) (vec_at m (t_data (rn_prev N)) (rnn_n N)).
Proof. exact (gru_per_tensor_refuted). Qed.
Print Assumptions C42_gru_per_tensor_refuted.

(** * C43: Tensor conversion computes the value in the destination format *)

(** from ConvertProofs.v *)
Theorem C43_convert_elem_close rm ei eo i o x : q16_ok i -> q16_ok o -> in_bits (el_bits ei) x -> diff_ok ei eo i x ->
  conv_close (el_bits eo) i o x (convert_elem rm ei eo i o x).
Proof. exact (@convert_elem_close rm ei eo i o x). Qed.
Print Assumptions C43_convert_elem_close.

(** from ConvertProofs.v *)
Theorem C43_convert_same_scale_exact rm ei eo i o x : q16_ok i -> q16_ok o -> q_scale i = q_scale o -> in_bits (el_bits ei) x -> diff_ok ei eo i x ->
  el_bits ei <> 32 -> el_bits eo <> 32 ->
  convert_elem rm ei eo i o x = sat (el_bits eo) (scale_rnd rm (x - q_zp i) (q_frac i - q_frac o) + q_zp o).
Proof. exact (@convert_same_scale_exact rm ei eo i o x). Qed.
Print Assumptions C43_convert_same_scale_exact.

(** from ConvertProofs.v *)
Theorem C43_convert_identity rm e q x : q16_ok q -> in_bits (el_bits e) x -> diff_ok e e q x -> el_bits e <> 32 -> convert_elem rm e e q q x = x.
Proof. exact (@convert_identity rm e q x). Qed.
Print Assumptions C43_convert_identity.

(** from ConvertProofs.v *)
Theorem C43_convert_identity_32_refuted : exists q x, q16_ok q /\ in_bits 32 x /\ diff_ok EL_SA_32 EL_SA_32 q x /\
  forall rm, convert_elem rm EL_SA_32 EL_SA_32 q q x <> x.
Proof. exact (convert_identity_32_refuted). Qed.
Print Assumptions C43_convert_identity_32_refuted.

(** from ConvertProofs.v *)
Theorem C43_convert_zero_point_32_refuted : exists i o x w, q16_ok i /\ q16_ok o /\ in_bits 32 x /\ diff_ok EL_SA_32 EL_SA_32 i x /\
  in_bits 32 w /\ (conv_exact i o x == inject_Z w)%Q /\ forall rm, convert_elem rm EL_SA_32 EL_SA_32 i o x = w - 32767.
Proof. exact (convert_zero_point_32_refuted). Qed.
Print Assumptions C43_convert_zero_point_32_refuted.

(** from ConvertProofs.v *)
Theorem C43_convert_tensor_correct rm src dst m :
  chk_convert src dst = ST_OK -> t_rank (qt_t src) <> 0 -> axis_ok src -> axis_ok dst ->
  fits32 (qt_t src) -> fits32 (qt_t dst) -> backed (qt_t src) m -> backed (qt_t dst) m -> unary_ok (qt_t src) (qt_t dst) ->
  (forall c, valid (t_shape (qt_t src)) c -> q16_ok (fmt src c) /\ q16_ok (fmt dst c)) ->
  (forall c, valid (t_shape (qt_t src)) c -> let x := rd m (t_data (qt_t src) + addr (t_stride (qt_t src)) c) in
     in_bits (el_bits (qt_el src)) x /\ diff_ok (qt_el src) (qt_el dst) (fmt src c) x) ->
  exists m', convert_tensor rm src dst m = (ST_OK, Some m')
    /\ (forall c, valid (t_shape (qt_t dst)) c -> exists v, m' (t_data (qt_t dst) + addr (t_stride (qt_t dst)) c) = Some v
          /\ v = convert_elem rm (qt_el src) (qt_el dst) (fmt src c) (fmt dst c) (rd m (t_data (qt_t src) + addr (t_stride (qt_t src)) c))
          /\ conv_close (el_bits (qt_el dst)) (fmt src c) (fmt dst c) (rd m (t_data (qt_t src) + addr (t_stride (qt_t src)) c)) v)
    /\ frame_ok (qt_t dst) m m'.
Proof. exact (@convert_tensor_correct rm src dst m). Qed.
Print Assumptions C43_convert_tensor_correct.

(** from ConvertProofs.v *)
Theorem C43_convert_inplace_ok src dst : chk_convert src dst = ST_OK -> t_rank (qt_t src) <> 0 -> fits32 (qt_t src) -> fits32 (qt_t dst) ->
  qt_el src = qt_el dst -> t_data (qt_t src) = t_data (qt_t dst) -> unary_ok (qt_t src) (qt_t dst).
Proof. exact (@convert_inplace_ok src dst). Qed.
Print Assumptions C43_convert_inplace_ok.

(** from ConvertProofs.v *)
Theorem C43_convert_inplace_strides_refuted : chk_convert ip_src3 ip_dst3 = ST_OK /\ t_data (qt_t ip_src3) = t_data (qt_t ip_dst3)
  /\ exists c v, valid (t_shape (qt_t ip_dst3)) c
    /\ (match convert_tensor RM_UP ip_src3 ip_dst3 ip_mem with (_, Some m) => m (t_data (qt_t ip_dst3) + addr (t_stride (qt_t ip_dst3)) c) | _ => None end) = Some v
    /\ ~ conv_close 8 (fmt ip_src3 c) (fmt ip_dst3 c) (rd ip_mem (t_data (qt_t ip_src3) + addr (t_stride (qt_t ip_src3)) c)) v.
Proof. exact (convert_inplace_strides_refuted). Qed.
Print Assumptions C43_convert_inplace_strides_refuted.

(** * C44: Rescale computes the scaled and shifted value *)

(** from Ops3Proofs.v *)
Theorem C44_rescale_correct rm ni no p axis tin tout mi m :
  1 <= ni <= 32 -> 1 <= no <= 32 -> (length (t_shape tin) <= 4)%nat -> length (t_stride tin) = length (t_shape tin) -> length (t_stride tout) = length (t_shape tin) ->
  axis < Z.of_nat (length (t_shape tin)) ->
  rescale_params_ok ni no p (if axis <? 0 then 1 else nth (Z.to_nat axis) (t_shape tin) 0) -> mem_bits ni mi ->
  (forall c, valid (t_shape tin) c -> allocated mi (t_data tin + addr (t_stride tin) c) /\ allocated m (t_data tout + addr (t_stride tout) c)) ->
  (forall c c', valid (t_shape tin) c -> valid (t_shape tin) c' -> addr (t_stride tout) c = addr (t_stride tout) c' -> c = c') ->
  exists m', rescale rm ni no p axis tin tout mi m = Some m'
    /\ (forall c, valid (t_shape tin) c ->
         let k := prelu3_index axis c in
         m' (t_data tout + addr (t_stride tout) c) =
           Some (rescale_exact rm ni no (rd mi (t_data tin + addr (t_stride tin) c)) (rd (rs_bias_in p) k) (rd (rs_bias_out p) k) (rd (rs_scale p) k) (rd (rs_shift p) k)))
    /\ (forall a, (forall c, valid (t_shape tin) c -> a <> t_data tout + addr (t_stride tout) c) -> m' a = m a).
Proof. exact (@rescale_correct rm ni no p axis tin tout mi m). Qed.
Print Assumptions C44_rescale_correct.

(** from Ops3Proofs.v *)
Theorem C44_rescale_value_exact rm ni no x bi bo sc sh : 1 <= ni <= 32 -> 1 <= no <= 32 -> in_bits ni x -> in_bits ni bi -> in_bits no bo -> in_bits 16 sc ->
  rescale_value rm ni no x bi bo sc sh = rescale_exact rm ni no x bi bo sc sh.
Proof. exact (@rescale_value_exact rm ni no x bi bo sc sh). Qed.
Print Assumptions C44_rescale_value_exact.

(** from Ops3Proofs.v *)
Theorem C44_rescale_exact_fits rm ni no x bi bo sc sh : 1 <= ni -> in_bits ni (x - bi) -> rescale_exact rm ni no x bi bo sc sh = sat no (scale_rnd rm ((x - bi) * sc) sh + bo).
Proof. exact (@rescale_exact_fits rm ni no x bi bo sc sh). Qed.
Print Assumptions C44_rescale_exact_fits.

(** from Ops3Proofs.v *)
Theorem C44_rescale_difference_refuted : exists rm x bi bo sc sh, in_bits 8 x /\ in_bits 8 bi
  /\ sat 8 (scale_rnd rm ((x - bi) * sc) sh + bo) = 100 /\ rescale_value rm 8 8 x bi bo sc sh = 64.
Proof. exact (rescale_difference_refuted). Qed.
Print Assumptions C44_rescale_difference_refuted.

(** from Ops3Proofs.v *)
Theorem C44_rescale_issue_refuted : rescale_issue 4 1 = Some (4, 1) /\ rescale_issue 1 1 = Some (1, 1)
  /\ rescale_issue 1 4 = Some (4, 4) /\ rescale_issue 2 4 = Some (4, 4) /\ rescale_issue 4 4 = None.
Proof. exact (rescale_issue_refuted). Qed.
Print Assumptions C44_rescale_issue_refuted.

(** * C45: Clip bounds every element *)

(** from Ops3Proofs.v *)
Theorem C45_clip_correct lo hi tin tout m :
  (length (t_shape tin) <= 4)%nat -> length (t_stride tin) = length (t_shape tin) -> length (t_stride tout) = length (t_shape tin) -> t_shape tout = t_shape tin ->
  (forall c, valid (t_shape tin) c -> allocated m (t_data tin + addr (t_stride tin) c) /\ allocated m (t_data tout + addr (t_stride tout) c)) ->
  (forall c c', valid (t_shape tin) c -> valid (t_shape tin) c' -> addr (t_stride tout) c = addr (t_stride tout) c' -> c = c') ->
  unary_ok tin tout ->
  exists m', clip lo hi tin tout m = Some m'
    /\ (forall c, valid (t_shape tin) c -> m' (t_data tout + addr (t_stride tout) c) = Some (Z.min (Z.max (rd m (t_data tin + addr (t_stride tin) c)) lo) hi))
    /\ (forall a, (forall c, valid (t_shape tin) c -> a <> t_data tout + addr (t_stride tout) c) -> m' a = m a).
Proof. exact (@clip_correct lo hi tin tout m). Qed.
Print Assumptions C45_clip_correct.

(** * C46: Reductions along an axis *)

(** from Ops3Proofs.v *)
Theorem C46_reduce_max_correct axis tin tout mi m :
  (length (t_shape tin) <= 4)%nat -> length (t_stride tin) = length (t_shape tin) -> length (t_stride tout) = length (t_shape tin) ->
  (axis < length (t_shape tin))%nat -> (forall d, In d (t_shape tin) -> 1 <= d) ->
  (forall c, valid (t_shape tin) c -> allocated mi (t_data tin + addr (t_stride tin) c)) ->
  (forall c, valid (set_at axis 1 (t_shape tin)) c -> allocated m (t_data tout + addr (t_stride tout) c)) ->
  (forall c c', valid (set_at axis 1 (t_shape tin)) c -> valid (set_at axis 1 (t_shape tin)) c' -> addr (t_stride tout) c = addr (t_stride tout) c' -> c = c') ->
  exists m', reduce_max axis tin tout mi m = Some m'
    /\ (forall c, valid (set_at axis 1 (t_shape tin)) c ->
         exists v, m' (t_data tout + addr (t_stride tout) c) = Some v
           /\ (forall k, 0 <= k < nth axis (t_shape tin) 0 -> slice_val mi tin axis c k <= v)
           /\ exists k, 0 <= k < nth axis (t_shape tin) 0 /\ slice_val mi tin axis c k = v)
    /\ (forall a, (forall c, valid (set_at axis 1 (t_shape tin)) c -> a <> t_data tout + addr (t_stride tout) c) -> m' a = m a).
Proof. exact (@reduce_max_correct axis tin tout mi m). Qed.
Print Assumptions C46_reduce_max_correct.

(** from Ops3Proofs.v *)
Theorem C46_reduce_sum_correct nb axis tin tout mi m :
  1 <= nb <= 64 -> (length (t_shape tin) <= 4)%nat -> length (t_stride tin) = length (t_shape tin) -> length (t_stride tout) = length (t_shape tin) ->
  (axis < length (t_shape tin))%nat -> (forall d, In d (t_shape tin) -> 1 <= d) ->
  (forall c, valid (t_shape tin) c -> allocated mi (t_data tin + addr (t_stride tin) c)) ->
  (forall c, valid (set_at axis 1 (t_shape tin)) c -> allocated m (t_data tout + addr (t_stride tout) c)) ->
  (forall c c', valid (set_at axis 1 (t_shape tin)) c -> valid (set_at axis 1 (t_shape tin)) c' -> addr (t_stride tout) c = addr (t_stride tout) c' -> c = c') ->
  exists m', reduce_sum nb axis tin tout mi m = Some m'
    /\ (forall c, valid (set_at axis 1 (t_shape tin)) c ->
         exists v, m' (t_data tout + addr (t_stride tout) c) = Some v /\ in_bits nb v
           /\ (exists z, v = zsum 0 (nth axis (t_shape tin) 0) (slice_val mi tin axis c) + z * 2 ^ nb)
           /\ (in_bits nb (zsum 0 (nth axis (t_shape tin) 0) (slice_val mi tin axis c)) -> v = zsum 0 (nth axis (t_shape tin) 0) (slice_val mi tin axis c)))
    /\ (forall a, (forall c, valid (set_at axis 1 (t_shape tin)) c -> a <> t_data tout + addr (t_stride tout) c) -> m' a = m a).
Proof. exact (@reduce_sum_correct nb axis tin tout mi m). Qed.
Print Assumptions C46_reduce_sum_correct.

(** from Ops3Proofs.v *)
Theorem C46_reduce_sum_refuted : exists tin tout mi m m', reduce_sum 8 0 tin tout mi m = Some m' /\ rd mi 0 = 100 /\ rd mi 1 = 100 /\ m' 0 = Some (-56).
Proof. exact (reduce_sum_refuted). Qed.
Print Assumptions C46_reduce_sum_refuted.

(** * C47: Bilinear resize interpolates inside the input *)

(** from Ops3Proofs.v *)
Theorem C47_resize_bilinear_correct cfg tin tout mi m B H W C OH OW :
  let s := rz_shift cfg in
  1 <= s <= 12 -> t_shape tin = [B; H; W; C] -> t_shape tout = [B; OH; OW; C] -> 1 <= H -> 1 <= W ->
  (forall h, 0 <= h < OH -> in_bits 32 (h * rz_stride_h cfg) /\ in_bits 32 (h * rz_stride_h cfg + rz_offset_h cfg) /\ - 2 ^ s <= h * rz_stride_h cfg + rz_offset_h cfg) ->
  (forall w, 0 <= w < OW -> in_bits 32 (w * rz_stride_w cfg) /\ in_bits 32 (w * rz_stride_w cfg + rz_offset_w cfg) /\ - 2 ^ s <= w * rz_stride_w cfg + rz_offset_w cfg) ->
  mem_bits 8 mi -> (forall c, valid (t_shape tin) c -> allocated mi (t_data tin + addr (t_stride tin) c)) ->
  (forall c, valid (t_shape tout) c -> allocated m (t_data tout + addr (t_stride tout) c)) ->
  (forall c c', valid (t_shape tout) c -> valid (t_shape tout) c' -> addr (t_stride tout) c = addr (t_stride tout) c' -> c = c') ->
  exists m', resize_bilinear cfg tin tout mi m = Some m'
    /\ (forall b h w c, valid (t_shape tout) [b; h; w; c] ->
         m' (t_data tout + addr (t_stride tout) [b; h; w; c]) =
           Some (bilinear s H W (sample (rz_stride_h cfg) (rz_offset_h cfg) s H h) (sample (rz_stride_w cfg) (rz_offset_w cfg) s W w)
                   (fun i j => rd mi (t_data tin + addr (t_stride tin) [b; i; j; c]))))
    /\ (forall a, (forall c, valid (t_shape tout) c -> a <> t_data tout + addr (t_stride tout) c) -> m' a = m a).
Proof. exact (@resize_bilinear_correct cfg tin tout mi m B H W C OH OW). Qed.
Print Assumptions C47_resize_bilinear_correct.

(** from Ops3Proofs.v *)
Theorem C47_bilinear_between s H W p q X lo hi : 0 <= s -> 1 <= H -> 1 <= W -> 0 <= p <= (H - 1) * 2 ^ s -> 0 <= q <= (W - 1) * 2 ^ s ->
  (forall i j, 0 <= i < H -> 0 <= j < W -> lo <= X i j <= hi) ->
  lo * 2 ^ (2 * s) <= bilinear s H W p q X <= hi * 2 ^ (2 * s).
Proof. exact (@bilinear_between s H W p q X lo hi). Qed.
Print Assumptions C47_bilinear_between.

(** from Ops3Proofs.v *)
Theorem C47_sample_inside stride offset s n h : 0 <= s -> 1 <= n -> 0 <= sample stride offset s n h <= (n - 1) * 2 ^ s.
Proof. exact (@sample_inside stride offset s n h). Qed.
Print Assumptions C47_sample_inside.

(** from Ops3Proofs.v *)
Theorem C47_resize_offset_refuted : exists cfg tin tout mi m, rz_shift cfg = 1 /\ rz_offset_h cfg = -4 /\ rz_offset_w cfg = 0
  /\ (forall a, 0 <= a < 2 -> allocated mi a) /\ allocated m 0 /\ resize_bilinear cfg tin tout mi m = None.
Proof. exact (resize_offset_refuted). Qed.
Print Assumptions C47_resize_offset_refuted.

(** * C48: MatMul equals the matrix product of the dequantized operands *)

(** from Ops3Proofs.v *)
Theorem C48_matmul_correct zl zr tl tr tout ml mr m M K N sl sr :
  0 <= K -> t_shape tl = [M; K] -> t_shape tr = [K; N] -> t_shape tout = [M; N] -> t_stride tl = [sl; 1] -> t_stride tr = [sr; 1] -> t_stride tout = [N; 1] ->
  (forall c, valid (t_shape tl) c -> allocated ml (t_data tl + addr (t_stride tl) c) /\ in_bits 8 (rd ml (t_data tl + addr (t_stride tl) c) - zl)) ->
  (forall c, valid (t_shape tr) c -> allocated mr (t_data tr + addr (t_stride tr) c) /\ in_bits 8 (rd mr (t_data tr + addr (t_stride tr) c) - zr)) ->
  (forall c, valid (t_shape tout) c -> allocated m (t_data tout + addr (t_stride tout) c)) ->
  let A i k := rd ml (t_data tl + addr (t_stride tl) [i; k]) - zl in
  let B k j := rd mr (t_data tr + addr (t_stride tr) [k; j]) - zr in
  (forall i j k, 0 <= i < M -> 0 <= j < N -> 0 <= k <= K -> in_bits 32 (zsum 0 k (fun x => A i x * B x j))) ->
  exists m', matmul zl zr tl tr tout ml mr m = Some m'
    /\ (forall i j, 0 <= i < M -> 0 <= j < N -> m' (t_data tout + addr (t_stride tout) [i; j]) = Some (zsum 0 K (fun k => A i k * B k j)))
    /\ (forall a, (forall c, valid (t_shape tout) c -> a <> t_data tout + addr (t_stride tout) c) -> m' a = m a).
Proof. exact (@matmul_correct zl zr tl tr tout ml mr m M K N sl sr). Qed.
Print Assumptions C48_matmul_correct.

(** from Ops3Proofs.v *)
Theorem C48_matmul_refuted :
  (exists tl tr tout ml mr m m', matmul (-100) 0 tl tr tout ml mr m = Some m' /\ rd ml 0 = 100 /\ rd mr 0 = 1 /\ m' 0 = Some (-56))
  /\ (exists tl tr tout ml mr m m', matmul 0 0 tl tr tout ml mr m = Some m' /\ t_stride tout = [2; 1] /\ rd ml 1 = 5 /\ rd mr 0 = 1 /\ m' (t_data tout + addr (t_stride tout) [1; 0]) = Some 0 /\ m' 1 = Some 5).
Proof. exact (matmul_refuted). Qed.
Print Assumptions C48_matmul_refuted.

(** * C49: Tiling covers a tensor exactly *)

(** from IterProofs.v *)
Theorem C49_tiles_partition : forall shape tile order skew bufs bsize,
  is_order (length shape) order ->
  (forall a, (a < length shape)%nat -> 1 <= nth a tile 0 <= nth a shape 0 /\ nth a shape 0 + 2 * nth a tile 0 < 2 ^ 31) ->
  (forall a, In a order -> 0 <= skew <= nth a tile 0) ->
  length bufs = length order ->
  let cfg := tile_cfg shape tile order skew in
  let box n := sub_tensor cfg shape (fst (iter_run cfg bufs bsize (Z.to_nat n))) in
  forall c, valid shape c ->
  exists n, (0 <= n < total_count cfg /\ in_box (fst (box n)) (snd (box n)) c)
    /\ forall m, 0 <= m < total_count cfg -> in_box (fst (box m)) (snd (box m)) c -> m = n.
Proof. exact (tiles_partition). Qed.
Print Assumptions C49_tiles_partition.

(** from IterTheorems.v *)
Theorem C49_tiles_inside : forall shape tile order skew bufs bsize,
  is_order (length shape) order ->
  (forall a, (a < length shape)%nat -> 1 <= nth a tile 0 <= nth a shape 0 /\ nth a shape 0 + 2 * nth a tile 0 < 2 ^ 31) ->
  (forall a, In a order -> 0 <= skew <= nth a tile 0) ->
  length bufs = length order ->
  let cfg := tile_cfg shape tile order skew in
  forall n, let '(pos, size) := sub_tensor cfg shape (fst (iter_run cfg bufs bsize n)) in
  length pos = length shape /\ length size = length shape /\
  forall a, (a < length shape)%nat -> 0 <= nth a pos 0 /\ nth a pos 0 + nth a size 0 <= nth a shape 0
    /\ ((forall b, In b order -> skew < nth b tile 0) -> 1 <= nth a size 0 <= nth a tile 0).
Proof. exact (tiles_inside). Qed.
Print Assumptions C49_tiles_inside.

(** from IterProofs.v *)
Theorem C49_tile_dim_cuts : forall o D T skew, 1 <= T <= D -> 0 <= skew <= T -> D + T + T < 2 ^ 31 ->
  let d := tile_dim o D T skew in
  1 <= it_count d /\ cuts D (it_count d) (tile_start d) (tile_len d D)
  /\ (skew < T -> forall k, 0 <= k < it_count d -> 1 <= tile_len d D k <= T).
Proof. exact (tile_dim_cuts). Qed.
Print Assumptions C49_tile_dim_cuts.

(** * C50: Iterating visits every tile once, in order, and returns to the start *)

(** from IterProofs.v *)
Theorem C50_iter_walk : forall cfg bufs bsize, counts_ok cfg -> length bufs = length cfg -> forall n,
  exists idx, idx_ok cfg idx /\ tile_no cfg idx = Z.of_nat n mod total_count cfg
    /\ fst (iter_run cfg bufs bsize n) = at_tile cfg idx
    /\ (let '(st, offs) := iter_run cfg bufs bsize n in snd (iter_next cfg bufs bsize st offs))
       = (Z.of_nat (S n) mod total_count cfg =? 0).
Proof. exact (iter_walk). Qed.
Print Assumptions C50_iter_walk.

(** from IterProofs.v *)
Theorem C50_iter_visits_once : forall cfg bufs bsize idx, counts_ok cfg -> length bufs = length cfg -> idx_ok cfg idx ->
  0 <= tile_no cfg idx < total_count cfg
  /\ (forall n, 0 <= n < total_count cfg -> fst (iter_run cfg bufs bsize (Z.to_nat n)) = at_tile cfg idx <-> n = tile_no cfg idx).
Proof. exact (iter_visits_once). Qed.
Print Assumptions C50_iter_visits_once.

(** from IterTheorems.v *)
Theorem C50_iter_offset_correct : forall shape tile stride skew,
  nested shape stride -> (1 <= length shape)%nat ->
  (forall a, (a < length shape)%nat -> 1 <= nth a tile 0 /\ (nth a tile 0 < nth a shape 0 \/ nth a shape 0 = 1 /\ nth a tile 0 = 1) /\ nth a shape 0 + 2 * nth a tile 0 < 2 ^ 31) ->
  0 <= skew < nth 0 tile 0 ->
  let cfg := tile_cfg shape tile (seq 0 (length shape)) skew in
  let '(bufs, bsize) := buffer_init cfg shape stride in
  length bufs = length shape /\
  forall n, let '(st, offs) := iter_run cfg bufs bsize n in offs = addr stride (fst (sub_tensor cfg shape st)).
Proof. exact (iter_offset_correct). Qed.
Print Assumptions C50_iter_offset_correct.

(** from IterTheorems.v *)
Theorem C50_iter_offset_order_refuted :
  let cfg := tile_cfg [4; 6] [2; 3] [1; 0]%nat 0 in
  let '(bufs, bsize) := buffer_init cfg [4; 6] [6; 1] in
  let '(st, offs) := iter_run cfg bufs bsize 1 in addr [6; 1] (fst (sub_tensor cfg [4; 6] st)) = 3 /\ offs = 18.
Proof. exact (iter_offset_order_refuted). Qed.
Print Assumptions C50_iter_offset_order_refuted.

(** from IterTheorems.v *)
Theorem C50_iter_offset_whole_refuted :
  let cfg := tile_cfg [4] [4] [0]%nat 0 in
  let '(bufs, bsize) := buffer_init cfg [4] [1] in
  let '(st, offs) := iter_run cfg bufs bsize 1 in addr [1] (fst (sub_tensor cfg [4] st)) = 0 /\ offs = 1.
Proof. exact (iter_offset_whole_refuted). Qed.
Print Assumptions C50_iter_offset_whole_refuted.

(** * C51: Tensor views address the right elements *)

(** from ViewsProofs.v *)
Theorem C51_slice_view : forall v pos size c,
  length pos = length c -> 0 <= v_offs v + addr (v_stride v) pos < 2 ^ 32 ->
  elem (slice v pos size) c = elem v (cadd pos c).
Proof. exact (slice_view). Qed.
Print Assumptions C51_slice_view.

(** from ViewsProofs.v *)
Theorem C51_slice_offs_view : forall v offset size c, 0 <= v_offs v + offset < 2 ^ 32 ->
  elem (slice_offs v offset size) c = elem v c + offset /\ v_shape (slice_offs v offset size) = size.
Proof. exact (slice_offs_view). Qed.
Print Assumptions C51_slice_offs_view.

(** from ViewsProofs.v *)
Theorem C51_slice_valid : forall shape pos size c,
  Forall2 (fun ps d => 0 <= fst ps /\ fst ps + snd ps <= d) (combine pos size) shape -> length pos = length size -> length size = length shape ->
  valid size c -> valid shape (cadd pos c).
Proof. exact (slice_valid). Qed.
Print Assumptions C51_slice_valid.

(** from ViewsProofs.v *)
Theorem C51_slice_size_refuted : let v := slice (contig_view [4; 4]) [1; 0] [2; 4] in
  elem v [0; 0] = 4 /\ elem (slice v [0; 0] [1; 4]) [0; 0] = 4 /\ elem (slice_size v [1; 4]) [0; 0] = 0.
Proof. exact (slice_size_refuted). Qed.
Print Assumptions C51_slice_size_refuted.

(** from ViewsProofs.v *)
Theorem C51_transpose_view : forall v new_order c,
  is_order (length (v_stride v)) new_order -> length c = length (v_stride v) ->
  let perm l := map (fun a => nth a l 0) new_order in
  elem (vtranspose v new_order) (perm c) = elem v c /\ (valid (v_shape v) c -> length (v_shape v) = length (v_stride v) -> valid (v_shape (vtranspose v new_order)) (perm c)).
Proof. exact (transpose_view). Qed.
Print Assumptions C51_transpose_view.

(** from ViewsProofs.v *)
Theorem C51_split_view : forall v axis chunks left l r i j,
  (axis < length (v_stride v))%nat -> length (v_shape v) = length (v_stride v) -> length l = axis -> length r = (length (v_stride v) - S axis)%nat ->
  let D := nth axis (v_shape v) 0 in let n := D / chunks in
  1 <= chunks -> 0 <= D -> D mod chunks = 0 -> in_bits 32 (n * nth axis (v_stride v) 0) ->
  exists w, vsplit v axis chunks left = Some w
    /\ elem w (l ++ (if left then [j; i] else [i; j]) ++ r) = elem v (l ++ [j * n + i] ++ r)
    /\ (valid (v_shape w) (l ++ (if left then [j; i] else [i; j]) ++ r) <-> valid (v_shape v) (l ++ [j * n + i] ++ r) /\ 0 <= i < n).
Proof. exact (split_view). Qed.
Print Assumptions C51_split_view.

(** from ViewsProofs.v *)
Theorem C51_combine_view : forall v axis l r x,
  (S axis < length (v_stride v))%nat -> length (v_shape v) = length (v_stride v) -> length l = axis -> length r = (length (v_stride v) - S (S axis))%nat ->
  let D := nth axis (v_shape v) 0 in let D1 := nth (S axis) (v_shape v) 0 in
  1 <= D -> 0 <= D1 -> D * D1 < 2 ^ 32 -> in_bits 32 (D * nth axis (v_stride v) 0) ->
  nth (S axis) (v_stride v) 0 = D * nth axis (v_stride v) 0 ->
  exists w, vcombine v axis true = Some w
    /\ elem w (l ++ [x] ++ r) = elem v (l ++ [x mod D; x / D] ++ r)
    /\ (valid (v_shape w) (l ++ [x] ++ r) <-> valid (v_shape v) (l ++ [x mod D; x / D] ++ r)).
Proof. exact (combine_view). Qed.
Print Assumptions C51_combine_view.

(** from ViewsProofs.v *)
Theorem C51_combine_split : forall v axis chunks w,
  (axis < length (v_stride v))%nat -> length (v_shape v) = length (v_stride v) ->
  let D := nth axis (v_shape v) 0 in 1 <= chunks -> 0 <= D < 2 ^ 32 -> in_bits 32 (D / chunks * nth axis (v_stride v) 0) ->
  vsplit v axis chunks false = Some w -> vcombine w axis true = Some v.
Proof. exact (combine_split). Qed.
Print Assumptions C51_combine_split.

(** from ViewsProofs.v *)
Theorem C51_combine_rows_refuted : exists w, vcombine (contig_view [2; 3]) 0 false = Some w /\ v_shape w = [6]
  /\ map (fun x => elem w [x]) [0; 1; 2; 3; 4; 5] = [0; 3; 6; 9; 12; 15].
Proof. exact (combine_rows_refuted). Qed.
Print Assumptions C51_combine_rows_refuted.

(** from ViewsProofs.v *)
Theorem C51_contig_view_correct : forall shape, Forall (fun d => 1 <= d) shape -> prod shape < 2 ^ 31 ->
  total_elem_num (contig_view shape) = prod shape /\
  forall c, valid shape c -> 0 <= elem (contig_view shape) c < prod shape
    /\ forall c', valid shape c' -> elem (contig_view shape) c = elem (contig_view shape) c' -> c = c'.
Proof. exact (contig_view_correct). Qed.
Print Assumptions C51_contig_view_correct.

(** * C52: Relocating an offset buffer preserves its content window *)

(** from ViewsProofs.v *)
Theorem C52_link_window : forall b bases,
  0 <= ob_mem b < Z.of_nat (length bases) -> 0 <= nth (Z.to_nat (ob_mem b)) bases 0 + ob_off b < 2 ^ 64 ->
  link b bases = Some (mkIbuf (nth (Z.to_nat (ob_mem b)) bases 0 + ob_off b) (ob_size b) (ob_esz b)).
Proof. exact (link_window). Qed.
Print Assumptions C52_link_window.

(** from ViewsProofs.v *)
Theorem C52_rel_window : forall b rel, 0 <= rel -> 0 <= ob_off b -> ob_off b + ob_size b < 2 ^ 32 ->
  (rel <= ob_size b -> exists b', rel_buffer b rel = Some b' /\ ob_off b' = ob_off b + rel /\ ob_off b' + ob_size b' = ob_off b + ob_size b /\ ob_mem b' = ob_mem b /\ ob_esz b' = ob_esz b)
  /\ (ob_size b < rel -> rel_buffer b rel = None).
Proof. exact (rel_window). Qed.
Print Assumptions C52_rel_window.

(** from ViewsProofs.v *)
Theorem C52_inc_window_refuted : let b := mkObuf 0 0 16 2 in ob_off (inc_buffer b 4) + ob_size (inc_buffer b 4) = ob_off b + ob_size b + 8.
Proof. exact (inc_window_refuted). Qed.
Print Assumptions C52_inc_window_refuted.

(** from ViewsProofs.v *)
Theorem C52_tensor_window : forall b bases ib v c,
  0 <= ob_mem b < Z.of_nat (length bases) -> 0 <= nth (Z.to_nat (ob_mem b)) bases 0 -> 0 <= ob_off b ->
  nth (Z.to_nat (ob_mem b)) bases 0 + ob_off b + ob_size b <= 2 ^ 64 -> 0 <= ob_size b < 2 ^ 32 -> 1 <= ob_esz b ->
  link b bases = Some ib ->
  0 <= v_offs v -> 0 <= addr (v_stride v) c -> (elem v c + 1) * ob_esz b <= ob_size b ->
  let w := nth (Z.to_nat (ob_mem b)) bases 0 + ob_off b in
  exists a, tensor_addr ib v (ob_esz b) (get_offset v c) = Some a /\ a = w + ob_esz b * elem v c /\ w <= a /\ a + ob_esz b <= w + ob_size b.
Proof. exact (tensor_window). Qed.
Print Assumptions C52_tensor_window.

(** from ViewsProofs.v *)
Theorem C52_contig_window : forall b bases ib shape,
  0 <= ob_mem b < Z.of_nat (length bases) -> 0 <= nth (Z.to_nat (ob_mem b)) bases 0 -> 0 <= ob_off b ->
  nth (Z.to_nat (ob_mem b)) bases 0 + ob_off b + ob_size b <= 2 ^ 64 -> 0 <= ob_size b < 2 ^ 32 -> 1 <= ob_esz b ->
  link b bases = Some ib -> Forall (fun d => 1 <= d) shape -> prod shape < 2 ^ 31 -> prod shape * ob_esz b <= ob_size b ->
  let v := contig_view shape in let w := nth (Z.to_nat (ob_mem b)) bases 0 + ob_off b in
  forall c, valid shape c -> exists a, tensor_addr ib v (ob_esz b) (get_offset v c) = Some a /\ w <= a /\ a + ob_esz b <= w + ob_size b
    /\ forall c', valid shape c' -> c' <> c -> exists a', tensor_addr ib v (ob_esz b) (get_offset v c') = Some a' /\ (a + ob_esz b <= a' \/ a' + ob_esz b <= a).
Proof. exact (contig_window). Qed.
Print Assumptions C52_contig_window.

(** * C53: SA8 kernels' bias is applied exactly or with 15 significant bits *)

(** from QuantProofs.v *)
Theorem C53_bias_s8_full rm bias acc : in_bits 32 bias -> in_bits 32 acc ->
  bias_additive_s8 rm true bias acc = sat 32 (acc + bias).
Proof. exact (@bias_s8_full rm bias acc). Qed.
Print Assumptions C53_bias_s8_full.

(** from QuantProofs.v *)
Theorem C53_bias_s8_reduced rm bias acc : in_bits 32 bias -> in_bits 32 acc ->
  exists b, bias_additive_s8 rm false bias acc = sat 32 (acc + b)
    /\ 0 <= bias - b /\ (bias - b) * 2 ^ 14 <= Z.abs bias /\ (in_bits 16 bias -> b = bias).
Proof. exact (@bias_s8_reduced rm bias acc). Qed.
Print Assumptions C53_bias_s8_reduced.

(** * C54: Sum pooling is the exact sum of the valid window *)

(** from PoolKernels.v *)
Theorem C54_sumpool_correct mi m tin tout c fixed :
  chk_pool tin tout c fixed = ST_OK -> pool_fits tin tout c -> pool_padding_small tin tout c ->
  fits32 tin -> fits32 tout -> backed tin mi -> backed tout m -> mem_bits 8 mi ->
  exists m', sumpool mi fixed tin tout c m = Some m'
    /\ (forall H W ch, valid (t_shape tout) [H; W; ch] -> hwc_elem m' tout H W ch = Some (window_sum mi tin c H W ch))
    /\ frame_ok tout m m'.
Proof. exact (@sumpool_correct mi m tin tout c fixed). Qed.
Print Assumptions C54_sumpool_correct.

(** * C55: MLI 3.0 convolution computes the exact integer sum with zero-point padding *)

(** from ConvInt.v *)
Theorem C55_conv2d_int_correct rm full zi oq mi mw m tin tw tout c :
  conv_shapes tin tw tout c -> conv_fits tin tw tout c -> fits32 tin -> fits32 tw -> fits32 tout ->
  backed tin mi -> backed tw mw -> backed tout m -> mem_bits 8 mi -> mem_bits 8 mw -> in_bits 8 zi ->
  dim tin 2 * dim tw 0 * dim tw 1 * (3 * 2 ^ 14) <= smax 32 ->
  exists m', conv2d rm full (Q_int zi 0) 32 oq 0 mi mw None tin tw tout c m = Some m'
    /\ int_results (conv_int_sum mi mw tin tw c zi) tout m m'.
Proof. exact (@conv2d_int_correct rm full zi oq mi mw m tin tw tout c). Qed.
Print Assumptions C55_conv2d_int_correct.

(** from ConvInt.v *)
Theorem C55_conv2d_int_zero_point_refuted :
  ~ (forall rm full zi zw oq mi mw m m' tin tw tout c,
      conv_shapes tin tw tout c -> conv_fits tin tw tout c -> fits32 tin -> fits32 tw -> fits32 tout ->
      backed tin mi -> backed tw mw -> backed tout m -> mem_bits 8 mi -> mem_bits 8 mw -> in_bits 8 zi -> in_bits 8 zw ->
      conv2d rm full (Q_int zi zw) 32 oq 0 mi mw None tin tw tout c m = Some m' ->
      hwc_elem m' tout 0 0 0 = Some (conv_taps tin tw c 0 0
        (fun kr kc => zsum 0 (dim tin 2) (fun ic => at3 mi tin (tap_r c 0 kr) (tap_c c 0 kc) ic * (at4 mw tw kr kc ic 0 - zw)))
        (fun kr kc => zsum 0 (dim tin 2) (fun ic => zi * (at4 mw tw kr kc ic 0 - zw))))).
Proof. exact (conv2d_int_zero_point_refuted). Qed.
Print Assumptions C55_conv2d_int_zero_point_refuted.

(** * C56: MLI 3.0 depthwise convolution computes the exact integer sum with zero points *)

(** from ConvInt.v *)
Theorem C56_depthwise_int_correct rm full zi zw oq mi mw m tin tw tout c :
  depthwise_shapes tin tw tout c -> conv_fits tin tw tout c -> fits32 tin -> fits32 tw -> fits32 tout ->
  backed tin mi -> backed tw mw -> backed tout m -> mem_bits 8 mi -> mem_bits 8 mw -> in_bits 8 zi -> in_bits 8 zw ->
  dim tw 0 * dim tw 1 * (5 * 2 ^ 14) <= smax 32 ->
  exists m', depthwise_conv2d rm full (Q_int zi zw) 32 oq 0 mi mw None tin tw tout c m = Some m'
    /\ int_results (depthwise_int_sum mi mw tin tw c zi zw) tout m m'.
Proof. exact (@depthwise_int_correct rm full zi zw oq mi mw m tin tw tout c). Qed.
Print Assumptions C56_depthwise_int_correct.

(** * C57: MLI 3.0 transposed convolution computes the exact integer sum with zero-point filling *)

(** from TransConvTheorems.v *)
Theorem C57_transpose_conv2d_int_correct rm full zi oq mi mw m tin tw tout c :
  transpose_shapes tin tw tout c -> conv_fits tin tw tout c -> fits32 tin -> fits32 tw -> fits32 tout ->
  backed tin mi -> backed tw mw -> backed tout m -> mem_bits 8 mi -> mem_bits 8 mw -> in_bits 8 zi ->
  dim tin 2 * dim tw 0 * dim tw 1 * (3 * 2 ^ 14) <= smax 32 ->
  exists m', transpose_conv2d rm full (Q_int zi 0) 32 oq mi mw None tin tw tout c m = Some m'
    /\ int_results (transpose_int_sum mi mw tin tw c zi) tout m m'.
Proof. exact (@transpose_conv2d_int_correct rm full zi oq mi mw m tin tw tout c). Qed.
Print Assumptions C57_transpose_conv2d_int_correct.

(** * C58: MLI 3.0 fully connected computes exact integer sums *)

(** from FullyConnProofs.v *)
Theorem C58_fully_connected_int_correct rm full zi zw oq relu mi mw m tin tw tout :
  fc_int_shapes tin tw tout -> fits32 tin -> fits32 tw -> fits32 tout -> backed tin mi -> backed tw mw -> backed tout m ->
  mem_bits 8 mi -> mem_bits 8 mw -> in_bits 8 zw -> dim tw 0 * (2 * 2 ^ 14) <= smax 32 ->
  exists m', fully_connected rm full (Q_int zi zw) true 32 oq relu mi mw None tin tw tout m = Some m'
    /\ (forall o, valid (t_shape tout) [0; o] -> m' (t_data tout + addr (t_stride tout) [0; o]) = Some (fc_int_sum mi mw tin tw zw o))
    /\ frame_ok tout m m'.
Proof. exact (@fully_connected_int_correct rm full zi zw oq relu mi mw m tin tw tout). Qed.
Print Assumptions C58_fully_connected_int_correct.

(** from FullyConnProofs.v *)
Theorem C58_fully_connected_int_batch_refuted :
  ~ (forall rm full zi zw oq relu mi mw m tin tw tout n ic oc,
      t_shape tin = [n; ic] -> t_shape tw = [ic; oc] -> t_shape tout = [n; oc] ->
      chk_tensor tin = ST_OK -> chk_tensor tw = ST_OK -> chk_tensor tout = ST_OK -> fits32 tin -> fits32 tw -> fits32 tout ->
      backed tin mi -> backed tw mw -> backed tout m -> mem_bits 8 mi -> mem_bits 8 mw ->
      fully_connected rm full (Q_int zi zw) true 32 oq relu (zeroed mi) (zeroed mw) None tin tw tout m <> None).
Proof. exact (fully_connected_int_batch_refuted). Qed.
Print Assumptions C58_fully_connected_int_batch_refuted.

(** * C59: MLI 3.0 element-wise operators compute saturated integer results *)

(** from EltwiseProofs.v *)
Theorem C59_eltwise_int_correct rm op n no t1 t2 tout imm1 imm2 m :
  int_types op n no -> chk_eltwise t1 t2 tout = ST_OK ->
  operand_ok t1 m -> operand_ok t2 m -> t_rank tout <> 0 -> fits32 tout -> backed tout m ->
  no_hazard t1 tout -> no_hazard t2 tout ->
  (forall c, in_bits n (elt_arg m t1 imm1 c)) -> (forall c, in_bits n (elt_arg m t2 imm2 c)) ->
  exists m', eltwise (elt_int rm op n no) t1 t2 tout imm1 imm2 m = Some m'
    /\ (forall c, valid (t_shape tout) c ->
         m' (t_data tout + addr (t_stride tout) c) = Some (sat no (int_op op (elt_arg m t1 imm1 c) (elt_arg m t2 imm2 c))))
    /\ frame_ok tout m m'.
Proof. exact (@eltwise_int_correct rm op n no t1 t2 tout imm1 imm2 m). Qed.
Print Assumptions C59_eltwise_int_correct.

(** from EltwiseProofs.v *)
Theorem C59_eltwise_mul_exact n a b : n = 8 \/ n = 16 -> in_bits n a -> in_bits n b -> sat 32 (a * b) = a * b.
Proof. exact (@eltwise_mul_exact n a b). Qed.
Print Assumptions C59_eltwise_mul_exact.

(** from EltwiseProofs.v *)
Theorem C59_eltwise_broadcast_refuted : exists t1 t2 tout m m' c,
  elt_cs_shapes (t_shape t1) (t_shape t2) (t_shape tout) = true
  /\ elt_cs_scalar (t_shape t1) = false /\ elt_cs_scalar (t_shape t2) = false
  /\ chk_tensor t1 = ST_OK /\ chk_tensor t2 = ST_OK /\ chk_tensor tout = ST_OK
  /\ eltwise (elt_int RM_UP ELT_ADD 8 8) t1 t2 tout 0 0 m = Some m'
  /\ valid (t_shape tout) c /\ rd m (t_data t1 + addr (t_stride t1) [0; 0]) = 1 /\ rd m (t_data t2 + addr (t_stride t2) c) = 1
  /\ m' (t_data tout + addr (t_stride tout) c) = Some 0.
Proof. exact (eltwise_broadcast_refuted). Qed.
Print Assumptions C59_eltwise_broadcast_refuted.

(** * C60: SA8 element-wise kernels compute the real operation within a rounding error *)

(** from EltwiseSa8Proofs.v *)
Theorem C60_eltwise_sa8_correct rm op i1 i2 o t1 t2 tout imm1 imm2 m :
  chk_eltwise t1 t2 tout = ST_OK -> chk_elt_quant op i1 i2 o = true -> qpar_typed i1 -> qpar_typed i2 -> qpar_typed o -> elt_scales op i1 i2 o ->
  operand_ok t1 m -> operand_ok t2 m -> t_rank tout <> 0 -> fits32 tout -> backed tout m ->
  no_hazard t1 tout -> no_hazard t2 tout ->
  mem_bits 8 m -> in_bits 8 imm1 -> in_bits 8 imm2 ->
  exists m', eltwise (elt_sa8 rm op (elt_params_sa8 rm op i1 i2 o)) t1 t2 tout imm1 imm2 m = Some m'
    /\ (forall c, valid (t_shape tout) c ->
         let u := sa_real i1 (elt_arg m t1 imm1 c) in
         let v := sa_real i2 (elt_arg m t2 imm2 c) in
         let so := real_scale (q_scale o) (q_frac o) in
         exists r, m' (t_data tout + addr (t_stride tout) c) = Some r
           /\ within (elt_bound op u v so) (inject_Z r) (qclamp (- (128)) 127 (elt_real op u v / so + inject_Z (q_zp o))))
    /\ frame_ok tout m m'.
Proof. exact (@eltwise_sa8_correct rm op i1 i2 o t1 t2 tout imm1 imm2 m). Qed.
Print Assumptions C60_eltwise_sa8_correct.

(** from EltwiseSa8Proofs.v *)
Theorem C60_eltwise_sa8_value rm op i1 i2 o a b :
  chk_elt_quant op i1 i2 o = true -> qpar_typed i1 -> qpar_typed i2 -> qpar_typed o -> elt_scales op i1 i2 o -> in_bits 8 a -> in_bits 8 b ->
  let so := real_scale (q_scale o) (q_frac o) in
  within (elt_bound op (sa_real i1 a) (sa_real i2 b) so)
    (inject_Z (elt_sa8 rm op (elt_params_sa8 rm op i1 i2 o) a b))
    (qclamp (- (128)) 127 (elt_real op (sa_real i1 a) (sa_real i2 b) / so + inject_Z (q_zp o))).
Proof. exact (@eltwise_sa8_value rm op i1 i2 o a b). Qed.
Print Assumptions C60_eltwise_sa8_value.

(** from EltwiseSa8Proofs.v *)
Theorem C60_eltwise_sa8_scales_refuted : exists rm i o a b, qpar_ok i /\ qpar_ok o /\ chk_elt_quant ELT_ADD i i o = true /\ in_bits 8 a /\ in_bits 8 b
  /\ (elt_real ELT_ADD (sa_real i a) (sa_real i b) / real_scale (q_scale o) (q_frac o) == inject_Z (2 ^ 40))%Q
  /\ elt_sa8 rm ELT_ADD (elt_params_sa8 rm ELT_ADD i i o) a b = -1.
Proof. exact (eltwise_sa8_scales_refuted). Qed.
Print Assumptions C60_eltwise_sa8_scales_refuted.

(** * C61: The MLI 3.0 PReLU operator is exact *)

(** from Prelu3Proofs.v *)
Theorem C61_prelu3_correct rm no p axis tin tout mi m :
  1 <= no <= 32 -> axis < Z.of_nat (length (t_shape tin)) ->
  prelu3_params_ok no p (if axis <? 0 then 1 else nth (Z.to_nat axis) (t_shape tin) 0) -> mem_bits 32 mi ->
  (forall c, valid (t_shape tin) c -> allocated mi (t_data tin + addr (t_stride tin) c) /\ allocated m (t_data tout + addr (t_stride tout) c)) ->
  (forall c c', valid (t_shape tin) c -> valid (t_shape tin) c' -> addr (t_stride tout) c = addr (t_stride tout) c' -> c = c') ->
  (forall c, valid (t_shape tin) c -> in_bits 32 (rd mi (t_data tin + addr (t_stride tin) c) - rd (p3_bias_in p) (prelu3_index axis c))) ->
  exists m', prelu3 rm 32 no p axis tin tout mi m = Some m'
    /\ (forall c, valid (t_shape tin) c ->
         let k := prelu3_index axis c in
         m' (t_data tout + addr (t_stride tout) c) = Some (prelu3_exact rm no (rd mi (t_data tin + addr (t_stride tin) c) - rd (p3_bias_in p) k) (rd (p3_bias_out p) k)
           (rd (p3_posscale p) k) (rd (p3_posshift p) k) (rd (p3_negscale p) k) (rd (p3_negshift p) k)))
    /\ (forall a, (forall c, valid (t_shape tin) c -> a <> t_data tout + addr (t_stride tout) c) -> m' a = m a).
Proof. exact (@prelu3_correct rm no p axis tin tout mi m). Qed.
Print Assumptions C61_prelu3_correct.

(** from Prelu3Proofs.v *)
Theorem C61_prelu3_value rm no x bi bo ps pk ns nk : 1 <= no <= 32 -> in_bits 32 x -> in_bits 32 bi -> in_bits 32 (x - bi) -> in_bits no bo -> in_bits 16 ps -> in_bits 16 ns ->
  (if wrap 32 (x - bi) >=? 0 then scale_value rm no x bi bo ps pk else scale_value rm no x bi bo ns nk) = prelu3_exact rm no (x - bi) bo ps pk ns nk.
Proof. exact (@prelu3_value rm no x bi bo ps pk ns nk). Qed.
Print Assumptions C61_prelu3_value.

(** from Prelu3Proofs.v *)
Theorem C61_prelu3_overflow_refuted : exists rm x bi bo ps pk ns nk, in_bits 32 x /\ in_bits 32 bi
  /\ prelu3_exact rm 8 (x - bi) bo ps pk ns nk = 127
  /\ (if wrap 32 (x - bi) >=? 0 then scale_value rm 8 x bi bo ps pk else scale_value rm 8 x bi bo ns nk) = -128.
Proof. exact (prelu3_overflow_refuted). Qed.
Print Assumptions C61_prelu3_overflow_refuted.

(** * C62: Input tiles contain the receptive fields of the output tiles *)

(** from IterTheorems.v *)
Theorem C62_kernel_tiles_cover : forall o Do T skew D K S P, 1 <= T <= Do -> 0 <= skew < T -> Do + T + T < 2 ^ 31 ->
  1 <= S -> 1 <= K -> 1 <= D -> 0 <= P <= (T - skew) * S -> P <= (T - skew - 1) * S + K ->
  (Do + 2 * T) * S + K + D < 2 ^ 31 ->
  let out := tile_dim o Do T skew in let inp := kernel_dim out D K S P in
  tile_start out (it_count out - 1) * S - P <= D ->
  it_count inp = it_count out /\
  forall k, 0 <= k < it_count out ->
    (0 <= tile_start inp k /\ 0 <= tile_len inp D k /\ tile_start inp k + tile_len inp D k <= D)
    /\ forall y x, tile_start out k <= y < tile_start out k + tile_len out Do k -> 0 <= x < D -> y * S - P <= x < y * S - P + K ->
       tile_start inp k <= x < tile_start inp k + tile_len inp D k.
Proof. exact (kernel_tiles_cover). Qed.
Print Assumptions C62_kernel_tiles_cover.

(** * C63: Removing the overlap of adjacent input tiles loses and repeats no element *)

(** from IterTheorems.v *)
Theorem C63_remove_overlap_cuts : forall o Do T skew D K S P, 1 <= T <= Do -> 0 <= skew < T -> Do + T + T < 2 ^ 31 ->
  1 <= S -> 1 <= K -> 1 <= D -> 0 <= P <= (T - skew) * S -> P <= (T - skew - 1) * S + K ->
  (Do + 2 * T) * S + K + D < 2 ^ 31 ->
  let out := tile_dim o Do T skew in let inp := kernel_dim out D K S P in
  tile_start out (it_count out - 1) * S - P <= D ->
  1 < it_count out -> (T - skew - 1) * S + K - P <= D -> (tile_start out (it_count out - 1) - 1) * S - P + K <= D ->
  let rem := remove_overlap_dim inp in
  it_count rem = it_count out /\ cuts D (it_count rem) (tile_start rem) (tile_len rem D)
  /\ forall k, 1 <= k < it_count out -> tile_start rem k = (tile_start out k - 1) * S - P + K.
Proof. exact (remove_overlap_cuts). Qed.
Print Assumptions C63_remove_overlap_cuts.

(** from IterTheorems.v *)
Theorem C63_remove_overlap_refuted :
  let out := tile_dim 0 5 2 0 in let inp := kernel_dim out 5 5 1 2 in let rem := remove_overlap_dim inp in
  it_count rem = 3 /\ tile_len inp 5 2 = 3 /\ tile_start inp 2 = 2 /\ tile_len rem 5 2 = 2 ^ 32 - 1.
Proof. exact (remove_overlap_refuted). Qed.
Print Assumptions C63_remove_overlap_refuted.

(** * C64: The update index identifies the sizes of a tile *)

(** from IterTheorems.v *)
Theorem C64_update_idx_sizes : forall cfg a b, idx_ok cfg a -> idx_ok cfg b ->
  update_idx cfg a = update_idx cfg b <-> Forall2 (fun d jk => plain_len d (fst jk) = plain_len d (snd jk)) cfg (combine a b).
Proof. exact (update_idx_sizes). Qed.
Print Assumptions C64_update_idx_sizes.

(** from IterTheorems.v *)
Theorem C64_update_idx_dense : forall cfg a v, idx_ok cfg a -> 0 <= v <= update_idx cfg a -> exists b, idx_ok cfg b /\ update_idx cfg b = v.
Proof. exact (update_idx_dense). Qed.
Print Assumptions C64_update_idx_dense.

(** from IterTheorems.v *)
Theorem C64_update_idx_tiles : forall shape tile order skew,
  is_order (length shape) order ->
  (forall a, (a < length shape)%nat -> 1 <= nth a tile 0 <= nth a shape 0 /\ nth a shape 0 + 2 * nth a tile 0 < 2 ^ 31) ->
  (forall a, In a order -> 0 <= skew <= nth a tile 0) ->
  let cfg := tile_cfg shape tile order skew in
  forall a b, idx_ok cfg a -> idx_ok cfg b ->
  update_idx cfg a = update_idx cfg b <-> snd (sub_tensor cfg shape (at_tile cfg a)) = snd (sub_tensor cfg shape (at_tile cfg b)).
Proof. exact (update_idx_tiles). Qed.
Print Assumptions C64_update_idx_tiles.

(** from IterTheorems.v *)
Theorem C64_update_idx_refuted :
  let out := tile_dim 0 11 3 0 in let inp := kernel_dim out 8 4 1 3 in
  update_idx [inp] [1] = update_idx [inp] [2] /\ tile_len inp 8 1 = 6 /\ tile_len inp 8 2 = 5.
Proof. exact (update_idx_refuted). Qed.
Print Assumptions C64_update_idx_refuted.

(** * C65: Offset increments lead from tile to tile *)

(** from IterTheorems.v *)
Theorem C65_iter_increments : forall shape tile order skew strides bufs bsize,
  is_order (length shape) order -> shape <> [] -> length strides = length shape ->
  (forall a, (a < length shape)%nat -> 1 <= nth a tile 0 <= nth a shape 0 /\ nth a shape 0 + 2 * nth a tile 0 < 2 ^ 31) ->
  (forall a, In a order -> 0 <= skew < nth a tile 0) ->
  length bufs = length order ->
  let cfg := tile_cfg shape tile order skew in
  forall n, snd (inc_run cfg strides n) = addr strides (fst (sub_tensor cfg shape (fst (iter_run cfg bufs bsize n))))
    /\ snd (iter_next_inc cfg strides (fst (inc_run cfg strides n))) = (Z.of_nat (S n) mod total_count cfg =? 0).
Proof. exact (iter_increments). Qed.
Print Assumptions C65_iter_increments.

(** from IterTheorems.v *)
Theorem C65_iter_increments_refuted : forall d strides, it_order d = -1 -> forall k, snd (iter_next_inc [d] strides [k]) = false.
Proof. exact (iter_increments_refuted). Qed.
Print Assumptions C65_iter_increments_refuted.

(** * C66: Derived iterator configurations *)

(** from IterTheorems.v *)
Theorem C66_transpose_tiles : forall cfg shape st new_order,
  orders_ok (length shape) cfg -> length cfg = length shape -> length st = length cfg ->
  is_order (length shape) new_order -> (forall a, (a < length shape)%nat -> nth (nth a new_order 0%nat) new_order 0%nat = a) ->
  let perm l := map (fun a => nth a l 0) new_order in
  sub_tensor (transpose_order new_order cfg) (perm shape) st = (perm (fst (sub_tensor cfg shape st)), perm (snd (sub_tensor cfg shape st))).
Proof. exact (transpose_tiles). Qed.
Print Assumptions C66_transpose_tiles.

(** from IterTheorems.v *)
Theorem C66_transpose_order_refuted :
  let cfg := tile_cfg [4; 6; 8] [2; 3; 4] [0; 1; 2]%nat 0 in
  let st := iter_reset cfg in
  let perm l := map (fun a => nth a l 0) [1; 2; 0]%nat in
  perm (snd (sub_tensor cfg [4; 6; 8] st)) = [3; 4; 2]
  /\ snd (sub_tensor (transpose_order [1; 2; 0]%nat cfg) (perm [4; 6; 8]) st) = [4; 2; 3].
Proof. exact (transpose_order_refuted). Qed.
Print Assumptions C66_transpose_order_refuted.

(** from IterTheorems.v *)
Theorem C66_drop_axis_tiles : forall axis cfg,
  Forall (fun d => it_first_inc d = it_inc d) cfg -> (axis < length cfg)%nat ->
  let l := firstn axis cfg ++ skipn (S axis) cfg in
  map it_order (drop_axis axis cfg) = map Z.of_nat (seq 0 (length cfg - 1))
  /\ forall i d, nth_error l i = Some d -> nth_error (drop_axis axis cfg) i
     = Some (mkIdim (Z.of_nat i) (it_count d) (it_first_inc d) (it_inc d) (it_last_inc d) (it_first_size d) (it_size d) (it_last_size d)).
Proof. exact (drop_axis_tiles). Qed.
Print Assumptions C66_drop_axis_tiles.

(** from IterTheorems.v *)
Theorem C66_drop_axis_refuted :
  let cfg := tile_cfg [10; 6] [4; 3] [0; 1]%nat 1 in
  let d := nth 0 cfg (mkIdim 0 0 0 0 0 0 0 0) in let e := nth 0 (drop_axis 1 cfg) (mkIdim 0 0 0 0 0 0 0 0) in
  map (fun k => (tile_start d k, tile_len d 10 k)) [0; 1; 2] = [(0, 3); (3, 4); (7, 3)]
  /\ map (fun k => (tile_start e k, tile_len e 10 k)) [0; 1; 2] = [(0, 3); (4, 4); (7, 3)].
Proof. exact (drop_axis_refuted). Qed.
Print Assumptions C66_drop_axis_refuted.

(** * C67: Activations and softmax approximate the real functions *)

(** from LutReal.v *)
Open Scope R_scope.
Theorem C67_sigmoid_fx16_real rm fin tin tout m : (fin <= 34)%Z ->
  chk_basic_activation tin tout = ST_OK -> t_rank tin <> 0%Z -> fits32 tin -> fits32 tout -> backed tin m -> backed tout m -> unary_ok tin tout -> mem_bits 16 m -> in_bits 8 fin ->
  exists m', act_fx rm 16 sigmoid_lut fin tin tout m = Some m' /\ frame_ok tout m m' /\ forall c, valid (t_shape tout) c -> exists y,
    m' (t_data tout + addr (t_stride tout) c)%Z = Some y /\ Rabs (IZR y - 32768 * sigmoid (real_of fin (rd m (t_data tin + addr (t_stride tin) c)%Z))) <= 13 / 5.
Proof. exact (@sigmoid_fx16_real rm fin tin tout m). Qed.
Close Scope R_scope.
Print Assumptions C67_sigmoid_fx16_real.

(** from LutReal.v *)
Open Scope R_scope.
Theorem C67_tanh_fx16_real rm fin tin tout m : (fin <= 35)%Z ->
  chk_basic_activation tin tout = ST_OK -> t_rank tin <> 0%Z -> fits32 tin -> fits32 tout -> backed tin m -> backed tout m -> unary_ok tin tout -> mem_bits 16 m -> in_bits 8 fin ->
  exists m', act_fx rm 16 tanh_lut fin tin tout m = Some m' /\ frame_ok tout m m' /\ forall c, valid (t_shape tout) c -> exists y,
    m' (t_data tout + addr (t_stride tout) c)%Z = Some y /\ Rabs (IZR y - 32768 * tanh (real_of fin (rd m (t_data tin + addr (t_stride tin) c)%Z))) <= 33 / 8.
Proof. exact (@tanh_fx16_real rm fin tin tout m). Qed.
Close Scope R_scope.
Print Assumptions C67_tanh_fx16_real.

(** from LutReal.v *)
Open Scope R_scope.
Theorem C67_sigmoid_fx8_real rm fin tin tout m : (fin <= 34)%Z ->
  chk_basic_activation tin tout = ST_OK -> t_rank tin <> 0%Z -> fits32 tin -> fits32 tout -> backed tin m -> backed tout m -> unary_ok tin tout -> mem_bits 8 m -> in_bits 8 fin ->
  exists m', act_fx rm 8 sigmoid_lut fin tin tout m = Some m' /\ frame_ok tout m m' /\ forall c, valid (t_shape tout) c -> exists y,
    m' (t_data tout + addr (t_stride tout) c)%Z = Some y /\ Rabs (IZR y - Rmin (128 * sigmoid (real_of fin (rd m (t_data tin + addr (t_stride tin) c)%Z))) 127) <= 511 / 1000.
Proof. exact (@sigmoid_fx8_real rm fin tin tout m). Qed.
Close Scope R_scope.
Print Assumptions C67_sigmoid_fx8_real.

(** from LutReal.v *)
Open Scope R_scope.
Theorem C67_tanh_fx8_real rm fin tin tout m : (fin <= 35)%Z ->
  chk_basic_activation tin tout = ST_OK -> t_rank tin <> 0%Z -> fits32 tin -> fits32 tout -> backed tin m -> backed tout m -> unary_ok tin tout -> mem_bits 8 m -> in_bits 8 fin ->
  exists m', act_fx rm 8 tanh_lut fin tin tout m = Some m' /\ frame_ok tout m m' /\ forall c, valid (t_shape tout) c -> exists y,
    m' (t_data tout + addr (t_stride tout) c)%Z = Some y /\ Rabs (IZR y - Rmin (128 * tanh (real_of fin (rd m (t_data tin + addr (t_stride tin) c)%Z))) 127) <= 517 / 1000.
Proof. exact (@tanh_fx8_real rm fin tin tout m). Qed.
Close Scope R_scope.
Print Assumptions C67_tanh_fx8_real.

(** from LutReal.v *)
Open Scope R_scope.
Theorem C67_sigmoid_sa8_real rm i tin tout m :
  chk_basic_activation tin tout = ST_OK -> t_rank tin <> 0%Z -> fits32 tin -> fits32 tout -> backed tin m -> backed tout m -> unary_ok tin tout -> mem_bits 8 m ->
  qpar_typed i -> chk_act_quant i = true ->
  exists m', act_sa8 rm sigm_sa8_out sigmoid_lut i tin tout m = Some m' /\ frame_ok tout m m' /\ forall c, valid (t_shape tout) c -> exists y,
    m' (t_data tout + addr (t_stride tout) c)%Z = Some y /\ Rabs (IZR (y + 128) - Rmin (256 * sigmoid (sa_R i (rd m (t_data tin + addr (t_stride tin) c)%Z))) 255) <= 529 / 1000.
Proof. exact (@sigmoid_sa8_real rm i tin tout m). Qed.
Close Scope R_scope.
Print Assumptions C67_sigmoid_sa8_real.

(** from LutReal.v *)
Open Scope R_scope.
Theorem C67_tanh_sa8_real rm i tin tout m :
  chk_basic_activation tin tout = ST_OK -> t_rank tin <> 0%Z -> fits32 tin -> fits32 tout -> backed tin m -> backed tout m -> unary_ok tin tout -> mem_bits 8 m ->
  qpar_typed i -> chk_act_quant i = true ->
  exists m', act_sa8 rm tanh_sa8_out tanh_lut i tin tout m = Some m' /\ frame_ok tout m m' /\ forall c, valid (t_shape tout) c -> exists y,
    m' (t_data tout + addr (t_stride tout) c)%Z = Some y /\ Rabs (IZR y - Rmin (128 * tanh (sa_R i (rd m (t_data tin + addr (t_stride tin) c)%Z))) 127) <= 524 / 1000.
Proof. exact (@tanh_sa8_real rm i tin tout m). Qed.
Close Scope R_scope.
Print Assumptions C67_tanh_sa8_real.

(** from LutReal.v *)
Open Scope R_scope.
Theorem C67_softmax_fx16_real rm fin axis tin tout m : (fin <= 35)%Z ->
  chk_softmax tin tout axis = ST_OK -> t_rank tin <> 0%Z -> fits32 tin -> fits32 tout -> backed tin m -> backed tout m -> unary_ok tin tout ->
  mem_bits 16 m -> in_bits 8 fin ->
  (forall c, valid (t_shape tin) c -> (Z.of_nat (length (axis_slice axis (t_shape tin) c)) <= 65538)%Z) ->
  exists m', softmax_fx rm 16 fin expneg_lut axis tin tout m = Some m' /\ frame_ok tout m m'
    /\ forall c, valid (t_shape tin) c ->
       let X := fun c => real_of fin (rd m (t_data tin + addr (t_stride tin) c)%Z) in
       let Y := fun c => rd m' (t_data tout + addr (t_stride tout) c)%Z in
       let sl := axis_slice axis (t_shape tin) c in
       forall c', In c' sl -> Rabs (IZR (Y c') - 32768 * softmax sl X c') <= 15 + 21 / 20 * IZR (Z.of_nat (length sl)).
Proof. exact (@softmax_fx16_real rm fin axis tin tout m). Qed.
Close Scope R_scope.
Print Assumptions C67_softmax_fx16_real.

(** from LutReal.v *)
Open Scope R_scope.
Theorem C67_softmax_sa8_real rm q axis tin tout m :
  chk_softmax tin tout axis = ST_OK -> t_rank tin <> 0%Z -> fits32 tin -> fits32 tout -> backed tin m -> backed tout m -> unary_ok tin tout ->
  mem_bits 8 m -> qpar_typed q -> chk_act_quant q = true ->
  (forall c, valid (t_shape tin) c -> (Z.of_nat (length (axis_slice axis (t_shape tin) c)) <= 65538)%Z) ->
  exists m', softmax_sa8 rm q expneg_lut axis tin tout m = Some m' /\ frame_ok tout m m'
    /\ forall c, valid (t_shape tin) c ->
       let X := fun c => sa_R q (rd m (t_data tin + addr (t_stride tin) c)%Z) in
       let Y := fun c => (rd m' (t_data tout + addr (t_stride tout) c) + 128)%Z in
       let sl := axis_slice axis (t_shape tin) c in
       forall c', In c' sl -> Rabs (IZR (Y c') - 256 * softmax sl X c') <= 162 / 100 + IZR (Z.of_nat (length sl)) / 120.
Proof. exact (@softmax_sa8_real rm q axis tin tout m). Qed.
Close Scope R_scope.
Print Assumptions C67_softmax_sa8_real.

(** from LutReal.v *)
Open Scope R_scope.
Theorem C67_sigmoid_entries i : (0 <= i < 320)%Z -> Rabs (IZR (tab sigmoid_lut i) - 32768 * sigmoid (IZR (i - 160) / 16)) <= 1 / 2.
Proof. exact (@sigmoid_entries i). Qed.
Close Scope R_scope.
Print Assumptions C67_sigmoid_entries.

(** from LutReal.v *)
Open Scope R_scope.
Theorem C67_tanh_entries i : (0 <= i < 344)%Z -> Rabs (IZR (tab tanh_lut i) - 32768 * tanh (IZR (i - 172) / 32)) <= 1 / 2.
Proof. exact (@tanh_entries i). Qed.
Close Scope R_scope.
Print Assumptions C67_tanh_entries.

(** from LutReal.v *)
Open Scope R_scope.
Theorem C67_expneg_entries i : (0 <= i <= 356)%Z -> Rabs (IZR (tab expneg_lut i) - 32768 * exp (IZR (i - 356) / 32)) <= (if (i =? 356)%Z then 1 else 1 / 2).
Proof. exact (@expneg_entries i). Qed.
Close Scope R_scope.
Print Assumptions C67_expneg_entries.

(** * C68: Tiled convolution equals the whole convolution *)

(** from TileConv.v *)
Theorem C68_conv_tile_correct d c si sw so i w o bi bw bo rm full zi mi mw m X Kf n :
  conv_dims_ok d c -> conv_iters d c si sw so = Some (i, w, o) ->
  let ob := conv_updates n (conv_create i w o c bi bw bo) in
  let '(pi, pw, po) := conv_offsets ob in
  let tin := hwc5 (co_tin ob) in let tw := hwcn5 (co_tw ob) in let tout := hwc5 (co_tout ob) in
  legal tin mi -> legal tw mw -> legal tout m -> mem_bits 8 mi -> mem_bits 8 mw -> in_bits 8 zi ->
  holds3 mi tin X (off_hwc pi) -> holds4 mw tw Kf (off_hwcn pw) ->
  exists m', conv_issue rm full zi 0 ob mi mw m = Some m'
    /\ holds3 m' tout (conv_whole d c zi X Kf) (off_hwc po) /\ frame_ok tout m m'.
Proof. exact (@conv_tile_correct d c si sw so i w o bi bw bo rm full zi mi mw m X Kf n). Qed.
Print Assumptions C68_conv_tile_correct.

(** from TileConv.v *)
Theorem C68_conv_tiles_whole d c si sw so i w o bi bw bo rm full zi X Kf (mi mw m : nat -> mem) :
  conv_dims_ok d c -> conv_iters d c si sw so = Some (i, w, o) -> in_bits 8 zi ->
  let ob n := conv_updates n (conv_create i w o c bi bw bo) in
  let total := total_count (ti_cfg o) in
  (forall n, Z.of_nat n < total -> tile_ready (ob n) X Kf (mi n) (mw n) (m n)) ->
  exists out : nat -> mem,
    (forall n, Z.of_nat n < total -> conv_issue rm full zi 0 (ob n) (mi n) (mw n) (m n) = Some (out n))
    /\ forall H W oc, 0 <= H < d_ho d -> 0 <= W < d_wo d -> 0 <= oc < d_co d ->
       exists n, (Z.of_nat n < total /\ in_out_tile (ob n) H W oc /\ out_value (ob n) (out n) H W oc = Some (conv_whole d c zi X Kf H W oc))
         /\ forall n', Z.of_nat n' < total -> in_out_tile (ob n') H W oc -> n' = n.
Proof. exact (@conv_tiles_whole d c si sw so i w o bi bw bo rm full zi X Kf mi mw m). Qed.
Print Assumptions C68_conv_tiles_whole.

(** from TileConv.v *)
Theorem C68_conv_tiles_untiled d c si sw so i w o bi bw bo rm full zi (mi mw m : nat -> mem) tin tw tout gi gw gm gm' oq :
  conv_dims_ok d c -> conv_iters d c si sw so = Some (i, w, o) -> in_bits 8 zi ->
  t_shape tin = [d_hi d; d_wi d; d_ci d] -> t_shape tw = [d_kh d; d_kw d; d_ci d; d_co d] -> t_shape tout = [d_ho d; d_wo d; d_co d] ->
  legal tin gi -> legal tw gw -> legal tout gm -> mem_bits 8 gi -> mem_bits 8 gw ->
  conv2d rm full (Q_int zi 0) 32 oq 0 gi gw None tin tw tout c gm = Some gm' ->
  let ob n := conv_updates n (conv_create i w o c bi bw bo) in
  let total := total_count (ti_cfg o) in
  (forall n, Z.of_nat n < total -> tile_ready (ob n) (at3 gi tin) (at4 gw tw) (mi n) (mw n) (m n)) ->
  exists out : nat -> mem,
    (forall n, Z.of_nat n < total -> conv_issue rm full zi 0 (ob n) (mi n) (mw n) (m n) = Some (out n))
    /\ forall H W oc, valid (t_shape tout) [H; W; oc] ->
       exists n, (Z.of_nat n < total /\ in_out_tile (ob n) H W oc /\ out_value (ob n) (out n) H W oc = hwc_elem gm' tout H W oc)
         /\ forall n', Z.of_nat n' < total -> in_out_tile (ob n') H W oc -> n' = n.
Proof. exact (@conv_tiles_untiled d c si sw so i w o bi bw bo rm full zi mi mw m tin tw tout gi gw gm gm' oq). Qed.
Print Assumptions C68_conv_tiles_untiled.

(** from TileConv.v *)
Theorem C68_conv_tile_legal d c si sw so i w o bi bw bo n mi mw m :
  conv_dims_ok d c -> conv_iters d c si sw so = Some (i, w, o) ->
  legal (hwc5 (mkTensor (lb_data bi) (lb_cap bi) (lb_esz bi) [1; d_hi d; d_wi d; 1; d_ci d] si false (-1) 0)) mi ->
  legal (hwcn5 (mkTensor (lb_data bw) (lb_cap bw) (lb_esz bw) [1; d_kh d; d_kw d; d_ci d; d_co d] sw false (-1) 0)) mw ->
  legal (hwc5 (mkTensor (lb_data bo) (lb_cap bo) (lb_esz bo) [1; d_ho d; d_wo d; 1; d_co d] so false (-1) 0)) m ->
  let ob := conv_updates n (conv_create i w o c bi bw bo) in
  legal (hwc5 (co_tin ob)) mi /\ legal (hwcn5 (co_tw ob)) mw /\ legal (hwc5 (co_tout ob)) m.
Proof. exact (@conv_tile_legal d c si sw so i w o bi bw bo n mi mw m). Qed.
Print Assumptions C68_conv_tile_legal.

(** from TileConv.v *)
Theorem C68_conv_order_refuted :
  exists (d : conv_dims) (c : conv_cfg) inp i w o mi mw m m' X Kf, conv_dims_ok d c
    /\ (let out := tile_cfg [1; d_ho d; d_wo d; 1; d_co d] [1; d_th d; d_tw d; 1; d_tc d] [0; 2; 1; 3; 4]%nat 0 in
        kernel_cfg out [1; d_hi d; d_wi d; 1; d_ci d] [1; (d_kh d - 1) * cv_dh c + 1; (d_kw d - 1) * cv_dw c + 1; 1; d_ci d] [1; cv_sh c; cv_sw c; 1; 0] [0; cv_top c; cv_left c; 0; 0] = Some inp
        /\ i = ti_new inp [1; d_hi d; d_wi d; 1; d_ci d] [2; 1; 1; 1; 1]
        /\ w = ti_new (mask_cfg out [true; true; true; true; false] [0; 1; 2; 3; 4] 5 [1; d_kh d; d_kw d; d_ci d; d_co d]) [1; d_kh d; d_kw d; d_ci d; d_co d] [3; 1; 1; 1; 1]
        /\ o = ti_new out [1; d_ho d; d_wo d; 1; d_co d] [2; 1; 1; 1; 1])
    /\ let ob := conv_update (conv_create i w o c (mkLb 0 2 1) (mkLb 0 3 1) (mkLb 0 4 4)) in
       sub_tensor (ti_cfg (co_in ob)) (ti_shape (co_in ob)) (ti_st (co_in ob)) = ([0; 0; 0; 0; 0], [1; 2; 1; 1; 1])
       /\ sub_tensor (ti_cfg (co_out ob)) (ti_shape (co_out ob)) (ti_st (co_out ob)) = ([0; 1; 0; 0; 0], [1; 1; 1; 1; 1])
       /\ holds3 mi (hwc5 (co_tin ob)) X (0, 0, 0) /\ holds4 mw (hwcn5 (co_tw ob)) Kf (0, 0, 0, 0)
       /\ conv_issue RM_UP true 0 0 ob mi mw m = Some m'
       /\ hwc_elem m' (hwc5 (co_tout ob)) 0 0 0 <> Some (conv_whole d c 0 X Kf 1 0 0).
Proof. exact (conv_order_refuted). Qed.
Print Assumptions C68_conv_order_refuted.

(** from TileConv.v *)
Theorem C68_input_tile_bound_refuted : exists Do T D K S P A, axis_fits Do T D K S P A
  /\ let inp := kernel_dim (tile_dim 1 Do T 0) D K S P in
     exists k, 0 <= k < it_count inp /\ it_first_size inp < tile_len inp D k /\ it_size inp < tile_len inp D k.
Proof. exact (input_tile_bound_refuted). Qed.
Print Assumptions C68_input_tile_bound_refuted.

(** * C69: Tiled depthwise convolution equals the whole depthwise convolution *)

(** from TileDw.v *)
Theorem C69_dw_tile_correct nb tb d c si sw so i w o bi bw bo rm full zi zw mi mw m X Kf n :
  dw_dims_ok nb tb d c -> dw_iters nb tb d c si sw so = Some (i, w, o) ->
  let ob := dw_updates n (dw_create i w o c bi bw bo) in
  let '(pi, pw, po) := dw_offsets ob in
  let tin := hwc5 (do_tin ob) in let tw := do_tw ob in let tout := hwc5 (do_tout ob) in
  legal tin mi -> legal tw mw -> legal tout m -> mem_bits 8 mi -> mem_bits 8 mw -> in_bits 8 zi -> in_bits 8 zw ->
  holds3 mi tin (X (nth 0 pi 0)) (off_hwc pi) -> holds3 mw tw Kf (nth 0 pw 0, nth 1 pw 0, nth 2 pw 0) ->
  exists m', dw_issue rm full zi zw ob mi mw m = Some m'
    /\ holds3 m' tout (dw_whole d c zi zw X Kf (nth 0 po 0)) (off_hwc po) /\ frame_ok tout m m'.
Proof. exact (@dw_tile_correct nb tb d c si sw so i w o bi bw bo rm full zi zw mi mw m X Kf n). Qed.
Print Assumptions C69_dw_tile_correct.

(** from TileDw.v *)
Theorem C69_dw_tiles_whole nb d c si sw so i w o bi bw bo rm full zi zw X Kf (mi mw m : nat -> mem) :
  dw_dims_ok nb 1 d c -> dw_iters nb 1 d c si sw so = Some (i, w, o) -> length so = 5%nat -> in_bits 8 zi -> in_bits 8 zw ->
  let ob n := dw_updates n (dw_create i w o c bi bw bo) in
  let total := total_count (ti_cfg o) in
  (forall n, Z.of_nat n < total -> dw_ready (ob n) X Kf (mi n) (mw n) (m n)) ->
  exists out : nat -> mem,
    (forall n, Z.of_nat n < total -> dw_issue rm full zi zw (ob n) (mi n) (mw n) (m n) = Some (out n))
    /\ forall b H W ch, 0 <= b < nb -> 0 <= H < d_ho d -> 0 <= W < d_wo d -> 0 <= ch < d_co d ->
       exists n, (Z.of_nat n < total /\ dw_in_tile (ob n) b H W ch /\ dw_out_value (ob n) (out n) b H W ch = Some (dw_whole d c zi zw X Kf b H W ch))
         /\ forall n', Z.of_nat n' < total -> dw_in_tile (ob n') b H W ch -> n' = n.
Proof. exact (@dw_tiles_whole nb d c si sw so i w o bi bw bo rm full zi zw X Kf mi mw m). Qed.
Print Assumptions C69_dw_tiles_whole.

(** from TileDw.v *)
Theorem C69_dw_tile_legal nb d c si sw so i w o bi bw bo n mi mw m :
  dw_dims_ok nb 1 d c -> dw_iters nb 1 d c si sw so = Some (i, w, o) ->
  legal (hwc5 (mkTensor (lb_data bi) (lb_cap bi) (lb_esz bi) [1; d_hi d; d_wi d; 1; d_co d] si false (-1) 0)) mi ->
  legal (mkTensor (lb_data bw) (lb_cap bw) (lb_esz bw) [d_kh d; d_kw d; d_co d] sw false (-1) 0) mw ->
  legal (hwc5 (mkTensor (lb_data bo) (lb_cap bo) (lb_esz bo) [1; d_ho d; d_wo d; 1; d_co d] so false (-1) 0)) m ->
  let ob := dw_updates n (dw_create i w o c bi bw bo) in
  legal (hwc5 (do_tin ob)) mi /\ legal (do_tw ob) mw /\ legal (hwc5 (do_tout ob)) m.
Proof. exact (@dw_tile_legal nb d c si sw so i w o bi bw bo n mi mw m). Qed.
Print Assumptions C69_dw_tile_legal.

(** from TileDw.v *)
Theorem C69_dw_batch_refuted :
  exists (d : conv_dims) (c : conv_cfg) si sw so i w o mi mw m m' X Kf, dw_dims_ok 2 2 d c
    /\ dw_iters 2 2 d c si sw so = Some (i, w, o) /\ total_count (ti_cfg o) = 1
    /\ let ob := dw_create i w o c (mkLb 0 2 1) (mkLb 0 1 1) (mkLb 0 8 4) in
       ti_size (do_in ob) = [2; 1; 1; 1; 1] /\ ti_size (do_out ob) = [2; 1; 1; 1; 1]
       /\ (forall b, 0 <= b < 2 -> mi (addr si [b; 0; 0; 0; 0]) = Some (X b 0 0 0)) /\ mw 0 = Some (Kf 0 0 0)
       /\ dw_issue RM_UP true 0 0 ob mi mw m = Some m'
       /\ m' (addr so [1; 0; 0; 0; 0]) <> Some (dw_whole d c 0 0 X Kf 1 0 0 0).
Proof. exact (dw_batch_refuted). Qed.
Print Assumptions C69_dw_batch_refuted.

(** * C70: Tiled maximum and sum pooling equal the whole pooling *)

(** from TilePool.v *)
Theorem C70_max_tile_correct d c si so i o bi bo mi m X n :
  pool_dims_ok d c -> pool_iters d c si so = Some (i, o) ->
  let ob := pool_updates max_tile_pads n (pool_create max_tile_pads i o c bi bo) in
  let '(pi, po) := pool_offsets ob in
  legal (po_tin ob) mi -> legal (po_tout ob) m -> holds4 mi (po_tin ob) X (off_bhwc pi) ->
  exists m', max_issue mi ob m = Some m' /\ holdsR4 m' (po_tout ob) (pool_max d c X) (off_bhwc po) /\ frame_ok (po_tout ob) m m'.
Proof. exact (@max_tile_correct d c si so i o bi bo mi m X n). Qed.
Print Assumptions C70_max_tile_correct.

(** from TilePool.v *)
Theorem C70_sum_tile_correct d c si so i o bi bo mi m X n :
  pool_dims_ok d c -> sum_axis (g_ho d) (g_th d) (pl_sh c) (pl_top c) -> sum_axis (g_wo d) (g_tw d) (pl_sw c) (pl_left c) ->
  pool_iters d c si so = Some (i, o) -> mem_bits 8 mi ->
  let ob := pool_updates sum_tile_pads n (pool_create sum_tile_pads i o c bi bo) in
  let '(pi, po) := pool_offsets ob in
  legal (po_tin ob) mi -> legal (po_tout ob) m -> holds4 mi (po_tin ob) X (off_bhwc pi) ->
  exists m', sum_issue mi ob m = Some m' /\ holds4 m' (po_tout ob) (pool_sum d c X) (off_bhwc po) /\ frame_ok (po_tout ob) m m'.
Proof. exact (@sum_tile_correct d c si so i o bi bo mi m X n). Qed.
Print Assumptions C70_sum_tile_correct.

(** from TilePool.v *)
Theorem C70_max_tiles_whole d c si so i o bi bo X (mi m : nat -> mem) :
  pool_dims_ok d c -> pool_iters d c si so = Some (i, o) ->
  let ob n := pool_updates max_tile_pads n (pool_create max_tile_pads i o c bi bo) in
  let total := total_count (ti_cfg o) in
  (forall n, Z.of_nat n < total -> pool_ready (ob n) X (mi n) (m n)) ->
  exists out : nat -> mem,
    (forall n, Z.of_nat n < total -> max_issue (mi n) (ob n) (m n) = Some (out n) /\ frame_ok (po_tout (ob n)) (m n) (out n))
    /\ forall b H W ch, 0 <= b < g_nb d -> 0 <= H < g_ho d -> 0 <= W < g_wo d -> 0 <= ch < g_ch d ->
       exists n, (Z.of_nat n < total /\ pool_in_tile (ob n) b H W ch /\ exists v, pool_out_value (ob n) (out n) b H W ch = Some v /\ pool_max d c X b H W ch v)
         /\ forall n', Z.of_nat n' < total -> pool_in_tile (ob n') b H W ch -> n' = n.
Proof. exact (@max_tiles_whole d c si so i o bi bo X mi m). Qed.
Print Assumptions C70_max_tiles_whole.

(** from TilePool.v *)
Theorem C70_sum_tiles_whole d c si so i o bi bo X (mi m : nat -> mem) :
  pool_dims_ok d c -> sum_axis (g_ho d) (g_th d) (pl_sh c) (pl_top c) -> sum_axis (g_wo d) (g_tw d) (pl_sw c) (pl_left c) ->
  pool_iters d c si so = Some (i, o) ->
  let ob n := pool_updates sum_tile_pads n (pool_create sum_tile_pads i o c bi bo) in
  let total := total_count (ti_cfg o) in
  (forall n, Z.of_nat n < total -> pool_ready (ob n) X (mi n) (m n) /\ mem_bits 8 (mi n)) ->
  exists out : nat -> mem,
    (forall n, Z.of_nat n < total -> sum_issue (mi n) (ob n) (m n) = Some (out n) /\ frame_ok (po_tout (ob n)) (m n) (out n))
    /\ forall b H W ch, 0 <= b < g_nb d -> 0 <= H < g_ho d -> 0 <= W < g_wo d -> 0 <= ch < g_ch d ->
       exists n, (Z.of_nat n < total /\ pool_in_tile (ob n) b H W ch /\ pool_out_value (ob n) (out n) b H W ch = Some (pool_sum d c X b H W ch))
         /\ forall n', Z.of_nat n' < total -> pool_in_tile (ob n') b H W ch -> n' = n.
Proof. exact (@sum_tiles_whole d c si so i o bi bo X mi m). Qed.
Print Assumptions C70_sum_tiles_whole.

(** from TilePool.v *)
Theorem C70_pool_tile_legal pads d c si so i o bi bo n mi m :
  pool_dims_ok d c -> pool_iters d c si so = Some (i, o) ->
  legal (mkTensor (lb_data bi) (lb_cap bi) (lb_esz bi) [g_tb d; g_hi d; g_wi d; g_ch d] si false (-1) 0) mi ->
  legal (mkTensor (lb_data bo) (lb_cap bo) (lb_esz bo) [g_tb d; g_th d; g_tw d; g_tc d] so false (-1) 0) m ->
  let ob := pool_updates pads n (pool_create pads i o c bi bo) in
  legal (po_tin ob) mi /\ legal (po_tout ob) m.
Proof. exact (@pool_tile_legal pads d c si so i o bi bo n mi m). Qed.
Print Assumptions C70_pool_tile_legal.

(** from TilePool.v *)
Theorem C70_sumpool_pad_refuted :
  exists (d : pool_dims) (c : pool_cfg) si so i o mi m m' X, pool_dims_ok d c
    /\ pool_iters d c si so = Some (i, o) /\ total_count (ti_cfg o) = 2
    /\ let ob := pool_updates sum_tile_pads 1 (pool_create sum_tile_pads i o c (mkLb 0 2 1) (mkLb 0 4 4)) in
       pool_ready ob X mi m /\ mem_bits 8 mi /\ sum_issue mi ob m = Some m'
       /\ pool_in_tile ob 0 1 0 0 /\ pool_out_value ob m' 0 1 0 0 <> Some (pool_sum d c X 0 1 0 0).
Proof. exact (sumpool_pad_refuted). Qed.
Print Assumptions C70_sumpool_pad_refuted.

(** from TilePool.v *)
Theorem C70_maxpool_tail_refuted :
  exists (d : pool_dims) (c : pool_cfg) si so i o mi m m' X,
    (let tin := mkTensor 0 1 1 [g_hi d; g_wi d; g_ch d] [1; 1; 1] false (-1) 0 in let tout := mkTensor 0 2 1 [g_ho d; g_wo d; g_ch d] [1; 1; 1] false (-1) 0 in
     chk_pool tin tout c 0 = ST_OK /\ pool_fits tin tout c /\ pool_padding_small tin tout c)
    /\ pl_top c <= g_th d * pl_sh c /\ pool_iters d c si so = Some (i, o) /\ total_count (ti_cfg o) = 2
    /\ let ob := pool_updates max_tile_pads 1 (pool_create max_tile_pads i o c (mkLb 0 1 1) (mkLb 0 1 1)) in
       pool_ready ob X mi m /\ max_issue mi ob m = Some m' /\ ~ frame_ok (po_tout ob) m m'.
Proof. exact (maxpool_tail_refuted). Qed.
Print Assumptions C70_maxpool_tail_refuted.

(** * C71: Tiled pointwise operators equal the whole operators *)

(** from TilePoint.v *)
Theorem C71_elt_tiles_whole rm op n no shape tile shl shr sl sr so bl br bo L R m0 ob0 (m : nat -> mem) :
  int_types op n no -> tiling shape tile -> shape <> [] -> elt_shapes shl shr shape ->
  let it := tiles_iter shape tile so in
  elt_create (tiles_iter shl (opd_tile shl tile) sl) (tiles_iter shr (opd_tile shr tile) sr) it bl br bo m0 = Some ob0 ->
  (elt_cs_scalar shl = true -> m0 (lb_data bl) = Some (L (map (fun _ => 0) shape))) ->
  (elt_cs_scalar shr = true -> m0 (lb_data br) = Some (R (map (fun _ => 0) shape))) ->
  (forall c, valid shape c -> in_bits n (bcast shl L c) /\ in_bits n (bcast shr R c)) ->
  let ob k := elt_updates k ob0 in
  (forall k, Z.of_nat k < total_count (ti_cfg it) ->
     legal (eo_to (ob k)) (m k) /\ opd_ready shl (eo_tl (ob k)) (eo_to (ob k)) (eo_left (ob k)) L (m k) /\ opd_ready shr (eo_tr (ob k)) (eo_to (ob k)) (eo_right (ob k)) R (m k)) ->
  whole_result (fun k => elt_issue rm op n no (ob k) (m k)) it bo m (fun c => sat no (int_op op (bcast shl L c) (bcast shr R c))).
Proof. exact (@elt_tiles_whole rm op n no shape tile shl shr sl sr so bl br bo L R m0 ob0 m). Qed.
Print Assumptions C71_elt_tiles_whole.

(** from TilePoint.v *)
Theorem C71_clip_tiles_whole shape tile si so bi bo pm p lo hi X (m : nat -> mem) :
  tiling shape tile -> pm p = Some lo -> pm (p + 1) = Some hi ->
  let it := tiles_iter shape tile so in let ob n := un_updates n (un_create (tiles_iter shape tile si) it bi bo) in
  (forall n, Z.of_nat n < total_count (ti_cfg it) ->
     usable (uo_tin (ob n)) (m n) /\ usable (uo_tout (ob n)) (m n) /\ unary_ok (uo_tin (ob n)) (uo_tout (ob n))
     /\ holds (m n) (uo_tin (ob n)) X (ti_pos (uo_in (ob n)))) ->
  whole_result (fun n => clip_issue pm p (ob n) (m n)) it bo m (fun c => Z.min (Z.max (X c) lo) hi).
Proof. exact (@clip_tiles_whole shape tile si so bi bo pm p lo hi X m). Qed.
Print Assumptions C71_clip_tiles_whole.

(** from TilePoint.v *)
Theorem C71_rescale_tiles_whole rm axis shape tile si so bi bo p0 p BI SC SH BO X (mi m : nat -> mem) :
  tiling shape tile -> axis < Z.of_nat (length shape) -> lb_esz bi = 4 \/ lb_esz bi = 1 -> lb_esz bo = 1 ->
  let ni := 8 * lb_esz bi in
  let it := tiles_iter shape tile so in let ob n := un_updates n (un_create (tiles_iter shape tile si) it bi bo) in
  let pp n := if axis <? 0 then p0 else p n in
  (forall n, Z.of_nat n < total_count (ti_cfg it) ->
     usable (uo_tin (ob n)) (mi n) /\ usable (uo_tout (ob n)) (m n) /\ mem_bits ni (mi n)
     /\ holds (mi n) (uo_tin (ob n)) X (ti_pos (uo_in (ob n)))
     /\ mem_bits ni (rs_bias_in (pp n)) /\ mem_bits 16 (rs_scale (pp n)) /\ mem_bits 8 (rs_bias_out (pp n))
     /\ let off := part_off axis (ti_pos (uo_in (ob n))) in let cnt := part_cnt axis (t_shape (uo_tin (ob n))) in
        part_of (rs_bias_in (pp n)) off cnt BI /\ part_of (rs_scale (pp n)) off cnt SC /\ part_of (rs_shift (pp n)) off cnt SH /\ part_of (rs_bias_out (pp n)) off cnt BO) ->
  whole_result (fun n => rescale_run rm axis p0 (p n) (ob n) (mi n) (m n)) it bo m
    (fun c => let k := prelu3_index axis c in rescale_exact rm ni 8 (X c) (BI k) (BO k) (SC k) (SH k)).
Proof. exact (@rescale_tiles_whole rm axis shape tile si so bi bo p0 p BI SC SH BO X mi m). Qed.
Print Assumptions C71_rescale_tiles_whole.

(** from TilePoint.v *)
Theorem C71_prelu_tiles_whole rm axis shape tile si so bi bo p BI PS NS PK NK BO X (mi m : nat -> mem) :
  tiling shape tile -> axis < Z.of_nat (length shape) ->
  (forall c, valid shape c -> in_bits 32 (X c - BI (prelu3_index axis c))) ->
  let it := tiles_iter shape tile so in let ob n := un_updates n (un_create (tiles_iter shape tile si) it bi bo) in
  (forall n, Z.of_nat n < total_count (ti_cfg it) ->
     usable (uo_tin (ob n)) (mi n) /\ usable (uo_tout (ob n)) (m n) /\ mem_bits 32 (mi n)
     /\ holds (mi n) (uo_tin (ob n)) X (ti_pos (uo_in (ob n)))
     /\ mem_bits 32 (p3_bias_in (p n)) /\ mem_bits 16 (p3_posscale (p n)) /\ mem_bits 16 (p3_negscale (p n)) /\ mem_bits 8 (p3_bias_out (p n))
     /\ let off := part_off axis (ti_pos (uo_in (ob n))) in let cnt := part_cnt axis (t_shape (uo_tin (ob n))) in
        part_of (p3_bias_in (p n)) off cnt BI /\ part_of (p3_posscale (p n)) off cnt PS /\ part_of (p3_negscale (p n)) off cnt NS
        /\ part_of (p3_posshift (p n)) off cnt PK /\ part_of (p3_negshift (p n)) off cnt NK /\ part_of (p3_bias_out (p n)) off cnt BO) ->
  whole_result (fun n => prelu_run rm axis (p n) (ob n) (mi n) (m n)) it bo m
    (fun c => let k := prelu3_index axis c in prelu3_exact rm 8 (X c - BI k) (BO k) (PS k) (PK k) (NS k) (NK k)).
Proof. exact (@prelu_tiles_whole rm axis shape tile si so bi bo p BI PS NS PK NK BO X mi m). Qed.
Print Assumptions C71_prelu_tiles_whole.

(** from TilePoint.v *)
Theorem C71_enc_size_ok shape tile stride axis n : tiling shape tile -> (axis < length shape)%nat -> let e := ti_run (enc_iter shape tile axis) n in
  enc_size e = nth axis (ti_size (ti_run (tiles_iter shape tile stride) n)) 0 /\ 1 <= enc_size e <= enc_max (Z.of_nat axis) e /\ enc_max (Z.of_nat axis) e = nth axis tile 0.
Proof. exact (@enc_size_ok shape tile stride axis n). Qed.
Print Assumptions C71_enc_size_ok.

(** from TilePoint.v *)
Theorem C71_param_layout_ok isz cnt : rescale_layout isz cnt = rescale_reported isz cnt /\ prelu_layout cnt = prelu_reported cnt.
Proof. exact (@param_layout_ok isz cnt). Qed.
Print Assumptions C71_param_layout_ok.

(** from TilePoint.v *)
Theorem C71_tile_usable shape tile stride b m n : tiling shape tile ->
  usable (mkTensor (lb_data b) (lb_cap b) (lb_esz b) tile stride false (-1) 0) m -> usable (tile_of b (ti_run (tiles_iter shape tile stride) n)) m.
Proof. exact (@tile_usable shape tile stride b m n). Qed.
Print Assumptions C71_tile_usable.

(** from TilePoint.v *)
Theorem C71_tile_legal shape tile stride b m n : tiling shape tile ->
  legal (mkTensor (lb_data b) (lb_cap b) (lb_esz b) tile stride false (-1) 0) m -> legal (tile_of b (ti_run (tiles_iter shape tile stride) n)) m.
Proof. exact (@tile_legal shape tile stride b m n). Qed.
Print Assumptions C71_tile_legal.

(** * C72: Tiled transposed convolution equals the whole one where kernel and stride agree *)

(** from TransTiles.v *)
Theorem C72_trans_tile_correct d c si sw so i w o bi bw bo rm full zi mi mw m X Kf n :
  trans_dims_ok d c -> trans_iters d c si sw so = Some (i, w, o) ->
  let ob := trans_updates n (trans_create i w o c bi bw bo) in
  let '(pi, pw, po) := conv_offsets ob in
  let tin := hwc5 (co_tin ob) in let tw := hwcn5 (co_tw ob) in let tout := hwc5 (co_tout ob) in
  legal tin mi -> legal tw mw -> legal tout m -> mem_bits 8 mi -> mem_bits 8 mw -> in_bits 8 zi ->
  holds3 mi tin X (off_hwc pi) -> holds4 mw tw Kf (off_hwcn pw) ->
  exists m', trans_issue rm full zi 0 ob mi mw m = Some m'
    /\ holds3 m' tout (trans_whole d c zi X Kf) (off_hwc po) /\ frame_ok tout m m'.
Proof. exact (@trans_tile_correct d c si sw so i w o bi bw bo rm full zi mi mw m X Kf n). Qed.
Print Assumptions C72_trans_tile_correct.

(** from TransTiles.v *)
Theorem C72_trans_tiles_whole d c si sw so i w o bi bw bo rm full zi X Kf (mi mw m : nat -> mem) :
  trans_dims_ok d c -> trans_iters d c si sw so = Some (i, w, o) -> in_bits 8 zi ->
  let ob n := trans_updates n (trans_create i w o c bi bw bo) in
  let total := total_count (ti_cfg o) in
  (forall n, Z.of_nat n < total -> tile_ready (ob n) X Kf (mi n) (mw n) (m n)) ->
  exists out : nat -> mem,
    (forall n, Z.of_nat n < total -> trans_issue rm full zi 0 (ob n) (mi n) (mw n) (m n) = Some (out n))
    /\ forall H W oc, 0 <= H < d_ho d -> 0 <= W < d_wo d -> 0 <= oc < d_co d ->
       exists n, (Z.of_nat n < total /\ in_out_tile (ob n) H W oc /\ out_value (ob n) (out n) H W oc = Some (trans_whole d c zi X Kf H W oc))
         /\ forall n', Z.of_nat n' < total -> in_out_tile (ob n') H W oc -> n' = n.
Proof. exact (@trans_tiles_whole d c si sw so i w o bi bw bo rm full zi X Kf mi mw m). Qed.
Print Assumptions C72_trans_tiles_whole.

(** from TransTiles.v *)
Theorem C72_trans_tiles_untiled d c si sw so i w o bi bw bo rm full zi (mi mw m : nat -> mem) tin tw tout gi gw gm gm' oq :
  trans_dims_ok d c -> trans_iters d c si sw so = Some (i, w, o) -> in_bits 8 zi ->
  t_shape tin = [d_hi d; d_wi d; d_ci d] -> t_shape tw = [d_kh d; d_kw d; d_ci d; d_co d] -> t_shape tout = [d_ho d; d_wo d; d_co d] ->
  legal tin gi -> legal tw gw -> legal tout gm -> mem_bits 8 gi -> mem_bits 8 gw ->
  transpose_conv2d rm full (Q_int zi 0) 32 oq gi gw None tin tw tout c gm = Some gm' ->
  let ob n := trans_updates n (trans_create i w o c bi bw bo) in
  let total := total_count (ti_cfg o) in
  (forall n, Z.of_nat n < total -> tile_ready (ob n) (at3 gi tin) (at4 gw tw) (mi n) (mw n) (m n)) ->
  exists out : nat -> mem,
    (forall n, Z.of_nat n < total -> trans_issue rm full zi 0 (ob n) (mi n) (mw n) (m n) = Some (out n))
    /\ forall H W oc, valid (t_shape tout) [H; W; oc] ->
       exists n, (Z.of_nat n < total /\ in_out_tile (ob n) H W oc /\ out_value (ob n) (out n) H W oc = hwc_elem gm' tout H W oc)
         /\ forall n', Z.of_nat n' < total -> in_out_tile (ob n') H W oc -> n' = n.
Proof. exact (@trans_tiles_untiled d c si sw so i w o bi bw bo rm full zi mi mw m tin tw tout gi gw gm gm' oq). Qed.
Print Assumptions C72_trans_tiles_untiled.

(** from TransTiles.v *)
Theorem C72_trans_tile_legal d c si sw so i w o bi bw bo n mi mw m :
  trans_dims_ok d c -> trans_iters d c si sw so = Some (i, w, o) ->
  legal (hwc5 (mkTensor (lb_data bi) (lb_cap bi) (lb_esz bi) [1; d_hi d; d_wi d; 1; d_ci d] si false (-1) 0)) mi ->
  legal (hwcn5 (mkTensor (lb_data bw) (lb_cap bw) (lb_esz bw) [1; d_kh d; d_kw d; d_ci d; d_co d] sw false (-1) 0)) mw ->
  legal (hwc5 (mkTensor (lb_data bo) (lb_cap bo) (lb_esz bo) [1; d_ho d; d_wo d; 1; d_co d] so false (-1) 0)) m ->
  let ob := trans_updates n (trans_create i w o c bi bw bo) in
  legal (hwc5 (co_tin ob)) mi /\ legal (hwcn5 (co_tw ob)) mw /\ legal (hwc5 (co_tout ob)) m.
Proof. exact (@trans_tile_legal d c si sw so i w o bi bw bo n mi mw m). Qed.
Print Assumptions C72_trans_tile_legal.

(** from TransTiles.v *)
Theorem C72_trans_overlap_refuted :
  exists (d : conv_dims) (c : conv_cfg) (i w o : titer) (mi : nat -> mem) (mw m : mem) X Kf,
    trans_axis (d_hi d) (d_ho d) (d_kh d) (cv_sh c) (cv_top c) (cv_bottom c)
    /\ trans_axis (d_wi d) (d_wo d) (d_kw d) (cv_sw c) (cv_left c) (cv_right c)
    /\ (1 <= d_th d <= d_hi d /\ d_tw d = d_wi d /\ d_tc d = d_co d) /\ cv_top c <= d_th d * cv_sh c /\ cv_dh c = 1 /\ cv_dw c = 1
    /\ trans_iters d c [4; 1; 1; 1; 1] [2; 1; 1; 1; 1] [5; 1; 1; 1; 1] = Some (i, w, o) /\ total_count (ti_cfg o) = 2
    /\ forall n, (n < 2)%nat ->
       let ob := trans_updates n (trans_create i w o c (mkLb 0 4 1) (mkLb 0 2 1) (mkLb 0 20 4)) in
       tile_ready ob X Kf (mi n) mw m /\ in_out_tile ob 2 0 0
       /\ exists m', trans_issue RM_UP true 0 0 ob (mi n) mw m = Some m' /\ out_value ob m' 2 0 0 <> Some (trans_whole d c 0 X Kf 2 0 0).
Proof. exact (trans_overlap_refuted). Qed.
Print Assumptions C72_trans_overlap_refuted.

(** * C73: Move copies exactly the current tile *)

(** from MoveTiles.v *)
Theorem C73_move_tile ts td cfg shape ss sd bs bd ms m X n :
  own_order cfg -> Forall2 walks cfg shape -> side_ok ts cfg shape ss -> side_ok td cfg shape sd -> In (lb_esz bs) [1; 2; 4] ->
  let i := mi_run (mi_new ts cfg shape ss) n in let pos := ti_pos (mi_ti i) in let size := mi_sizes i in
  (forall c, in_box pos size c -> ms (side_addr ts cfg ss bs pos c) = Some (X c)) ->
  (forall c, in_box pos size c -> allocated m (side_addr td cfg sd bd pos c)) ->
  exists m', move_issue (move_updates n (move_create (mi_new ts cfg shape ss) (mi_new td cfg shape sd) bs bd)) ms m = Some m'
    /\ (forall c, in_box pos size c -> m' (side_addr td cfg sd bd pos c) = Some (X c))
    /\ forall a, (forall c, in_box pos size c -> a <> side_addr td cfg sd bd pos c) -> m' a = m a.
Proof. exact (@move_tile ts td cfg shape ss sd bs bd ms m X n). Qed.
Print Assumptions C73_move_tile.

(** from MoveTiles.v *)
Theorem C73_move_all ts cfg shape ss sd bs bd (ms : nat -> mem) m Y N :
  own_order cfg -> Forall2 walks cfg shape -> side_ok ts cfg shape ss -> side_ok 0 cfg shape sd -> In (lb_esz bs) [1; 2; 4] ->
  let pos n := ti_pos (mi_ti (mi_run (mi_new ts cfg shape ss) n)) in let size n := mi_sizes (mi_run (mi_new ts cfg shape ss) n) in
  (forall n c, (n < N)%nat -> in_box (pos n) (size n) c -> ms n (side_addr ts cfg ss bs (pos n) c) = Some (Y c)) ->
  (forall c, valid shape c -> allocated m (lb_data bd + addr sd c)) ->
  exists m', move_tiles N (move_create (mi_new ts cfg shape ss) (mi_new 0 cfg shape sd) bs bd) ms m = Some m'
    /\ (forall n c, (n < N)%nat -> in_box (pos n) (size n) c -> m' (lb_data bd + addr sd c) = Some (Y c))
    /\ forall a, (forall n c, (n < N)%nat -> in_box (pos n) (size n) c -> a <> lb_data bd + addr sd c) -> m' a = m a.
Proof. exact (@move_all ts cfg shape ss sd bs bd ms m Y N). Qed.
Print Assumptions C73_move_all.

(** from MoveTiles.v *)
Theorem C73_move_in shape tile ss sd bs bd ms m X n : tiling shape tile -> tiled_side 0 shape tile ss -> prod tile < 2 ^ 31 -> length sd = length shape -> In (lb_esz bs) [1; 2; 4] ->
  (forall c, valid shape c -> ms (lb_data bs + addr ss c) = Some (X c)) ->
  let t := mkTensor (lb_data bd) (lb_cap bd) (lb_esz bd) (tile_dims shape tile n) (tile_strides tile) false (-1) 0 in
  (forall c, valid (t_shape t) c -> allocated m (lb_data bd + addr (tile_strides tile) c)) ->
  exists m', move_issue (move_updates n (move_create (move_iter 0 shape tile ss) (move_iter 1 shape tile sd) bs bd)) ms m = Some m'
    /\ holds m' t X (tile_base shape tile n)
    /\ forall a, (forall c, valid (t_shape t) c -> a <> lb_data bd + addr (tile_strides tile) c) -> m' a = m a.
Proof. exact (@move_in shape tile ss sd bs bd ms m X n). Qed.
Print Assumptions C73_move_in.

(** from MoveTiles.v *)
Theorem C73_move_out ts shape tile ss sd bs bd (ms : nat -> mem) m Y : tiling shape tile -> tiled_side ts shape tile ss -> tiled_side 0 shape tile sd -> In (lb_esz bs) [1; 2; 4] ->
  let N := Z.to_nat (total_count (tile_cfg shape tile (seq 0 (length shape)) 0)) in
  (forall n c, (n < N)%nat -> valid (tile_dims shape tile n) c ->
     ms n (lb_data bs + (if ts =? 0 then addr ss (vadd (tile_base shape tile n) c) else addr (tile_strides tile) c)) = Some (Y (vadd (tile_base shape tile n) c))) ->
  (forall c, valid shape c -> allocated m (lb_data bd + addr sd c)) ->
  exists m', move_tiles N (move_create (move_iter ts shape tile ss) (move_iter 0 shape tile sd) bs bd) ms m = Some m'
    /\ (forall c, valid shape c -> m' (lb_data bd + addr sd c) = Some (Y c))
    /\ forall a, (forall c, valid shape c -> a <> lb_data bd + addr sd c) -> m' a = m a.
Proof. exact (@move_out ts shape tile ss sd bs bd ms m Y). Qed.
Print Assumptions C73_move_out.

(** from MoveTiles.v *)
Theorem C73_move_uncut_refuted :
  let o := move_create (move_iter 0 [2; 4] [2; 2] [4; 1]) (move_iter 1 [2; 4] [2; 2] [4; 1]) (mkLb 0 8 1) (mkLb 100 4 1) in
  tiling [2; 4] [2; 2] /\ nested [2; 4] [4; 1]
  /\ tile_base [2; 4] [2; 2] 1 = [0; 2]
  /\ (do m <- move_issue (move_updates 1 o) mvx_src mvx_free ; Some (map m [100; 101; 102; 103])) = Some [Some 12; Some 13; Some (-1); Some (-1)]
  /\ map (fun c => mvx_src (addr [4; 1] c)) [[0; 2]; [0; 3]; [1; 2]; [1; 3]] = [Some 2; Some 3; Some 12; Some 13].
Proof. exact (move_uncut_refuted). Qed.
Print Assumptions C73_move_uncut_refuted.

(** from MoveTiles.v *)
Theorem C73_move_order_refuted :
  let cfg := tile_cfg [2; 4] [1; 2] [1; 0]%nat 0 in
  let o := move_create (mi_new 0 cfg [2; 4] [4; 1]) (mi_new 1 cfg [2; 4] [4; 1]) (mkLb 0 8 1) (mkLb 100 2 1) in
  let tile n := sub_tensor cfg [2; 4] (ti_st (mi_ti (mi_run (mi_new 0 cfg [2; 4] [4; 1]) n))) in
  let moved n := do m <- move_issue (move_updates n o) mvx_src mvx_free ; Some (map m [100; 101]) in
  tile 0%nat = ([0; 0], [1; 2]) /\ moved 0%nat = Some [Some 0; Some 99] /\ tile 1%nat = ([0; 2], [1; 2]) /\ moved 1%nat = Some [Some (-1); Some 99].
Proof. exact (move_order_refuted). Qed.
Print Assumptions C73_move_order_refuted.

(** * C74: Moving in, processing and moving out all tiles computes the whole operator *)

(** from TilePipe.v *)
Theorem C74_pipeline_whole shape tile si so d1 d2 bi li lo bo X Y op m :
  tiling shape tile -> tiled_side 0 shape tile si -> tiled_side 0 shape tile so -> prod tile < 2 ^ 31 -> length d1 = length shape -> length d2 = length shape ->
  In (lb_esz bi) [1; 2; 4] -> In (lb_esz lo) [1; 2; 4] -> apart shape tile si so bi li lo bo ->
  let N := Z.to_nat (total_count (tile_cfg shape tile (seq 0 (length shape)) 0)) in
  (forall n, (n < N)%nat -> computes shape tile li lo X Y op n) ->
  (forall c, valid shape c -> m (lb_data bi + addr si c) = Some (X c)) ->
  (forall a, in_local li tile a \/ in_local lo tile a -> allocated m a) -> (forall c, valid shape c -> allocated m (lb_data bo + addr so c)) ->
  exists m', pipeline N (move_create (move_iter 0 shape tile si) (move_iter 1 shape tile d1) bi li) (move_create (move_iter 1 shape tile d2) (move_iter 0 shape tile so) lo bo) op m = Some m'
    /\ (forall c, valid shape c -> m' (lb_data bo + addr so c) = Some (Y c))
    /\ forall a, ~ in_local li tile a -> ~ in_local lo tile a -> (forall c, valid shape c -> a <> lb_data bo + addr so c) -> m' a = m a.
Proof. exact (@pipeline_whole shape tile si so d1 d2 bi li lo bo X Y op m). Qed.
Print Assumptions C74_pipeline_whole.

(** from TilePipe.v *)
Theorem C74_clip_pipeline shape tile si so d1 d2 bi li lo bo pm p l h X m :
  (length shape <= 4)%nat -> tiling shape tile -> tiled_side 0 shape tile si -> tiled_side 0 shape tile so -> prod tile < 2 ^ 31 -> length d1 = length shape -> length d2 = length shape ->
  In (lb_esz bi) [1; 2; 4] -> In (lb_esz lo) [1; 2; 4] -> apart shape tile si so bi li lo bo -> lb_data li = lb_data lo \/ (forall a, in_local li tile a -> ~ in_local lo tile a) ->
  pm p = Some l -> pm (p + 1) = Some h ->
  let N := Z.to_nat (total_count (tile_cfg shape tile (seq 0 (length shape)) 0)) in let it := tiles_iter shape tile (tile_strides tile) in
  (forall c, valid shape c -> m (lb_data bi + addr si c) = Some (X c)) ->
  (forall a, in_local li tile a \/ in_local lo tile a -> allocated m a) -> (forall c, valid shape c -> allocated m (lb_data bo + addr so c)) ->
  exists m', pipeline N (move_create (move_iter 0 shape tile si) (move_iter 1 shape tile d1) bi li) (move_create (move_iter 1 shape tile d2) (move_iter 0 shape tile so) lo bo)
      (fun n => clip_issue pm p (un_updates n (un_create it it li lo))) m = Some m'
    /\ (forall c, valid shape c -> m' (lb_data bo + addr so c) = Some (Z.min (Z.max (X c) l) h))
    /\ forall a, ~ in_local li tile a -> ~ in_local lo tile a -> (forall c, valid shape c -> a <> lb_data bo + addr so c) -> m' a = m a.
Proof. exact (@clip_pipeline shape tile si so d1 d2 bi li lo bo pm p l h X m). Qed.
Print Assumptions C74_clip_pipeline.

(** from TilePipe.v *)
Theorem C74_move_issue1_two ts td cfg shape ss sd bs bd m n :
  own_order cfg -> Forall2 walks cfg shape -> side_ok ts cfg shape ss -> side_ok td cfg shape sd ->
  let i := mi_run (mi_new ts cfg shape ss) n in let pos := ti_pos (mi_ti i) in let size := mi_sizes i in
  (forall c c', in_box pos size c -> in_box pos size c' -> side_addr ts cfg ss bs pos c <> side_addr td cfg sd bd pos c') ->
  let o := move_updates n (move_create (mi_new ts cfg shape ss) (mi_new td cfg shape sd) bs bd) in move_issue1 o m = move_issue o m m.
Proof. exact (@move_issue1_two ts td cfg shape ss sd bs bd m n). Qed.
Print Assumptions C74_move_issue1_two.

(** * C75: Tile-by-tile broadcast, reduction and matrix product compute the whole result where tiles are cut suitably *)

(** from TileStep.v *)
Theorem C75_broadcast_tiles_whole ss ts sd td si so bi bo X (mi m : nat -> mem) :
  tiling ss ts -> tiling sd td -> bc_axes ss ts sd td ->
  let it := tiles_iter sd td so in let ob n := un_updates n (un_create (tiles_iter ss ts si) it bi bo) in
  (forall n, Z.of_nat n < total_count (ti_cfg it) -> holds (mi n) (uo_tin (ob n)) X (ti_pos (uo_in (ob n))) /\ usable (uo_tout (ob n)) (m n)) ->
  whole_result (fun n => bc_issue (ob n) (mi n) (m n)) it bo m (fun c => X (bc_source ss c)).
Proof. exact (@broadcast_tiles_whole ss ts sd td si so bi bo X mi m). Qed.
Print Assumptions C75_broadcast_tiles_whole.

(** from TileStep.v *)
Theorem C75_reduce_sum_tiles_whole nb axis si ti sti sto bi bo X (mi m : nat -> mem) :
  1 <= nb <= 64 -> tiling si ti -> (axis < length si)%nat -> nth axis ti 0 = nth axis si 0 ->
  (forall c, valid (set_at axis 1 si) c -> in_bits nb (zsum 0 (nth axis si 0) (fun k => X (set_at axis k c)))) ->
  let it := tiles_iter (set_at axis 1 si) (set_at axis 1 ti) sto in let ob n := un_updates n (un_create (tiles_iter si ti sti) it bi bo) in
  (forall n, Z.of_nat n < total_count (ti_cfg it) ->
     usable (uo_tin (ob n)) (mi n) /\ usable (uo_tout (ob n)) (m n) /\ holds (mi n) (uo_tin (ob n)) X (ti_pos (uo_in (ob n)))) ->
  whole_result (fun n => rsum_issue nb axis (ob n) (mi n) (m n)) it bo m (fun c => zsum 0 (nth axis si 0) (fun k => X (set_at axis k c))).
Proof. exact (@reduce_sum_tiles_whole nb axis si ti sti sto bi bo X mi m). Qed.
Print Assumptions C75_reduce_sum_tiles_whole.

(** from TileStep.v *)
Theorem C75_reduce_max_tiles axis si ti sti sto bi bo X Y (mi m : nat -> mem) :
  tiling si ti -> (axis < length si)%nat -> nth axis ti 0 = nth axis si 0 ->
  (forall c, valid (set_at axis 1 si) c -> greatest (fun k => X (set_at axis k c)) (nth axis si 0) (Y c)) ->
  let it := tiles_iter (set_at axis 1 si) (set_at axis 1 ti) sto in let ob n := un_updates n (rmax_create (tiles_iter si ti sti) it bi bo) in
  forall n, (n <> 0%nat \/ ti = si) ->
     usable (uo_tin (ob n)) (mi n) -> usable (uo_tout (ob n)) (m n) -> holds (mi n) (uo_tin (ob n)) X (ti_pos (uo_in (ob n))) ->
  exists m', rmax_issue axis (ob n) (mi n) (m n) = Some m' /\ holds m' (tile_of bo (ti_run it n)) Y (ti_pos (ti_run it n)) /\ frame_ok (tile_of bo (ti_run it n)) (m n) m'.
Proof. exact (@reduce_max_tiles axis si ti sti sto bi bo X Y mi m). Qed.
Print Assumptions C75_reduce_max_tiles.

(** from TileStep.v *)
Theorem C75_matmul_tiles_whole pm p zl zr M K N T sl sr bl br bo A B (ml mr m : nat -> mem) :
  1 <= T <= M -> M + 2 * T < 2 ^ 31 -> 1 <= K -> 3 * K < 2 ^ 31 -> 1 <= N -> 3 * N < 2 ^ 31 -> pm p = Some zl -> pm (p + 1) = Some zr ->
  (forall i k, 0 <= i < M -> 0 <= k < K -> in_bits 8 (A [i; k] - zl)) -> (forall k j, 0 <= k < K -> 0 <= j < N -> in_bits 8 (B [k; j] - zr)) ->
  (forall i j k, 0 <= i < M -> 0 <= j < N -> 0 <= k <= K -> in_bits 32 (zsum 0 k (fun x => (A [i; x] - zl) * (B [x; j] - zr)))) ->
  let it := tiles_iter [M; N] [T; N] [N; 1] in let ob n := mm_updates n (mm_create (tiles_iter [M; K] [T; K] [sl; 1]) (tiles_iter [K; N] [K; N] [sr; 1]) it bl br bo) in
  (forall n, Z.of_nat n < total_count (ti_cfg it) ->
     holds (ml n) (mm_tl (ob n)) A (ti_pos (mm_left (ob n))) /\ holds (mr n) (mm_tr (ob n)) B [0; 0] /\ usable (mm_to (ob n)) (m n)) ->
  whole_result (fun n => mm_issue pm p (ob n) (ml n) (mr n) (m n)) it bo m (fun c => zsum 0 K (fun k => (A [nth 0 c 0; k] - zl) * (B [k; nth 1 c 0] - zr))).
Proof. exact (@matmul_tiles_whole pm p zl zr M K N T sl sr bl br bo A B ml mr m). Qed.
Print Assumptions C75_matmul_tiles_whole.

(** from TileStep.v *)
Theorem C75_broadcast_cut_refuted :
  let it := tiles_iter [2; 2] [1; 1] [1; 1] in let ob n := un_updates n (un_create (tiles_iter [1; 2] [1; 1] [1; 1]) it (mkLb 0 1 1) (mkLb 0 1 1)) in
  exists X (mi m : nat -> mem),
    (forall n, Z.of_nat n < 4 -> holds (mi n) (uo_tin (ob n)) X (ti_pos (uo_in (ob n))) /\ usable (uo_tout (ob n)) (m n))
    /\ exists m', bc_issue (ob 1%nat) (mi 1%nat) (m 1%nat) = Some m' /\ in_tile (uo_tout (ob 1%nat)) (ti_pos (ti_run it 1)) [1; 0]
       /\ tile_value m' (uo_tout (ob 1%nat)) (ti_pos (ti_run it 1)) [1; 0] = Some 1 /\ X (bc_source [1; 2] [1; 0]) = 0.
Proof. exact (broadcast_cut_refuted). Qed.
Print Assumptions C75_broadcast_cut_refuted.

(** from TileStep.v *)
Theorem C75_reduce_max_first_refuted :
  let i := tiles_iter [2; 2] [1; 2] [2; 1] in let o := tiles_iter [2; 1] [1; 1] [1; 1] in
  tiling [2; 2] [1; 2] /\ nth 1 [1; 2] 0 = nth 1 [2; 2] 0 /\ ti_size i = [1; 2] /\ ti_size o = [1; 1]
  /\ (exists bi bo mi m, usable (tile_of bi i) mi /\ usable (tile_of bo o) m /\ rmax_issue 1 (rmax_create i o bi bo) mi m = None)
  /\ exists bi bo mi m m', usable (tile_of bi i) mi /\ usable (tile_of bo o) m /\ rmax_issue 1 (rmax_create i o bi bo) mi m = Some m'
     /\ (forall c, valid (t_shape (tile_of bo o)) c -> t_data (tile_of bo o) + addr (t_stride (tile_of bo o)) c <> 1) /\ m 1 = Some 7 /\ m' 1 = Some 9.
Proof. exact (reduce_max_first_refuted). Qed.
Print Assumptions C75_reduce_max_first_refuted.

(** from TileStep.v *)
Theorem C75_matmul_offsets_refuted :
  let ob := mm_updates 1 (mm_create (tiles_iter [2; 2] [1; 2] [2; 1]) (tiles_iter [2; 1] [2; 1] [1; 1]) (tiles_iter [2; 1] [1; 1] [1; 1]) (mkLb 0 2 1) (mkLb 0 2 1) (mkLb 0 4 4)) in
  mm_offsets ob = ([1; 0], [1; 0], [1; 0]) /\ t_shape (mm_tr ob) = [2; 1] /\ ti_pos (mm_right ob) = [0; 0].
Proof. exact (matmul_offsets_refuted). Qed.
Print Assumptions C75_matmul_offsets_refuted.

(** from TileStep.v *)
Theorem C75_matmul_columns_refuted :
  let it := tiles_iter [2; 3] [2; 2] [2; 1] in
  let ob n := mm_updates n (mm_create (tiles_iter [2; 1] [2; 1] [1; 1]) (tiles_iter [1; 3] [1; 2] [2; 1]) it (mkLb 0 2 1) (mkLb 0 2 1) (mkLb 0 16 4)) in
  let ml := list_mem [1; 2] in let mr := list_mem [1; 1] in let m := list_mem [0; 0; 7; 7] in
  holds ml (mm_tl (ob 1%nat)) (fun c => 1 + nth 0 c 0) (ti_pos (mm_left (ob 1%nat))) /\ holds mr (mm_tr (ob 1%nat)) (fun _ => 1) (ti_pos (mm_right (ob 1%nat))) /\ usable (mm_to (ob 1%nat)) m
  /\ in_tile (mm_to (ob 1%nat)) (ti_pos (ti_run it 1)) [1; 2]
  /\ exists m', mm_issue (list_mem [0; 0]) 0 (ob 1%nat) ml mr m = Some m' /\ tile_value m' (mm_to (ob 1%nat)) (ti_pos (ti_run it 1)) [1; 2] = Some 7.
Proof. exact (matmul_columns_refuted). Qed.
Print Assumptions C75_matmul_columns_refuted.

(** * C76: Tile-by-tile permutation of axes computes the whole permuted tensor where cut axes keep their order *)

(** from TilePerm.v *)
Theorem C76_permute_tiles_whole perm si ti so to sti sto bi bo X Y (mi m : nat -> mem) :
  tiling si ti -> Permutation perm (seq 0 (length si)) -> permuted perm so si -> permuted perm to ti -> cut_axes_ordered perm si ti ->
  lb_esz bi = 4 \/ lb_esz bi = 1 ->
  (forall c p, valid so c -> permuted perm c p -> Y c = X p) ->
  let it := tiles_iter so to sto in let ob n := un_updates n (un_create (tiles_iter si ti sti) it bi bo) in
  (forall n, Z.of_nat n < total_count (ti_cfg it) ->
     usable (uo_tin (ob n)) (mi n) /\ usable (uo_tout (ob n)) (m n) /\ holds (mi n) (uo_tin (ob n)) X (ti_pos (uo_in (ob n)))) ->
  whole_result (fun n => perm_issue perm (ob n) (mi n) (m n)) it bo m Y.
Proof. exact (@permute_tiles_whole perm si ti so to sti sto bi bo X Y mi m). Qed.
Print Assumptions C76_permute_tiles_whole.

(** from TilePerm.v *)
Theorem C76_permute_reports i o bi bo n : let ob := un_updates n (un_create i o bi bo) in
  perm_io ob = (t_shape (uo_tin ob), t_shape (uo_tout ob), ti_pos (ti_run i n), ti_pos (ti_run o n)).
Proof. exact (@permute_reports i o bi bo n). Qed.
Print Assumptions C76_permute_reports.

(** from TilePerm.v *)
Theorem C76_perm_in_step perm si ti so to n : tiling si ti -> Permutation perm (seq 0 (length si)) -> permuted perm so si -> permuted perm to ti -> cut_axes_ordered perm si ti ->
  total_count (axes 0 so to) = total_count (axes 0 si ti)
  /\ (Z.of_nat n < total_count (axes 0 si ti) -> permuted perm (idx_at (axes 0 so to) n) (idx_at (axes 0 si ti) n)).
Proof. exact (@perm_in_step perm si ti so to n). Qed.
Print Assumptions C76_perm_in_step.

(** from TilePerm.v *)
Theorem C76_perm_tiles perm si ti so to sti sto n : tiling si ti -> Permutation perm (seq 0 (length si)) -> permuted perm so si -> permuted perm to ti -> cut_axes_ordered perm si ti ->
  let i := ti_run (tiles_iter si ti sti) n in let o := ti_run (tiles_iter so to sto) n in
  Z.of_nat n < total_count (axes 0 so to) -> permuted perm (ti_size o) (ti_size i) /\ permuted perm (ti_pos o) (ti_pos i).
Proof. exact (@perm_tiles perm si ti so to sti sto n). Qed.
Print Assumptions C76_perm_tiles.

(** from TilePerm.v *)
Theorem C76_permute_steps_refuted :
  let it := tiles_iter [2; 2] [1; 1] [1; 1] in let ob := un_updates 1 (un_create (tiles_iter [2; 2] [1; 1] [1; 1]) it (mkLb 0 1 1) (mkLb 0 1 1)) in
  let X c := 10 * nth 0 c 0 + nth 1 c 0 in
  tiling [2; 2] [1; 1] /\ permuted [1%nat; 0%nat] [2; 2] [2; 2] /\ permuted [1%nat; 0%nat] [1; 1] [1; 1] /\ total_count (ti_cfg it) = 4
  /\ perm_io ob = ([1; 1], [1; 1], [1; 0], [1; 0])
  /\ usable (uo_tin ob) (list_mem [10]) /\ usable (uo_tout ob) (list_mem [0]) /\ holds (list_mem [10]) (uo_tin ob) X (ti_pos (uo_in ob))
  /\ permuted [1%nat; 0%nat] [1; 0] [0; 1] /\ in_tile (uo_tout ob) (ti_pos (uo_out ob)) [1; 0]
  /\ exists m', perm_issue [1%nat; 0%nat] ob (list_mem [10]) (list_mem [0]) = Some m'
     /\ tile_value m' (uo_tout ob) (ti_pos (uo_out ob)) [1; 0] = Some 10 /\ X [0; 1] = 1.
Proof. exact (permute_steps_refuted). Qed.
Print Assumptions C76_permute_steps_refuted.

(** from TilePerm.v *)
Theorem C76_permute_order_refuted :
  let it := ti_new (tile_cfg [2; 2] [1; 1] [1%nat; 0%nat] 0) [2; 2] [1; 1] in let ob := un_updates 1 (un_create (tiles_iter [2; 2] [1; 1] [1; 1]) it (mkLb 0 1 1) (mkLb 0 1 1)) in
  perm_io ob = ([1; 1], [1; 1], [1; 0], [1; 0]) /\ fst (sub_tensor (ti_cfg (uo_out ob)) (ti_shape (uo_out ob)) (ti_st (uo_out ob))) = [0; 1].
Proof. exact (permute_order_refuted). Qed.
Print Assumptions C76_permute_order_refuted.

(** from TilePerm.v *)
Theorem C76_permute_16_refuted perm i o bi bo n mi m : lb_esz bi = 2 -> perm_issue perm (un_updates n (un_create i o bi bo)) mi m = None.
Proof. exact (@permute_16_refuted perm i o bi bo n mi m). Qed.
Print Assumptions C76_permute_16_refuted.

(** * C77: Encoded parameters are read back as given, also tile by tile *)

(** from EncodeProofs.v *)
Theorem C77_rescale_params_whole n isz osz bi sc sh bo a m : rescale_given n isz osz bi sc sh bo -> bytes_ok m a (rescale_enc_size (Z.of_nat n) (Z.of_nat isz) (Z.of_nat osz)) ->
  exists m', rescale_encode n isz osz bi sc sh bo a m = Some m'
    /\ (forall b, b < a \/ a + rescale_enc_size (Z.of_nat n) (Z.of_nat isz) (Z.of_nat osz) <= b -> m' b = m b)
    /\ forall k, 0 <= k < Z.of_nat n -> let p := rescale_decode isz osz (Z.of_nat n) a m' in
       rs_bias_in p k = Some (val_at bi k) /\ rs_scale p k = Some (val_at sc k) /\ rs_shift p k = Some (val_at sh k) /\ rs_bias_out p k = Some (val_at bo k).
Proof. exact (@rescale_params_whole n isz osz bi sc sh bo a m). Qed.
Print Assumptions C77_rescale_params_whole.

(** from EncodeProofs.v *)
Theorem C77_rescale_params_tile n isz osz bi sc sh bo a m me T off cnt la ml : rescale_given n isz osz bi sc sh bo ->
  bytes_ok m a (rescale_enc_size (Z.of_nat n) (Z.of_nat isz) (Z.of_nat osz)) -> rescale_encode n isz osz bi sc sh bo a m = Some me ->
  0 <= off -> off + cnt <= Z.of_nat n ->
  sections_copied (rescale_szs isz osz) (rescale_layout (Z.of_nat isz) (Z.of_nat n)) (rescale_reported (Z.of_nat isz) T) off cnt a la me ml ->
  let p := rescale_decode isz osz T la ml in
  part_of (rs_bias_in p) off cnt (val_at bi) /\ part_of (rs_scale p) off cnt (val_at sc) /\ part_of (rs_shift p) off cnt (val_at sh) /\ part_of (rs_bias_out p) off cnt (val_at bo)
  /\ mem_bits (8 * Z.of_nat isz) (rs_bias_in p) /\ mem_bits 16 (rs_scale p) /\ mem_bits 8 (rs_shift p) /\ mem_bits (8 * Z.of_nat osz) (rs_bias_out p).
Proof. exact (@rescale_params_tile n isz osz bi sc sh bo a m me T off cnt la ml). Qed.
Print Assumptions C77_rescale_params_tile.

(** from EncodeProofs.v *)
Theorem C77_rescale_encoded_whole rm axis shape tile si so bi bo ne osz BI SC SH BO a me0 me la ml0 X (ml mi m : nat -> mem) :
  tiling shape tile -> axis < Z.of_nat (length shape) -> lb_esz bi = 4 \/ lb_esz bi = 1 -> lb_esz bo = 1 ->
  let isz := Z.to_nat (lb_esz bi) in let ni := 8 * lb_esz bi in
  osz = 1%nat -> Z.of_nat ne = channels axis shape -> rescale_given ne isz osz BI SC SH BO ->
  bytes_ok me0 a (rescale_enc_size (Z.of_nat ne) (Z.of_nat isz) (Z.of_nat osz)) -> rescale_encode ne isz osz BI SC SH BO a me0 = Some me ->
  let it := tiles_iter shape tile so in let ob n := un_updates n (un_create (tiles_iter shape tile si) it bi bo) in
  let T := enc_max axis (enc_iter shape tile (Z.to_nat axis)) in
  (forall n, Z.of_nat n < total_count (ti_cfg it) ->
     usable (uo_tin (ob n)) (mi n) /\ usable (uo_tout (ob n)) (m n) /\ mem_bits ni (mi n)
     /\ holds (mi n) (uo_tin (ob n)) X (ti_pos (uo_in (ob n)))
     /\ let off := part_off axis (ti_pos (uo_in (ob n))) in let cnt := part_cnt axis (t_shape (uo_tin (ob n))) in
        sections_copied (rescale_szs isz osz) (rescale_layout (Z.of_nat isz) (Z.of_nat ne)) (rescale_reported (Z.of_nat isz) T) off cnt a la me (if axis <? 0 then ml0 else ml n)) ->
  whole_result (fun n => rescale_run rm axis (rescale_decode isz osz T la ml0) (rescale_decode isz osz T la (ml n)) (ob n) (mi n) (m n)) it bo m
    (fun c => let k := prelu3_index axis c in rescale_exact rm ni 8 (X c) (val_at BI k) (val_at BO k) (val_at SC k) (val_at SH k)).
Proof. exact (@rescale_encoded_whole rm axis shape tile si so bi bo ne osz BI SC SH BO a me0 me la ml0 X ml mi m). Qed.
Print Assumptions C77_rescale_encoded_whole.

(** from EncodeProofs.v *)
Theorem C77_prelu_params_whole n bi ps ns pk nk bo a m : prelu_given n bi ps ns pk nk bo -> bytes_ok m a (11 * Z.of_nat n) ->
  exists m', prelu_encode bi ps ns pk nk bo a m = Some m' /\ (forall b, b < a \/ a + 11 * Z.of_nat n <= b -> m' b = m b)
    /\ forall k, 0 <= k < Z.of_nat n -> let p := prelu_decode (Z.of_nat n) a m' in
       p3_bias_in p k = Some (val_at bi k) /\ p3_posscale p k = Some (val_at ps k) /\ p3_negscale p k = Some (val_at ns k)
       /\ p3_posshift p k = Some (val_at pk k) /\ p3_negshift p k = Some (val_at nk k) /\ p3_bias_out p k = Some (val_at bo k).
Proof. exact (@prelu_params_whole n bi ps ns pk nk bo a m). Qed.
Print Assumptions C77_prelu_params_whole.

(** from EncodeProofs.v *)
Theorem C77_prelu_params_tile n bi ps ns pk nk bo a m me T off cnt la ml : prelu_given n bi ps ns pk nk bo -> bytes_ok m a (11 * Z.of_nat n) ->
  prelu_encode bi ps ns pk nk bo a m = Some me -> 0 <= off -> off + cnt <= Z.of_nat n ->
  sections_copied prelu_szs (prelu_layout (Z.of_nat n)) (prelu_reported T) off cnt a la me ml ->
  let p := prelu_decode T la ml in
  (part_of (p3_bias_in p) off cnt (val_at bi) /\ part_of (p3_posscale p) off cnt (val_at ps) /\ part_of (p3_negscale p) off cnt (val_at ns)
   /\ part_of (p3_posshift p) off cnt (val_at pk) /\ part_of (p3_negshift p) off cnt (val_at nk) /\ part_of (p3_bias_out p) off cnt (val_at bo))
  /\ mem_bits 32 (p3_bias_in p) /\ mem_bits 16 (p3_posscale p) /\ mem_bits 16 (p3_negscale p) /\ mem_bits 8 (p3_posshift p) /\ mem_bits 8 (p3_negshift p) /\ mem_bits 8 (p3_bias_out p).
Proof. exact (@prelu_params_tile n bi ps ns pk nk bo a m me T off cnt la ml). Qed.
Print Assumptions C77_prelu_params_tile.

(** from EncodeProofs.v *)
Theorem C77_prelu_cnt_last shape tile stride : tiling shape tile -> shape <> [] -> prelu_cnt (tiles_iter shape tile stride) = nth (length shape - 1) tile 0.
Proof. exact (@prelu_cnt_last shape tile stride). Qed.
Print Assumptions C77_prelu_cnt_last.

(** from EncodeProofs.v *)
Theorem C77_prelu_encoded_whole rm shape tile si so bi bo ne BI PS NS PK NK BO a me0 me la X (ml mi m : nat -> mem) :
  let axis := Z.of_nat (length shape) - 1 in tiling shape tile -> 0 <= axis ->
  (forall c, valid shape c -> in_bits 32 (X c - val_at BI (prelu3_index axis c))) ->
  Z.of_nat ne = channels axis shape -> prelu_given ne BI PS NS PK NK BO ->
  bytes_ok me0 a (prelu_enc_size shape) -> prelu_encode BI PS NS PK NK BO a me0 = Some me ->
  let it := tiles_iter shape tile so in let ob n := un_updates n (un_create (tiles_iter shape tile si) it bi bo) in
  let T := prelu_cnt (tiles_iter shape tile si) in
  (forall n, Z.of_nat n < total_count (ti_cfg it) ->
     usable (uo_tin (ob n)) (mi n) /\ usable (uo_tout (ob n)) (m n) /\ mem_bits 32 (mi n)
     /\ holds (mi n) (uo_tin (ob n)) X (ti_pos (uo_in (ob n)))
     /\ let off := part_off axis (ti_pos (uo_in (ob n))) in let cnt := part_cnt axis (t_shape (uo_tin (ob n))) in
        sections_copied prelu_szs (prelu_layout (Z.of_nat ne)) (prelu_reported T) off cnt a la me (ml n)) ->
  whole_result (fun n => prelu_run rm axis (prelu_decode T la (ml n)) (ob n) (mi n) (m n)) it bo m
    (fun c => let k := prelu3_index axis c in prelu3_exact rm 8 (X c - val_at BI k) (val_at BO k) (val_at PS k) (val_at PK k) (val_at NS k) (val_at NK k)).
Proof. exact (@prelu_encoded_whole rm shape tile si so bi bo ne BI PS NS PK NK BO a me0 me la X ml mi m). Qed.
Print Assumptions C77_prelu_encoded_whole.

(** from EncodeProofs.v *)
Theorem C77_rescale_copies_fit isz osz n T off cnt a la ms md : 1 <= Z.of_nat isz -> 1 <= Z.of_nat osz -> 0 <= cnt <= T ->
  exists ml, sections_copied (rescale_szs isz osz) (rescale_layout (Z.of_nat isz) n) (rescale_reported (Z.of_nat isz) T) off cnt a la ms ml
    /\ forall b, b < la \/ la + rescale_enc_size T (Z.of_nat isz) (Z.of_nat osz) <= b -> ml b = md b.
Proof. exact (@rescale_copies_fit isz osz n T off cnt a la ms md). Qed.
Print Assumptions C77_rescale_copies_fit.

(** from EncodeProofs.v *)
Theorem C77_prelu_copies_fit n T off cnt a la ms md : 0 <= cnt <= T ->
  exists ml, sections_copied prelu_szs (prelu_layout n) (prelu_reported T) off cnt a la ms ml /\ forall b, b < la \/ la + 11 * T <= b -> ml b = md b.
Proof. exact (@prelu_copies_fit n T off cnt a la ms md). Qed.
Print Assumptions C77_prelu_copies_fit.

(** from EncodeProofs.v *)
Theorem C77_params_aligned T a : aligned 4 a ->
  (aligned 4 (a + nth 0 (prelu_layout T) 0) /\ aligned 2 (a + nth 1 (prelu_layout T) 0) /\ aligned 2 (a + nth 2 (prelu_layout T) 0))
  /\ (aligned 4 (a + nth 0 (rescale_layout 4 T) 0) /\ aligned 2 (a + nth 1 (rescale_layout 4 T) 0)).
Proof. exact (@params_aligned T a). Qed.
Print Assumptions C77_params_aligned.

(** from EncodeProofs.v *)
Theorem C77_weights_zp_encoded w z a m : Forall (in_bits 8) w -> Forall (in_bits 8) z -> let nw := Z.of_nat (length w) in let nz := Z.of_nat (length z) in
  bytes_ok m a (nw + nz) -> exists m', encode_weights_zp 1 1 1 (nw + nz) w z a m = Some (ENC_OK, m')
    /\ (forall k, 0 <= k < nw -> get_obj 1 (a + k) m' = Some (val_at w k)) /\ (forall k, 0 <= k < nz -> get_obj 1 (a + nw + k) m' = Some (val_at z k))
    /\ forall b, b < a \/ a + nw + nz <= b -> m' b = m b.
Proof. exact (@weights_zp_encoded w z a m). Qed.
Print Assumptions C77_weights_zp_encoded.

(** from EncodeProofs.v *)
Theorem C77_zp_encoded axis len axis0 z a m : Forall (in_bits 8) z -> let n := Z.of_nat (length z) in bytes_ok m a n ->
  (n = 1 \/ n = len -> exists m', encode_zp axis len axis0 1 1 n z a m = Some (ENC_OK, if n =? 1 then -1 else axis, m')
     /\ (forall k, 0 <= k < n -> get_obj 1 (a + k) m' = Some (val_at z k)) /\ forall b, b < a \/ a + n <= b -> m' b = m b)
  /\ (n <> 1 -> n <> len -> encode_zp axis len axis0 1 1 n z a m = Some (ENC_SHAPE_MISMATCH, axis0, m)).
Proof. exact (@zp_encoded axis len axis0 z a m). Qed.
Print Assumptions C77_zp_encoded.

(** from EncodeOpsProofs.v *)
Theorem C77_weights_encoded wb enc m : 0 <= pb_size wb -> pb_size enc = pb_size wb -> pb_esz wb = 1 -> pb_esz enc = 1 ->
  bytes_ok m (pb_ptr wb) (pb_size wb) -> bytes_ok m (pb_ptr enc) (pb_size wb) -> pb_ptr wb + pb_size wb <= pb_ptr enc \/ pb_ptr enc + pb_size wb <= pb_ptr wb ->
  exists m', encode_weights wb enc 0 m = Some (ENC_OK, m')
    /\ (forall k, 0 <= k < pb_size wb -> exists w, get_obj 1 (pb_ptr wb + k) m = Some w /\ get_obj 1 (pb_ptr enc + k) m' = Some w)
    /\ (forall b, b < pb_ptr enc \/ pb_ptr enc + pb_size wb <= b -> m' b = m b).
Proof. exact (@weights_encoded wb enc m). Qed.
Print Assumptions C77_weights_encoded.

(** from EncodeOpsProofs.v *)
Theorem C77_weights_encoded_holds wb enc m m' t W off : 0 <= pb_size wb -> pb_size enc = pb_size wb -> pb_esz wb = 1 -> pb_esz enc = 1 ->
  bytes_ok m (pb_ptr wb) (pb_size wb) -> bytes_ok m (pb_ptr enc) (pb_size wb) -> pb_ptr wb + pb_size wb <= pb_ptr enc \/ pb_ptr enc + pb_size wb <= pb_ptr wb ->
  encode_weights wb enc 0 m = Some (ENC_OK, m') ->
  (forall c, valid (t_shape t) c -> 0 <= t_data t + addr (t_stride t) c < pb_size wb) ->
  holds (array_at 1 (pb_ptr wb) m) t W off -> holds (array_at 1 (pb_ptr enc) m') t W off.
Proof. exact (@weights_encoded_holds wb enc m m' t W off). Qed.
Print Assumptions C77_weights_encoded_holds.

(** from EncodeOpsProofs.v *)
Theorem C77_weights_refused wb enc off m : (pb_size enc <> pb_size wb -> encode_weights wb enc off m = None)
  /\ (pb_size enc = pb_size wb -> pb_esz wb <> 1 -> encode_weights wb enc off m = Some (ENC_NOT_SUPPORTED, m)).
Proof. exact (@weights_refused wb enc off m). Qed.
Print Assumptions C77_weights_refused.

(** from EncodeProofs.v *)
Theorem C77_rescale_misaligned_refuted T a : T mod 2 = 1 -> aligned 4 a ->
  ~ aligned 2 (a + nth 1 (rescale_layout 1 T) 0) /\ ~ aligned 4 (a + nth 3 (rescale_layout 4 T) 0).
Proof. exact (@rescale_misaligned_refuted T a). Qed.
Print Assumptions C77_rescale_misaligned_refuted.

(** from EncodeProofs.v *)
Theorem C77_weights_size_refuted w z a m : z <> [] -> encode_weights_zp 1 1 1 (Z.of_nat (length w)) w z a m = None.
Proof. exact (@weights_size_refuted w z a m). Qed.
Print Assumptions C77_weights_size_refuted.

(** from EncodeProofs.v *)
Theorem C77_rescale_direct_refuted : exists me, rescale_encode 2 4 1 [0; 5] [7; 9] [1; 2] [3; 4] 0 (list_mem (repeat 0 16)) = Some me
  /\ rs_scale (rescale_decode 4 1 2 0 me) 0 = Some 7 /\ rs_scale (rescale_decode 4 1 1 0 me) 0 = Some 5.
Proof. exact (rescale_direct_refuted). Qed.
Print Assumptions C77_rescale_direct_refuted.

(** from EncodeProofs.v *)
Theorem C77_prelu_per_tensor_refuted : exists me, prelu_encode [0] [7] [9] [1] [2] [3] 0 (list_mem (repeat 0 33)) = Some me
  /\ prelu_enc_size [1; 1; 1; 1; 3] = 33 /\ let T := prelu_cnt (tiles_iter [1; 1; 1; 1; 3] [1; 1; 1; 1; 3] [3; 3; 3; 3; 1]) in
  p3_posscale (prelu_decode 1 0 me) 0 = Some 7 /\ p3_posscale (prelu_decode T 0 me) 0 = Some 0.
Proof. exact (prelu_per_tensor_refuted). Qed.
Print Assumptions C77_prelu_per_tensor_refuted.

(** from EncodeProofs.v *)
Theorem C77_prelu_first_axis_refuted : let shape := [3; 1] in let T := prelu_cnt (tiles_iter shape shape [1; 1]) in
  exists BI PS NS PK NK BO me, prelu_given 3 BI PS NS PK NK BO /\ prelu_encode BI PS NS PK NK BO 0 (list_mem (repeat 0 33)) = Some me
  /\ forall la ml, ~ sections_copied prelu_szs (prelu_layout 3) (prelu_reported T) (part_off 0 [0; 0]) (part_cnt 0 shape) 0 la me ml.
Proof. exact (prelu_first_axis_refuted). Qed.
Print Assumptions C77_prelu_first_axis_refuted.

(** from EncodeOpsProofs.v *)
Theorem C77_weights_view_refuted :
  (exists wb enc m, bytes_ok m (pb_ptr wb) (pb_size wb) /\ bytes_ok m (pb_ptr enc) (pb_size wb) /\ pb_size enc = pb_size wb /\ pb_esz wb = 1 /\ pb_esz enc = 1
     /\ encode_weights wb enc 1 m = None)
  /\ exists wb enc m m', pb_size wb = 2 /\ pb_ptr wb = 2 /\ m 4 = Some 77 /\ encode_weights wb enc 1 m = Some (ENC_OK, m') /\ m' (pb_ptr enc + 1) = Some 77.
Proof. exact (weights_view_refuted). Qed.
Print Assumptions C77_weights_view_refuted.

(** * C78: A fully connected layer works from its encoded weights *)

(** from FcRunProofs.v *)
Theorem C78_fc_encoded_whole rm full zi oq ic oc si s so b w z z0 a me0 me mi mw m : 1 <= ic -> 1 <= oc <= s -> s * ic < 2 ^ 31 ->
  let c := mkFc ([1; ic], [si; 1]) ([ic; oc], [s; 1]) (Z.of_nat (length z)) ([1; oc], [so; 1]) in
  Z.of_nat (length w) = buf_size [ic; oc] [s; 1] -> Forall (in_bits 8) w ->
  let nw := Z.of_nat (length w) in let nz := Z.of_nat (length z) in
  bytes_ok me0 a (nw + nz) -> encode_weights_zp 1 1 1 (nw + nz) w z a me0 = Some (ENC_OK, me) ->
  (forall k, 0 <= k < nw + nz -> mw (fb_w b + k) = me (a + k)) -> fb_wsize b = nw + 2 * nz -> zp_works z z0 oc (fb_w b + nw) mw ->
  exists o, fc_create c b mw = Some o
  /\ (usable (fo_in o) mi -> usable (fo_w o) (array_at 1 0 mw) -> usable (fo_out o) m -> mem_bits 8 mi -> ic * (2 * 2 ^ 14) <= smax 32 ->
      exists m', fc_issue rm full zi oq o mi mw m = Some m'
      /\ (forall j, 0 <= j < oc -> m' (fb_out b + j) = Some (fc_exact ic s (fun k => rd mi (fb_in b + k)) w z0 j))
      /\ (forall x, ~ (fb_out b <= x < fb_out b + oc) -> m' x = m x)).
Proof. exact (@fc_encoded_whole rm full zi oq ic oc si s so b w z z0 a me0 me mi mw m). Qed.
Print Assumptions C78_fc_encoded_whole.

(** from FcRunProofs.v *)
Theorem C78_fc_zero_points_refuted :
  fc_run [-1] 6 = Some (Some (3 * (1 - 255) - 5 * (3 - 255)), Some (3 * (2 - 255) - 5 * (4 - 255)))
  /\ fc_run [1; 1] 8 = Some (Some (3 * (1 - 257) - 5 * (3 - 257)), Some (3 * (2 - 257) - 5 * (4 - 257)))
  /\ (exists me, fc_enc [1] = Some me /\ fc_create (fc_ex 1) (fc_exb 5) me = None).
Proof. exact (fc_zero_points_refuted). Qed.
Print Assumptions C78_fc_zero_points_refuted.

(** * C79: Reported buffer sizes are exactly what a tensor needs *)

(** from FcRunProofs.v *)
Theorem C79_buf_size_exact shape stride : length shape = length stride -> Forall (fun d => 1 <= d < 2 ^ 32) shape -> Forall (fun s => 0 <= s) stride ->
  last_offset shape stride + 1 < 2 ^ 32 ->
  (forall c, valid shape c -> 0 <= addr stride c < buf_size shape stride) /\ exists c, valid shape c /\ addr stride c = buf_size shape stride - 1.
Proof. exact (@buf_size_exact shape stride). Qed.
Print Assumptions C79_buf_size_exact.

(** from FcRunProofs.v *)
Theorem C79_buf_dense_exact shape : Forall (fun d => 1 <= d < 2 ^ 32) shape -> prod shape < 2 ^ 32 -> buf_dense shape = prod shape.
Proof. exact (@buf_dense_exact shape). Qed.
Print Assumptions C79_buf_dense_exact.

(** from FcRunProofs.v *)
Theorem C79_buf_size_negative_refuted : buf_size [2] [-1] = 0 /\ buf_size [65536; 65536] [65536; 1] = 0 /\ buf_dense [65536; 65536] = 0.
Proof. exact (buf_size_negative_refuted). Qed.
Print Assumptions C79_buf_size_negative_refuted.

(** * C80: Conversion between integer and float tensors *)

(** from FloatConvProofs.v *)
Theorem C80_dequantize_nearest q x : fl_ok q -> Z.abs (x - q_zp q) <= 2 ^ 24 ->
  ffin (dequantize_elem q x) = true /\ fval (dequantize_elem q x) = rnd32 (fl_real q x).
Proof. exact (@dequantize_nearest q x). Qed.
Print Assumptions C80_dequantize_nearest.

(** from FloatConvProofs.v *)
Theorem C80_dequantize_exact q x : fl_ok q -> q_scale q = 1 -> Z.abs (x - q_zp q) <= 2 ^ 24 -> fval (dequantize_elem q x) = fl_real q x.
Proof. exact (@dequantize_exact q x). Qed.
Print Assumptions C80_dequantize_exact.

(** from FloatConvProofs.v *)
Theorem C80_quantize_close rm no q v : no = 8 \/ no = 16 \/ no = 32 -> fl_ok q -> ffin v = true ->
  let X := (fval v / fl_step q)%R in (Rabs X <= IZR (2 ^ 31 - 1024))%R ->
  exists t, quantize_elem rm no q v = Some (sat no (t + q_zp q)) /\ (Rabs (IZR t - X) <= / 2 + (Rabs X + 1) * / IZR (2 ^ 22))%R.
Proof. exact (@quantize_close rm no q v). Qed.
Print Assumptions C80_quantize_close.

(** from FloatConvProofs.v *)
Theorem C80_quantize_dequantize rm no q x : no = 8 \/ no = 16 -> fl_ok q -> in_bits no x -> quantize_elem rm no q (dequantize_elem q x) = Some x.
Proof. exact (@quantize_dequantize rm no q x). Qed.
Print Assumptions C80_quantize_dequantize.

(** from FloatConvProofs.v *)
Theorem C80_dequantize_tensor_correct t tf m :
  chk_float (qt_t t) tf = ST_OK -> axis_ok t -> fits32 (qt_t t) -> fits32 tf -> backed (qt_t t) m -> backed tf m -> unary_ok (qt_t t) tf ->
  (forall c, valid (t_shape (qt_t t)) c -> fl_ok (fmt t c) /\ Z.abs (rd m (t_data (qt_t t) + addr (t_stride (qt_t t)) c) - q_zp (fmt t c)) <= 2 ^ 24) ->
  exists m', dequantize_tensor t tf m = (ST_OK, Some m')
    /\ (forall c, valid (t_shape (qt_t t)) c -> exists v, m' (t_data tf + addr (t_stride tf) c) = Some (f_bits v)
          /\ v = dequantize_elem (fmt t c) (rd m (t_data (qt_t t) + addr (t_stride (qt_t t)) c))
          /\ ffin v = true /\ fval v = rnd32 (fl_real (fmt t c) (rd m (t_data (qt_t t) + addr (t_stride (qt_t t)) c))))
    /\ frame_ok tf m m'.
Proof. exact (@dequantize_tensor_correct t tf m). Qed.
Print Assumptions C80_dequantize_tensor_correct.

(** from FloatConvProofs.v *)
Theorem C80_quantize_tensor_correct rm tf t m :
  chk_float tf (qt_t t) = ST_OK -> axis_ok t -> fits32 tf -> fits32 (qt_t t) -> backed tf m -> backed (qt_t t) m -> unary_ok tf (qt_t t) ->
  (forall c, valid (t_shape (qt_t t)) c -> let v := f_of_bits (rd m (t_data tf + addr (t_stride tf) c)) in
     fl_ok (fmt t c) /\ ffin v = true /\ (Rabs (fval v / fl_step (fmt t c)) <= IZR (2 ^ 31 - 1024))%R) ->
  exists m', quantize_tensor rm tf t m = (ST_OK, Some m')
    /\ (forall c, valid (t_shape (qt_t t)) c -> exists y, m' (t_data (qt_t t) + addr (t_stride (qt_t t)) c) = Some y
          /\ quantize_elem rm (el_bits (qt_el t)) (fmt t c) (f_of_bits (rd m (t_data tf + addr (t_stride tf) c))) = Some y
          /\ quantized_as (el_bits (qt_el t)) (fmt t c) (f_of_bits (rd m (t_data tf + addr (t_stride tf) c))) y)
    /\ frame_ok (qt_t t) m m'.
Proof. exact (@quantize_tensor_correct rm tf t m). Qed.
Print Assumptions C80_quantize_tensor_correct.

(** from FloatConvProofs.v *)
Theorem C80_float_roundtrip rm t tf t2 m :
  chk_float (qt_t t) tf = ST_OK -> chk_float tf (qt_t t2) = ST_OK -> axis_ok t -> axis_ok t2 ->
  fits32 (qt_t t) -> fits32 tf -> fits32 (qt_t t2) -> backed (qt_t t) m -> backed tf m -> backed (qt_t t2) m -> unary_ok (qt_t t) tf -> unary_ok tf (qt_t t2) ->
  qt_el t = qt_el t2 -> (el_bits (qt_el t) = 8 \/ el_bits (qt_el t) = 16) ->
  (forall c, valid (t_shape (qt_t t)) c -> fmt t2 c = fmt t c /\ fl_ok (fmt t c) /\ in_bits (el_bits (qt_el t)) (rd m (t_data (qt_t t) + addr (t_stride (qt_t t)) c))) ->
  exists m1 m2, dequantize_tensor t tf m = (ST_OK, Some m1) /\ quantize_tensor rm tf t2 m1 = (ST_OK, Some m2)
    /\ (forall c, valid (t_shape (qt_t t)) c -> m2 (t_data (qt_t t2) + addr (t_stride (qt_t t2)) c) = m (t_data (qt_t t) + addr (t_stride (qt_t t)) c))
    /\ (forall a, (forall c, valid (t_shape tf) c -> a <> t_data tf + addr (t_stride tf) c) -> (forall c, valid (t_shape (qt_t t2)) c -> a <> t_data (qt_t t2) + addr (t_stride (qt_t t2)) c) -> m2 a = m a).
Proof. exact (@float_roundtrip rm t tf t2 m). Qed.
Print Assumptions C80_float_roundtrip.

(** from FloatConvProofs.v *)
Theorem C80_quantize_range_refuted : exists q v, fl_ok q /\ ffin v = true /\ fval v = IZR (2 ^ 40)
  /\ quantize_elem RM_UP 8 q v = None /\ quantize_elem RM_CONV 8 q v = None /\ quantize_elem RM_UP 8 q f_inf = None.
Proof. exact (quantize_range_refuted). Qed.
Print Assumptions C80_quantize_range_refuted.

(** from FloatConvProofs.v *)
Theorem C80_quantize_nearest_refuted : exists q v, fl_ok q /\ ffin v = true /\ (0 < fval v / fl_step q < / 2)%R
  /\ quantize_elem RM_UP 8 q v = Some 1 /\ quantize_elem RM_CONV 8 q v = Some 1.
Proof. exact (quantize_nearest_refuted). Qed.
Print Assumptions C80_quantize_nearest_refuted.

(** from FloatConvProofs.v *)
Theorem C80_dequantize_scale_refuted : exists q, q_scale q = 1 /\ in_bits 8 (q_frac q) /\ q_zp q = 0 /\ fl_real q 0 = 0%R /\ ffin (dequantize_elem q 0) = false.
Proof. exact (dequantize_scale_refuted). Qed.
Print Assumptions C80_dequantize_scale_refuted.

(** * C81: Buffers for a few tiles *)

(** from RingProofs.v *)
Theorem C81_pos_increments cfg r bufs bsize : cfg <> [] -> orders_ok r cfg -> Forall inc_ok cfg -> length bufs = length cfg ->
  forall n, let '(idx, pos) := pos_run cfg r n in
    idx_ok cfg idx /\ fst (iter_run cfg bufs bsize n) = at_tile cfg idx
    /\ (forall i d, nth_error cfg i = Some d -> nth (Z.to_nat (it_order d)) pos 0 = tile_start d (nth i idx 0))
    /\ snd (iter_next_pos cfg idx (repeat 0 r)) = (tile_no cfg idx =? total_count cfg - 1).
Proof. exact (@pos_increments cfg r bufs bsize). Qed.
Print Assumptions C81_pos_increments.

(** from RingProofs.v *)
Theorem C81_ring_positions d cfg r : orders_ok r (d :: cfg) -> counts_ok (d :: cfg) -> 0 <= it_last_size d < 2 ^ 31 ->
  forall n, let '(idx, pos) := pos_run (shrink_cfg true (d :: cfg)) r n in
    idx_ok (d :: cfg) idx /\ idx = fst (pos_run (d :: cfg) r n) /\ nth 0 idx 0 = Z.of_nat n mod it_count d
    /\ nth (Z.to_nat (it_order d)) pos 0 = stream_start d (Z.of_nat n)
    /\ forall a, a <> Z.to_nat (it_order d) -> nth a pos 0 = 0.
Proof. exact (@ring_positions d cfg r). Qed.
Print Assumptions C81_ring_positions.

(** from RingProofs.v *)
Theorem C81_ring_tiles o D T skew N align : 1 <= T <= D -> 0 <= skew < T -> D + T + T < 2 ^ 31 -> 1 <= N -> N * T < 2 ^ 30 ->
  let d := tile_dim o D T skew in
  it_count d = 1 \/ N <= it_count d -> ring_fits d N (ring_len d N align).
Proof. exact (@ring_tiles o D T skew N align). Qed.
Print Assumptions C81_ring_tiles.

(** from RingProofs.v *)
Theorem C81_ring_tiles_exact o D T N align : 1 <= T <= D -> D + T + T < 2 ^ 31 -> 1 <= N -> N * T < 2 ^ 30 -> 1 <= align <= T ->
  let d := tile_dim o D T 0 in
  2 < it_count d -> ring_len d N align = N * T.
Proof. exact (@ring_tiles_exact o D T N align). Qed.
Print Assumptions C81_ring_tiles_exact.

(** from RingProofs.v *)
Theorem C81_ring_kernel o Do T skew D K S P N align : 1 <= T <= Do -> 0 <= skew < T -> Do + T + T < 2 ^ 31 ->
  1 <= S -> 1 <= K -> 1 <= D -> 0 <= P <= (T - skew) * S -> P < (T - skew - 1) * S + K -> (Do + 2 * T) * S + K + D < 2 ^ 31 ->
  1 <= N -> N * (D + T * S + K) < 2 ^ 31 ->
  let out := tile_dim o Do T skew in let d := kernel_dim out D K S P in
  tile_start out (it_count out - 1) * S - P <= D -> S <= K \/ it_count out <> 2 -> it_count out = 1 \/ N <= it_count out ->
  ring_fits d N (ring_len d N align).
Proof. exact (@ring_kernel o Do T skew D K S P N align). Qed.
Print Assumptions C81_ring_kernel.

(** from RingProofs.v *)
Theorem C81_ring_ends o Do T skew D K S P : 1 <= T <= Do -> 0 <= skew < T -> Do + T + T < 2 ^ 31 ->
  1 <= S <= K -> 1 <= D -> 0 <= P <= (T - skew) * S -> P < (T - skew - 1) * S + K -> (Do + 2 * T) * S + K + D < 2 ^ 31 ->
  let out := tile_dim o Do T skew in let inp := kernel_dim out D K S P in let wr := remove_overlap_dim inp in
  tile_start out (it_count out - 1) * S - P <= D -> 1 < it_count out -> (T - skew - 1) * S + K - P <= D -> (tile_start out (it_count out - 1) - 1) * S - P + K <= D ->
  it_count wr = it_count out /\ it_first_inc wr = it_first_size wr /\ it_inc wr = it_size wr /\ (forall n, 0 <= n -> 0 <= stream_len wr n)
  /\ forall n, 0 <= n -> stream_start inp n <= stream_start wr n /\ stream_start wr n + stream_len wr n = stream_start inp n + stream_len inp n.
Proof. exact (@ring_ends o Do T skew D K S P). Qed.
Print Assumptions C81_ring_ends.

(** from RingProofs.v *)
Theorem C81_ring_handover o Do T skew D K S P N align : 1 <= T <= Do -> 0 <= skew < T -> Do + T + T < 2 ^ 31 ->
  1 <= S <= K -> 1 <= D -> 0 <= P <= (T - skew) * S -> P < (T - skew - 1) * S + K -> (Do + 2 * T) * S + K + D < 2 ^ 31 ->
  1 <= N -> N * (D + T * S + K) < 2 ^ 31 ->
  let out := tile_dim o Do T skew in let inp := kernel_dim out D K S P in let wr := remove_overlap_dim inp in let B := ring_len inp N align in
  tile_start out (it_count out - 1) * S - P <= D -> 1 < it_count out -> N <= it_count out ->
  (T - skew - 1) * S + K - P <= D -> (tile_start out (it_count out - 1) - 1) * S - P + K <= D ->
  forall r w p, 0 <= r <= w -> w < r + N -> stream_start inp r <= p < stream_start inp r + stream_len inp r ->
  exists v, 0 <= v <= r /\ stream_start wr v <= p < stream_start wr v + stream_len wr v
    /\ forall u q, v < u <= w -> stream_start wr u <= q < stream_start wr u + stream_len wr u -> q mod B <> p mod B.
Proof. exact (@ring_handover o Do T skew D K S P N align). Qed.
Print Assumptions C81_ring_handover.

(** from RingProofs.v *)
Theorem C81_ring_dims N al d cfg shape : orders_ok (length shape) (d :: cfg) -> counts_ok (d :: cfg) ->
  (forall e, In e cfg -> 0 <= dim_max e /\ 1 <= nth (Z.to_nat (it_order e)) al 0 /\ dim_max e + nth (Z.to_nat (it_order e)) al 0 < 2 ^ 32) ->
  let dims := shrink_dims N true al (d :: cfg) shape in
  length dims = length shape /\ nth (Z.to_nat (it_order d)) dims 0 = ring_len d N (nth (Z.to_nat (it_order d)) al 0)
  /\ forall e, In e cfg -> (forall k, 0 <= k < it_count e -> plain_len e k <= nth (Z.to_nat (it_order e)) dims 0)
       /\ nth (Z.to_nat (it_order e)) dims 0 < dim_max e + nth (Z.to_nat (it_order e)) al 0.
Proof. exact (@ring_dims N al d cfg shape). Qed.
Print Assumptions C81_ring_dims.

(** from RingProofs.v *)
Theorem C81_plain_dims N al cfg shape : orders_ok (length shape) cfg -> counts_ok cfg -> 1 <= N ->
  forall i d, nth_error cfg i = Some d ->
  let a := nth (Z.to_nat (it_order d)) al 0 in
  0 <= dim_max d -> 1 <= a -> (dim_max d + a) * N ^ Z.of_nat (length cfg - i) < 2 ^ 32 ->
  let sz := nth (Z.to_nat (it_order d)) (shrink_dims N false al cfg shape) 0 in
  (it_order d = 0 -> sz = ceil_rnd (dim_max d) a * N ^ Z.of_nat (length cfg - i)) /\ (it_order d <> 0 -> sz = ceil_rnd (dim_max d) a)
  /\ forall k, 0 <= k < it_count d -> plain_len d k * (if it_order d =? 0 then N else 1) <= sz.
Proof. exact (@plain_dims N al cfg shape). Qed.
Print Assumptions C81_plain_dims.

(** from RingProofs.v *)
Theorem C81_ring_stride_refuted : exists d x y, d = kernel_dim (tile_dim 0 4 2 0) 7 1 2 0 /\ it_count d = 2
  /\ 0 <= x < stream_len d 0 /\ 0 <= y < stream_len d 1 /\ (stream_start d 0 + x) mod ring_len d 2 1 = (stream_start d 1 + y) mod ring_len d 2 1
  /\ stream_start d 0 + x <> stream_start d 1 + y.
Proof. exact (ring_stride_refuted). Qed.
Print Assumptions C81_ring_stride_refuted.

(** from RingProofs.v *)
Theorem C81_ring_overlap_refuted : exists d, d = kernel_dim (tile_dim 0 4 2 0) 13 1 4 0 /\ dim_max d = 5 /\ ring_len d 2 1 = 2 ^ 32 - 1.
Proof. exact (ring_overlap_refuted). Qed.
Print Assumptions C81_ring_overlap_refuted.

(** from RingProofs.v *)
Theorem C81_ring_many_refuted : exists d, d = kernel_dim (tile_dim 0 2 1 0) 4 3 1 0 /\ it_count d = 2 /\ ring_len d 5 1 = 9
  /\ (stream_start d 0 + 0) mod 9 = (stream_start d 4 + 1) mod 9 /\ 1 < stream_len d 4 /\ 0 < stream_len d 0.
Proof. exact (ring_many_refuted). Qed.
Print Assumptions C81_ring_many_refuted.

(** from RingProofs.v *)
Theorem C81_plain_dims_refuted : exists cfg, cfg = tile_cfg [8; 8; 8; 8] [4; 4; 4; 4] [0; 1; 2; 3]%nat 0
  /\ shrink_size 1 false [1; 1; 1; 1] cfg [8; 8; 8; 8] = 256 /\ shrink_size 2 false [1; 1; 1; 1] cfg [8; 8; 8; 8] = 16 * 256.
Proof. exact (plain_dims_refuted). Qed.
Print Assumptions C81_plain_dims_refuted.

(** * C82: Adjusting iterator configurations *)

(** from IterAdjProofs.v *)
Theorem C82_prepad_starts pad d : inc_ok d -> 0 <= pad -> -(2 ^ 31) <= it_last_inc d - pad -> -(2 ^ 31) <= it_first_inc d -> it_first_inc d + pad < 2 ^ 31 -> it_last_inc d < 2 ^ 31 ->
  let e := prepad_dim pad d in
  inc_ok e /\ it_count e = it_count d /\ (forall k, plain_len e k = plain_len d k)
  /\ forall k, 0 <= k < it_count d -> tile_start e k = if k =? 0 then 0 else tile_start d k + pad.
Proof. exact (@prepad_starts pad d). Qed.
Print Assumptions C82_prepad_starts.

(** from IterAdjProofs.v *)
Theorem C82_prepad_kernel o Do T skew D K S P : 0 <= o -> 1 <= T <= Do -> 0 <= skew < T -> Do + T + T < 2 ^ 31 ->
  1 <= S -> 1 <= K -> 1 <= D -> 0 <= P <= (T - skew) * S -> P <= (T - skew - 1) * S + K -> (Do + 2 * T) * S + K + D < 2 ^ 31 ->
  let out := tile_dim o Do T skew in
  tile_start out (it_count out - 1) * S - P <= D -> 1 < it_count out ->
  forall k, 0 <= k < it_count out -> tile_start (prepad_dim P (kernel_dim out D K S P)) k = tile_start out k * S.
Proof. exact (@prepad_kernel o Do T skew D K S P). Qed.
Print Assumptions C82_prepad_kernel.

(** from IterAdjProofs.v *)
Theorem C82_align_sizes al d : 0 <= it_order d -> 1 < it_count d -> 1 <= al -> (forall k, 0 <= plain_len d k /\ plain_len d k + al < 2 ^ 32) ->
  let e := align_dim al d in
  it_count e = it_count d /\ forall k, 0 <= k < it_count d ->
    tile_start e k = tile_start d k /\ plain_len e k mod al = 0 /\ plain_len d k <= plain_len e k < plain_len d k + al.
Proof. exact (@align_sizes al d). Qed.
Print Assumptions C82_align_sizes.

(** from IterAdjProofs.v *)
Theorem C82_gran_tiling o D T skew old new t s : 1 <= T <= D -> 0 <= skew < T -> 1 <= old -> 1 <= new -> T * old = t * new -> skew * old = s * new -> (D + T + T) * old + 2 * new < 2 ^ 31 -> D + T + T < 2 ^ 31 ->
  let d := tile_dim o D T skew in let e := gran_dim o old new d in let f := tile_dim o (gran_shape old new D) t s in
  it_count e = it_count f /\ (forall k, 0 <= k < it_count e -> tile_start e k = tile_start f k /\ plain_len e k = plain_len f k)
  /\ forall k, 0 <= k < it_count e -> tile_start e k * new = tile_start d k * old.
Proof. exact (@gran_tiling o D T skew old new t s). Qed.
Print Assumptions C82_gran_tiling.

(** from IterAdjProofs.v *)
Theorem C82_gran_strides old new inner q k : 1 <= old -> 1 <= new -> 1 <= inner -> inner * old = q * new -> 0 <= k -> k * inner * old + new < 2 ^ 31 -> inner * old + new < 2 ^ 31 ->
  gran_stride old new inner (k * inner) * new = k * inner * old.
Proof. exact (@gran_strides old new inner q k). Qed.
Print Assumptions C82_gran_strides.

(** from IterAdjProofs.v *)
Theorem C82_override_cuts v D d : 1 <= v < 2 ^ 31 -> 1 <= it_count d -> 0 <= it_order d -> (it_count d - 1) * v <= D < 2 ^ 31 -> v * it_count d < 2 ^ 31 ->
  let e := override_incs v D d in
  inc_ok e /\ it_count e = it_count d /\ cuts D (it_count e) (tile_start e) (plain_len e) /\ (forall k, 0 <= k < it_count e -> tile_start e k = k * v)
  /\ (D <= it_count d * v -> forall k, 0 <= k < it_count e -> plain_len e k <= v).
Proof. exact (@override_cuts v D d). Qed.
Print Assumptions C82_override_cuts.

(** from IterAdjProofs.v *)
Theorem C82_extend_same n cfg bufs bufs' bsize bsize' idx offs offs' : idx_ok cfg idx -> length idx = length cfg -> length bufs = length cfg -> length bufs' = (length cfg + n)%nat ->
  let r := iter_next cfg bufs bsize (at_tile cfg idx) offs in let r' := iter_next (extend_cfg n cfg) bufs' bsize' (at_tile (extend_cfg n cfg) (idx ++ repeat 0 n)) offs' in
  fst (fst r) = at_tile cfg (next_tile cfg idx) /\ fst (fst r') = at_tile (extend_cfg n cfg) (next_tile cfg idx ++ repeat 0 n) /\ snd r' = snd r.
Proof. exact (@extend_same n cfg bufs bufs' bsize bsize' idx offs offs'). Qed.
Print Assumptions C82_extend_same.

(** from IterAdjProofs.v *)
Theorem C82_align_single_refuted : exists d, d = tile_dim 0 5 5 0 /\ it_count d = 1 /\ plain_len (align_dim 4 d) 0 = 5.
Proof. exact (align_single_refuted). Qed.
Print Assumptions C82_align_single_refuted.

(** from IterAdjProofs.v *)
Theorem C82_gran_return_refuted : exists d, d = gran_dim 0 1 4 (tile_dim 0 12 4 0) /\ it_count d = 3 /\ tile_start d 2 = 2 /\ it_last_inc d = -1 /\ pos_run [d] 1 3 = ([0], [1]).
Proof. exact (gran_return_refuted). Qed.
Print Assumptions C82_gran_return_refuted.

(** from IterAdjProofs.v *)
Theorem C82_override_order_refuted : exists cfg d, cfg = tile_cfg [4; 10] [4; 5] [1; 0]%nat 0 /\ nth_error (override_cfg [5; -1] [4; 10] cfg) 0 = Some d
  /\ it_order d = 1 /\ it_count d = 2 /\ plain_len d 1 = 2 ^ 32 - 1.
Proof. exact (override_order_refuted). Qed.
Print Assumptions C82_override_order_refuted.

(** from IterAdjProofs.v *)
Theorem C82_extend_done_refuted n cfg : (0 < n)%nat -> forall st inc strides,
  snd (iter_next_pos (extend_cfg n cfg) st inc) = false /\ snd (iter_next_inc (extend_cfg n cfg) strides st) = false.
Proof. exact (@extend_done_refuted n cfg). Qed.
Print Assumptions C82_extend_done_refuted.

(** * C83: Clip and MatMul parameters from EncodeParams to the result *)

(** from EncodeOpsProofs.v *)
Theorem C83_clip_params_whole bmin bmax enc m lo hi : enc_ready clip_enc_size enc m -> holds_int8 bmin m lo -> holds_int8 bmax m hi -> pb_ptr bmax <> pb_ptr enc ->
  exists m', clip_encode bmin bmax enc m = Some m' /\ (forall b, b < pb_ptr enc \/ pb_ptr enc + clip_enc_size <= b -> m' b = m b)
    /\ forall rb md, bytes_copied enc rb m' md -> exists pm, clip_params 1 rb md = Some pm /\ pm 0 = Some lo /\ pm 1 = Some hi.
Proof. exact (@clip_params_whole bmin bmax enc m lo hi). Qed.
Print Assumptions C83_clip_params_whole.

(** from EncodeOpsProofs.v *)
Theorem C83_mm_params_whole b1 b2 enc m zl zr : enc_ready mm_enc_size enc m -> holds_int8 b1 m zl -> holds_int8 b2 m zr -> pb_ptr b2 <> pb_ptr enc ->
  exists m', mm_encode b1 b2 enc m = Some m' /\ (forall b, b < pb_ptr enc \/ pb_ptr enc + mm_enc_size <= b -> m' b = m b)
    /\ forall rb md, bytes_copied enc rb m' md -> exists pm, mm_params rb md = Some pm /\ pm 0 = Some zl /\ pm 1 = Some zr.
Proof. exact (@mm_params_whole b1 b2 enc m zl zr). Qed.
Print Assumptions C83_mm_params_whole.

(** from EncodeOpsProofs.v *)
Theorem C83_clip_encoded_whole bmin bmax enc me0 me lo hi rb md shape tile si so bi bo X (m : nat -> mem) :
  enc_ready clip_enc_size enc me0 -> holds_int8 bmin me0 lo -> holds_int8 bmax me0 hi -> pb_ptr bmax <> pb_ptr enc ->
  clip_encode bmin bmax enc me0 = Some me -> bytes_copied enc rb me md -> lb_esz bi = 1 ->
  tiling shape tile ->
  let it := tiles_iter shape tile so in let ob n := un_updates n (un_create (tiles_iter shape tile si) it bi bo) in
  (forall n, Z.of_nat n < total_count (ti_cfg it) ->
     usable (uo_tin (ob n)) (m n) /\ usable (uo_tout (ob n)) (m n) /\ unary_ok (uo_tin (ob n)) (uo_tout (ob n))
     /\ holds (m n) (uo_tin (ob n)) X (ti_pos (uo_in (ob n)))) ->
  exists pm, clip_params (lb_esz bi) rb md = Some pm
    /\ whole_result (fun n => clip_issue pm 0 (ob n) (m n)) it bo m (fun c => Z.min (Z.max (X c) lo) hi).
Proof. exact (@clip_encoded_whole bmin bmax enc me0 me lo hi rb md shape tile si so bi bo X m). Qed.
Print Assumptions C83_clip_encoded_whole.

(** from EncodeOpsProofs.v *)
Theorem C83_matmul_encoded_whole b1 b2 enc me0 me zl zr rb md M K N T sl sr bl br bo A B (ml mr m : nat -> mem) :
  enc_ready mm_enc_size enc me0 -> holds_int8 b1 me0 zl -> holds_int8 b2 me0 zr -> pb_ptr b2 <> pb_ptr enc ->
  mm_encode b1 b2 enc me0 = Some me -> bytes_copied enc rb me md ->
  1 <= T <= M -> M + 2 * T < 2 ^ 31 -> 1 <= K -> 3 * K < 2 ^ 31 -> 1 <= N -> 3 * N < 2 ^ 31 ->
  (forall i k, 0 <= i < M -> 0 <= k < K -> in_bits 8 (A [i; k] - zl)) -> (forall k j, 0 <= k < K -> 0 <= j < N -> in_bits 8 (B [k; j] - zr)) ->
  (forall i j k, 0 <= i < M -> 0 <= j < N -> 0 <= k <= K -> in_bits 32 (zsum 0 k (fun x => (A [i; x] - zl) * (B [x; j] - zr)))) ->
  let it := tiles_iter [M; N] [T; N] [N; 1] in let ob n := mm_updates n (mm_create (tiles_iter [M; K] [T; K] [sl; 1]) (tiles_iter [K; N] [K; N] [sr; 1]) it bl br bo) in
  (forall n, Z.of_nat n < total_count (ti_cfg it) ->
     holds (ml n) (mm_tl (ob n)) A (ti_pos (mm_left (ob n))) /\ holds (mr n) (mm_tr (ob n)) B [0; 0] /\ usable (mm_to (ob n)) (m n)) ->
  exists pm, mm_params rb md = Some pm
    /\ whole_result (fun n => mm_issue pm 0 (ob n) (ml n) (mr n) (m n)) it bo m (fun c => zsum 0 K (fun k => (A [nth 0 c 0; k] - zl) * (B [k; nth 1 c 0] - zr))).
Proof. exact (@matmul_encoded_whole b1 b2 enc me0 me zl zr rb md M K N T sl sr bl br bo A B ml mr m). Qed.
Print Assumptions C83_matmul_encoded_whole.

(** from EncodeOpsProofs.v *)
Theorem C83_clip_params32_refuted :
  (forall b m, pb_size b = clip_enc_size -> clip_params 4 b m = None)
  /\ exists bmin bmax enc m m' pm, clip_encode bmin bmax enc m = Some m' /\ get_obj 1 (pb_ptr bmin) m = Some (-5) /\ get_obj 1 (pb_ptr bmax) m = Some 5
       /\ clip_params 4 enc m' = Some pm /\ pm 0 = Some 1531 /\ pm 1 = Some 0.
Proof. exact (clip_params32_refuted). Qed.
Print Assumptions C83_clip_params32_refuted.

(** from EncodeOpsProofs.v *)
Theorem C83_mm_params_size_refuted :
  exists b1 b2 enc m m', pb_size b1 = 2 /\ pb_size b2 = 2 /\ mm_encode b1 b2 enc m = Some m' /\ mm_params enc m' = None.
Proof. exact (mm_params_size_refuted). Qed.
Print Assumptions C83_mm_params_size_refuted.

(** from EncodeOpsProofs.v *)
Theorem C83_mm_params_alias_refuted :
  exists b1 b2 enc m m', enc_ready mm_enc_size enc m /\ holds_int8 b1 m 3 /\ holds_int8 b2 m 4 /\ mm_encode b1 b2 enc m = Some m' /\ get_obj 1 (pb_ptr enc + 1) m' = Some 3.
Proof. exact (mm_params_alias_refuted). Qed.
Print Assumptions C83_mm_params_alias_refuted.

(** * C84: From compile time object to runtime object *)

(** from CreateProofs.v *)
Theorem C84_create_own z buf n k : sizes_ok z -> buffer_ok buf -> k <> KC_Nop -> k <> KC_ResizeBilinear -> cs_object_size z k <= n ->
  rt_create z buf n (cs_private z k) (cs_private_size z k) = Some (Some k).
Proof. exact (@create_own z buf n k). Qed.
Print Assumptions C84_create_own.

(** from CreateProofs.v *)
Theorem C84_create_small z buf n k : sizes_ok z -> buffer_ok buf -> k <> KC_ResizeBilinear -> n < cs_object_size z k ->
  rt_create z buf n (cs_private z k) (cs_private_size z k) = Some None.
Proof. exact (@create_small z buf n k). Qed.
Print Assumptions C84_create_small.

(** from CreateProofs.v *)
Theorem C84_create_only z buf n pv size k : rt_create z buf n pv size = Some (Some k) ->
  buffer_ok buf /\ sz_rt z k <= n /\ pv_id pv = kid k /\ pv_size pv = size /\ (k = KC_Nop \/ size = cs_private_size z k).
Proof. exact (@create_only z buf n pv size k). Qed.
Print Assumptions C84_create_only.

(** from CreateProofs.v *)
Theorem C84_create_distinct z k k' : cs_private z k = cs_private z k' -> k = k'.
Proof. exact (@create_distinct z k k'). Qed.
Print Assumptions C84_create_distinct.

(** from CreateProofs.v *)
Theorem C84_create_nop_refuted z buf : sizes_ok z -> buffer_ok buf ->
  rt_create z buf (cs_object_size z KC_Nop) (cs_private z KC_Nop) (cs_private_size z KC_Nop) = Some None.
Proof. exact (@create_nop_refuted z buf). Qed.
Print Assumptions C84_create_nop_refuted.

(** from CreateProofs.v *)
Theorem C84_create_resize_refuted z buf n : rt_create z buf n (cs_private z KC_ResizeBilinear) (cs_private_size z KC_ResizeBilinear) = None.
Proof. exact (@create_resize_refuted z buf n). Qed.
Print Assumptions C84_create_resize_refuted.

