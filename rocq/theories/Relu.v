(** Model of the ReLU family (lib/src/kernels/transform/impl/mli_krn_{relu,leaky_relu,prelu}_ref.h) and of its checkers
    (lib/src/private/src/mli_check.cc). Input and output live in one memory of elements of the same type, so that
    in-place use can be expressed. get_number_lanes is 1 in the reference code, so the remaining parts are 0. *)
From Coq Require Import ZArith List Lia Bool.
From Verif Require Import Base FxMath Tensor ArgMax Quant Eltwise.
Import ListNotations.
Open Scope Z_scope.

(** * Loops over all elements *)

(** mli_krn_relu_ref.h:27-53 compute_relu_inner_loop and mli_krn_leaky_relu_ref.h:87-131
    compute_leaky_relu_{fx,sa8}_inner_loop: [g] is the function of one element. *)
Definition map_inner (g : Z -> Z) (i o count : Z) (m : mem) : option mem :=
  foldM (fun k m => do x <- load m (i + k); store m (o + k) (g x)) (zrange 0 count) m.

(** mli_krn_relu_ref.h:76-92, mli_krn_leaky_relu_ref.h:166-184 and :371-388: three loops around the inner loop over the
    squashed dimensions; stride 0 of [ds] belongs to the input, stride 1 to the output. *)
Definition map_nest (g : Z -> Z) (pi po : Z) (ds : dims) (m : mem) : option mem :=
  match ds with
  | [d0; d1; d2; d3] =>
      let l := [d0; d1; d2] in
      foldM (fun c m => map_inner g (pi + addr (d_stride 0 l) c) (po + addr (d_stride 1 l) c) (fst d3) m) (coords (d_shape l)) m
  | _ => None
  end.

(** mli_krn_relu_ref.h:55-96, the same in the leaky_relu kernels: one loop if the tensors are contiguous. The checkers
    require equal shapes. *)
Definition map_tensor (g : Z -> Z) (tin tout : tensor) (m : mem) : option mem :=
  let ds := dims_of (t_shape tin) [t_stride tin; t_stride tout] in
  let flat := squash_to_one_dim ds in
  if negb (flat =? 0) then map_inner g (t_data tin) (t_data tout) flat m
  else map_nest g (t_data tin) (t_data tout) (squash_generic 2 ds) m.

(** * ReLU *)

(** mli_krn_relu_ref.h:55-96 mli_krn_relu_fx_run. [q] are the parameters of the input (which the output gets,
    :71). *)
Definition relu (n : Z) (t : relu_type) (q : qpar) (tin tout : tensor) (m : mem) : option mem :=
  let '(lo, hi) := get_relu_limits n t q in
  map_tensor (fun x => min_fx (max_fx x (wrap n lo)) (wrap n hi)) tin tout m.

(** * Leaky ReLU *)

(** mli_math_acc_cast_fx<io_T, mli_acc32_t> *)
Definition acc_cast_n (rm : rmode) (n acc k : Z) : Z := if n =? 8 then acc_cast_8 rm acc k else acc_cast_16 rm acc k.

(** mli_krn_leaky_relu_ref.h:28-44 compute_leaky_relu<io_T> *)
Definition leaky_fx_one (rm : rmode) (n scale shift x : Z) : Z :=
  let shift_right := min_fx shift 31 in
  let pos := max_fx 0 x in
  let neg := acc_cast_n rm n (min_fx 0 x * scale) shift_right in
  add_fx n pos neg.

(** mli_krn_leaky_relu_ref.h:134-188 leaky_relu_fx_run; [fi], [fs], [fo] are the fractional bits, [imm] the value of a
    rank 0 slope. *)
Definition leaky_relu_fx (rm : rmode) (n fi fs fo : Z) (tin tslope tout : tensor) (imm : Z) (m : mem) : option mem :=
  let shift := fi + fs - fo in
  do scale <- data_val m tslope imm;
  let '(scale, norm_shift) := if n =? 16 then norm_cast_fx rm 16 16 scale else (scale, 0) in
  map_tensor (leaky_fx_one rm n scale (shift - norm_shift)) tin tout m.

(** mli_krn_leaky_relu_ref.h:190-237 leaky_relu_define_identity_params. The int32 [<<] wraps, [/] is C division, assignments to
    the int16 members truncate. *)
Definition leaky_identity (rm : rmode) (i o : qpar) : requant :=
  let pre := norm_fx 32 (q_scale i) - norm_fx 16 (q_scale o) in
  let '(scale, norm_shift) := norm_cast_fx rm 32 16 (Z.quot (wrap 32 (Z.shiftl (q_scale i) pre)) (q_scale o)) in
  let shift := wrap 16 (wrap 16 (wrap 16 pre + (q_frac i - q_frac o)) - norm_shift) in
  let shift_left := max_fx (- shift) 0 in
  mkRequant (asl_fx 16 scale shift_left) (max_fx shift 0) (q_zp o).

(** mli_krn_leaky_relu_ref.h:238-323 leaky_relu_define_alpha_params, with lib/src/bricks/impl/mli_prv_quant_ref.h:629-635
    mli_prv_convert_sa8_fx16. [s] are the parameters of the slope tensor, [a] the slope. *)
Definition leaky_alpha (rm : rmode) (s o : qpar) (idp : requant) (a : Z) : requant :=
  let alpha_val := cast_narrow rm 64 32 (wrap 16 (a - q_zp s) * q_scale s) 0 in
  let '(alpha, n1) := norm_cast_fx rm 32 16 alpha_val in
  let '(scale, n2) := norm_cast_fx rm 32 16 (rq_scale idp * alpha) in
  mkRequant scale (wrap 16 (rq_shift idp + q_frac s - n1 - n2)) (q_zp o).

(** mli_krn_leaky_relu_ref.h:46-72 compute_leaky_relu, SA8 *)
Definition leaky_sa8_one (rm : rmode) (in_zp : Z) (idp alp : requant) (x : Z) : Z :=
  let p := if x >=? in_zp then idp else alp in
  let out := asr_rnd_fx rm 32 (rq_scale p * sub_fx 16 x in_zp) (rq_shift p) in
  cast_narrow rm 32 8 (add_fx 32 out (rq_offset p)) 0.

(** mli_krn_leaky_relu_ref.h:325-392 leaky_relu_sa8_run *)
Definition leaky_relu_sa8 (rm : rmode) (i s o : qpar) (tin tslope tout : tensor) (imm : Z) (m : mem) : option mem :=
  do a <- data_val m tslope imm;
  let idp := leaky_identity rm i o in
  map_tensor (leaky_sa8_one rm (q_zp i) idp (leaky_alpha rm s o idp a)) tin tout m.

(** * PReLU *)

(** mli_prv_tensor.h:489-518 mli_prv_get_non_axis_tensor: the entries other than [axis]; and :523-537
    mli_prv_reorder_generic_tensor: moved to the last of [k] positions, filled with [d] in front. *)
Definition drop_at (k : nat) (l : list Z) : list Z := firstn k l ++ skipn (S k) l.
Definition pad_front (k : nat) (d : Z) (l : list Z) : list Z := repeat d (k - length l) ++ l.

(** mli_krn_prelu_ref.h:72-124 and :233-285 compute_prelu_broadcast: for each index of the axis, loops over the last three
    positions of the reordered dimensions other than the axis; the innermost one walks with steps of one
    element. [g] is the function of the slope and the element. *)
Definition prelu_broadcast (g : Z -> Z -> Z) (tin tslope tout : tensor) (axis : nat) (m : mem) : option mem :=
  let sh := pad_front 3 1 (drop_at axis (t_shape tin)) in
  let sti := pad_front 3 0 (drop_at axis (t_stride tin)) in
  let sto := pad_front 3 0 (drop_at axis (t_stride tout)) in
  foldM (fun k m =>
    do s <- load m (t_data tslope + k);
    foldM (fun c m =>
      map_inner (g s) (t_data tin + k * nth axis (t_stride tin) 0 + addr (firstn 2 sti) c)
        (t_data tout + k * nth axis (t_stride tout) 0 + addr (firstn 2 sto) c) (nth 2 sh 0) m)
      (coords (firstn 2 sh)) m)
    (zrange 0 (nth axis (t_shape tslope) 0)) m.

(** mli_krn_prelu_ref.h:126-151 compute_prelu_no_broadcast inside the loop of :202-210 (:287-310 and :365-376 for
    SA8): loops over the first three positions of the reordered dimensions. *)
Definition prelu_inner (g : Z -> Z -> Z) (tin tslope tout : tensor) (axis : nat) (m : mem) : option mem :=
  let sh := pad_front 4 1 (t_shape tin) in
  let sti := pad_front 4 0 (t_stride tin) in
  let sto := pad_front 4 0 (t_stride tout) in
  foldM (fun k m =>
    do s <- load m (t_data tslope + k);
    foldM (fun c m =>
      do x <- load m (t_data tin + k * nth axis (t_stride tin) 0 + addr (firstn 3 sti) c);
      store m (t_data tout + k * nth axis (t_stride tout) 0 + addr (firstn 3 sto) c) (g s x))
      (coords (firstn 3 sh)) m)
    (zrange 0 (nth axis (t_shape tslope) 0)) m.

(** mli_krn_prelu_ref.h:153-216 prelu_fx_run and :312-386 prelu_sa8_run, for 0 <= axis *)
Definition prelu_run (g : Z -> Z -> Z) (tin tslope tout : tensor) (axis : Z) (m : mem) : option mem :=
  if axis <? 0 then None
  else if negb (axis =? t_rank tin - 1) then prelu_broadcast g tin tslope tout (Z.to_nat axis) m
  else prelu_inner g tin tslope tout (Z.to_nat axis) m.

(** lib/src/kernels/transform/mli_krn_prelu.cc:21-66 mli_krn_prelu_{fx8,fx16,sa8} *)
Definition prelu_fx (rm : rmode) (n fi fs fo : Z) (tin tslope tout : tensor) (axis imm : Z) (m : mem) : option mem :=
  if axis =? -1 then leaky_relu_fx rm n fi fs fo tin tslope tout imm m
  else prelu_run (fun s => leaky_fx_one rm n s (fi + fs - fo)) tin tslope tout axis m.
Definition prelu_sa8 (rm : rmode) (i s o : qpar) (tin tslope tout : tensor) (axis imm : Z) (m : mem) : option mem :=
  if axis =? -1 then leaky_relu_sa8 rm i s o tin tslope tout imm m
  else let idp := leaky_identity rm i o in
       prelu_run (fun a => leaky_sa8_one rm (q_zp i) idp (leaky_alpha rm s o idp a)) tin tslope tout axis m.

(** * Checkers. Null pointer and element type tests are not modelled. *)

(** mli_check.cc:1472-1493 mli_chk_relu *)
Definition chk_relu (tin tout : tensor) : status :=
  match chk_tensor tin with ST_OK =>
  match chk_tensor tout with ST_OK =>
  if negb (same_shape tin tout) then ST_SHAPE_MISMATCH
  else if negb (inner_stride_is_one tin && inner_stride_is_one tout) then ST_INCOMPATIBLE
  else ST_OK
  | s => s end | s => s end.

(** mli_check.cc:1840-1868 mli_chk_leaky_relu *)
Definition chk_leaky_relu (tin tslope tout : tensor) : status :=
  match chk_relu tin tout with ST_OK => chk_scalar tslope | s => s end.

(** mli_check.cc:1871-1918, 1976-2030: the format tests; MLI_STATUS_SPEC_PARAM_MISMATCH of the FX kernels, the
    quantization parameters of the SA8 kernels (kZeroPointBitsByteRange = 7 for input and output,
    kZeroPointBitsMaxRange - 1 = 14 for the slope; mli_chk_tensor_quant_params, mli_check.cc:130-181). *)
Definition chk_leaky_fx (fi fo : Z) : bool := fo =? fi.
Definition chk_leaky_quant (i s o : qpar) : bool :=
  forallb (fun q => (0 <? q_scale q) && (-128 <=? q_zp q) && (q_zp q <=? 127)) [i; o]
  && (0 <? q_scale s) && (-16384 <=? q_zp s) && (q_zp s <=? 16383).

(** mli_check.cc:1922-1973 mli_chk_prelu. The entries of slope_coeff->shape beyond its rank are read as 0 here (the C++
    would read whatever the array holds). *)
Definition chk_prelu (tin tslope tout : tensor) (axis : Z) : status :=
  match chk_tensor tin with ST_OK =>
  match (if axis =? -1 then chk_scalar tslope else chk_tensor tslope) with ST_OK =>
  match chk_tensor tout with ST_OK =>
  if negb (same_shape tin tout) then ST_SHAPE_MISMATCH
  else if negb (axis <? t_rank tin) then ST_BAD_FUNC_CFG
  else if negb (inner_stride_is_one tin
      && ((axis =? -1) || (inner_stride_is_one tslope
          && forallb (fun k => nth k (t_shape tslope) 0 =? (if Z.of_nat k =? axis then nth k (t_shape tin) 0 else 1)) (seq 0 (length (t_shape tin)))))
      && inner_stride_is_one tout) then ST_INCOMPATIBLE
  else ST_OK
  | s => s end | s => s end | s => s end.

(** * MLI 3.0 PReLU *)

(** mli_krn_prelu_ref.h:388-407 scale_value<o_T>; mli_math_ashift_right_fx is the rounding shift. *)
Definition scale_value (rm : rmode) (no in_val in_bias out_bias scale shift_right : Z) : Z :=
  let shift := Z.max (-63) (Z.min shift_right 63) in
  let value := sub_fx 32 in_val in_bias in
  cast_narrow rm 64 no (add_fx 64 (asr_rnd_fx rm 64 (value * scale) shift) out_bias) 0.

(** The parameters of the operator: buffers indexed by the position on the axis, read at 0 without an axis. *)
Record prelu3_params := mkPrelu3 {
  p3_bias_in : mem; p3_bias_out : mem; p3_posscale : mem; p3_negscale : mem; p3_posshift : mem; p3_negshift : mem }.

(** mli_krn_prelu_ref.h:409-524: compute_prelu_per_axis and compute_prelu_per_tensor; [ni] is the width of i_T,
    whose difference from the bias is computed in int. Input and output buffers are separate memories since their
    element types may differ. Only the buffers of the chosen sign are read in the per-axis variant. *)
Definition prelu3 (rm : rmode) (ni no : Z) (p : prelu3_params) (axis : Z) (tin tout : tensor) (mi m : mem) : option mem :=
  foldM (fun c m =>
    let k := if axis <? 0 then 0 else nth (Z.to_nat axis) c 0 in
    do bi <- load (p3_bias_in p) k;
    do bo <- load (p3_bias_out p) k;
    do x <- load mi (t_data tin + addr (t_stride tin) c);
    let pos := wrap 32 (x - bi) >=? 0 in
    do sc <- load (if pos then p3_posscale p else p3_negscale p) k;
    do sh <- load (if pos then p3_posshift p else p3_negshift p) k;
    store m (t_data tout + addr (t_stride tout) c) (scale_value rm no x bi bo sc sh))
    (coords (t_shape tin)) m.
