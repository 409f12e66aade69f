(** Model of the 2D convolution kernels: generic, depthwise and group convolution
    (lib/src/kernels/convolution/impl/mli_krn_convolution_ref.h, mli_krn_group_conv2d_ref.h) with their
    checkers (lib/src/private/src/mli_check.cc), HWC input/output and HWCN / HW1N weights.
    Input, weights, bias and output live in separate memories. The quantization parameters that the C++
    code passes by value and adjusts per channel are recomputed per channel here: adjust_quant_params
    overwrites the members it sets (see adjust_s8_idem in ConvProofs). *)
From Coq Require Import ZArith List Lia Bool.
From Verif Require Import Base FxMath Tensor ArgMax Quant DotProd Layout.
Import ListNotations.
Open Scope Z_scope.

(** lib/src/private/mli_private_types.h:34-45 conv2d_weights_tensor_private_t *)
Record wtensor := mkW { w_ptr : Z; w_kw : Z; w_kh : Z; w_in : Z; w_out : Z;
  w_col : Z; w_row : Z; w_ins : Z; w_outs : Z }.

(** lib/src/private/mli_prv_tensor.h:705-737 mli_prv_get_conv2d_weights_tensor_hwcn. KRNL_{H,W,D,C}_DIM_HWCN are
    0..3. MLI_CHECK_AND_FIX replaces the kernel sizes by the fixed size (if any) and the stride of the
    output channels by 1. *)
Definition get_weights_hwcn (t : tensor) (fixed : Z) : wtensor :=
  mkW (t_data t)
    (if negb (fixed =? 0) then fixed else nth 1 (t_shape t) 0)
    (if negb (fixed =? 0) then fixed else nth 0 (t_shape t) 0)
    (nth 2 (t_shape t) 0) (nth 3 (t_shape t) 0)
    (nth 1 (t_stride t) 0) (nth 0 (t_stride t) 0) (nth 2 (t_stride t) 0) 1.

(** mli_prv_tensor.h:739-770 mli_prv_get_conv2d_weights_tensor_hw1n: as above, one input channel. *)
Definition get_weights_hw1n (t : tensor) (fixed : Z) : wtensor :=
  mkW (t_data t)
    (if negb (fixed =? 0) then fixed else nth 1 (t_shape t) 0)
    (if negb (fixed =? 0) then fixed else nth 0 (t_shape t) 0)
    1 (nth 3 (t_shape t) 0)
    (nth 1 (t_stride t) 0) (nth 0 (t_stride t) 0) (nth 2 (t_stride t) 0) 1.

(** * Quantization bricks by type *)

(** The quantization schemes of the kernels. [Q_fx8 no p]: FX with 8-bit weights and bias, 32-bit
    accumulator, [no]-bit output. [Q_fx16 p]: FX with 16-bit weights and bias, 64-bit accumulator, 16-bit
    output. [Q_s8 p]: SA8 data, SA32 bias. [Q_int zi zw]: MLI 3.0 int_quant_specific_params, 8-bit data,
    32-bit output, no bias. *)
Inductive quant := Q_fx8 (no : Z) (p : fx_params) | Q_fx16 (p : fx_params) | Q_s8 (p : s8_params)
  | Q_int (in_off w_off : Z).

(** acc_T of the instantiations (mli_acc40_t is int64_t in the reference platform). *)
Definition acc_bits (q : quant) : Z := match q with Q_fx16 _ => 64 | _ => 32 end.

(** mli_prv_quant_ref.h:223-248 weights_additive, 2D: identity for FX. *)
Definition q_weights_add2 (q : quant) (m : mem) (p acc w h col row : Z) : option Z :=
  match q with
  | Q_fx8 _ _ | Q_fx16 _ => Some acc
  | Q_s8 s => additive2D 32 m p acc (s8_in_off s) w h col row
  | Q_int zi _ => additive2D 32 m p acc zi w h col row
  end.

(** mli_prv_quant_ref.h:258-296 weights_additive, 3D *)
Definition q_weights_add3 (q : quant) (m : mem) (p acc w h ch col row chs : Z) : option Z :=
  match q with
  | Q_fx8 _ _ | Q_fx16 _ => Some acc
  | Q_s8 s => additive3D 32 m p acc (s8_in_off s) w h ch col row chs
  | Q_int zi _ => additive3D 32 m p acc zi w h ch col row chs
  end.

(** mli_prv_quant_ref.h:303-335 in_additive, 2D *)
Definition q_in_add2 (q : quant) (m : mem) (p acc w h col row : Z) : option Z :=
  match q with
  | Q_fx8 _ _ | Q_fx16 _ => Some acc
  | Q_s8 s => additive2D 32 m p acc (s8_w_off s) w h col row
  | Q_int _ zw => additive2D 32 m p acc zw w h col row
  end.

(** mli_prv_quant_ref.h:337-360 in_additive, 3D: there is no specialization for int_quant_specific_params,
    the identity of the primary template is used. *)
Definition q_in_add3 (q : quant) (m : mem) (p acc w h ch col row chs : Z) : option Z :=
  match q with
  | Q_fx8 _ _ | Q_fx16 _ | Q_int _ _ => Some acc
  | Q_s8 s => additive3D 32 m p acc (s8_w_off s) w h ch col row chs
  end.

(** mli_prv_quant_ref.h:366-397 zp_additive *)
Definition q_zp_add (q : quant) (acc len : Z) : option Z :=
  match q with
  | Q_fx8 _ _ | Q_fx16 _ => Some acc
  | Q_s8 s => zp_additive 32 acc (s8_w_off s) (s8_in_off s) len
  | Q_int zi zw => zp_additive 32 acc zw zi len
  end.

(** mli_prv_quant_ref.h:403-438 bias_additive; no specialization for int_quant_specific_params. *)
Definition q_bias_add (rm : rmode) (full : bool) (q : quant) (bias acc : Z) : Z :=
  match q with
  | Q_fx8 _ p => bias_additive_fx8 rm bias acc p
  | Q_fx16 p => bias_additive_fx16 rm bias acc p
  | Q_s8 _ => bias_additive_s8 rm full bias acc
  | Q_int _ _ => acc
  end.

(** mli_prv_quant_ref.h:151-181 adjust_quant_params followed by :443-504 result_cast *)
Definition q_result (rm : rmode) (full : bool) (q : quant) (oc acc : Z) : Z :=
  match q with
  | Q_fx8 no p => result_cast_fx rm 32 no acc p
  | Q_fx16 p => result_cast_fx rm 64 16 acc p
  | Q_s8 p => result_cast_s8 rm full acc (adjust_s8 full p oc)
  | Q_int _ _ => result_cast_int rm acc
  end.

(** The FX instantiations: mli_krn_conv2d_hwcn_fx16 etc. use 16-bit weights and bias with mli_acc40_t,
    the _fx16_fx8_fx8 kernels 8-bit weights and bias with mli_acc32_t
    (e.g. lib/src/kernels/convolution/mli_krn_conv2d_hwcn.cc); [nb] is the width of weights and bias, [no]
    of the output, the other arguments are the frac_bits of input, weights, bias and output. *)
Definition fx_quant (nb no fin fw fb fout : Z) : quant :=
  let p := define_fx_params fin fw fb fout in
  if nb =? 16 then Q_fx16 p else Q_fx8 no p.
Definition fx_qpar (fout : Z) : qpar := mkQ 1 fout 0.

(** * One output value *)

(** Strides, dilations and leading paddings of a run. *)
Record geom := mkG { g_sh : Z; g_sw : Z; g_dh : Z; g_dw : Z; g_pt : Z; g_pl : Z }.

(** mli_krn_convolution_ref.h:81-93 (also 217-229 and mli_krn_group_conv2d_ref.h:58-70): size of the valid
    area and the offsets of its first element in the input and in the kernel. *)
Record win := mkWin { wn_rows : Z; wn_cols : Z; wn_in : Z; wn_w : Z }.
Definition window (i : ptensor) (w : wtensor) (g : geom) (H W : Z) : win :=
  let c := valid_area H W (p_h i) (p_w i) (w_kh w) (w_kw w) (g_sh g) (g_sw g) (g_pl g) (g_pt g) (g_dh g) (g_dw g) in
  mkWin (w_kh w - c_k_top c - c_k_bottom c) (w_kw w - c_k_right c - c_k_left c)
    (p_row i * (H * g_sh g - g_pt g + c_in_top c) + p_col i * (W * g_sw g - g_pl g + c_in_left c))
    (w_row w * c_k_top c + w_col w * c_k_left c).

Section Values.
Context (rm : rmode) (full : bool) (q : quant) (lo hi : Z) (mi mw : mem) (bias : option (mem * Z)).
(** [bias]: memory and element index of the bias data; [None] is the null pointer (MLI 3.0). *)

(** mli_krn_convolution_ref.h:94-176: one output element of convolution2D. [wf] are the full weights. *)
Definition conv_value (i : ptensor) (wf w : wtensor) (g : geom) (H W oc : Z) : option Z :=
  let n := acc_bits q in
  let v := window i w g H W in
  let rows := wn_rows v in
  let cols := wn_cols v in
  let pi := p_ptr i + wn_in v in
  let pw := w_ptr w + wn_w v + w_outs w * oc in
  do acc <- dotprod3D n mi mw pi pw cols rows (p_ch i)
              (p_col i * g_dw g) (p_row i * g_dh g) (p_chs i) (w_col w) (w_row w) (w_ins w) 0;
  do acc <- q_in_add3 q mi pi acc cols rows (p_ch i) (p_col i) (p_row i) (p_chs i);
  match bias with
  | Some (mb, pb) =>
      do acc <- q_weights_add3 q mw pw acc cols rows (p_ch i) (w_col w) (w_row w) (w_ins w);
      do acc <- q_zp_add q acc (cols * rows);
      do b <- load mb (pb + oc);
      Some (relu_clip (q_result rm full q oc (q_bias_add rm full q b acc)) lo hi)
  | None =>
      do acc <-
        (if negb (rows * cols =? w_kh wf * w_kw wf) then
           let pf := w_ptr wf + w_outs wf * oc in
           do acc <- q_weights_add3 q mw pf (sub_fx n 0 acc) (w_kw wf) (w_kh wf) (p_ch i) (w_col wf) (w_row wf) (w_ins wf);
           let acc := sub_fx n 0 acc in
           do acc <- q_weights_add3 q mw pw acc cols rows (p_ch i) (w_col w) (w_row w) (w_ins w);
           do acc <- q_zp_add q (sub_fx n 0 acc) (w_kh wf * w_kw wf - cols * rows);
           Some (sub_fx n 0 acc)
         else Some acc);
      Some (q_result rm full q oc acc)
  end.

(** mli_krn_convolution_ref.h:231-331: one output element of depthwise_convolution2D *)
Definition depthwise_value (i : ptensor) (w : wtensor) (g : geom) (H W ch : Z) : option Z :=
  let n := acc_bits q in
  let v := window i w g H W in
  let rows := wn_rows v in
  let cols := wn_cols v in
  let pi := p_ptr i + wn_in v + p_chs i * ch in
  let pw := w_ptr w + wn_w v + w_outs w * ch in
  do acc <- dotprod2D n mi mw pi pw 0 cols rows (p_col i * g_dw g) (p_row i * g_dh g) (w_col w) (w_row w);
  do acc <- q_in_add2 q mi pi acc cols rows (p_col i * g_dw g) (p_row i * g_dh g);
  match bias with
  | Some (mb, pb) =>
      do acc <- q_weights_add2 q mw pw acc cols rows (w_col w) (w_row w);
      do b <- load mb (pb + ch);
      do acc <- q_zp_add q (q_bias_add rm full q b acc) (cols * rows);
      Some (relu_clip (q_result rm full q ch acc) lo hi)
  | None =>
      do acc <-
        (if negb (rows * cols =? w_kh w * w_kw w) then
           let pf := w_ptr w + w_outs w * ch in
           do acc <- q_weights_add2 q mw pf (sub_fx n 0 acc) (w_kw w) (w_kh w) (w_col w) (w_row w);
           let acc := sub_fx n 0 acc in
           do acc <- q_weights_add2 q mw pw acc cols rows (w_col w) (w_row w);
           do acc <- q_zp_add q (sub_fx n 0 acc) (w_kh w * w_kw w - cols * rows);
           Some (sub_fx n 0 acc)
         else Some acc);
      Some (q_result rm full q ch acc)
  end.

(** mli_krn_group_conv2d_ref.h:52-53 and 71-106: one output element of group_convolution2D. [None] also
    when group_count or filters_per_group is a division by zero. *)
Definition group_value (i : ptensor) (w : wtensor) (g : geom) (mb : mem) (pb : Z) (H W oc : Z) : option Z :=
  let n := acc_bits q in
  let groups := Z.quot (p_ch i) (w_in w) in
  let fpg := Z.quot (w_out w) groups in
  if (w_in w =? 0) || (groups =? 0) || (fpg =? 0) then None
  else
  let v := window i w g H W in
  let rows := wn_rows v in
  let cols := wn_cols v in
  let pi := p_ptr i + wn_in v + p_chs i * w_in w * Z.quot oc fpg in
  let pw := w_ptr w + wn_w v + w_outs w * oc in
  do acc <- dotprod3D n mi mw pi pw cols rows (w_in w)
              (p_col i * g_dw g) (p_row i * g_dh g) (p_chs i) (w_col w) (w_row w) (w_ins w) 0;
  do acc <- q_weights_add3 q mw pw acc cols rows (w_in w) (w_col w) (w_row w) (w_ins w);
  do acc <- q_in_add3 q mi pi acc cols rows (w_in w) (p_col i) (p_row i) (p_chs i);
  do acc <- q_zp_add q acc (cols * rows);
  do b <- load mb (pb + oc);
  Some (relu_clip (q_result rm full q oc (q_bias_add rm full q b acc)) lo hi).
End Values.

(** * The loops *)

(** mli_krn_convolution_ref.h:78-80,94,178-182 (also 214-216,231,332-337, group 55-57,71-75,107): loops over rows,
    columns and [nch] output channels; the value is computed and stored at the output position. *)
Definition out_loops (value : Z -> Z -> Z -> option Z) (o : ptensor) (rows cols nch : Z) (m : mem) : option mem :=
  foldM (fun H m => foldM (fun W m => foldM (fun oc m =>
    do v <- value H W oc;
    store m (p_ptr o + p_row o * H + p_col o * W + p_chs o * oc) v)
    (zrange 0 nch) m) (zrange 0 cols) m) (zrange 0 rows) m.

(** include/mli_types.h:259-271 mli_conv2d_cfg *)
Record conv_cfg := mkCv { cv_relu : relu_type; cv_sw : Z; cv_sh : Z; cv_left : Z; cv_right : Z; cv_top : Z; cv_bottom : Z;
  cv_dw : Z; cv_dh : Z }.

(** mli_krn_convolution_ref.h:388-408 (also mli_krn_group_conv2d_ref.h:124-178): leading paddings, and the
    input size reduced when not all of the input is used. The recomputed trailing paddings are not used. *)
Definition conv_geom (c : conv_cfg) (fixed : Z) : geom :=
  let no_pad := fixed =? 1 in
  mkG (cv_sh c) (cv_sw c) (cv_dh c) (cv_dw c) (if no_pad then 0 else cv_top c) (if no_pad then 0 else cv_left c).

Definition conv_shrink (i o : ptensor) (w : wtensor) (g : geom) : ptensor :=
  let ekw := (w_kw w - 1) * g_dw g + 1 in
  let ekh := (w_kh w - 1) * g_dh g + 1 in
  let pr := (p_w o * g_sw g + ekw - g_sw g) - p_w i - g_pl g in
  let pb := (p_h o * g_sh g + ekh - g_sh g) - p_h i - g_pt g in
  mkP (p_ptr i) (if pr <? 0 then p_w i + pr else p_w i) (if pb <? 0 then p_h i + pb else p_h i)
    (p_ch i) (p_col i) (p_row i) (p_chs i).

(** mli_krn_convolution_ref.h:437-482 conv2d_prepare_and_run (and :492-545 for MLI 3.0, [bias] = None),
    379-435 conv2d_run, for CONV_GENERAL with HWCN weights. [o] are the quantization parameters of the
    output (FX: scale 1, zero point 0), [no] the width of the output type. *)
Definition conv2d (rm : rmode) (full : bool) (q : quant) (no : Z) (oq : qpar) (fixed : Z)
    (mi mw : mem) (bias : option (mem * Z)) (tin tw tout : tensor) (c : conv_cfg) (m : mem) : option mem :=
  let '(lo, hi) := get_relu_limits no (cv_relu c) oq in
  let i := get_tensor_hwc tin in
  let w := get_weights_hwcn tw fixed in
  let o := get_tensor_hwc tout in
  let g := conv_geom c fixed in
  out_loops (conv_value rm full q lo hi mi mw bias (conv_shrink i o w g) w w g) o (p_h o) (p_w o) (p_ch o) m.

(** The same for CONV_DEPTHWISE with HW1N weights; the channel loop runs over the input channels (231). *)
Definition depthwise_conv2d (rm : rmode) (full : bool) (q : quant) (no : Z) (oq : qpar) (fixed : Z)
    (mi mw : mem) (bias : option (mem * Z)) (tin tw tout : tensor) (c : conv_cfg) (m : mem) : option mem :=
  let '(lo, hi) := get_relu_limits no (cv_relu c) oq in
  let i := get_tensor_hwc tin in
  let w := get_weights_hw1n tw fixed in
  let o := get_tensor_hwc tout in
  let g := conv_geom c fixed in
  out_loops (depthwise_value rm full q lo hi mi mw bias (conv_shrink i o w g) w g) o (p_h o) (p_w o) (p_ch i) m.

(** mli_krn_group_conv2d_ref.h:116-197 group_conv2d_prepare_and_run *)
Definition group_conv2d (rm : rmode) (full : bool) (q : quant) (no : Z) (oq : qpar) (fixed : Z)
    (mi mw mb : mem) (pb : Z) (tin tw tout : tensor) (c : conv_cfg) (m : mem) : option mem :=
  let '(lo, hi) := get_relu_limits no (cv_relu c) oq in
  let i := get_tensor_hwc tin in
  let w := get_weights_hwcn tw fixed in
  let o := get_tensor_hwc tout in
  let g := conv_geom c fixed in
  out_loops (group_value rm full q lo hi mi mw (conv_shrink i o w g) w g mb pb) o (p_h o) (p_w o) (p_ch o) m.

(** * Checkers *)

(** mli_check.cc:434-464 (also 599-629 and 763-793): the configuration part, sizes in 32-bit arithmetic. *)
Definition chk_conv_cfg (tin tw tout : tensor) (c : conv_cfg) : bool :=
  let kw := nth 1 (t_shape tw) 0 in
  let kh := nth 0 (t_shape tw) 0 in
  let ekw := wrap 32 ((kw - 1) * cv_dw c + 1) in
  let ekh := wrap 32 ((kh - 1) * cv_dh c + 1) in
  let eiw := wrap 32 (nth 1 (t_shape tin) 0 + cv_left c + cv_right c) in
  let eih := wrap 32 (nth 0 (t_shape tin) 0 + cv_top c + cv_bottom c) in
  let rw := wrap 32 (nth 1 (t_shape tout) 0 * cv_sw c + ekw - cv_sw c) in
  let rh := wrap 32 (nth 0 (t_shape tout) 0 * cv_sh c + ekh - cv_sh c) in
  (cv_dh c >? 0) && (cv_dw c >? 0) && (cv_left c <? ekw) && (cv_right c <? ekw) && (cv_top c <? ekh)
  && (cv_bottom c <? ekh) && (cv_sh c >? 0) && (cv_sw c >? 0) && (rh <=? eih) && (rw <=? eiw).

(** mli_check.cc:407-433 (also 571-597, 735-761): specialization, tensors, then [chan] - the rank and
    channel tests of the kernel - then the memory strides. Pointer, element type and overlap tests are not
    modelled. *)
Definition chk_conv_with (chan : bool) (tin tw tb tout : tensor) (c : conv_cfg) (fixed : Z) : status :=
  if negb (fixed =? 0) && negb ((nth 0 (t_shape tw) 0 =? fixed) && (nth 1 (t_shape tw) 0 =? fixed)) then ST_SHAPE_MISMATCH
  else match chk_tensor tin with ST_OK =>
       match chk_tensor tw with ST_OK =>
       match chk_tensor tb with ST_OK =>
       match chk_tensor tout with ST_OK =>
  if negb ((t_rank tin =? 3) && (t_rank tout =? 3) && (t_rank tw =? 4) && (t_rank tb =? 1) && chan) then ST_SHAPE_MISMATCH
  else if negb (inner_stride_is_one tin && inner_stride_is_one tw && inner_stride_is_one tb && inner_stride_is_one tout)
  then ST_INCOMPATIBLE
  else if negb (chk_conv_cfg tin tw tout c) then ST_BAD_FUNC_CFG
  else ST_OK
       | s => s end | s => s end | s => s end | s => s end.

(** mli_check.cc:394-466 mli_chk_conv2d_hwcn *)
Definition chk_conv2d (tin tw tb tout : tensor) (c : conv_cfg) (fixed : Z) : status :=
  chk_conv_with ((nth 2 (t_shape tin) 0 =? nth 2 (t_shape tw) 0) && (nth 2 (t_shape tout) 0 =? nth 3 (t_shape tw) 0)
    && (nth 0 (t_shape tb) 0 =? nth 3 (t_shape tw) 0)) tin tw tb tout c fixed.

(** mli_check.cc:559-632 mli_chk_depthwise_conv2d_hwcn *)
Definition chk_depthwise (tin tw tb tout : tensor) (c : conv_cfg) (fixed : Z) : status :=
  chk_conv_with ((nth 2 (t_shape tw) 0 =? 1) && (nth 0 (t_shape tb) 0 =? nth 3 (t_shape tw) 0)
    && (nth 3 (t_shape tw) 0 =? nth 2 (t_shape tin) 0) && (nth 3 (t_shape tw) 0 =? nth 2 (t_shape tout) 0)) tin tw tb tout c fixed.

(** mli_check.cc:723-798 mli_chk_group_conv2d_hwcn. The tests of 751-756 are evaluated before any of them
    makes the function return: [None] when the remainder by group_count divides by zero (reached when the
    tensors are accepted, whatever their ranks). *)
Definition chk_group (tin tw tb tout : tensor) (c : conv_cfg) (fixed : Z) : option status :=
  let ic := nth 2 (t_shape tin) 0 in
  let wd := nth 2 (t_shape tw) 0 in
  let groups := Z.quot ic wd in
  let st := chk_conv_with ((nth 0 (t_shape tb) 0 =? nth 3 (t_shape tw) 0) && (Z.rem ic wd =? 0)
    && (Z.rem (nth 3 (t_shape tw) 0) groups =? 0) && (nth 2 (t_shape tout) 0 =? nth 3 (t_shape tw) 0)) tin tw tb tout c fixed in
  let fix_ok := (fixed =? 0) || ((nth 0 (t_shape tw) 0 =? fixed) && (nth 1 (t_shape tw) 0 =? fixed)) in
  let tensors_ok := match chk_tensor tin, chk_tensor tw, chk_tensor tb, chk_tensor tout with
    | ST_OK, ST_OK, ST_OK, ST_OK => true | _, _, _, _ => false end in
  if fix_ok && tensors_ok && ((wd =? 0) || (groups =? 0)) then None else Some st.

(** mli_check.cc:257-269 mli_chk_bias_frac_fx, mli_chk_out_frac_fx *)
Definition chk_frac_fx (fin fw fb fout : Z) : bool := (fb <=? fin + fw) && (fout <=? fin + fw).

(** mli_check.cc:468-504 and :130-181, the quantization part of the SA8 checkers: zero points of input and
    output in byte range, zero weights zero points, positive scales, per-tensor or per-output-channel
    weights ([nsc] values). The bias tensor's own parameters are not modelled. *)
Definition chk_quant_sa8 (i o : qpar) (wdim nsc : Z) (wzp wsc : Z -> Z) : bool :=
  (0 <? q_scale i) && (0 <? q_scale o) && (-128 <=? q_zp i) && (q_zp i <=? 127) && (-128 <=? q_zp o) && (q_zp o <=? 127)
  && ((wdim <? 0) || (wdim =? 3))
  && forallb (fun k => (0 <? wsc k) && (wzp k =? 0)) (zrange 0 (if wdim <? 0 then 1 else nsc)).
