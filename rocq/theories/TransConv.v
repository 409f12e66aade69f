(** Model of transposed convolution (lib/src/kernels/convolution/impl/mli_krn_transpose_conv_ref.h) and its
    checker (lib/src/private/src/mli_check.cc:892-975). *)
From Coq Require Import ZArith List Lia Bool.
From Verif Require Import Base FxMath Tensor ArgMax Quant DotProd Layout Conv.
Import ListNotations.
Open Scope Z_scope.

(** mli_krn_transpose_conv_ref.h:59-74 get_mirrored_weights_full_tensor_hwcn *)
Definition mirrored (w : wtensor) : wtensor :=
  mkW (w_ptr w + (w_row w * (w_kh w - 1) + w_col w * (w_kw w - 1))) (w_kw w) (w_kh w) (w_in w) (w_out w)
    (- w_col w) (- w_row w) (w_ins w) (w_outs w).

(** mli_krn_transpose_conv_ref.h:29-57 get_mirrored_weights_subtensor_hwcn *)
Definition sub_weights (w : wtensor) (sw sh left top : Z) : wtensor :=
  mkW (w_ptr w + (w_row w * top + w_col w * left)) (ceil_div (w_kw w - left) sw) (ceil_div (w_kh w - top) sh) (w_in w) (w_out w)
    (w_col w * sw) (w_row w * sh) (w_ins w) (w_outs w).

(** mli_krn_transpose_conv_ref.h:142-186: the part of one axis of a phase. [n] inputs, [o] outputs, [k]
    kernel taps, stride [s], effective padding [ep], kernel offset [ko]. *)
Record phase := mkPh { ph_out_off : Z; ph_out : Z; ph_pad : Z; ph_in_off : Z; ph_in : Z }.
Definition trans_phase (n o k s ep ko : Z) : phase :=
  let subk := ceil_div (k - ko) s in
  let out_off := Z.rem (s - ko + ep) s in
  let out := ceil_div (o - out_off) s in
  let percept := out + (subk - 1) in
  let pad := ceil_div (Z.max 0 (ep - out_off - ko)) s in
  let in_off := ceil_div (Z.max 0 (out_off - ep)) s in
  mkPh out_off out pad in_off (Z.min (percept - pad) (n - in_off)).

(** mli_krn_transpose_conv_ref.h:79-210 transpose_conv2d_run: one convolution per kernel pattern, with
    strides on weights and output. The trailing paddings are not used by convolution2D. *)
Definition transpose_run (rm : rmode) (full : bool) (q : quant) (lo hi : Z) (mi mw : mem) (bias : option (mem * Z))
    (i : ptensor) (w : wtensor) (o : ptensor) (c : conv_cfg) (m : mem) : option mem :=
  let ept := w_kh w - cv_top c - 1 in
  let epl := w_kw w - cv_left c - 1 in
  let wm := mirrored w in
  foldM (fun kh m => foldM (fun kw m =>
    let ws := sub_weights wm (cv_sw c) (cv_sh c) kw kh in
    let pw := trans_phase (p_w i) (p_w o) (w_kw wm) (cv_sw c) epl kw in
    let ph := trans_phase (p_h i) (p_h o) (w_kh wm) (cv_sh c) ept kh in
    let o' := mkP (p_ptr o + p_row o * ph_out_off ph + p_col o * ph_out_off pw) (ph_out pw) (ph_out ph) (p_ch o)
                (p_col o * cv_sw c) (p_row o * cv_sh c) (p_chs o) in
    let i' := mkP (p_ptr i + (p_row i * ph_in_off ph + p_col i * ph_in_off pw)) (ph_in pw) (ph_in ph) (p_ch i)
                (p_col i) (p_row i) (p_chs i) in
    let g := mkG 1 1 1 1 (ph_pad ph) (ph_pad pw) in
    let wf := match bias with Some _ => ws | None => wm end in
    out_loops (conv_value rm full q lo hi mi mw bias i' wf ws g) o' (p_h o') (p_w o') (p_ch o') m)
    (zrange 0 (cv_sw c)) m) (zrange 0 (cv_sh c)) m.

(** mli_krn_transpose_conv_ref.h:212-237 transpose_conv2d_prepare_and_run (and 248-290 for MLI 3.0, [bias] = None) *)
Definition transpose_conv2d (rm : rmode) (full : bool) (q : quant) (no : Z) (oq : qpar)
    (mi mw : mem) (bias : option (mem * Z)) (tin tw tout : tensor) (c : conv_cfg) (m : mem) : option mem :=
  let '(lo, hi) := get_relu_limits no (cv_relu c) oq in
  transpose_run rm full q lo hi mi mw bias (get_tensor_hwc tin) (get_weights_hwcn tw 0) (get_tensor_hwc tout) c m.

(** mli_check.cc:938-968: the configuration, in 32-bit arithmetic; the expected sizes are unsigned. *)
Definition chk_trans_cfg (tin tw tout : tensor) (c : conv_cfg) : bool :=
  let kw := nth 1 (t_shape tw) 0 in
  let kh := nth 0 (t_shape tw) 0 in
  let ew := uwrap 32 (((nth 1 (t_shape tin) 0 - 1) * cv_sw c + 1) + (kw - cv_left c - 1) + (kw - cv_right c - 1) - kw + 1) in
  let eh := uwrap 32 (((nth 0 (t_shape tin) 0 - 1) * cv_sh c + 1) + (kh - cv_top c - 1) + (kh - cv_bottom c - 1) - kh + 1) in
  (cv_dw c =? 1) && (cv_dh c =? 1) && (cv_left c <? kw) && (cv_right c <? kw) && (cv_top c <? kh) && (cv_bottom c <? kh)
  && (cv_sh c >? 0) && (cv_sw c >? 0) && (cv_sw c <=? kw) && (cv_sh c <=? kh)
  && (nth 1 (t_shape tout) 0 =? ew) && (nth 0 (t_shape tout) 0 =? eh).

(** mli_check.cc:892-975 mli_chk_transpose_conv2d_hwcn. Pointer, element type and overlap tests are not modelled. *)
Definition chk_transpose (tin tw tb tout : tensor) (c : conv_cfg) : status :=
  match chk_tensor tin with ST_OK =>
  match chk_tensor tw with ST_OK =>
  match chk_tensor tb with ST_OK =>
  match chk_tensor tout with ST_OK =>
  if negb ((t_rank tin =? 3) && (t_rank tout =? 3) && (t_rank tw =? 4) && (t_rank tb =? 1)
      && (nth 2 (t_shape tin) 0 =? nth 2 (t_shape tw) 0) && (nth 2 (t_shape tout) 0 =? nth 3 (t_shape tw) 0)
      && (nth 0 (t_shape tb) 0 =? nth 3 (t_shape tw) 0)) then ST_SHAPE_MISMATCH
  else if negb (inner_stride_is_one tin && inner_stride_is_one tw && inner_stride_is_one tb && inner_stride_is_one tout)
  then ST_INCOMPATIBLE
  else if negb (chk_trans_cfg tin tw tout c) then ST_BAD_FUNC_CFG
  else ST_OK
  | s => s end | s => s end | s => s end | s => s end.
