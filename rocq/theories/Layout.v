(** Model of the layout helpers shared by the vision kernels: lib/src/private/mli_prv_layout.h, the HWC
    private tensors of lib/src/private/mli_prv_tensor.h and CEIL_DIV. *)
From Coq Require Import ZArith List Lia Bool.
From Verif Require Import Base Tensor.
Import ListNotations.
Open Scope Z_scope.

(** lib/src/private/mli_math_macros.h:16 CEIL_DIV: C division rounds to zero. *)
Definition ceil_div (num den : Z) : Z := Z.quot (num + den - 1) den.

(** lib/src/private/mli_private_types.h tensor_private_t: pointer (element index), width, height, channels,
    column, row and channel memory strides. *)
Record ptensor := mkP { p_ptr : Z; p_w : Z; p_h : Z; p_ch : Z; p_col : Z; p_row : Z; p_chs : Z }.

(** mli_prv_tensor.h:373-394 mli_prv_get_tensor_hwc. FMAP_H_DIM_HWC, FMAP_W_DIM_HWC, FMAP_C_DIM_HWC are 0,
    1, 2; MLI_CHECK_AND_FIX replaces the channel stride by 1. *)
Definition get_tensor_hwc (t : tensor) : ptensor :=
  mkP (t_data t) (nth 1 (t_shape t) 0) (nth 0 (t_shape t) 0) (nth 2 (t_shape t) 0)
    (nth 1 (t_stride t) 0) (nth 0 (t_stride t) 0) 1.

(** mli_prv_tensor.h:786-811 mli_prv_rotate_tensor_private<n>: n quadrants counter clockwise. *)
Definition rotate1 (t : ptensor) : ptensor :=
  mkP (p_ptr t + p_col t * (p_w t - 1)) (p_h t) (p_w t) (p_ch t) (p_row t) (- p_col t) (p_chs t).
Definition rotate2 (t : ptensor) : ptensor :=
  mkP (p_ptr t + p_col t * (p_w t - 1) + p_row t * (p_h t - 1)) (p_w t) (p_h t) (p_ch t) (- p_col t) (- p_row t) (p_chs t).
Definition rotate3 (t : ptensor) : ptensor :=
  mkP (p_ptr t + p_row t * (p_h t - 1)) (p_h t) (p_w t) (p_ch t) (- p_row t) (p_col t) (p_chs t).

(** mli_prv_layout.h:46-56 struct mli_compensations *)
Record comps := mkComps { c_in_left : Z; c_in_right : Z; c_in_top : Z; c_in_bottom : Z;
  c_k_left : Z; c_k_right : Z; c_k_top : Z; c_k_bottom : Z }.

(** mli_prv_layout.h:62-96 mli_prv_valid_area_compensations *)
Definition valid_area (h_idx w_idx in_h in_w kh kw sh sw pl pt dh dw : Z) : comps :=
  if (dh =? 1) && (dw =? 1) then
    let l := - Z.min (w_idx * sw - pl) 0 in
    let r := - Z.min (in_w - (w_idx * sw - pl + kw)) 0 in
    let t := - Z.min (h_idx * sh - pt) 0 in
    let b := - Z.min (in_h - (h_idx * sh - pt + kh)) 0 in
    mkComps l r t b l r t b
  else
    let ekw := (kw - 1) * dw + 1 in
    let ekh := (kh - 1) * dh + 1 in
    let l := ceil_div (- Z.min (w_idx * sw - pl) 0) dw in
    let t := ceil_div (- Z.min (h_idx * sh - pt) 0) dh in
    let r := ceil_div (- Z.min (in_w - (w_idx * sw - pl + ekw)) 0) dw in
    let b := ceil_div (- Z.min (in_h - (h_idx * sh - pt + ekh)) 0) dh in
    mkComps (l * dw) (r * dw) (t * dh) (b * dh) l r t b.
