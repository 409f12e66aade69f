(** Model of the fully connected kernels (lib/src/kernels/common/impl/mli_krn_fully_connected_ref.h) and their
    checkers (lib/src/private/src/mli_check.cc:1320-1470). Memories and quantization schemes as in Conv.v. *)
From Coq Require Import ZArith List Lia Bool.
From Verif Require Import Base FxMath Tensor ArgMax Quant DotProd Conv.
Import ListNotations.
Open Scope Z_scope.

(** mli_prv_quant_ref.h:203-218 quant_params_set_in_zeropoint: no effect for FX and MLI 3.0 parameters. *)
Definition set_in_zeropoint (q : quant) (z : Z) : quant :=
  match q with
  | Q_s8 p => Q_s8 (mkS8 z (s8_out_off p) (s8_w_off p) (s8_w_scales p) (s8_w_shifts p) (s8_w_dim p)
      (s8_ratio p) (s8_in_to_out_shift p) (s8_out_mul p) (s8_out_shift p))
  | _ => q
  end.

(** mli_krn_fully_connected_ref.h:30-99 inner_product. [pi], [pw], [po] are the element indices of the data,
    [bias] memory and index of the bias ([None]: null pointer, MLI 3.0). *)
Definition inner_product (rm : rmode) (full : bool) (q : quant) (lo hi : Z) (mi mw : mem) (bias : option (mem * Z))
    (pi pw po n_in n_out w_stride : Z) (m : mem) : option mem :=
  let n := acc_bits q in
  match bias with
  | Some (mb, pb) =>
      do other <- q_in_add2 q mi pi 0 n_in 1 1 1;
      do other <- q_zp_add q other n_in;
      foldM (fun o m =>
        do acc <- dotprod1D n mi mw pi (pw + o) 0 n_in 1 w_stride;
        do acc <- q_weights_add3 q mw (pw + o) acc n_in 1 1 w_stride 1 1;
        let acc := add_fx n acc other in
        do b <- load mb (pb + o);
        store m (po + o) (relu_clip (q_result rm full q o (q_bias_add rm full q b acc)) lo hi))
        (zrange 0 n_out) m
  | None =>
      do adds <- q_in_add2 q mi pi 0 n_in 1 1 1;
      foldM (fun o m =>
        do acc <- dotprod1D n mi mw pi (pw + o) 0 n_in 1 w_stride;
        store m (po + o) (q_result rm full q o (add_fx n acc adds)))
        (zrange 0 n_out) m
  end.

(** mli_krn_fully_connected_ref.h:104-150 fully_connected_prepare_and_run; [relu] is cfg->relu. The element
    count is an unsigned 32-bit product converted to int. *)
Definition fully_connected (rm : rmode) (full : bool) (q : quant) (ext : bool) (no : Z) (oq : qpar) (relu : relu_type)
    (mi mw : mem) (bias : option (mem * Z)) (tin tw tout : tensor) (m : mem) : option mem :=
  let '(lo, hi) := get_relu_limits no relu oq in
  inner_product rm full (if ext then set_in_zeropoint q 0 else q) lo hi mi mw bias (t_data tin) (t_data tw) (t_data tout)
    (wrap 32 (count_elem_num_part (t_shape tin))) (nth 1 (t_shape tw) 0) (nth 0 (t_stride tw) 0) m.

(** mli_check.cc:1320-1361 mli_chk_fully_connected. Pointer, element type and overlap tests are not modelled. *)
Definition chk_fully_connected (tin tw tb tout : tensor) : status :=
  match chk_tensor tin with ST_OK =>
  match chk_tensor tw with ST_OK =>
  match chk_tensor tb with ST_OK =>
  match chk_tensor tout with ST_OK =>
  if negb ((t_rank tw =? 2) && (t_rank tb =? 1) && (t_rank tout =? 1)
      && (count_elem_num_part (t_shape tin) =? nth 0 (t_shape tw) 0)
      && (nth 0 (t_shape tb) 0 =? nth 1 (t_shape tw) 0) && (nth 0 (t_shape tout) 0 =? nth 1 (t_shape tw) 0)) then ST_SHAPE_MISMATCH
  else if negb (layout_is_contiguous (t_shape tin) (t_stride tin) && inner_stride_is_one tw
      && layout_is_contiguous (t_shape tb) (t_stride tb) && (nth 0 (t_stride tout) 0 =? 1)) then ST_INCOMPATIBLE
  else ST_OK
  | s => s end | s => s end | s => s end | s => s end.

(** mli_check.cc:1425-1470 and :130-181, the quantization part of mli_chk_fully_connected_sa8_sa8_sa32; as
    [chk_quant_sa8] with axis 1. *)
Definition chk_quant_fc (i o : qpar) (wdim nsc : Z) (wzp wsc : Z -> Z) : bool :=
  (0 <? q_scale i) && (0 <? q_scale o) && (-128 <=? q_zp i) && (q_zp i <=? 127) && (-128 <=? q_zp o) && (q_zp o <=? 127)
  && ((wdim <? 0) || (wdim =? 1))
  && forallb (fun k => (0 <? wsc k) && (wzp k =? 0)) (zrange 0 (if wdim <? 0 then 1 else nsc)).
