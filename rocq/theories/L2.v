(** Model of the L2 normalization kernels (lib/src/kernels/transform/impl/mli_krn_l2_normalize_ref.h, mli_krn_l2_normalize.cc) and their
    checkers. *)
From Coq Require Import ZArith List Lia Bool.
From Verif Require Import Base FxMath Tensor ArgMax Quant Eltwise Relu Lut Softmax.
Import ListNotations.
Open Scope Z_scope.

(** mli_krn_l2_normalize_ref.h:40-56 normalize_sum: the sum as a 16-bit value and the (even) shift; acc_t has 64 bits. *)
Definition l2_normalize_sum (rm : rmode) (sum : Z) : Z * Z :=
  let k := (8 - 2) * 8 - norm_fx 64 sum in
  let k := if Z.odd k then k + 1 else k in
  (cast_narrow rm 64 16 sum k, k).

(** The input of one element: mli_krn_l2_normalize_ref.h:70-73, :92-95 and :112-114. [zp] is the zero point of SA8 kernels; FX kernels
    do not subtract. *)
Definition l2_input (zp : option Z) (x : Z) : Z := match zp with Some z => sub_fx 16 x z | None => x end.

(** mli_krn_l2_normalize_ref.h:58-78 compute_normalized_sum_square_one_dim and :80-104 compute_normalized_sum_square, up to the call
    of normalize_sum; [ds] are the dimensions with the strides of input and output. *)
Definition l2_sum (zp : option Z) (pi : Z) (ds : dims) (m : mem) : option Z :=
  foldM (fun c s => do x <- load m (pi + addr (d_stride 0 ds) c); Some (mac_fx 64 s (l2_input zp x) (l2_input zp x))) (coords (d_shape ds)) 0.

(** mli_krn_l2_normalize_ref.h:106-117 normalize_elem *)
Definition l2_elem (rm : rmode) (n : Z) (zp : option Z) (scale shift x : Z) : Z := acc_cast_n rm n (scale * l2_input zp x) shift.

(** One slice: mli_krn_l2_normalize_ref.h:206-220, :229-239, :262-279 and :299-319 with normalize_tensor_one_dim (:119-136) or
    normalize_tensor (:138-161); [fo] are the fractional bits of the output. *)
Definition l2_slice (rm : rmode) (n : Z) (zp : option Z) (fo : Z) (l : lut) (pi po : Z) (ds : dims) (m : mem) : option mem :=
  do s <- l2_sum zp pi ds m;
  let ck := l2_normalize_sum rm s in
  do v <- lut_elem_interp rm LIN_FX (LOUT_FX 16) l 8 (fst ck);
  let shift := l_fo l + Z.shiftr (snd ck + 8) 1 - fo in
  map_all (fun x => Some (l2_elem rm n zp v shift x)) pi po ds m.

(** mli_krn_l2_normalize_ref.h:163-326 mli_krn_l2_normalize_run. Axis -1: the whole tensor, collapsed to one dimension if possible,
    squashed otherwise. Else one slice for each coordinate of the other dimensions; the last axis uses steps of one
    element. A smaller axis passes the checkers and reads shape[axis] outside of the array; that is None here. *)
Definition l2_run (rm : rmode) (n : Z) (zp : option Z) (fo : Z) (l : lut) (axis : Z) (tin tout : tensor) (m : mem) : option mem :=
  if axis =? -1 then
    let ds := dims_of (t_shape tin) [t_stride tin; t_stride tout] in
    let flat := squash_to_one_dim ds in
    l2_slice rm n zp fo l (t_data tin) (t_data tout) (if negb (flat =? 0) then [(flat, [1; 1])] else squash_generic 2 ds) m
  else if axis <? 0 then None
  else
    let a := Z.to_nat axis in
    let ds := if axis =? t_rank tin - 1 then [(nth a (t_shape tin) 0, [1; 1])]
              else [(nth a (t_shape tin) 0, [nth a (t_stride tin) 0; nth a (t_stride tout) 0])] in
    foldM (fun c m => l2_slice rm n zp fo l (t_data tin + addr (drop_at a (t_stride tin)) c) (t_data tout + addr (drop_at a (t_stride tout)) c) ds m)
      (coords (drop_at a (t_shape tin))) m.

(** mli_krn_l2_normalize.cc:20-32 mli_krn_l2_normalize_fx16; the output gets 15 fractional bits. *)
Definition l2_fx16 (rm : rmode) (l : lut) (axis : Z) (tin tout : tensor) (m : mem) : option mem := l2_run rm 16 None 15 l axis tin tout m.

(** mli_krn_l2_normalize.cc:34-46 mli_krn_l2_normalize_sa8; the output gets zero point 0 and scale 2^-7. *)
Definition l2_sa8 (rm : rmode) (q : qpar) (l : lut) (axis : Z) (tin tout : tensor) (m : mem) : option mem :=
  l2_run rm 8 (Some (q_zp q)) 7 l axis tin tout m.

(** mli_check.cc:1810-1843 mli_chk_l2_normalize_{fx16,sa8}; the format test of SA8 is [chk_act_quant]. *)
Definition chk_l2_normalize (tin tout : tensor) (axis : Z) : status :=
  match chk_basic_activation tin tout with
  | ST_OK => if negb (axis <? t_rank tin) then ST_BAD_FUNC_CFG else ST_OK
  | s => s
  end.
