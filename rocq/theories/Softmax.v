(** Model of the softmax kernels (lib/src/kernels/transform/impl/mli_krn_softmax_ref.h, mli_krn_softmax_fx.cc) and their checkers. *)
From Coq Require Import ZArith List Lia Bool.
From Verif Require Import Base FxMath Tensor ArgMax Quant Eltwise Relu Lut.
Import ListNotations.
Open Scope Z_scope.

(** * One slice: [pi] and [po] are the pointers to its first elements, [ds] its dimensions with the strides of input and output *)

(** mli_krn_softmax_ref.h:32-49 mli_krn_softmax_get_max *)
Definition softmax_max (pi : Z) (ds : dims) (m : mem) : option Z :=
  do x0 <- load m pi;
  foldM (fun c mx => do x <- load m (pi + addr (d_stride 0 ds) c); Some (max_fx mx x)) (coords (d_shape ds)) x0.

(** mli_krn_softmax_ref.h:85-95 and :157-166: normalization and reciprocal of the sum of exponents; sum_mnt and sum_recip are
    [n] bit variables. Division by zero is undefined. *)
Definition softmax_recip (rm : rmode) (n sum : Z) : option (Z * Z) :=
  let sum_exp := norm_fx 32 sum in
  let sum_mnt := acc_cast_n rm n sum (16 - sum_exp) in
  if sum_mnt =? 0 then None else Some (wrap n (Z.min (Z.quot (2 ^ 29) sum_mnt) 32767), sum_exp).

(** mli_krn_softmax_ref.h:52-115 mli_krn_softmax_fx_run; the exponents are kept in the output tensor. *)
Definition softmax_fx_slice (rm : rmode) (n fin fout : Z) (l : lut) (pi po : Z) (ds : dims) (m : mem) : option mem :=
  do mx <- softmax_max pi ds m;
  do m <- map_all (lut_elem rm (LIN_OFFSET mx) (LOUT_FX n) l fin) pi po ds m;
  do sum <- foldM (fun c s => do v <- load m (po + addr (d_stride 1 ds) c); Some (mac_fx 32 s v 1)) (coords (d_shape ds)) 0;
  do re <- softmax_recip rm n sum;
  let shift := min_fx (l_fo l * 2 + (15 - snd re) - fout) (2 * n - 1) in
  foldM (fun c m => do v <- load m (po + addr (d_stride 1 ds) c);
    store m (po + addr (d_stride 1 ds) c) (acc_cast_n rm n (fst re * v) shift)) (coords (d_shape ds)) m.

(** mli_krn_softmax_ref.h:117-207 mli_krn_softmax_sa8_run: the exponents are computed twice. The maximum replaces the zero
    point of the input. *)
Definition softmax_out : qpar := mkQ 1 8 (-128).
Definition softmax_sa8_slice (rm : rmode) (q : qpar) (l : lut) (pi po : Z) (ds : dims) (m : mem) : option mem :=
  do mx <- softmax_max pi ds m;
  let exp_of := lut_elem_interp rm (LIN_SA (mkQ (q_scale q) (q_frac q) mx)) (LOUT_FX 16) l 0 in
  do sum <- foldM (fun c s => do x <- load m (pi + addr (d_stride 0 ds) c); do v <- exp_of x; Some (mac_fx 32 s v 1)) (coords (d_shape ds)) 0;
  do re <- softmax_recip rm 16 sum;
  let shift := min_fx (l_fo l * 2 + (15 - snd re) - q_frac softmax_out) 31 in
  map_all (fun x => do v <- exp_of x; Some (convert_fx16_sa8 rm (fst re * v) (q_zp softmax_out) shift)) pi po ds m.

(** * All slices *)

(** mli_prv_tensor.h:467-486 mli_prv_get_axis_tensor: all dimensions but the axis become 1; a negative axis keeps the whole
    tensor. *)
Definition axis_shape (axis : Z) (sh : list Z) : list Z :=
  if axis <? 0 then sh else map (fun k => if Z.of_nat k =? axis then nth k sh 0 else 1) (seq 0 (length sh)).

(** mli_prv_tensor.h:489-518 mli_prv_get_non_axis_tensor: the dimensions other than the axis, none for a negative axis; its trailing
    dimensions of size 1 are left out. *)
Definition non_axis (axis : Z) (l : list Z) : list Z := if axis <? 0 then [] else drop_at (Z.to_nat axis) l.

(** mli_krn_softmax_ref.h:219-284 mli_krn_softmax_run *)
Definition softmax_run (slice : Z -> Z -> dims -> mem -> option mem) (axis : Z) (tin tout : tensor) (m : mem) : option mem :=
  let ds := squash_generic 2 (dims_of (axis_shape axis (t_shape tin)) [t_stride tin; t_stride tout]) in
  foldM (fun c m => slice (t_data tin + addr (non_axis axis (t_stride tin)) c) (t_data tout + addr (non_axis axis (t_stride tout)) c) ds m)
    (coords (non_axis axis (t_shape tin))) m.

(** mli_krn_softmax_fx.cc:25-45 mli_krn_softmax_fx{8,16}; the output gets n - 1 fractional bits. *)
Definition softmax_fx (rm : rmode) (n fin : Z) (l : lut) (axis : Z) (tin tout : tensor) (m : mem) : option mem :=
  softmax_run (softmax_fx_slice rm n fin (n - 1) l) axis tin tout m.

(** mli_krn_softmax_fx.cc:47-56 mli_krn_softmax_sa8; the output gets the parameters [softmax_out]. *)
Definition softmax_sa8 (rm : rmode) (q : qpar) (l : lut) (axis : Z) (tin tout : tensor) (m : mem) : option mem :=
  softmax_run (softmax_sa8_slice rm q l) axis tin tout m.

(** mli_check.cc:1768-1808 mli_chk_softmax_{fx8,fx16,sa8}; the format test of SA8 is [chk_act_quant]. *)
Definition chk_softmax (tin tout : tensor) (axis : Z) : status :=
  match chk_basic_activation tin tout with
  | ST_OK => if negb (axis <? t_rank tin) then ST_BAD_FUNC_CFG else ST_OK
  | s => s
  end.
