(** Model of the pooling kernels, lib/src/kernels/pooling/mli_krn_pool_hwc.h with
    impl/mli_krn_avepool_hwc_ref.h and lib/src/bricks/impl/mli_krn_reduce_max2d_ref.h. In the reference
    build get_number_lanes is 1. Input and output are separate buffers [mi] and [m]. *)
From Coq Require Import ZArith List Lia Bool.
From Verif Require Import Base FxMath Tensor Quant DotProd ArgMax Layout.
Import ListNotations.
Open Scope Z_scope.

(** include/mli_types.h:280-289 mli_pool_cfg *)
Record pool_cfg := mkPool { pl_kw : Z; pl_kh : Z; pl_sw : Z; pl_sh : Z;
  pl_left : Z; pl_right : Z; pl_top : Z; pl_bottom : Z }.

(** mli_check.cc:1114-1168 mli_chk_maxpool_hwc; 1214-1268 mli_chk_avepool_hwc does the same checks. Element
    types, the null checks and the overlap check (mli_chk_tensors_not_overlapped, see Tensor.v) are not part of
    the model: the buffers are separate. The sizes are uint32 sums converted to int. [ksize] is the kernel size of a
    specialization, 0 for the generic function. *)
Definition chk_pool (tin tout : tensor) (c : pool_cfg) (ksize : Z) : status :=
  if negb (ksize =? 0) && negb ((pl_kh c =? ksize) && (pl_kw c =? ksize)) then ST_SHAPE_MISMATCH
  else
  match chk_tensor tin with
  | ST_OK =>
      match chk_tensor tout with
      | ST_OK =>
          if negb ((t_rank tin =? 3) && (t_rank tout =? 3)) then ST_SHAPE_MISMATCH
          else if negb (inner_stride_is_one tin && inner_stride_is_one tout) then ST_INCOMPATIBLE
          else if negb ((pl_left c <? pl_kw c) && (pl_right c <? pl_kw c) && (pl_top c <? pl_kh c)
                        && (pl_bottom c <? pl_kh c) && (pl_sh c >? 0) && (pl_sw c >? 0)) then ST_BAD_FUNC_CFG
          else
            let eff_w := wrap 32 (nth 1 (t_shape tin) 0 + pl_left c + pl_right c) in
            let eff_h := wrap 32 (nth 0 (t_shape tin) 0 + pl_top c + pl_bottom c) in
            let req_w := wrap 32 (nth 1 (t_shape tout) 0 * pl_sw c + pl_kw c - pl_sw c) in
            let req_h := wrap 32 (nth 0 (t_shape tout) 0 * pl_sh c + pl_kh c - pl_sh c) in
            if negb ((req_h <=? eff_h) && (req_w <=? eff_w) && (nth 2 (t_shape tout) 0 =? nth 2 (t_shape tin) 0))
            then ST_BAD_FUNC_CFG
            else ST_OK
      | e => e
      end
  | e => e
  end.

(** The pooling loops are the same code for the three pooling types; they differ in the parameters
    derived from the number of elements in a window ([prep]) and in what is computed from a window
    ([run]: parameters, pointer, width, height, column stride, row stride). *)
Section PoolLoops.
Context {Par : Type} (prep : Z -> Par) (run : Par -> Z -> Z -> Z -> Z -> Z -> option Z).

(** mli_krn_pool_hwc.h:36-146 mli_krn_pool_hwc_nopad. Loop state: in_ptr, out_ptr and the output buffer. *)
Definition pool_nopad (row_beg row_end clmn_beg clmn_end sw sh pt pl : Z) (i o : ptensor) (kh kw : Z) (m : mem) : option mem :=
  let par := prep (kw * kh) in
  let h_in := row_beg * sh - pt in
  let w_in := clmn_beg * sw - pl in
  let in_col := p_col i * sw in
  let in_row := p_row i * sh - in_col * (clmn_end - clmn_beg) in
  let out_col := p_col o in
  let out_row := p_row o - out_col * (clmn_end - clmn_beg) in
  if (p_h i >=? kh) && (p_w i >=? kw) then
    foldM (fun ch m =>
      do s <- foldM (fun _ s =>
        do s <- foldM (fun _ s =>
          let '(ip, op, m) := s in
          do v <- run par ip kw kh (p_col i) (p_row i);
          do m <- store m op v;
          Some (ip + in_col, op + out_col, m)) (zrange clmn_beg clmn_end) s;
        let '(ip, op, m) := s in Some (ip + in_row, op + out_row, m)) (zrange row_beg row_end)
        (p_ptr i + p_row i * h_in + p_col i * w_in + ch, p_ptr o + p_row o * row_beg + p_col o * clmn_beg + ch, m);
      Some (snd s)) (zrange 0 (p_ch i)) m
  else Some m.

(** mli_krn_pool_hwc.h:221-249 and 263-287: one output position for all the channels. *)
Definition pool_point (par : Par) (rows clmns h_in w_in H W : Z) (i o : ptensor) (m : mem) : option mem :=
  foldM (fun ch m =>
    do v <- run par (p_ptr i + p_row i * h_in + p_col i * w_in + ch) clmns rows (p_col i) (p_row i);
    store m (p_ptr o + p_row o * H + p_col o * W + ch) v) (zrange 0 (p_ch i)) m.

(** mli_krn_pool_hwc.h:148-289 mli_krn_pool_hwc_compute_pad. [fixed] is fixed_kernel_size. The state of the loops
    is the output buffer and the variables comp, rows, clmns and mul/shift, which the second loop over W_idx
    reuses. The members of rect_t are uint32 read back as int. *)
Definition pool_compute_pad (fixed sw sh pt pl row_beg row_end clmn_beg clmn_end : Z) (i o : ptensor) (kh kw : Z)
  (m : mem) : option mem :=
  do s <- foldM (fun H s =>
    let mid := Z.min (clmn_beg + kw) clmn_end in
    do s <- foldM (fun W s =>
      let '(_, m) := s in
      let comp := valid_area H W (p_h i) (p_w i) kh kw sh sw pl pt 1 1 in
      let rows := kh - c_k_top comp - c_k_bottom comp in
      let clmns := kw - c_k_right comp - c_k_left comp in
      let par := prep (rows * clmns) in
      do m <- pool_point par rows clmns (H * sh - pt + c_in_top comp) (W * sw - pl + c_in_left comp) H W i o m;
      Some (Some (comp, rows, clmns, par), m)) (zrange clmn_beg mid) s;
    foldM (fun W s =>
      let '(last, m) := s in
      match last with
      | None => None
      | Some (comp, rows, clmns, par) =>
          let clmns := if fixed >? 0 then fixed else clmns in
          do m <- pool_point par rows clmns (H * sh - pt + c_in_top comp) (W * sw - pl + c_in_left comp) H W i o m;
          Some (Some (comp, rows, clmns, par), m)
      end) (zrange (Z.max clmn_beg mid) clmn_end) s) (zrange row_beg row_end) (None, m);
  Some (snd s).

(** mli_krn_pool_hwc.h:291-427 mli_krn_pool_hwc_pad *)
Definition pool_pad (fixed sw sh pt pb pl pr : Z) (i o : ptensor) (kh kw : Z) (m : mem) : option mem :=
  let nrow_beg := ceil_div pt sh in
  let nrow_end := ceil_div (p_h i + pt - kh + 1) sh in
  let nclmn_beg := ceil_div pl sw in
  let nclmn_end := ceil_div (p_w i + pl - kw + 1) sw in
  do m <- (if (nrow_end - nrow_beg >? 0) && (nclmn_end - nclmn_beg >? 0)
           then pool_nopad nrow_beg nrow_end nclmn_beg nclmn_end sw sh pt pl i o kh kw m else Some m);
  (* i = 0: top *)
  do m <- (if negb (pt =? 0) then
             pool_compute_pad fixed sw sh pt pl 0 (ceil_div pt sh)
               0 (Z.max (ceil_div pl sw) (p_w o - ceil_div pr sw)) i o kh kw m
           else Some m);
  (* i = 1: right, rotated to the top *)
  do m <- (if negb (pr =? 0) then
             let row_beg := 0 in
             let row_end := p_h o - ceil_div pb sh in
             let clmn_beg := p_w o - ceil_div pr sw in
             let clmn_end := p_w o in
             pool_compute_pad fixed sh sw pr pt (p_w o - clmn_end) (p_w o - clmn_beg) row_beg row_end
               (rotate1 i) (rotate1 o) kw kh m
           else Some m);
  (* i = 2: bottom *)
  do m <- (if negb (pb =? 0) then
             let row_beg := p_h o - ceil_div pb sh in
             let row_end := p_h o in
             let clmn_beg := ceil_div pl sw in
             let clmn_end := p_w o in
             pool_compute_pad fixed sw sh pb pr (p_h o - row_end) (p_h o - row_beg) (p_w o - clmn_end) (p_w o - clmn_beg)
               (rotate2 i) (rotate2 o) kh kw m
           else Some m);
  (* i = 3: left *)
  if negb (pl =? 0) then
    let row_beg := ceil_div pt sh in
    let row_end := p_h o in
    let clmn_beg := 0 in
    let clmn_end := ceil_div pl sw in
    pool_compute_pad fixed sh sw pl pb clmn_beg clmn_end (p_h o - row_end) (p_h o - row_beg)
      (rotate3 i) (rotate3 o) kw kh m
  else Some m.

(** mli_krn_pool_hwc.h:429-467 mli_krn_pool_hwc_wrapper and 469-538 mli_krn_pool_hwc without the choice of the
    quantization parameters. *)
Definition pool_run (fixed : Z) (tin tout : tensor) (c : pool_cfg) (m : mem) : option mem :=
  let i := get_tensor_hwc tin in
  let o := get_tensor_hwc tout in
  let pr := (p_w o * pl_sw c + pl_kw c - pl_sw c) - p_w i - pl_left c in
  let pb := (p_h o * pl_sh c + pl_kh c - pl_sh c) - p_h i - pl_top c in
  let i := mkP (p_ptr i) (if pr <? 0 then p_w i + pr else p_w i) (if pb <? 0 then p_h i + pb else p_h i)
             (p_ch i) (p_col i) (p_row i) (p_chs i) in
  let pr := if pr <? 0 then 0 else pr in
  let pb := if pb <? 0 then 0 else pb in
  if negb (pl_top c =? 0) || negb (pl_left c =? 0) || negb (pb =? 0) || negb (pr =? 0) then
    pool_pad fixed (pl_sw c) (pl_sh c) (pl_top c) pb (pl_left c) pr i o (pl_kh c) (pl_kw c) m
  else
    pool_nopad 0 (p_h o) 0 (p_w o) (pl_sw c) (pl_sh c) 0 0 i o (pl_kh c) (pl_kw c) m.
End PoolLoops.

(** mli_krn_reduce_max2d_ref.h:22-38 reduce_max2D_hwc. The C++ keeps the running maximum in *out; here it
    is stored once (the output buffer does not overlap the input). *)
Definition reduce_max2D (mi : mem) (p w h col row : Z) : option Z :=
  do x0 <- load mi p;
  foldM (fun r v => foldM (fun cl v => do x <- load mi (p + (row * r + col * cl)); Some (max_fx v x)) (zrange 0 w) v)
    (zrange 0 h) x0.

(** mli_krn_maxpool_hwc_*.cc with mli_krn_pool_hwc<MAXPOOL>. *)
Definition maxpool (mi : mem) (fixed : Z) (tin tout : tensor) (c : pool_cfg) (m : mem) : option mem :=
  pool_run (fun _ => tt) (fun _ p w h col row => reduce_max2D mi p w h col row) fixed tin tout c m.

(** mli_krn_avepool_hwc_ref.h:24-92 multiplier_lut and shift_lut *)
Definition multiplier_lut : list Z :=
  [0; 16384; 16384; 21845; 16384; 26214; 21845; 18724; 16384; 29127; 26214; 23831; 21845; 20164; 18724; 17476;
   16384; 30840; 29127; 27594; 26214; 24966; 23831; 22795; 21845; 20971; 20164; 19418; 18724; 18078; 17476; 16912].
Definition shift_lut : list Z :=
  [0; 14; 15; 16; 16; 17; 17; 17; 17; 18; 18; 18; 18; 18; 18; 18; 18; 19; 19; 19; 19; 19; 19; 19; 19; 19; 19; 19; 19;
   19; 19; 19].

(** mli_krn_avepool_hwc_ref.h:98-110 calc_mul; returns mul and what is added to the shift. val is unsigned 32-bit;
    its normalization reads it as int. *)
Definition calc_mul (div : Z) : Z * Z :=
  let val := 2 ^ 31 / div in
  let norm := if div >? 1 then norm_fx 32 (wrap 32 val) + 1 else 0 in
  let val := if div >? 1 then uwrap 32 (Z.shiftl val norm) else val in
  (wrap 16 (Z.shiftr val 17), 14 + norm).

(** mli_krn_avepool_hwc_ref.h:112-121 get_mul_shift_value *)
Definition get_mul_shift (div : Z) : Z * Z :=
  if div <? 32 then (nth (Z.to_nat div) multiplier_lut 0, nth (Z.to_nat div) shift_lut 0) else calc_mul div.

(** Parameters of the average of a window of [div] elements: mul, zp, shift. mli_krn_pool_hwc.h:58-81 and
    190-214; without conversion (FX) [shift0] is the difference of the fractional bits and zp = 0. *)
Record ave_par := mkAve { av_mul : Z; av_zp : Z; av_shift : Z }.
Definition ave_fx (shift0 div : Z) : ave_par :=
  let '(mul, sh) := get_mul_shift div in mkAve mul 0 (shift0 + sh).
(** With conversion (SA8) and AVEPOOL_16BIT_MUL ([mul16]) or the default 8-bit multiplier. *)
Definition ave_sa (rm : rmode) (mul16 : bool) (rq : requant) (div : Z) : ave_par :=
  let '(mul, sh) := get_mul_shift div in
  let '(mul, norm_shift) := norm_cast_fx rm 32 (if mul16 then 16 else 8) (rq_scale rq * mul) in
  mkAve mul (rq_offset rq) (rq_shift rq + sh - norm_shift).

(** mli_krn_avepool_hwc_ref.h:123-157 compute_avepool_func: accumulator of [nacc] bits, output of [no] bits;
    mli_prv_init_accu_with_bias_v and mli_prv_clip_and_store_output (lib/src/pal/ref/mli_prv_dsp.h:80-124,
    263-278). *)
Definition compute_avepool (rm : rmode) (nacc no : Z) (mi : mem) (par : ave_par) (p w h col row : Z) : option Z :=
  let acc := asl_fx nacc (wrap 16 (av_zp par)) (av_shift par) in
  do acc <- reduce_sum2D nacc mi p (av_mul par) acc w h col row;
  Some (wrap no (sat_fx nacc (asr_rnd_fx rm nacc acc (av_shift par)) (nacc - no))).

(** mli_krn_avepool_hwc_fx8.cc, _fx16.cc: [nacc] = 32, [no] = 8 or [nacc] = 64, [no] = 16; [fi], [fo]
    are the frac_bits of input and output (mli_krn_pool_hwc.h:507-510). *)
Definition avepool_fx (rm : rmode) (nacc no : Z) (mi : mem) (fixed : Z) (tin tout : tensor) (c : pool_cfg) (fi fo : Z) (m : mem)
  : option mem :=
  pool_run (ave_fx (fi - fo)) (compute_avepool rm nacc no mi) fixed tin tout c m.

(** mli_krn_avepool_hwc_sa8.cc: mli_krn_pool_hwc.h:504-506 *)
Definition avepool_sa8 (rm : rmode) (mul16 : bool) (mi : mem) (fixed : Z) (tin tout : tensor) (c : pool_cfg) (qi qo : qpar) (m : mem)
  : option mem :=
  pool_run (ave_sa rm mul16 (define_requant_params rm qi qo)) (compute_avepool rm 32 8 mi) fixed tin tout c m.

(** mli_krn_sumpool (MLI 3.0, mli_krn_pool_hwc.h:128-139, 515-520): multiplier 1, shift 0, 32-bit output
    (mli_prv_dsp.h:126-132). *)
Definition sumpool (mi : mem) (fixed : Z) (tin tout : tensor) (c : pool_cfg) (m : mem) : option mem :=
  pool_run (fun _ => tt) (fun _ p w h col row => reduce_sum2D 32 mi p 1 0 w h col row) fixed tin tout c m.
