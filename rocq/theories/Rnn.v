(** Model of the recurrent kernels: the dense operation with several inputs
    (lib/src/bricks/impl/mli_krn_rnn_dense_op_ref.h, lib/src/kernels/common/mli_krn_rnn_dense.h), the LSTM cell and the GRU cell
    (lib/src/kernels/common/impl/mli_krn_lstm_cell_ref.h, mli_krn_gru_cell_ref.h) and their checkers
    (lib/src/private/src/mli_check.cc). Input, state, output and scratch elements live in one memory, so that overlaps can be
    expressed; weights and bias have memories of their own. *)
From Coq Require Import ZArith List Lia Bool.
From Verif Require Import Base FxMath Tensor ArgMax Quant DotProd Conv Eltwise Lut.
Import ListNotations.
Open Scope Z_scope.

(** * Types and formats *)

(** The instantiations of lib/src/kernels/common/mli_krn_rnn_dense.cc:43-90 (the files of the LSTM and the GRU cell have the same):
    16-bit data with 16-bit or 8-bit weights and bias, and SA8 data with 32-bit bias. *)
Inductive rnn_scheme := RS_fx16 | RS_fx16_fx8 | RS_sa8.
Definition rs_bits (S : rnn_scheme) : Z := match S with RS_sa8 => 8 | _ => 16 end.
Definition rs_esz (S : rnn_scheme) : Z := match S with RS_sa8 => 1 | _ => 2 end.

(** el_params of a weights tensor: axis (-1: per tensor) and zero point, scale, frac bits by index. For FX only
    [wq_frac w 0] is used. *)
Record wquant := mkWq { wq_dim : Z; wq_zp : Z -> Z; wq_scale : Z -> Z; wq_frac : Z -> Z }.

(** mli_prv_quant_ref.h:91-133 define_quant_params by type; [fb] are the frac bits of the bias (FX). *)
Definition rnn_params (rm : rmode) (S : rnn_scheme) (i : qpar) (w : wquant) (fb : Z) (o : qpar) : quant :=
  match S with
  | RS_fx16 => Q_fx16 (define_fx_params (q_frac i) (wq_frac w 0) fb (q_frac o))
  | RS_fx16_fx8 => Q_fx8 16 (define_fx_params (q_frac i) (wq_frac w 0) fb (q_frac o))
  | RS_sa8 => Q_s8 (define_s8_params rm i o (wq_dim w) (wq_zp w) (wq_scale w) (wq_frac w))
  end.

(** * The dense operation *)

(** mli_prv_quant_ref.h:593-627 ir_rnn_result_requantize after adjust_quant_params with index 0 (mli_krn_rnn_dense_op_ref.h:157).
    mli_math_acc_ashift_fx is the rounding shift (pal/ref/mli_math.h:249-257). *)
Definition rnn_requant (rm : rmode) (full : bool) (q : quant) (acc : Z) : Z :=
  match q with
  | Q_fx16 p => asr_rnd_fx rm 64 acc (min_fx (fx_out_shift p) 39)
  | Q_fx8 _ p => asr_rnd_fx rm 32 acc (fx_out_shift p)
  | Q_s8 p => let p := adjust_s8 full p 0 in cast_narrow rm 64 32 (acc * s8_out_mul p) (min_fx (s8_out_shift p) 63)
  | Q_int _ _ => acc
  end.

(** mli_prv_quant_ref.h:553-591 ir_result_cast_relu_store. mli_math_cast_fx without a shift (pal/ref/mli_math.h:352-382)
    saturates to 16 bits. *)
Definition rnn_result (rm : rmode) (q : quant) (lo hi acc : Z) : Z :=
  match q with
  | Q_fx16 _ => relu_clip (wrap 16 (sat_fx 64 acc 48)) lo hi
  | Q_fx8 _ _ => relu_clip (wrap 16 (sat_fx 32 acc 16)) lo hi
  | Q_s8 p => relu_clip (cast_narrow rm 16 8 (add_fx 16 (wrap 16 (sat_fx 32 acc 16)) (s8_out_off p)) 0) lo hi
  | Q_int _ _ => acc
  end.

(** One input of the dense operation: quantization parameters, index and number of its elements, memory, index and row
    stride of its weights. *)
Record rnn_in := mkIn { ri_q : quant; ri_p : Z; ri_n : Z; ri_mw : mem; ri_pw : Z; ri_ws : Z }.

(** mli_krn_rnn_dense_op_ref.h:138-146: other_additives of one input *)
Definition rnn_other (m : mem) (i : rnn_in) : option Z :=
  do a <- q_in_add2 (ri_q i) m (ri_p i) 0 (ri_n i) 1 1 1;
  q_zp_add (ri_q i) a (ri_n i).

(** mli_krn_rnn_dense_op_ref.h:156-170: one input of one output element; [s] is (accu, acc_res_ir). *)
Definition rnn_input (rm : rmode) (full : bool) (m : mem) (o : Z) (s : Z * Z) (i : rnn_in) (other : Z) : option (Z * Z) :=
  let q := ri_q i in
  let n := acc_bits q in
  do acc <- dotprod1D n m (ri_mw i) (ri_p i) (ri_pw i + o) (fst s) (ri_n i) 1 (ri_ws i);
  do acc <- q_weights_add3 q (ri_mw i) (ri_pw i + o) acc (ri_n i) 1 1 (ri_ws i) 1 1;
  Some (0, add_fx n (snd s) (rnn_requant rm full q (add_fx n acc other))).

(** mli_krn_rnn_dense_op_ref.h:148-174: one output element. The bias is added with the parameters of the first input, the
    result is stored with those of the last. *)
Definition rnn_value (rm : rmode) (full : bool) (lo hi : Z) (m mb : mem) (pb : Z) (ins : list rnn_in) (others : list Z) (o : Z) : option Z :=
  match ins with
  | [] => None
  | i0 :: _ =>
      do b <- load mb (pb + o);
      do s <- foldM (fun io s => rnn_input rm full m o s (fst io) (snd io)) (combine ins others) (q_bias_add rm full (ri_q i0) b 0, 0);
      Some (rnn_result rm (ri_q (last ins i0)) lo hi (snd s))
  end.

(** mli_krn_rnn_dense_op_ref.h:124-175 rnn_dense_op: [n] outputs at [po]. *)
Definition rnn_dense_op (rm : rmode) (full : bool) (lo hi : Z) (mb : mem) (pb po n : Z) (ins : list rnn_in) (m : mem) : option mem :=
  do others <- foldM (fun i l => do a <- rnn_other m i; Some (l ++ [a])) ins [];
  foldM (fun o m => do v <- rnn_value rm full lo hi m mb pb ins others o; store m (po + o) v) (zrange 0 n) m.

(** mli_krn_rnn_dense_op_ref.h:28-66: the SA8 parameters of gate [g]: the axis is dropped, and the pointers to the scales were
    incremented [g] times unless the axis was -1. FX parameters do not change. *)
Definition rnn_gate_params (q : quant) (g : Z) : quant :=
  match q with
  | Q_s8 p =>
      let off := if s8_w_dim p =? -1 then 0 else g in
      Q_s8 (mkS8 (s8_in_off p) (s8_out_off p) (s8_w_off p) (fun k => s8_w_scales p (k + off)) (fun k => s8_w_shifts p (k + off)) (-1)
        (s8_ratio p) (s8_in_to_out_shift p) (s8_out_mul p) (s8_out_shift p))
  | _ => q
  end.

(** A gated input: as [rnn_in] with the stride of the gates in the weights. *)
Definition rnn_gate_in (g : Z) (is : rnn_in * Z) : rnn_in :=
  let '(i, gs) := is in mkIn (rnn_gate_params (ri_q i) g) (ri_p i) (ri_n i) (ri_mw i) (ri_pw i + g * gs) (ri_ws i).

(** mli_krn_rnn_dense_op_ref.h:68-121 rnn_dense_op_stacked: [gates] dense operations with [n] outputs each, from the bias rows
    [pb + g * bs] to the rows [po + g * os]. mli_prv_get_relu_limits without ReLU gives the range of the type. *)
Definition rnn_dense_stacked (rm : rmode) (full : bool) (S : rnn_scheme) (o : qpar) (mb : mem) (pb bs po os n gates : Z) (ins : list (rnn_in * Z)) (m : mem)
  : option mem :=
  let '(lo, hi) := get_relu_limits (rs_bits S) RELU_NONE o in
  foldM (fun g m => rnn_dense_op rm full lo hi mb (pb + g * bs) (po + g * os) n (map (rnn_gate_in g) ins) m) (zrange 0 gates) m.

(** mli_krn_rnn_dense.h:31-84 rnn_dense_prepare_and_run. [ins]: tensor and format of each input, its weights and their
    memory. A zero row stride of the weights means contiguous rows. *)
Definition rnn_dense (rm : rmode) (full : bool) (S : rnn_scheme) (fb : Z) (o : qpar) (mb : mem) (ins : list (tensor * qpar * (tensor * wquant * mem)))
    (tb tout : tensor) (m : mem) : option mem :=
  let '(lo, hi) := get_relu_limits (rs_bits S) RELU_NONE o in
  rnn_dense_op rm full lo hi mb (t_data tb) (t_data tout) (wrap 32 (count_elem_num_part (t_shape tb)))
    (map (fun x => let '(ti, i, (tw, w, mw)) := x in
       mkIn (rnn_params rm S i w fb o) (t_data ti) (wrap 32 (count_elem_num_part (t_shape ti))) mw (t_data tw)
         (if negb (nth 0 (t_stride tw) 0 =? 0) then nth 0 (t_stride tw) 0 else nth 1 (t_shape tw) 0)) ins) m.

(** mli_check.cc:2038-2104 mli_chk_rnn_dense; pointer, element type and overlap tests are not modelled. MLI_RNN_MAX_INPUT
    is 4 (include/mli_config.h:30). *)
Definition chk_rnn_dense (ins : list (tensor * tensor)) (tb tout : tensor) : status :=
  let w0 := snd (hd (tb, tb) ins) in
  if negb ((0 <? Z.of_nat (length ins)) && (Z.of_nat (length ins) <=? 4)) then ST_BAD_FUNC_CFG
  else
    match fold_left (fun st x => match st with ST_OK =>
        let '(ti, tw) := x in
        match chk_tensor ti with ST_OK =>
        match chk_tensor tw with ST_OK =>
        if negb ((t_rank tw =? 2) && (count_elem_num_part (t_shape ti) =? nth 0 (t_shape tw) 0)
            && (nth 1 (t_shape tw) 0 =? nth 1 (t_shape w0) 0)) then ST_SHAPE_MISMATCH
        else if negb (layout_is_contiguous (t_shape ti) (t_stride ti) && inner_stride_is_one tw) then ST_INCOMPATIBLE
        else ST_OK
        | s => s end | s => s end | s => s end) ins ST_OK with
    | ST_OK =>
        match chk_tensor tb with ST_OK =>
        if negb ((t_rank tb =? 1) && (nth 1 (t_shape w0) 0 =? nth 0 (t_shape tb) 0)) then ST_SHAPE_MISMATCH
        else match chk_tensor tout with ST_OK =>
        if negb ((t_rank tout =? 1) && (nth 0 (t_shape tout) 0 =? nth 0 (t_shape tb) 0)) then ST_SHAPE_MISMATCH
        else if negb (inner_stride_is_one tb && layout_is_contiguous (t_shape tout) (t_stride tout)) then ST_INCOMPATIBLE
        else ST_OK
        | s => s end | s => s end
    | s => s
    end.

(** * Pointwise steps of the cells *)

(** mli_krn_{sigm,tanh}_{fx16,sa8}: [o] is the SA8 output format of the function. The kernels check their tensors again; the
    cells ignore the status, a rejected call leaves everything as it was. *)
Definition rnn_act (rm : rmode) (S : rnn_scheme) (o : qpar) (l : lut) (i : qpar) (tin tout : tensor) (m : mem) : option mem :=
  match chk_basic_activation tin tout with
  | ST_OK =>
      match S with
      | RS_sa8 => if chk_act_quant i then act_sa8 rm o l i tin tout m else Some m
      | _ => act_fx rm 16 l (q_frac i) tin tout m
      end
  | _ => Some m
  end.

(** The format of the results of sigmoid and tanh. *)
Definition rnn_sigm_fmt (S : rnn_scheme) : qpar := match S with RS_sa8 => sigm_sa8_out | _ => act_fx_out 16 end.
Definition rnn_tanh_fmt (S : rnn_scheme) : qpar := match S with RS_sa8 => tanh_sa8_out | _ => act_fx_out 16 end.

(** eltwise_perform_operation with calc_convert_params, as chosen by the template argument convert = asym. *)
Definition rnn_elt (rm : rmode) (S : rnn_scheme) (op : elt_op) (i1 i2 o : qpar) : Z -> Z -> Z :=
  match S with
  | RS_sa8 => elt_sa8 rm op (elt_params_sa8 rm op i1 i2 o)
  | _ => elt_fx rm op 16 16 (elt_params_fx op 16 (q_frac i1) (q_frac i2) (q_frac o))
  end.

(** mli_krn_eltwise_ref.h:350-433 eltwise_prepare_and_run with shape_1d and no_scalar: [n] elements in a row. Both first elements
    are read as scalars (and not used). *)
Definition elt_1d (f : Z -> Z -> Z) (i1 i2 io n : Z) (m : mem) : option mem :=
  do s1 <- load m i1;
  do s2 <- load m i2;
  elt_inner f false false s1 s2 i1 i2 io n m.

(** The same with no_scalar = false and a scalar [s1] as the first operand: a second operand with one element is also passed as
    a scalar. *)
Definition elt_1d_scalar (f : Z -> Z -> Z) (s1 i2 io n : Z) (m : mem) : option mem :=
  do s2 <- load m i2;
  let sc2 := n =? 1 in
  elt_inner f true sc2 s1 s2 0 i2 io (if sc2 then 1 else n) m.

(** * Cells *)

(** include/mli_types.h:306-341, 505-515 mli_rnn_cell_cfg. [rc_ps], [rc_cap]: index and capacity (bytes) of the scratch data. *)
Inductive rnn_act_type := RNN_ACT_NONE | RNN_ACT_TANH | RNN_ACT_SIGM.
Record rnn_cfg := mkRnn { rc_backward : bool; rc_all : bool; rc_act : rnn_act_type; rc_ps : Z; rc_cap : Z }.

(** The tensors and formats of a cell. [rn_cell], [rn_cq] are used by the LSTM cell only. *)
Record rnn_net := mkNet {
  rn_in : tensor; rn_prev : tensor; rn_win : tensor; rn_wout : tensor; rn_bias : tensor; rn_cell : tensor; rn_out : tensor;
  rn_iq : qpar; rn_pq : qpar; rn_cq : qpar; rn_oq : qpar; rn_wiq : wquant; rn_woq : wquant; rn_bfrac : Z;
  rn_mwi : mem; rn_mwo : mem; rn_mb : mem; rn_tanh : lut; rn_sigm : lut }.

(** mli_krn_lstm_cell_ref.h:67-75, mli_krn_gru_cell_ref.h:113-121: the intermediate tensor in the scratch data *)
Definition rnn_ir_tensor (S : rnn_scheme) (c : rnn_cfg) (tb : tensor) : tensor :=
  let n := nth 1 (t_shape tb) 0 in
  mkTensor (rc_ps c) (rc_cap c) (rs_esz S) [nth 0 (t_shape tb) 0; n] [n; 1] (match S with RS_sa8 => true | _ => false end) (-1) 0.

(** lstm_cell_ref.h:107-112, gru_cell_ref.h:137-142: the part of gate [g]; the status of mli_hlp_create_subtensor is ignored. *)
Definition rnn_gate (ir : tensor) (g : Z) : tensor := snd (create_subtensor ir [g; 0] [1; nth 1 (t_shape ir) 0] 2).

(** lstm_cell_ref.h:77-90: the format of the intermediate tensor. The scale_frac_bits of SA8 are written as a 16-bit number and
    read as an 8-bit number (little endian machines). *)
Definition lstm_ir_fmt (S : rnn_scheme) (i : qpar) (w : wquant) : qpar :=
  match S with RS_sa8 => mkQ 1 4 0 | _ => mkQ 1 (wrap 8 (Z.min 10 (q_frac i + wq_frac w 0))) 0 end.

(** lstm_cell_ref.h:114-119: a row of the output *)
Definition rnn_row1 (N : rnn_net) (S : rnn_scheme) (p n : Z) : tensor :=
  mkTensor p (t_cap (rn_out N)) (rs_esz S) [n] [1] (match S with RS_sa8 => true | _ => false end) (-1) 0.

(** The two inputs of the stacked dense operation: the element of the sequence at [pin] and the hidden state at [ph] with the
    format [hq]. lstm_cell_ref.h:53-65, 92-101; gru_cell_ref.h:67-76, 123-131. KRNL_RNN_W_IN_ELEMS_DIM is 1. *)
Definition rnn_inputs (rm : rmode) (S : rnn_scheme) (N : rnn_net) (ir : qpar) (hq : qpar) (pin ph n : Z) : list (rnn_in * Z) :=
  [ (mkIn (rnn_params rm S (rn_iq N) (rn_wiq N) (rn_bfrac N) ir) pin (wrap 32 (count_elem_num_part (tl (t_shape (rn_in N))))) (rn_mwi N) (t_data (rn_win N))
       (nth 1 (t_stride (rn_win N)) 0), nth 0 (t_stride (rn_win N)) 0);
    (mkIn (rnn_params rm S hq (rn_woq N) (rn_bfrac N) ir) ph n (rn_mwo N) (t_data (rn_wout N))
       (nth 1 (t_stride (rn_wout N)) 0), nth 0 (t_stride (rn_wout N)) 0) ].

(** lstm_cell_ref.h:121-204: one time step. [pin], [ph]: indices of the input element and the hidden state, [hq] the format of
    the hidden state, [po] the index of the output row. Gates: 0 input, 1 new information, 2 forget, 3 output. *)
Definition lstm_step (rm : rmode) (full : bool) (S : rnn_scheme) (N : rnn_net) (c : rnn_cfg) (pin ph : Z) (hq : qpar) (po : Z) (m : mem) : option mem :=
  let n := count_elem_num_part (t_shape (rn_prev N)) in
  let ir := rnn_ir_tensor S c (rn_bias N) in
  let iq := lstm_ir_fmt S (rn_iq N) (rn_wiq N) in
  let sq := rnn_sigm_fmt S in
  let tq := rnn_tanh_fmt S in
  let ig := rnn_gate ir 0 in
  let g := rnn_gate ir 1 in
  let fg := rnn_gate ir 2 in
  let og := rnn_gate ir 3 in
  let cell := t_data (rn_cell N) in
  let rows t := last (t_shape t) 0 in
  do m <- rnn_dense_stacked rm full S iq (rn_mb N) (t_data (rn_bias N)) (nth 0 (t_stride (rn_bias N)) 0) (t_data ir) (nth 0 (t_stride ir) 0)
            (wrap 32 (count_elem_num_part (tl (t_shape (rn_bias N))))) 4 (rnn_inputs rm S N iq hq pin ph (wrap 32 n)) m;
  do m <- rnn_act rm S sigm_sa8_out (rn_sigm N) iq ig ig m;
  do m <- rnn_act rm S tanh_sa8_out (rn_tanh N) iq g g m;
  do m <- rnn_act rm S sigm_sa8_out (rn_sigm N) iq fg fg m;
  do m <- rnn_act rm S sigm_sa8_out (rn_sigm N) iq og og m;
  do m <- elt_1d (rnn_elt rm S ELT_MUL (rn_cq N) sq (rn_cq N)) cell (t_data fg) cell (rows (rn_cell N)) m;
  do m <- elt_1d (rnn_elt rm S ELT_MUL tq sq tq) (t_data g) (t_data ig) (t_data g) (rows g) m;
  do m <- elt_1d (rnn_elt rm S ELT_ADD (rn_cq N) tq (rn_cq N)) cell (t_data g) cell (rows (rn_cell N)) m;
  let row := rnn_row1 N S po n in
  match rc_act c with
  | RNN_ACT_NONE => elt_1d (rnn_elt rm S ELT_MUL (rn_cq N) sq (rn_oq N)) cell (t_data og) po (rows (rn_cell N)) m
  | RNN_ACT_TANH =>
      do m <- rnn_act rm S tanh_sa8_out (rn_tanh N) (rn_cq N) (rn_cell N) row m;
      elt_1d (rnn_elt rm S ELT_MUL tq sq (rn_oq N)) po (t_data og) po n m
  | RNN_ACT_SIGM =>
      do m <- rnn_act rm S sigm_sa8_out (rn_sigm N) (rn_cq N) (rn_cell N) row m;
      elt_1d (rnn_elt rm S ELT_MUL sq sq (rn_oq N)) po (t_data og) po n m
  end.

(** lstm_cell_ref.h:64-65, 121, 206-223 and gru_cell_ref.h:75-76, 208, 295-319: the loop over the sequence. [step] takes input
    index, hidden state index and format, and output index. The state is (memory, input index, (hidden index, format), output
    index). *)
Definition rnn_loop (step : Z -> Z -> qpar -> Z -> mem -> option mem) (N : rnn_net) (c : rnn_cfg) (m : mem) : option mem :=
  let n := count_elem_num_part (t_shape (rn_prev N)) in
  let len := nth 0 (t_shape (rn_in N)) 0 in
  let st := nth 0 (t_stride (rn_in N)) 0 in
  do s <- foldM (fun _ s =>
      let '(m, pin, (ph, hq), po) := s in
      do m <- step pin ph hq po m;
      Some (m, pin + (if rc_backward c then - st else st), (po, rn_oq N), if rc_all c then po + n else po))
    (zrange 0 len)
    (m, t_data (rn_in N) + (if rc_backward c then (len - 1) * st else 0), (t_data (rn_prev N), rn_pq N), t_data (rn_out N));
  Some (fst (fst (fst s))).

(** lstm_cell_ref.h:34-237 lstm_cell_prepare_and_run: the memory *)
Definition lstm_cell (rm : rmode) (full : bool) (S : rnn_scheme) (N : rnn_net) (c : rnn_cfg) (m : mem) : option mem :=
  rnn_loop (lstm_step rm full S N c) N c m.
(** lstm_cell_ref.h:225-236, gru_cell_ref.h:321-332: the shape and the strides of the output *)
Definition rnn_out_shape (N : rnn_net) (c : rnn_cfg) : list Z * list Z :=
  let n := count_elem_num_part (t_shape (rn_prev N)) in
  ([if rc_all c then nth 0 (t_shape (rn_in N)) 0 else 1; n], [n; 1]).

(** gru_cell_ref.h:35-43, 247-251: inc_scales_for_new_gate. The pointers to the scales advance by two elements. For per-tensor
    parameters the same union members hold the numbers themselves; on a flat little endian memory adding 2 to the int16_t
    pointer adds 4 to the scale, and adding 2 to the int8_t pointer adds 2 to the frac bits. *)
Definition gru_new_wquant (w : wquant) : wquant :=
  if wq_dim w <? 0 then mkWq (wq_dim w) (wq_zp w) (fun k => wrap 16 (wq_scale w k + 4)) (fun k => wrap 8 (wq_frac w k + 2))
  else mkWq (wq_dim w) (wq_zp w) (fun k => wq_scale w (k + 2)) (fun k => wq_frac w (k + 2)).

(** gru_cell_ref.h:78-109: the format of the intermediate tensor and of the constant one *)
Definition gru_ir_fmt (S : rnn_scheme) (i : qpar) (w : wquant) : qpar :=
  match S with RS_sa8 => mkQ 21 9 0 | _ => mkQ 1 (wrap 8 (Z.min 11 (q_frac i + wq_frac w 0))) 0 end.
Definition gru_one_fmt (S : rnn_scheme) : qpar := match S with RS_sa8 => mkQ 1 8 (-128) | _ => mkQ 1 15 0 end.

(** gru_cell_ref.h:208-293: one time step. Gates: 0 update, 1 reset, 2 new. The hidden state times the update gate is stored
    in the output row with the format of the hidden state. *)
Definition gru_step (rm : rmode) (full : bool) (S : rnn_scheme) (N : rnn_net) (c : rnn_cfg) (pin ph : Z) (hq : qpar) (po : Z) (m : mem) : option mem :=
  let n := count_elem_num_part (t_shape (rn_prev N)) in
  let ir := rnn_ir_tensor S c (rn_bias N) in
  let iq := gru_ir_fmt S (rn_iq N) (rn_wiq N) in
  let sq := rnn_sigm_fmt S in
  let tq := rnn_tanh_fmt S in
  let ug := rnn_gate ir 0 in
  let rg := rnn_gate ir 1 in
  let ng := rnn_gate ir 2 in
  let rows t := last (t_shape t) 0 in
  let '(lo, hi) := get_relu_limits (rs_bits S) RELU_NONE iq in
  let wi := match S with RS_sa8 => gru_new_wquant (rn_wiq N) | _ => rn_wiq N end in
  let wo := match S with RS_sa8 => gru_new_wquant (rn_woq N) | _ => rn_woq N end in
  let n_in := wrap 32 (count_elem_num_part (tl (t_shape (rn_in N)))) in
  do m <- rnn_dense_stacked rm full S iq (rn_mb N) (t_data (rn_bias N)) (nth 0 (t_stride (rn_bias N)) 0) (t_data ir) (nth 0 (t_stride ir) 0)
            (wrap 32 (count_elem_num_part (tl (t_shape (rn_bias N))))) 2 (rnn_inputs rm S N iq hq pin ph (wrap 32 n)) m;
  do m <- rnn_act rm S sigm_sa8_out (rn_sigm N) iq ug ug m;
  do m <- rnn_act rm S sigm_sa8_out (rn_sigm N) iq rg rg m;
  do m <- elt_1d (rnn_elt rm S ELT_MUL sq hq hq) (t_data rg) ph (t_data rg) (rows rg) m;
  do m <- elt_1d (rnn_elt rm S ELT_MUL hq sq hq) ph (t_data ug) po n m;
  do m <- elt_1d_scalar (rnn_elt rm S ELT_SUB (gru_one_fmt S) sq sq) (smax (rs_bits S)) (t_data ug) (t_data ug) (rows ug) m;
  do m <- rnn_dense_op rm full lo hi (rn_mb N) (t_data (rn_bias N) + 2 * nth 0 (t_stride (rn_bias N)) 0) (t_data ng) (wrap 32 n)
            [ mkIn (rnn_params rm S (rn_iq N) wi (rn_bfrac N) iq) pin n_in (rn_mwi N)
                (t_data (rn_win N) + 2 * nth 0 (t_stride (rn_win N)) 0) (nth 1 (t_stride (rn_win N)) 0);
              mkIn (rnn_params rm S hq wo (rn_bfrac N) iq) (t_data rg) (wrap 32 n) (rn_mwo N)
                (t_data (rn_wout N) + 2 * nth 0 (t_stride (rn_wout N)) 0) (nth 1 (t_stride (rn_wout N)) 0) ] m;
  do m <- rnn_act rm S tanh_sa8_out (rn_tanh N) iq ng ng m;
  do m <- elt_1d (rnn_elt rm S ELT_MUL tq sq (rn_oq N)) (t_data ng) (t_data ug) (t_data ng) (rows ng) m;
  elt_1d (rnn_elt rm S ELT_ADD (rn_oq N) hq (rn_oq N)) (t_data ng) po po (rows ng) m.

(** gru_cell_ref.h:45-333 gru_cell_prepare_and_run: the memory *)
Definition gru_cell (rm : rmode) (full : bool) (S : rnn_scheme) (N : rnn_net) (c : rnn_cfg) (m : mem) : option mem :=
  rnn_loop (gru_step rm full S N c) N c m.

(** * Checkers *)

(** mli_check.cc:2210-2310 mli_chk_lstm_cell ([lstm]) and :2434-2524 mli_chk_gru_cell: null pointers, element types, tables and the
    overlap of input and scratch data are not modelled. [gates] is 4 and 3. *)
Definition chk_rnn_cell (lstm : bool) (S : rnn_scheme) (N : rnn_net) (c : rnn_cfg) : status :=
  let gates := if lstm then 4 else 3 in
  let shape t k := nth k (t_shape t) 0 in
  match chk_tensor (rn_in N) with ST_OK =>
  match chk_tensor (rn_prev N) with ST_OK =>
  if negb ((t_rank (rn_in N) =? 2) && (t_rank (rn_prev N) =? 1)) then ST_SHAPE_MISMATCH
  else if negb (layout_is_contiguous (t_shape (rn_in N)) (t_stride (rn_in N)) && inner_stride_is_one (rn_prev N)) then ST_INCOMPATIBLE
  else
    let n_in := count_elem_num_part (tl (t_shape (rn_in N))) in
    let n := count_elem_num_part (t_shape (rn_prev N)) in
    let len := if rc_all c then shape (rn_in N) 0%nat else 1 in
    match chk_tensor (rn_win N) with ST_OK =>
    match chk_tensor (rn_wout N) with ST_OK =>
    if negb ((t_rank (rn_win N) =? 3) && (t_rank (rn_wout N) =? 3)
        && (shape (rn_win N) 0%nat =? gates) && (shape (rn_win N) 1%nat =? n_in) && (shape (rn_win N) 2%nat =? n)
        && (shape (rn_wout N) 0%nat =? gates) && (shape (rn_wout N) 1%nat =? n) && (shape (rn_wout N) 2%nat =? n)) then ST_SHAPE_MISMATCH
    else if negb (inner_stride_is_one (rn_win N) && inner_stride_is_one (rn_wout N)) then ST_INCOMPATIBLE
    else match chk_tensor (rn_bias N) with ST_OK =>
    if negb ((t_rank (rn_bias N) =? 2) && (shape (rn_bias N) 0%nat =? gates) && (shape (rn_bias N) 1%nat =? n)) then ST_SHAPE_MISMATCH
    else match (if lstm then chk_tensor (rn_cell N) else ST_OK) with ST_OK =>
    if lstm && negb ((t_rank (rn_cell N) =? 1) && (shape (rn_cell N) 0%nat =? n)) then ST_SHAPE_MISMATCH
    else match chk_tensor (rn_out N) with ST_OK =>
    if negb (uwrap 32 (uwrap 32 (len * n) * rs_esz S) <=? t_cap (rn_out N)) then ST_BAD_TENSOR
    else if negb (uwrap 32 (uwrap 32 (gates * n) * rs_esz S) <=? rc_cap c) then ST_BAD_FUNC_CFG
    else if negb ((negb lstm || inner_stride_is_one (rn_cell N)) && inner_stride_is_one (rn_bias N)
        && layout_is_contiguous (t_shape (rn_out N)) (t_stride (rn_out N))) then ST_INCOMPATIBLE
    else ST_OK
    | s => s end | s => s end | s => s end | s => s end | s => s end
  | s => s end | s => s end.

(** mli_check.cc:2399-2429 and :2608-2636, the quantization tests of the SA8 cells; [gates] scales if the axis is 0. *)
Definition chk_rnn_wquant (gates : Z) (w : wquant) : bool :=
  forallb (fun k => (0 <? wq_scale w k) && (wq_zp w k =? 0)) (zrange 0 (if wq_dim w <? 0 then 1 else gates)).
Definition chk_rnn_quant (lstm : bool) (N : rnn_net) : bool :=
  let gates := if lstm then 4 else 3 in
  forallb chk_act_quant ([rn_iq N; rn_oq N; rn_pq N] ++ (if lstm then [rn_cq N] else []))
  && (if wq_dim (rn_wiq N) <? 0 then wq_dim (rn_woq N) <? 0 else (wq_dim (rn_wiq N) =? 0) && (wq_dim (rn_woq N) =? 0))
  && chk_rnn_wquant gates (rn_wiq N) && chk_rnn_wquant gates (rn_woq N).
