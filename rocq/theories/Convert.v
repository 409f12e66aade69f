(** Model of mli_hlp_convert_tensor_safx and the integer part of mli_hlp_convert_tensor
    (lib/src/helpers/src/impl/mli_hlp_convert_tensor_ref.h, lib/src/helpers/src/mli_helpers.cc:250-288). Conversions from
    and to MLI_EL_FP_32 are not modelled. *)
From Coq Require Import ZArith List Lia Bool.
From Verif Require Import Base FxMath Tensor Quant ArgMax Eltwise Relu.
Import ListNotations.
Open Scope Z_scope.

(** include/mli_types.h:72-97: the integer element types with a branch in convert_quantized_data. *)
Inductive el_type := EL_FX_8 | EL_FX_16 | EL_SA_8 | EL_SA_32.

(** The bits of the element type (mli_helpers.cc:37-48). *)
Definition el_bits (e : el_type) : Z := match e with EL_FX_8 | EL_SA_8 => 8 | EL_FX_16 => 16 | EL_SA_32 => 32 end.
Definition el_sa (e : el_type) : bool := match e with EL_SA_8 | EL_SA_32 => true | _ => false end.

(** mli_hlp_convert_tensor_ref.h:131-166: the accumulator type is int64_t if an SA_32 tensor takes part, else int32_t. *)
Definition conv_wide (ei eo : el_type) : bool := (el_bits ei =? 32) || (el_bits eo =? 32).

(** mli_math_cast_fx<int32_t, out_T>(v, 0) *)
Definition conv_cast (rm : rmode) (no v : Z) : Z := if no =? 32 then cast_same rm 32 v 0 else cast_narrow rm 32 no v 0.

(** mli_hlp_convert_tensor_ref.h:20-48 calc_convert; [wide] is the case acc_T = int64_t. *)
Definition calc_convert (rm : rmode) (wide : bool) (no in_zp scale scale_shift out_zp x : Z) : Z :=
  if wide then
    let src_in_zp := sub_fx 32 x in_zp in
    let src_norm := norm_fx 32 src_in_zp in
    let src_in_zp := asl_fx 32 src_in_zp src_norm in
    let scale_norm := norm_fx 32 scale in
    let scale32 := asl_fx 32 scale scale_norm in
    let dst_acc := src_in_zp * scale32 in
    let acc_hi := wrap 32 (Z.shiftr dst_acc 32) in
    let casted := asr_rnd_fx rm 32 acc_hi (scale_shift + scale_norm + src_norm - 32) in
    conv_cast rm no (add_fx 32 casted out_zp)
  else
    let src_in_zp := sub_fx 16 x in_zp in
    let dst_acc := src_in_zp * scale in
    let casted := asr_rnd_fx rm 32 dst_acc scale_shift in
    conv_cast rm no (add_fx 32 casted out_zp).

(** mli_hlp_convert_tensor_ref.h:91-97: one element of a slice with the formats [i] and [o]. *)
Definition convert_elem (rm : rmode) (ei eo : el_type) (i o : qpar) (x : Z) : Z :=
  let params := define_requant_params rm i o in
  let scale_shift := min_fx (rq_shift params) (if conv_wide ei eo then 63 else 31) in
  calc_convert rm (conv_wide ei eo) (el_bits eo) (q_zp i) (rq_scale params) scale_shift (q_zp o) x.

(** A tensor with its element type and, for every index of its quantization axis, its format. For FX tensors the
    format is (1, frac_bits, 0) (mli_helpers.cc:50-94). *)
Record qtensor := mkQT { qt_t : tensor; qt_el : el_type; qt_q : Z -> qpar }.

(** mli_helpers.cc:50-94: the format at index [k]; the index is only used with a quantization axis. *)
Definition q_at (t : qtensor) (k : Z) : qpar :=
  if el_sa (qt_el t) && (t_qdim (qt_t t) >=? 0) then qt_q t k else qt_q t 0.

(** mli_hlp_convert_tensor_ref.h:76-88: the later assignment wins; both use the rank of the source. *)
Definition scale_dim (src dst : qtensor) : Z :=
  let r := t_rank (qt_t src) in
  if el_sa (qt_el dst) && (t_qdim (qt_t dst) >=? 0) then t_qdim (qt_t dst) + (4 - r)
  else if el_sa (qt_el src) && (t_qdim (qt_t src) >=? 0) then t_qdim (qt_t src) + (4 - r)
  else -1.
Definition scales_num (src dst : qtensor) : Z :=
  let d := Z.to_nat (scale_dim src dst) in
  if el_sa (qt_el dst) && (t_qdim (qt_t dst) >=? 0) then nth d (pad_front 4 1 (t_shape (qt_t dst))) 0
  else if el_sa (qt_el src) && (t_qdim (qt_t src) >=? 0) then nth d (pad_front 4 1 (t_shape (qt_t src))) 0
  else 1.

(** mli_hlp_convert_tensor_ref.h:54-126 compute_convert_quantized_data. [am_cont], [am_end] are the arrays dim_start and
    dim_end, [am_box] the nested loops over them. One memory holds the elements of both tensors, one per address;
    tensors of different widths are assumed not to share bytes. *)
Definition convert_run (rm : rmode) (src dst : qtensor) (m : mem) : option mem :=
  let ti := qt_t src in let to := qt_t dst in
  let sh := pad_front 4 1 (t_shape ti) in
  let sti := pad_front 4 0 (t_stride ti) in let sto := pad_front 4 0 (t_stride to) in
  let d := scale_dim src dst in
  foldM (fun k m =>
    foldM (fun c m =>
      do x <- load m (t_data ti + addr sti c);
      store m (t_data to + addr sto c) (convert_elem rm (qt_el src) (qt_el dst) (q_at src k) (q_at dst k) x))
      (am_box (am_cont d k) (am_end d k sh)) m)
    (zrange 0 (scales_num src dst)) m.

(** mli_hlp_convert_tensor_ref.h:128-166 convert_quantized_data: the pairs of types with a branch. *)
Definition conv_supported (ei eo : el_type) : bool :=
  match ei, eo with
  | (EL_FX_8 | EL_SA_8), (EL_FX_8 | EL_SA_8) => true
  | (EL_FX_8 | EL_SA_8), EL_FX_16 => true
  | (EL_FX_8 | EL_SA_8), EL_SA_32 => true
  | EL_FX_16, (EL_FX_8 | EL_SA_8) => true
  | EL_FX_16, EL_FX_16 => true
  | EL_FX_16, EL_SA_32 => true
  | EL_SA_32, (EL_FX_8 | EL_SA_8) => true
  | EL_SA_32, EL_FX_16 => true
  | EL_SA_32, EL_SA_32 => true
  end.

(** mli_helpers.cc:96-118 mli_hlp_tensor_data_ptr_cmp *)
Definition el_eqb (a b : el_type) : bool :=
  match a, b with EL_FX_8, EL_FX_8 | EL_FX_16, EL_FX_16 | EL_SA_8, EL_SA_8 | EL_SA_32, EL_SA_32 => true | _, _ => false end.
Definition data_ptr_cmp (src dst : qtensor) : bool :=
  el_eqb (qt_el src) (qt_el dst) && negb ((t_rank (qt_t src) =? 0) || (t_rank (qt_t dst) =? 0)) && (t_data (qt_t src) =? t_data (qt_t dst)).

(** mli_check.cc:2738-2768 mli_chk_convert_tensor, for non-null pointers. Tensors at the same address have the same type
    and hence the same element size; check_mem_stride_matches (:367-376) compares all strides but the last. *)
Definition chk_convert (src dst : qtensor) : status :=
  let ti := qt_t src in let to := qt_t dst in
  match chk_tensor ti with ST_OK =>
  match chk_tensor to with ST_OK =>
  if negb (same_shape ti to) then ST_SHAPE_MISMATCH
  else if negb (inner_stride_is_one ti && inner_stride_is_one to) then ST_INCOMPATIBLE
  else if data_ptr_cmp src dst && negb (forallb (fun p => fst p =? snd p) (combine (removelast (t_stride ti)) (removelast (t_stride to)))) then ST_INCOMPATIBLE
  else if el_sa (qt_el src) && el_sa (qt_el dst)
          && negb ((t_qdim ti =? t_qdim to) || (t_qdim ti <? 0) || (t_qdim to <? 0)) then ST_SIZE_MISMATCH
  else ST_OK
  | s => s end | s => s end.

(** mli_helpers.cc:250-256 mli_hlp_convert_tensor_safx and :258-266 of mli_hlp_convert_tensor. *)
Definition convert_tensor (rm : rmode) (src dst : qtensor) (m : mem) : status * option mem :=
  match chk_convert src dst with
  | ST_OK => if conv_supported (qt_el src) (qt_el dst) then (ST_OK, convert_run rm src dst m) else (ST_TYPE_MISMATCH, Some m)
  | s => (s, Some m)
  end.
