(** Model of the data movement functions (lib/src/move/mli_mov_api.cc, lib/src/move/impl/mli_mov_ref.h).
    Configuration arrays have one entry per dimension of the source (the C++ arrays have four).
    Element granularity: the byte-wise copies of the C++ (int8_t pointers with sizes multiplied by
    elem_size) copy whole elements. Positions and sizes are exact integers (int and uint32_t in the C++,
    which agree while everything is below 2^31). *)
From Coq Require Import ZArith List Lia Bool.
From Verif Require Import Base Tensor Permute.
Import ListNotations.
Open Scope Z_scope.

(** include/mli_types.h:449-458 mli_mov_cfg_t *)
Record mov_cfg := mkMovCfg {
  mc_offset : list Z; mc_size : list Z; mc_sub : list Z; mc_dst_offset : list Z; mc_dst_stride : list Z;
  mc_perm : list nat; mc_pre : list Z; mc_post : list Z }.

(** lib/src/private/mli_math_macros.h:16 CEIL_DIV *)
Definition ceil_div (num den : Z) : Z := (num + den - 1) / den.

(** * Configuration helpers, mli_mov_api.cc:434-594 ([rank] entries of each array) *)

(** 434-442 mli_mov_cfg_for_copy *)
Definition cfg_for_copy (rank : nat) : mov_cfg :=
  mkMovCfg (repeat 0 rank) (repeat 0 rank) (repeat 1 rank) (repeat 0 rank) (repeat 0 rank) (seq 0 rank)
           (repeat 0 rank) (repeat 0 rank).
(** 450-463 mli_mov_cfg_for_slice *)
Definition cfg_for_slice (rank : nat) (offsets sizes dst_stride : list Z) : mov_cfg :=
  mkMovCfg offsets sizes (repeat 1 rank) (repeat 0 rank) dst_stride (seq 0 rank) (repeat 0 rank) (repeat 0 rank).
(** 471-483 mli_mov_cfg_for_concat *)
Definition cfg_for_concat (rank : nat) (dst_offsets dst_stride : list Z) : mov_cfg :=
  mkMovCfg (repeat 0 rank) (repeat 0 rank) (repeat 1 rank) dst_offsets dst_stride (seq 0 rank) (repeat 0 rank) (repeat 0 rank).
(** 491-504 mli_mov_cfg_for_subsample *)
Definition cfg_for_subsample (rank : nat) (sub dst_stride : list Z) : mov_cfg :=
  mkMovCfg (repeat 0 rank) (repeat 0 rank) sub (repeat 0 rank) dst_stride (seq 0 rank) (repeat 0 rank) (repeat 0 rank).
(** 511-519 mli_mov_cfg_for_permute *)
Definition cfg_for_permute (rank : nat) (perm : list nat) : mov_cfg :=
  mkMovCfg (repeat 0 rank) (repeat 0 rank) (repeat 1 rank) (repeat 0 rank) (repeat 0 rank) perm (repeat 0 rank) (repeat 0 rank).

(** * mli_mov_prepare, mli_mov_api.cc:99-275 *)

(** mli_check.cc:2824-2896 mli_chk_data_movement: the tensor check, and for per-axis quantized tensors
    the configuration check of 2852-2859. The checks of the parameter pointers and of the overlap are not
    modelled (source and destination are different memories here). *)
Definition chk_data_movement (src : tensor) (cfg : mov_cfg) : status :=
  match chk_tensor src with
  | ST_OK =>
      if t_asym src && negb (t_qdim src =? -1) then
        if forallb (fun i =>
              (nth i (mc_size cfg) 0 + nth i (mc_offset cfg) 0
                 <=? nth i (t_shape src) 0 + nth i (mc_pre cfg) 0 + nth i (mc_post cfg) 0)
              && (nth i (mc_sub cfg) 0 >? 0) && Nat.ltb (nth i (mc_perm cfg) 0%nat) (length (t_shape src)))
            (seq 0 (length (t_shape src)))
        then ST_OK else ST_BAD_FUNC_CFG
      else ST_OK
  | e => e
  end.

(** 119-125: extent of the region read along output dimension [i], before subsampling. *)
Definition mov_cpy_size (src : tensor) (cfg : mov_cfg) (p : nat) : Z :=
  if nth p (mc_size cfg) 0 >? 0 then nth p (mc_size cfg) 0
  else nth p (t_shape src) 0 - nth p (mc_offset cfg) 0 + nth p (mc_pre cfg) 0 + nth p (mc_post cfg) 0.
(** 126: number of elements written along each output dimension. *)
Definition mov_write_size (src : tensor) (cfg : mov_cfg) : list Z :=
  map (fun p => ceil_div (mov_cpy_size src cfg p) (nth p (mc_sub cfg) 0)) (mc_perm cfg).
(** 127: shape of the destination. *)
Fixpoint zip_add (a b : list Z) : list Z :=
  match a, b with x :: a', y :: b' => x + y :: zip_add a' b' | _, _ => [] end.
Definition mov_dst_shape (src : tensor) (cfg : mov_cfg) : list Z := zip_add (mov_write_size src cfg) (mc_dst_offset cfg).

(** 209-222: strides of the destination: configuration, else what the tensor has, else computed. *)
Fixpoint mov_dst_strides (shape cfgs dsts : list Z) : list Z :=
  match shape, cfgs, dsts with
  | _ :: sh', c :: cfgs', t :: dsts' =>
      let rest := mov_dst_strides sh' cfgs' dsts' in
      (if negb (c =? 0) then c else if negb (t =? 0) then t
       else match rest, sh' with s :: _, n :: _ => s * n | _, _ => 1 end) :: rest
  | _, _, _ => []
  end.

(** 229-244: is one contiguous copy enough? Loop over the dimensions from the innermost;
    [l] lists (source stride, destination stride, source extent, destination extent) etc. innermost first. *)
Fixpoint mov_single_loop (idx : nat) (sst dst sshape dshape : list Z) (cfg : mov_cfg) (stride : Z) : bool :=
  match idx with
  | O => true
  | S i =>
      (nth i sst 0 =? stride) && (nth i dst 0 =? stride) && (nth i sshape 0 =? nth i dshape 0)
      && (nth i (mc_pre cfg) 0 =? 0) && (nth i (mc_post cfg) 0 =? 0)
      && Nat.eqb (nth i (mc_perm cfg) 0%nat) i && (nth i (mc_sub cfg) 0 =? 1)
      && mov_single_loop i sst dst sshape dshape cfg (stride * nth i sshape 0)
  end.
Definition mov_no_padding (cfg : mov_cfg) : bool := forallb (Z.eqb 0) (mc_pre cfg) && forallb (Z.eqb 0) (mc_post cfg).

(** * mli_mov_ref.h *)

(** 20-30 mli_mov_memcpy without DMA, in elements *)
Definition mov_memcpy (msrc : mem) (src dst n : Z) (m : mem) : option mem :=
  foldM (fun i m => do v <- load msrc (src + i); store m (dst + i) v) (zrange 0 n) m.

(** 32-59 mov_inner_loop with padding. [pad] is pad_val. *)
Definition mov_inner_pad (msrc : mem) (src dst wsize sstr dstr soff doff pre sub sshape : Z) (zero : bool) (pad : Z)
  (m : mem) : option mem :=
  if zero then foldM (fun i m => store m (dst + (i + doff) * dstr) pad) (zrange 0 wsize) m
  else foldM (fun i m =>
         let spos := i * sub + soff - pre in
         let dpos := (i + doff) * dstr in
         if (spos <? 0) || (spos >=? sshape) then store m (dst + dpos) pad
         else do v <- load msrc (src + spos * sstr); store m (dst + dpos) v) (zrange 0 wsize) m.

(** 61-74 mov_inner_loop without padding *)
Definition mov_inner (msrc : mem) (src dst wsize sstr dstr sub : Z) (m : mem) : option mem :=
  foldM (fun i m => do v <- load msrc (src + i * (sub * sstr)); store m (dst + i * dstr) v) (zrange 0 wsize) m.

(** The "ordered" arrays of 76-256 (four entries each). *)
Record mov_ord := mkMovOrd {
  o_wsize : list Z; o_sshape : list Z; o_dstr : list Z; o_sstr : list Z; o_pre : list Z;
  o_pdim : list nat; o_off : list Z; o_doff : list Z; o_sub : list Z }.

Definition at_ (l : list Z) (i : nat) : Z := nth i l 0.
(** entry of a source array at the permuted dimension *)
Definition psel (o : mov_ord) (l : list Z) (i : nat) : Z := nth (nth i (o_pdim o) 0%nat) l 0.

(** 76-221 mli_mov_basic_operation *)
Definition mov_basic_operation (msrc : mem) (src dst : Z) (o : mov_ord) (no_padding : bool) (m : mem) : option mem :=
  if no_padding then
    foldM (fun pos0 m => foldM (fun pos1 m => foldM (fun pos2 m =>
      let dst_pos := (pos0 + at_ (o_doff o) 0) * at_ (o_dstr o) 0 + (pos1 + at_ (o_doff o) 1) * at_ (o_dstr o) 1
                   + (pos2 + at_ (o_doff o) 2) * at_ (o_dstr o) 2 + at_ (o_doff o) 3 * at_ (o_dstr o) 3 in
      let src_pos0 := pos0 * psel o (o_sub o) 0 + psel o (o_off o) 0 in
      let src_pos1 := pos1 * psel o (o_sub o) 1 + psel o (o_off o) 1 in
      let src_pos2 := pos2 * psel o (o_sub o) 2 + psel o (o_off o) 2 in
      let src_pos := src_pos0 * psel o (o_sstr o) 0 + src_pos1 * psel o (o_sstr o) 1
                   + src_pos2 * psel o (o_sstr o) 2 + psel o (o_off o) 3 * psel o (o_sstr o) 3 in
      mov_inner msrc (src + src_pos) (dst + dst_pos) (at_ (o_wsize o) 3) (psel o (o_sstr o) 3) (at_ (o_dstr o) 3)
                (psel o (o_sub o) 3) m)
      (zrange 0 (at_ (o_wsize o) 2)) m) (zrange 0 (at_ (o_wsize o) 1)) m) (zrange 0 (at_ (o_wsize o) 0)) m
  else
    foldM (fun pos0 m => foldM (fun pos1 m => foldM (fun pos2 m =>
      let dst_pos := (pos0 + at_ (o_doff o) 0) * at_ (o_dstr o) 0 + (pos1 + at_ (o_doff o) 1) * at_ (o_dstr o) 1
                   + (pos2 + at_ (o_doff o) 2) * at_ (o_dstr o) 2 in
      let src_pos0 := pos0 * psel o (o_sub o) 0 + psel o (o_off o) 0 - psel o (o_pre o) 0 in
      let src_pos1 := pos1 * psel o (o_sub o) 1 + psel o (o_off o) 1 - psel o (o_pre o) 1 in
      let src_pos2 := pos2 * psel o (o_sub o) 2 + psel o (o_off o) 2 - psel o (o_pre o) 2 in
      let in_padding_area :=
          ((src_pos0 <? 0) || (src_pos0 >=? psel o (o_sshape o) 0))
       || ((src_pos1 <? 0) || (src_pos1 >=? psel o (o_sshape o) 1))
       || ((src_pos2 <? 0) || (src_pos2 >=? psel o (o_sshape o) 2)) in
      let src_pos := src_pos0 * psel o (o_sstr o) 0 + src_pos1 * psel o (o_sstr o) 1
                   + src_pos2 * psel o (o_sstr o) 2 in
      mov_inner_pad msrc (src + src_pos) (dst + dst_pos) (at_ (o_wsize o) 3) (psel o (o_sstr o) 3) (at_ (o_dstr o) 3)
                (psel o (o_off o) 3) (at_ (o_doff o) 3) (psel o (o_pre o) 3) (psel o (o_sub o) 3)
                (psel o (o_sshape o) 3) in_padding_area 0 m)
      (zrange 0 (at_ (o_wsize o) 2)) m) (zrange 0 (at_ (o_wsize o) 1)) m) (zrange 0 (at_ (o_wsize o) 0)) m.

(** 223-256 mli_mov_prepare_run: the arrays aligned to the end of the four entries. *)
Definition ralign {A} (d : A) (l : list A) : list A := repeat d (4 - length l) ++ l.
Definition mov_ordered (src : tensor) (sst dst_strides : list Z) (cfg : mov_cfg) : mov_ord :=
  let k := (4 - length (t_shape src))%nat in
  mkMovOrd (ralign 1 (mov_write_size src cfg)) (ralign 1 (t_shape src)) (ralign 0 dst_strides) (ralign 0 sst)
    (ralign 0 (mc_pre cfg)) (seq 0 k ++ map (fun p => p + k)%nat (mc_perm cfg))
    (ralign 0 (mc_offset cfg)) (ralign 0 (mc_dst_offset cfg)) (ralign 1 (mc_sub cfg)).
Definition mov_general (msrc : mem) (src dst : tensor) (sst : list Z) (cfg : mov_cfg) (m : mem) : option mem :=
  mov_basic_operation msrc (t_data src) (t_data dst) (mov_ordered src sst (t_stride dst) cfg) (mov_no_padding cfg) m.

(** mli_mov_api.cc:110-222: the destination tensor filled in by the function. *)
Definition mov_dst_tensor (src : tensor) (cfg : mov_cfg) (dst : tensor) : tensor :=
  let dshape := mov_dst_shape src cfg in
  mkTensor (t_data dst) (t_cap dst) (t_esz src) dshape (mov_dst_strides dshape (mc_dst_stride cfg) (t_stride dst)) (t_asym src)
    (if t_asym src && negb (t_qdim src =? -1) then perm_find 0 (mc_perm cfg) (t_qdim src) else t_qdim src)
    (t_qoff src).

(** 229-244 for the whole transfer *)
Definition mov_single (src : tensor) (cfg : mov_cfg) (dst : tensor) : bool :=
  mov_single_loop (length (t_shape src)) (eff_strides (t_shape src) (t_stride src)) (t_stride (mov_dst_tensor src cfg dst))
    (t_shape src) (mov_dst_shape src cfg) cfg 1.

(** mli_mov_api.cc:99-275: result is the status, the destination tensor and the destination memory;
    [None] is undefined behaviour (a division by zero or an access outside of the buffers). Without DMA the
    copy is done here; mli_mov_start, _wait and _tensor_sync only change the handle (see Dma.v). *)
Definition mov_prepare (msrc : mem) (src : tensor) (cfg : mov_cfg) (dst : tensor) (m : mem) : option (status * tensor * mem) :=
  match chk_data_movement src cfg with
  | ST_OK =>
      if existsb (fun p => nth p (mc_sub cfg) 0 =? 0) (mc_perm cfg) then None
      else
      let dst' := mov_dst_tensor src cfg dst in
      match chk_tensor dst' with
      | ST_OK =>
          do m' <- (if mov_single src cfg dst
                    then mov_memcpy msrc (t_data src) (t_data dst) (hlp_count_elem_num (t_shape src) 0) m
                    else mov_general msrc src dst' (eff_strides (t_shape src) (t_stride src)) cfg m);
          Some (ST_OK, dst', m')
      | e => Some (e, dst', m)
      end
  | e => Some (e, dst, m)
  end.
