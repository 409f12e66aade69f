(** Model of the MLI 3.0 runtime object TransposeConv2D (lib/src/kernels/convolution/mli_krn_transpose_conv_runtime.cc) and of the function that
    builds its iterators (lib/src/helpers/src/mli_helpers_30.cc). *)
From Coq Require Import ZArith List Lia Bool.
From Verif Require Import Base FxMath Tensor Ops3 Quant Layout Pool Conv TransConv Iter TileRun.
Import ListNotations.
Open Scope Z_scope.

(** mli_iterator.hpp:449-451 SetCount *)
Definition count_dim (d : idim) (n : Z) : idim :=
  mkIdim (it_order d) n (it_first_inc d) (it_inc d) (it_last_inc d) (it_first_size d) (it_size d) (it_last_size d).

(** mli_iterator.hpp:383-400 DisableTiling for one dimension of size [D] (the increments stay) *)
Definition untile_dim (d : idim) (D : Z) : idim := mkIdim (it_order d) (it_count d) (it_first_inc d) (it_inc d) (it_last_inc d) D D D.

(** mli_iterator.hpp:373-381 SetZeroIncrements for one dimension *)
Definition still_dim (d : idim) : idim := mkIdim (it_order d) (it_count d) 0 0 0 (it_first_size d) (it_size d) (it_last_size d).

(** mli_iterator.hpp:402-415 OverrideIncrements for one dimension of size [D] *)
Definition override_dim (d : idim) (v D : Z) : idim :=
  let last := if 1 <? it_count d then wrap 32 (v * (2 - it_count d) - v) else 0 in
  mkIdim (it_order d) (it_count d) v v last (uwrap 32 v) (uwrap 32 v) (uwrap 32 (D + last)).

(** One dimension of a configuration changed *)
Definition at_dim (k : nat) (f : idim -> idim) (cfg : list idim) : list idim := set_at k (f (nth k cfg (mkIdim 0 0 0 0 0 0 0 0))) cfg.

(** mli_helpers_30.cc:21-30: an axis whose last tile is smaller than the kernel is not tiled. *)
Definition no_small_tile (k : nat) (ishape wshape : list Z) (cfg : list idim) : list idim :=
  if it_last_size (nth k cfg (mkIdim 0 0 0 0 0 0 0 0)) <? nth k wshape 0
  then at_dim k (fun d => count_dim (untile_dim d (nth k ishape 0)) 1) cfg else cfg.

(** mli_helpers_30.cc:5-55 GetDeconvTensorIterators for BHWGC tensors iterated in the order of their axes ([order] = 0, 1, 2, 3, 4): the
    configurations of input, weights and output; [ti] is the input tile, [tc] the number of output channels of a tile. The iterator of the
    weights zero points is not modelled. *)
Definition deconv_cfgs (ishape ti oshape : list Z) (tc : Z) (wshape K S P : list Z) : option (list idim * list idim * list idim) :=
  let inp0 := at_dim 4 (fun d => count_dim d (ceil_div (nth 4 oshape 0) tc)) (tile_cfg ishape ti [0; 1; 2; 3; 4]%nat 0) in
  let inp := no_small_tile 2 ishape wshape (no_small_tile 1 ishape wshape inp0) in
  match kernel_cfg inp oshape K S P with
  | Some out0 =>
      let out := at_dim 4 (fun d => override_dim d tc (nth 4 oshape 0)) out0 in
      Some (at_dim 4 still_dim inp, mask_cfg out [true; true; true; true; false] [0; 1; 2; 3; 4] 5 wshape, out)
  | None => None
  end.

(** mli_krn_transpose_conv_runtime.cc:136-190 UpdateTilePaddings: from the output iterator [o] *)
Definition trans_tile_cfg (c : conv_cfg) (o : titer) : conv_cfg :=
  let d a := nth a (ti_cfg o) (mkIdim 0 0 0 0 0 0 0 0) in
  let before a pad := if ti_first o a then pad else let used := uwrap 32 (it_inc (d a) * snd (nth a (ti_st o) (0, 0))) in if used <? pad then pad - used else 0 in
  let after a pad := let p := wrap 32 (nth a (ti_pos o) 0 + it_size (d a) - uwrap 32 (nth a (ti_shape o) 0 + before a (if Nat.eqb a 1 then cv_top c else cv_left c))) in
                     if 0 <? p then Z.min p pad else 0 in
  with_pad c (before 1%nat (cv_top c)) (before 2%nat (cv_left c)) (after 1%nat (cv_bottom c)) (after 2%nat (cv_right c)).

(** mli_krn_transpose_conv_runtime.cc:25-51: the constructor; the members are those of Conv2d. *)
Definition trans_create (i w o : titer) (c : conv_cfg) (bi bw bo : lbuf) : conv_obj :=
  mkCo i w o c (trans_tile_cfg c o) (tile_of bi i) (tile_of bw w) (tile_of bo o).

(** mli_krn_transpose_conv_runtime.cc:82-119 Update *)
Definition trans_update (o : conv_obj) : conv_obj :=
  let i := ti_next (co_in o) in let w := ti_next (co_w o) in let out := ti_next (co_out o) in
  mkCo i w out (co_cfg o) (trans_tile_cfg (co_cfg o) out) (with_shape (co_tin o) (ti_size i)) (with_shape (co_tw o) (ti_size w)) (with_shape (co_tout o) (ti_size out)).

Fixpoint trans_updates (n : nat) (o : conv_obj) : conv_obj := match n with O => o | S k => trans_update (trans_updates k o) end.

(** mli_krn_transpose_conv_runtime.cc:53-78 Issue with mli_krn_transpose_conv_ref.h:248-290, 8-bit input and weights, 32-bit output. The
    offsets and sizes that GetIOSizesAndOffsets (lines 121-134) reports are [conv_offsets] and the shapes of the tile tensors. *)
Definition trans_issue (rm : rmode) (full : bool) (zi zw : Z) (o : conv_obj) (mi mw m : mem) : option mem :=
  transpose_conv2d rm full (Q_int zi zw) 32 (mkQ 1 0 0) mi mw None (hwc5 (co_tin o)) (hwcn5 (co_tw o)) (hwc5 (co_tout o)) (co_tile_cfg o) m.
