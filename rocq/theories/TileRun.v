(** Model of the MLI 3.0 runtime objects that process a tensor tile by tile: Conv2d and DepthwiseConv2d
    (lib/src/kernels/convolution/mli_krn_conv2d_runtime.cc, mli_krn_depthwise_conv2d_runtime.cc), MaxPool2D and
    SumPool2D (lib/src/kernels/pooling/mli_krn_maxpool_runtime.cc, mli_krn_sumpool_runtime.cc), and of the iterators
    they are built from (include/mli_iterator.hpp). The iterators' offset into the buffer (m_offset) is not used by these
    objects and is not carried along. *)
From Coq Require Import ZArith List Lia Bool.
From Verif Require Import Base FxMath Tensor Quant Layout Pool Conv Iter.
Import ListNotations.
Open Scope Z_scope.

(** * Iterators *)

(** mli_iterator.hpp:164-191: the configuration of the input iterator from that of the output iterator; [K], [S], [P] are the
    effective kernel size, stride and leading padding of every axis. The assertion of line 182 as failure. *)
Definition kernel_cfg (out : list idim) (shape K S P : list Z) : option (list idim) :=
  if forallb (fun o => let a := Z.to_nat (it_order o) in nth a P 0 <=? uwrap 32 (it_first_inc o * nth a S 0)) out
  then Some (map (fun o => let a := Z.to_nat (it_order o) in kernel_dim o (nth a shape 0) (nth a K 0) (nth a S 0) (nth a P 0)) out)
  else None.

(** mli_iterator.hpp:373-381 SetZeroIncrements, :383-400 DisableTiling and :360-371 UpdateOrder, as applied one after the other by
    the constructor :755-777 for the weights. [fuel] is the bound of the loop of DisableTiling (the rank of the tensor), [shape] the
    remaining dimensions of the tensor. *)
Fixpoint mask_cfg (out : list idim) (mask : list bool) (order : list Z) (fuel : nat) (shape : list Z) : list idim :=
  match out, mask, order with
  | d :: out', z :: mask', o :: order' =>
      let '(fi, ic, la) := if z then (0, 0, 0) else (it_first_inc d, it_inc d, it_last_inc d) in
      if o =? -1 then mkIdim (-1) (it_count d) fi ic la 0 0 0 :: mask_cfg out' mask' order' (Nat.pred fuel) shape
      else
        let '(fs, sz, ls) := match fuel with
                             | S _ => if z then (hd 0 shape, hd 0 shape, hd 0 shape) else (it_first_size d, it_size d, it_last_size d)
                             | O => (it_first_size d, it_size d, it_last_size d) end in
        mkIdim o (it_count d) fi ic la fs sz ls :: mask_cfg out' mask' order' (Nat.pred fuel) (tl shape)
  | _, _, _ => []
  end.

(** An iterator: configuration, shape and memory strides of the full tensor, positions and tile indices (mli_iterator.hpp:1268-1280). *)
Record titer := mkTi { ti_cfg : list idim; ti_shape : list Z; ti_stride : list Z; ti_st : list (Z * Z) }.

(** mli_iterator.hpp:655-664, 895-901: a new iterator *)
Definition ti_new (cfg : list idim) (shape stride : list Z) : titer := mkTi cfg shape stride (iter_reset cfg).

(** mli_iterator.hpp:906-936 Next, without the buffer offset *)
Definition ti_next (i : titer) : titer :=
  mkTi (ti_cfg i) (ti_shape i) (ti_stride i) (fst (fst (iter_next (ti_cfg i) (repeat (mkBdim 0 0 0 0) (length (ti_cfg i))) 1 (ti_st i) 0))).

(** mli_iterator.hpp:1017-1036: the shape of GetSubTensor *)
Definition ti_size (i : titer) : list Z := snd (sub_tensor (ti_cfg i) (ti_shape i) (ti_st i)).
(** mli_iterator.hpp:1143-1151 get_pos, GetPos: by iteration dimension *)
Definition ti_pos (i : titer) : list Z := map fst (ti_st i).
(** mli_iterator.hpp:1165-1171 is_first_tile, is_last_tile: by iteration dimension *)
Definition ti_first (i : titer) (k : nat) : bool := snd (nth k (ti_st i) (0, 0)) =? 0.
Definition ti_last (i : titer) (k : nat) : bool := snd (nth k (ti_st i) (0, 0)) =? it_count (nth k (ti_cfg i) (mkIdim 0 0 0 0 0 0 0 0)) - 1.

(** The tile of an iterator in the attached buffer ([d]: address of the first element, [cap]: size in bytes, [esz]: element size):
    the tile is at the start of the buffer and has the memory strides of the iterator's tensor
    (mli_krn_conv2d_runtime.cc:45-48, 88-113). *)
Record lbuf := mkLb { lb_data : Z; lb_cap : Z; lb_esz : Z }.
Definition tile_of (b : lbuf) (i : titer) : tensor := mkTensor (lb_data b) (lb_cap b) (lb_esz b) (ti_size i) (ti_stride i) false (-1) 0.

(** lib/src/private/mli_prv_tensor.h:1014-1047: height, width and channels of a BHWGC tensor *)
Definition pick (l : list Z) (k : list nat) : list Z := map (fun a => nth a l 0) k.
Definition hwc5 (t : tensor) : tensor :=
  mkTensor (t_data t) (t_cap t) (t_esz t) (pick (t_shape t) [1; 2; 4]%nat) (pick (t_stride t) [1; 2; 4]%nat) false (-1) 0.
(** mli_prv_tensor.h:1049-1076: weights GHWCiCo. The ref platform uses the stride of the last dimension as it is; the kernel model takes
    it as 1, which the statements require. *)
Definition hwcn5 (t : tensor) : tensor :=
  mkTensor (t_data t) (t_cap t) (t_esz t) (pick (t_shape t) [1; 2; 3; 4]%nat) (pick (t_stride t) [1; 2; 3; 4]%nat) false (-1) 0.
(** mli_prv_tensor.h:1078-1105: depthwise weights HWC, one input channel whose stride is the number of channels. *)
Definition hw1n3 (t : tensor) : tensor :=
  mkTensor (t_data t) (t_cap t) (t_esz t) [nth 0 (t_shape t) 0; nth 1 (t_shape t) 0; 1; nth 2 (t_shape t) 0]
    [nth 0 (t_stride t) 0; nth 1 (t_stride t) 0; nth 2 (t_shape t) 0; nth 2 (t_stride t) 0] false (-1) 0.

(** * Conv2d *)

(** The configuration with other paddings; Conv2DConfig (mli_types.hpp:864-890) has no activation. *)
Definition with_pad (c : conv_cfg) (top left bottom right : Z) : conv_cfg :=
  mkCv (cv_relu c) (cv_sw c) (cv_sh c) left right top bottom (cv_dw c) (cv_dh c).

(** mli_krn_conv2d_runtime.cc:122-148 UpdateTilePaddings *)
Definition conv_tile_cfg (c : conv_cfg) (i : titer) : conv_cfg :=
  with_pad c (if ti_first i 1 then cv_top c else 0) (if ti_first i 2 then cv_left c else 0)
    (if ti_last i 1 then cv_bottom c else 0) (if ti_last i 2 then cv_right c else 0).

(** The members of Conv2d (lib/src/private/mli_ref_runtime_api.hpp) *)
Record conv_obj := mkCo { co_in : titer; co_w : titer; co_out : titer; co_cfg : conv_cfg; co_tile_cfg : conv_cfg; co_tin : tensor; co_tw : tensor; co_tout : tensor }.

(** mli_krn_conv2d_runtime.cc:24-51: the constructor *)
Definition conv_create (i w o : titer) (c : conv_cfg) (bi bw bo : lbuf) : conv_obj :=
  mkCo i w o c (conv_tile_cfg c i) (tile_of bi i) (tile_of bw w) (tile_of bo o).

(** include/mli_types.hpp:586-600: the tensor with another shape *)
Definition with_shape (t : tensor) (shape : list Z) : tensor := mkTensor (t_data t) (t_cap t) (t_esz t) shape (t_stride t) (t_asym t) (t_qdim t) (t_qoff t).

(** mli_krn_conv2d_runtime.cc:81-120 Update *)
Definition conv_update (o : conv_obj) : conv_obj :=
  let i := ti_next (co_in o) in let w := ti_next (co_w o) in let out := ti_next (co_out o) in
  mkCo i w out (co_cfg o) (conv_tile_cfg (co_cfg o) i) (with_shape (co_tin o) (ti_size i)) (with_shape (co_tw o) (ti_size w)) (with_shape (co_tout o) (ti_size out)).

(** [n] calls of Update *)
Fixpoint conv_updates (n : nat) (o : conv_obj) : conv_obj := match n with O => o | S k => conv_update (conv_updates k o) end.

(** mli_krn_conv2d_runtime.cc:53-77 Issue with mli_krn_convolution_ref.h:492-545 for 8-bit input and weights and 32-bit output;
    [zi], [zw] are the zero points, [mi] and [mw] the memories of input and weights, [m] that of the output. *)
Definition conv_issue (rm : rmode) (full : bool) (zi zw : Z) (o : conv_obj) (mi mw m : mem) : option mem :=
  conv2d rm full (Q_int zi zw) 32 (mkQ 1 0 0) 0 mi mw None (hwc5 (co_tin o)) (hwcn5 (co_tw o)) (hwc5 (co_tout o)) (co_tile_cfg o) m.

(** mli_krn_conv2d_runtime.cc:150-163 GetIOSizesAndOffsets: offsets of input, weights and output (the sizes are the shapes of the tile
    tensors). *)
Definition conv_offsets (o : conv_obj) : list Z * list Z * list Z := (ti_pos (co_in o), ti_pos (co_w o), ti_pos (co_out o)).

(** * DepthwiseConv2d *)

(** mli_krn_depthwise_conv2d_runtime.cc:154-185 UpdateTilePaddings *)
Definition dw_tile_pads (c : conv_cfg) (i : titer) : conv_cfg :=
  let none := mkIdim 0 0 0 0 0 0 0 0 in
  let after a pad := let p := wrap 32 (nth a (ti_pos i) 0 + it_size (nth a (ti_cfg i) none) - nth a (ti_shape i) 0) in if 0 <? p then Z.min p pad else 0 in
  with_pad c (if ti_first i 1 then cv_top c else 0) (if ti_first i 2 then cv_left c else 0) (after 1%nat (cv_bottom c)) (after 2%nat (cv_right c)).

(** The members of DepthwiseConv2d; [do_batch] is m_tile_batch_size. *)
Record dw_obj := mkDo { do_in : titer; do_w : titer; do_out : titer; do_cfg : conv_cfg; do_tile_cfg : conv_cfg; do_batch : Z; do_tin : tensor; do_tw : tensor; do_tout : tensor }.

(** The tensor with batch size 1 *)
Definition batch1 (shape : list Z) : list Z := match shape with _ :: l => 1 :: l | [] => [] end.

(** mli_krn_depthwise_conv2d_runtime.cc:25-69: the constructor; the buffers get the size of one batch. *)
Definition dw_create (i w o : titer) (c : conv_cfg) (bi bw bo : lbuf) : dw_obj :=
  let B := nth 0 (ti_size i) 0 in
  let one b it := let t := tile_of (mkLb (lb_data b) (lb_cap b / B) (lb_esz b)) it in with_shape t (batch1 (t_shape t)) in
  mkDo i w o c (dw_tile_pads c i) B (one bi i) (tile_of bw w) (one bo o).

(** mli_krn_depthwise_conv2d_runtime.cc:115-152 Update; the batch size is not updated. *)
Definition dw_update (o : dw_obj) : dw_obj :=
  let i := ti_next (do_in o) in let w := ti_next (do_w o) in let out := ti_next (do_out o) in
  mkDo i w out (do_cfg o) (dw_tile_pads (do_cfg o) i) (do_batch o)
    (with_shape (do_tin o) (batch1 (ti_size i))) (with_shape (do_tw o) (ti_size w)) (with_shape (do_tout o) (batch1 (ti_size out))).

Fixpoint dw_updates (n : nat) (o : dw_obj) : dw_obj := match n with O => o | S k => dw_update (dw_updates k o) end.

(** mli_krn_depthwise_conv2d_runtime.cc:71-111 Issue: inc of lines 100-101 moves local copies of the buffers, the tensors m_tile_output and
    qinput keep theirs (Tensor::set_buf and QTensor copy by value). [zw] is the zero point read from the buffer of weights zero points. *)
Definition dw_issue (rm : rmode) (full : bool) (zi zw : Z) (o : dw_obj) (mi mw m : mem) : option mem :=
  foldM (fun _ m => depthwise_conv2d rm full (Q_int zi zw) 32 (mkQ 1 0 0) 0 mi mw None (hwc5 (do_tin o)) (hw1n3 (do_tw o)) (hwc5 (do_tout o)) (do_tile_cfg o) m)
    (zrange 0 (do_batch o)) m.

(** mli_krn_depthwise_conv2d_runtime.cc:187-201 GetIOSizesAndOffsets: the offsets *)
Definition dw_offsets (o : dw_obj) : list Z * list Z * list Z := (ti_pos (do_in o), pick (ti_pos (do_w o)) [1; 2; 4]%nat, ti_pos (do_out o)).

(** * MaxPool2D and SumPool2D *)

(** The configuration with other paddings *)
Definition with_ppad (c : pool_cfg) (top left bottom right : Z) : pool_cfg := mkPool (pl_kw c) (pl_kh c) (pl_sw c) (pl_sh c) left right top bottom.

(** mli_krn_maxpool_runtime.cc:144-198 UpdateTilePaddings *)
Definition max_tile_pads (c : pool_cfg) (i : titer) : pool_cfg :=
  let d a := nth a (ti_cfg i) (mkIdim 0 0 0 0 0 0 0 0) in
  let before a pad := if ti_first i a then pad else let used := uwrap 32 (it_inc (d a) * snd (nth a (ti_st i) (0, 0))) in if used <? pad then pad - used else 0 in
  let after a pad := let p := wrap 32 (nth a (ti_pos i) 0 + it_size (d a) - uwrap 32 (nth a (ti_shape i) 0 + pad)) in if 0 <? p then Z.min p pad else 0 in
  with_ppad c (before 1%nat (pl_top c)) (before 2%nat (pl_left c)) (after 1%nat (pl_bottom c)) (after 2%nat (pl_right c)).

(** mli_krn_sumpool_runtime.cc:133-148 UpdateTilePaddings *)
Definition sum_tile_pads (c : pool_cfg) (i : titer) : pool_cfg :=
  let before a pad := if nth a (ti_pos i) 0 =? 0 then pad else 0 in
  let after a pad := if nth a (ti_pos i) 0 + it_size (nth a (ti_cfg i) (mkIdim 0 0 0 0 0 0 0 0)) <? nth a (ti_shape i) 0 then 0 else pad in
  with_ppad c (before 1%nat (pl_top c)) (before 2%nat (pl_left c)) (after 1%nat (pl_bottom c)) (after 2%nat (pl_right c)).

(** The members of MaxPool2D and SumPool2D: [po_tin], [po_tout] are the BHWC tiles in their buffers. The parameter [pads] below is UpdateTilePaddings. *)
Record pool_obj := mkPo { po_in : titer; po_out : titer; po_cfg : pool_cfg; po_tile_cfg : pool_cfg; po_batch : Z; po_tin : tensor; po_tout : tensor }.

(** mli_krn_maxpool_runtime.cc:26-98 and mli_krn_sumpool_runtime.cc:25-94: the constructors *)
Definition pool_create (pads : pool_cfg -> titer -> pool_cfg) (i o : titer) (c : pool_cfg) (bi bo : lbuf) : pool_obj :=
  mkPo i o c (pads c i) (nth 0 (ti_size i) 0) (tile_of bi i) (tile_of bo o).

(** mli_krn_maxpool_runtime.cc:127-142 and mli_krn_sumpool_runtime.cc:117-131 Update *)
Definition pool_update (pads : pool_cfg -> titer -> pool_cfg) (o : pool_obj) : pool_obj :=
  let i := ti_next (po_in o) in let out := ti_next (po_out o) in
  mkPo i out (po_cfg o) (pads (po_cfg o) i) (nth 0 (ti_size i) 0) (with_shape (po_tin o) (ti_size i)) (with_shape (po_tout o) (ti_size out)).

Fixpoint pool_updates (pads : pool_cfg -> titer -> pool_cfg) (n : nat) (o : pool_obj) : pool_obj :=
  match n with O => o | S k => pool_update pads (pool_updates pads k o) end.

(** The HWC tensor of batch [b]: the data pointer advanced [b] times by the batch stride. *)
Definition batch4 (t : tensor) (b : Z) : tensor :=
  mkTensor (t_data t + b * nth 0 (t_stride t) 0) (t_cap t - b * nth 0 (t_stride t) 0 * t_esz t) (t_esz t) (pick (t_shape t) [1; 2; 3]%nat) (pick (t_stride t) [1; 2; 3]%nat) false (-1) 0.

(** mli_krn_maxpool_runtime.cc:100-123 and mli_krn_sumpool_runtime.cc:96-113 Issue: batch by batch; [krn] is the kernel. *)
Definition pool_issue (krn : tensor -> tensor -> pool_cfg -> mem -> option mem) (o : pool_obj) (m : mem) : option mem :=
  foldM (fun b m => krn (batch4 (po_tin o) b) (batch4 (po_tout o) b) (po_tile_cfg o) m) (zrange 0 (po_batch o)) m.
Definition max_issue (mi : mem) : pool_obj -> mem -> option mem := pool_issue (maxpool mi 0).
Definition sum_issue (mi : mem) : pool_obj -> mem -> option mem := pool_issue (sumpool mi 0).

(** mli_krn_maxpool_runtime.cc:200-210 and mli_krn_sumpool_runtime.cc:150-160 GetIOSizesAndOffsets: the offsets *)
Definition pool_offsets (o : pool_obj) : list Z * list Z := (ti_pos (po_in o), ti_pos (po_out o)).
