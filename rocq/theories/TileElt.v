(** Model of the MLI 3.0 runtime objects of the pointwise operators, which process tensors tile by tile: Add, Sub, Mul, Min, Max
    (lib/src/kernels/eltwise/mli_krn_{add,sub,mul,min,max}_runtime.cc), Clip (lib/src/kernels/clip/mli_krn_clip_runtime.cc), Rescale
    (lib/src/kernels/conversion/mli_krn_rescale_runtime.cc) and Prelu (lib/src/kernels/transform/mli_krn_prelu_runtime.cc). *)
From Coq Require Import ZArith List Lia Bool.
From Verif Require Import Base FxMath Tensor Relu Eltwise Ops3 Iter TileRun.
Import ListNotations.
Open Scope Z_scope.

(** mli_iterator.hpp:142-160, 655-664: an iterator over tiles of the given size, in the order of the axes *)
Definition tiles_iter (shape tile stride : list Z) : titer := ti_new (tile_cfg shape tile (seq 0 (length shape)) 0) shape stride.

(** * Add, Sub, Mul, Min, Max *)

(** The members: the iterators, the tile tensors, and the values of the scalar operands (data.mem of a rank 0 tensor). *)
Record elt_obj := mkEo { eo_left : titer; eo_right : titer; eo_out : titer; eo_tl : tensor; eo_tr : tensor; eo_to : tensor; eo_vl : Z; eo_vr : Z }.

(** include/mli_service_functions.hpp:178-203 ReconstructTensor: a scalar becomes a rank 0 tensor whose value is read now. *)
Definition reconstruct (scalar : bool) (b : lbuf) (i : titer) (m : mem) : option (tensor * Z) :=
  if scalar then do v <- load m (lb_data b); Some (mkTensor (lb_data b) (lb_cap b) (lb_esz b) [] [] false (-1) 0, v)
  else Some (tile_of b i, 0).

(** mli_krn_add_runtime.cc:18-123: the constructor. An operand is a scalar (is_in_left_scalar, is_in_right_scalar) when all its
    dimensions are 1 (mli_krn_add_compiler.cc:79-91). *)
Definition elt_create (l r o : titer) (bl br bo : lbuf) (m : mem) : option elt_obj :=
  do a <- reconstruct (elt_cs_scalar (ti_shape l)) bl l m;
  do b <- reconstruct (elt_cs_scalar (ti_shape r)) br r m;
  Some (mkEo l r o (fst a) (fst b) (tile_of bo o) (snd a) (snd b)).

(** The assignment of the sizes of the current tile to the shape of a tensor, whose rank stays. *)
Definition set_sizes (t : tensor) (i : titer) : tensor := with_shape t (firstn (length (t_shape t)) (ti_size i)).

(** mli_krn_add_runtime.cc:148-162 Update *)
Definition elt_update (ob : elt_obj) : elt_obj :=
  let l := ti_next (eo_left ob) in let r := ti_next (eo_right ob) in let o := ti_next (eo_out ob) in
  mkEo l r o (set_sizes (eo_tl ob) l) (set_sizes (eo_tr ob) r) (set_sizes (eo_to ob) o) (eo_vl ob) (eo_vr ob).

Fixpoint elt_updates (n : nat) (ob : elt_obj) : elt_obj := match n with O => ob | S k => elt_update (elt_updates k ob) end.

(** mli_krn_add_runtime.cc:125-142 Issue; [n] and [no] are the bits of the inputs and of the output. *)
Definition elt_issue (rm : rmode) (op : elt_op) (n no : Z) (ob : elt_obj) (m : mem) : option mem :=
  eltwise (elt_int rm op n no) (eo_tl ob) (eo_tr ob) (eo_to ob) (eo_vl ob) (eo_vr ob) m.

(** mli_krn_add_runtime.cc:163-178 GetIOSizesAndOffsets: the offsets *)
Definition elt_offsets (ob : elt_obj) : list Z * list Z * list Z := (ti_pos (eo_left ob), ti_pos (eo_right ob), ti_pos (eo_out ob)).

(** * Clip, Rescale, Prelu *)

(** The iterators and tile tensors of input and output, common to the three. *)
Record un_obj := mkUo { uo_in : titer; uo_out : titer; uo_tin : tensor; uo_tout : tensor }.

(** mli_krn_clip_runtime.cc:26-75, mli_krn_rescale_runtime.cc:21-75, mli_krn_prelu_runtime.cc:21-32: the constructors *)
Definition un_create (i o : titer) (bi bo : lbuf) : un_obj := mkUo i o (tile_of bi i) (tile_of bo o).

(** mli_krn_clip_runtime.cc:136-145, mli_krn_rescale_runtime.cc:228-238, mli_krn_prelu_runtime.cc:112-126: Update. The parameter iterator of
    Rescale is only used for the reported size ([enc_size]). *)
Definition un_update (ob : un_obj) : un_obj :=
  let i := ti_next (uo_in ob) in let o := ti_next (uo_out ob) in
  mkUo i o (with_shape (uo_tin ob) (ti_size i)) (with_shape (uo_tout ob) (ti_size o)).

Fixpoint un_updates (n : nat) (ob : un_obj) : un_obj := match n with O => ob | S k => un_update (un_updates k ob) end.

(** mli_krn_clip_runtime.cc:77-110, 113-132: Clip::Issue; the minimum is the first element of the parameter buffer, the maximum the second. *)
Definition clip_issue (pm : mem) (p : Z) (ob : un_obj) (m : mem) : option mem :=
  do lo <- load pm p; do hi <- load pm (p + 1); clip lo hi (uo_tin ob) (uo_tout ob) m.

(** mli_krn_rescale_runtime.cc:162-224: Rescale::Issue. Without an axis the parameters are read in the constructor (lines 77-158, [p0]),
    otherwise they are read from the buffer at every call ([p]). The element type that the constructor gives to the tensor of 8-bit
    input biases (line 102) does not pass the assertions of mli_prv_tensor.h:161-166 and :264-273; assertions on element types are not modelled. *)
Definition rescale_run (rm : rmode) (axis : Z) (p0 p : rescale_params) (ob : un_obj) (mi m : mem) : option mem :=
  match rescale_issue (t_esz (uo_tin ob)) (t_esz (uo_tout ob)) with
  | Some (a, b) => rescale rm (8 * a) (8 * b) (if axis <? 0 then p0 else p) axis (uo_tin ob) (uo_tout ob) mi m
  | None => Some m
  end.

(** mli_krn_rescale_runtime.cc:77-158: the byte offsets of input bias, scale, shift and output bias in the parameter buffer, by
    set_elem_size and inc (mli_types.hpp:246-259); [cnt] is m_tile_param_max_size. *)
Definition rescale_layout (isz cnt : Z) : list Z :=
  let bias := 0 in let scale := bias + isz * cnt in let shift := scale + 2 * cnt in let obias := shift + 1 * cnt in [bias; scale; shift; obias].

(** mli_krn_rescale_runtime.cc:240-247 GetIOSizesAndOffsets: the offsets; [enc_size] the size, [e] the parameter iterator. *)
Definition rescale_reported (isz cnt : Z) : list Z := [0; cnt * isz; cnt * (isz + 2); cnt * (isz + 2 + 1)].
Definition enc_size (e : titer) : Z := nth 0 (ti_size e) 0.

(** mli_krn_rescale_runtime.cc:32-38: m_tile_param_max_size *)
Definition enc_max (axis : Z) (e : titer) : Z :=
  if axis <? 0 then 1
  else let d := nth (Z.to_nat axis) (ti_cfg e) (mkIdim 0 0 0 0 0 0 0 0) in Z.max (it_first_size d) (it_size d).

(** The parameter iterator of an operator with parameters along [axis], as in user_tests/tests/mli_krn_depthwise_conv_30: the iteration of
    the output, in which all axes but [axis] are skipped. *)
Definition enc_iter (shape tile : list Z) (axis : nat) : titer :=
  let r := length shape in let one := [nth axis shape 0] in
  ti_new (mask_cfg (tile_cfg shape tile (seq 0 r) 0) (map (fun a => negb (Nat.eqb a axis)) (seq 0 r))
                   (map (fun a => if Nat.eqb a axis then 0 else -1) (seq 0 r)) 1 one) one [1].

(** mli_krn_prelu_runtime.cc:63-108: Prelu::Issue, for 32-bit input and 8-bit output; the parameters are read at every call. *)
Definition prelu_run (rm : rmode) (axis : Z) (p : prelu3_params) (ob : un_obj) (mi m : mem) : option mem :=
  prelu3 rm 32 8 p axis (uo_tin ob) (uo_tout ob) mi m.

(** mli_krn_prelu_runtime.cc:34-56: the byte offsets of input bias, positive and negative scale, positive and negative shift and output bias,
    and :128-137 GetIOSizesAndOffsets *)
Definition prelu_layout (cnt : Z) : list Z :=
  let bias := 0 in let ps := bias + 4 * cnt in let ns := ps + 2 * cnt in let pk := ns + 2 * cnt in let nk := pk + 1 * cnt in let ob := nk + 1 * cnt in
  [bias; ps; ns; pk; nk; ob].
Definition prelu_reported (cnt : Z) : list Z :=
  let ps := cnt * 4 in let ns := ps + cnt * 2 in let pk := ns + cnt * 2 in let nk := pk + cnt * 1 in let ob := nk + cnt * 1 in [0; ps; ns; pk; nk; ob].
