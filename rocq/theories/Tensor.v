(** Model of mli_tensor, its checker and its helper functions.
    A tensor's rank is the length of its shape list (the C++ arrays have MLI_MAX_RANK = 4 entries of
    which the first [rank] are meaningful). Data pointers are element offsets into one buffer. *)
From Coq Require Import ZArith List Lia Bool.
From Verif Require Import Base.
Import ListNotations.
Open Scope Z_scope.

(** include/mli_types.h:144-166 struct _mli_tensor. [t_data] is the element index of data.mem in its
    buffer, [t_cap] data.capacity in bytes, [t_esz] mli_hlp_tensor_element_size. The quantization
    parameters (122-138) are reduced to what the helpers move around: the quantization axis [t_qdim] (-1: per tensor)
    and the offset [t_qoff] of the per-axis parameter arrays, [t_asym] says el_type is SA_8/SA_32. *)
Record tensor := mkTensor {
  t_data : Z; t_cap : Z; t_esz : Z;
  t_shape : list Z; t_stride : list Z;
  t_asym : bool; t_qdim : Z; t_qoff : Z }.

Definition t_rank (t : tensor) : Z := Z.of_nat (length (t_shape t)).

Inductive status := ST_OK | ST_BAD_TENSOR | ST_NOT_ENGH_MEM | ST_BAD_FUNC_CFG | ST_INCOMPATIBLE
  | ST_SHAPE_MISMATCH | ST_SIZE_MISMATCH | ST_TYPE_MISMATCH.

(** * Addresses *)

(** Offset of a coordinate: the sum of mem_stride[i] * coordinate[i] (include/mli_types.h:152-158). *)
Fixpoint addr (st c : list Z) : Z :=
  match st, c with
  | s :: st', i :: c' => s * i + addr st' c'
  | _, _ => 0
  end.

(** The coordinate lies inside the shape. *)
Fixpoint valid (sh c : list Z) : Prop :=
  match sh, c with
  | [], [] => True
  | d :: sh', i :: c' => 0 <= i < d /\ valid sh' c'
  | _, _ => False
  end.

(** All coordinates of a shape in row-major order. *)
Fixpoint coords (sh : list Z) : list (list Z) :=
  match sh with
  | [] => [[]]
  | d :: sh' => flat_map (fun i => map (cons i) (coords sh')) (zrange 0 d)
  end.

(** * Checking, lib/src/private/src/mli_check.cc *)

(** mli_check.cc:80-84: per-dimension checks of check_tensor_private. *)
Definition dim_ok (ds : Z * Z) : bool :=
  let '(d, s) := ds in negb (s =? 0) && (s >? 0) && (d >? 0) && (d <=? 2 ^ 31 - 1).

(** mli_check.cc:87-95: the loop from the innermost dimension outwards. State: (fail, size,
    previous_shape, previous_mem_stride). All products and sums are 32-bit int. *)
Definition check_step (ds : Z * Z) (st : bool * Z * Z * Z) : bool * Z * Z * Z :=
  let '(d, s) := ds in
  let '(fail, size, pshape, pstride) := st in
  (fail || negb (s >=? wrap 32 (pshape * pstride)),
   wrap 32 (size + wrap 32 ((d - 1) * s)), d, s).

(** mli_check.cc:69-102 check_tensor_private *)
Definition check_tensor_private (shape stride : list Z) (cap esz : Z) : status :=
  if negb (Z.of_nat (length shape) <=? 4) || negb (cap <=? 2 ^ 31 - 1) then ST_BAD_TENSOR
  else if negb (forallb dim_ok (combine shape stride)) then ST_BAD_TENSOR
  else
    let '(fail, size, _, _) := fold_right check_step (false, 1, 1, 1) (combine shape stride) in
    let size := wrap 32 (size * esz) in
    if fail then ST_BAD_TENSOR
    else if negb (cap >=? size) then ST_NOT_ENGH_MEM
    else ST_OK.

(** mli_check.cc:195-205 mli_chk_tensor, for non-null pointers; the quantization-parameter check and the
    bank check (V2DSP only) are not modelled. *)
Definition chk_tensor (t : tensor) : status :=
  check_tensor_private (t_shape t) (t_stride t) (t_cap t) (t_esz t).

(** mli_check.cc:245-255 mli_chk_tensors_not_overlapped; [p] is the byte address of the data, [cap] the
    capacity. The C++ reads the 32-bit pointer as int32 (mem.i32) and adds in int: 32-bit wrap. *)
Definition not_overlapped (p1 cap1 p2 cap2 : Z) : bool :=
  (p1 >=? wrap 32 (p2 + cap2)) || (p2 >=? wrap 32 (p1 + cap1)).

(** mli_check.cc:342-361 check_layout_is_contiguous(shape, mem_stride, rank): inner to outer. *)
Definition contiguous_step (ds : Z * Z) (st : bool * Z * Z) : bool * Z * Z :=
  let '(d, s) := ds in
  let '(fail, pshape, pstride) := st in
  (fail || negb (s =? wrap 32 (pshape * pstride)), d, s).
Definition layout_is_contiguous (shape stride : list Z) : bool :=
  if Nat.eqb (length shape) 0 then true
  else if negb (Z.of_nat (length shape) <=? 4) then false
  else negb (fst (fst (fold_right contiguous_step (false, 1, 1) (combine shape stride)))).

(** mli_check.cc:2728-2736 mli_chk_count_elem_num and mli_helpers.cc:27-33 mli_hlp_count_elem_num with
    mli_prv_tensor.h:912-931 mli_prv_count_elem_num_part (32-bit unsigned product). *)
Definition count_elem_num_part (shape : list Z) : Z := fold_left (fun n d => uwrap 32 (n * d)) shape 1.
Definition hlp_count_elem_num (shape : list Z) (start : Z) : Z :=
  if negb (Z.of_nat (length shape) <=? 4) then 0
  else if negb (Nat.eqb (length shape) 0) && negb (start <? Z.of_nat (length shape)) then 0
  else count_elem_num_part (skipn (Z.to_nat start) shape).

(** mli_helpers.cc:350-356 mli_hlp_set_tensor_mem_strides *)
Fixpoint contiguous_strides (shape : list Z) : list Z :=
  match shape with
  | [] => []
  | d :: sh' =>
      let rest := contiguous_strides sh' in
      (match sh', rest with d' :: _, s' :: _ => s' * d' | _, _ => 1 end) :: rest
  end.

(** * Sub-tensors, lib/src/helpers/src/mli_helpers.cc *)

(** mli_check.cc:2802-2822 mli_chk_create_subtensor; the sums are uint32. *)
Definition chk_create_subtensor (t : tensor) (off size : list Z) (orank : Z) : status :=
  match chk_tensor t with
  | ST_OK =>
      if negb (orank <=? t_rank t) then ST_BAD_FUNC_CFG
      else if forallb (fun p => let '(d, (o, s)) := p in (o <? d) && (uwrap 32 (o + s) <=? d))
                (combine (t_shape t) (combine off size))
      then ST_OK else ST_BAD_FUNC_CFG
  | e => e
  end.

(** mli_helpers.cc:184-188: strides of the input, computed where they are zero. *)
Fixpoint eff_strides (sh st : list Z) : list Z :=
  match sh, st with
  | d :: sh', s :: st' =>
      let rest := eff_strides sh' st' in
      (if negb (s =? 0) then s
       else match rest, sh' with r :: _, d' :: _ => r * d' | _, _ => 1 end) :: rest
  | _, _ => []
  end.

(** mli_helpers.cc:218-234: the loop that copies the kept dimensions. Result: kept (size, stride)
    pairs, out_asym_dim and out_asym_offset. *)
Fixpoint sub_dims (skip idx oidx qdim qd qo : Z) (asym : bool) (l : list (Z * (Z * Z)))
  : list (Z * Z) * Z * Z :=
  match l with
  | [] => ([], qd, qo)
  | (o, (d, s)) :: tl =>
      if (skip >? 0) && (d =? 1) then sub_dims (skip - 1) (idx + 1) oidx qdim qd qo asym tl
      else
        let here := asym && (qdim =? idx) in
        let '(r, qd', qo') := sub_dims skip (idx + 1) (oidx + 1) qdim
              (if here then oidx else qd) (if here then o else qo) asym tl in
        ((d, s) :: r, qd', qo')
  end.

(** mli_helpers.cc:174-248 mli_hlp_create_subtensor (integer element types), including
    mli_prv_tensor_inc_data_ptr (mli_prv_tensor.h:316-348). Only the first out_rank of the kept
    dimensions belong to the result. *)
Definition create_subtensor (t : tensor) (off size : list Z) (orank : Z) : status * tensor :=
  match chk_create_subtensor t off size orank with
  | ST_OK =>
      let ms := eff_strides (t_shape t) (t_stride t) in
      let buf := addr ms off in
      let '(kept, qd, qo) := sub_dims (t_rank t - orank) 0 0 (t_qdim t) (-1) 0 (t_asym t)
                               (combine off (combine size ms)) in
      let kept := firstn (Z.to_nat orank) kept in
      let has_axis := t_asym t && (t_qdim t >=? 0) in
      (ST_OK, mkTensor (t_data t + buf) (t_cap t - buf * t_esz t) (t_esz t)
                (map fst kept) (map snd kept) (t_asym t)
                (if has_axis then qd else t_qdim t) (if has_axis then t_qoff t + qo else t_qoff t))
  | e => (e, t)
  end.

(** mli_check.cc:2770-2800 mli_chk_point_to_subtensor. [ostride0] is out->mem_stride[0] on entry.
    coord_num = 0 makes the C++ read start_coord[-1] (undefined, modelled as [None]). *)
Definition chk_point_to_subtensor (t : tensor) (start : list Z) (fods ostride0 : Z) : option status :=
  match chk_tensor t with
  | ST_OK =>
      let cn := length start in
      if negb (Nat.leb cn (length (t_shape t))) then Some ST_BAD_FUNC_CFG
      else if negb (forallb (fun p => fst p <? snd p) (combine start (t_shape t))) then Some ST_BAD_FUNC_CFG
      else if Nat.eqb cn 0 then None
      else if negb (uwrap 32 (last start 0 + fods) <=? nth (cn - 1) (t_shape t) 0) then Some ST_BAD_FUNC_CFG
      else
        let orank := (length (t_shape t) - (cn - 1))%nat in
        if layout_is_contiguous (t_shape t) (t_stride t)
           && ((Nat.eqb orank 1 && (ostride0 =? 1)) || Nat.eqb orank 0)
        then Some ST_OK else Some ST_INCOMPATIBLE
  | e => Some e
  end.

(** mli_helpers.cc:122-172 mli_hlp_point_to_subtensor after the check (integer element types; the
    result's mem_stride is left as the caller set it). Returns (data, shape, capacity). *)
Definition dimension_sizes (shape : list Z) : list Z := contiguous_strides shape.
Definition point_to_subtensor (t : tensor) (start : list Z) (fods : Z) : Z * list Z * Z :=
  let axis := (length start - 1)%nat in
  let shape := fods :: skipn (axis + 1) (t_shape t) in
  (t_data t + addr (dimension_sizes (t_shape t)) start, shape, fold_left Z.mul shape 1 * t_esz t).

(** * Collapsing dimensions, lib/src/private/mli_prv_tensor.h *)

(** The tensors processed together by a kernel (one input and one output, or two inputs and one
    output) are a list of dimensions, outermost first; each dimension is the common extent and the
    memory strides of all the tensors. The C++ keeps one shape array per tensor; they are equal for the
    tensors it is used on. *)
Definition dims := list (Z * list Z).
Definition d_shape (l : dims) : list Z := map fst l.
Definition d_stride (k : nat) (l : dims) : list Z := map (fun d => nth k (snd d) 0) l.

(** mli_prv_tensor.h:581-599 and 601-622 mli_prv_squash_tensor_to_one_dim: [outer] are the
    dimensions rank-2, ..., 0, [shape] the running product. Returns 0 when the tensors cannot be
    collapsed. The product is exact here (int in C++). *)
Fixpoint squash_one_rev (shape : Z) (outer : dims) : Z :=
  match outer with
  | [] => shape
  | (d, ss) :: tl => if forallb (fun s => s =? shape) ss then squash_one_rev (shape * d) tl else 0
  end.
Definition squash_to_one_dim (l : dims) : Z :=
  match rev l with [] => 0 | (d, _) :: outer => squash_one_rev d outer end.

(** mli_prv_tensor.h:543-564 and 624-650: the merging loop of mli_prv_squash_generic_tensor, from
    the innermost dimension outwards. *)
Fixpoint squash_rev (cur : Z * list Z) (outer : dims) : dims :=
  match outer with
  | [] => [cur]
  | (d, ss) :: tl =>
      if forallb (fun s => s =? fst cur) ss then squash_rev (d * fst cur, map (fun _ => 1) ss) tl
      else cur :: outer
  end.
(** 565-578 and 651-668: the remaining dimensions moved to the end of the four, the others 1 with stride 0. *)
Definition squash_generic (ntens : nat) (l : dims) : dims :=
  match rev l with
  | [] => repeat (1, repeat 0 ntens) 4
  | cur :: outer =>
      let r := squash_rev cur outer in
      repeat (1, repeat 0 ntens) (4 - length r) ++ rev r
  end.
