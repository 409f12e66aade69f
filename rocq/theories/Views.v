(** Model of the MLI 3.0 buffers and tensors as views of a buffer (include/mli_types.hpp). *)
From Coq Require Import ZArith List Lia Bool.
From Verif Require Import Base Tensor.
Import ListNotations.
Open Scope Z_scope.

(** mli_types.hpp:325-389 OffsetBuffer: offset and size in bytes, memory index, element size. *)
Record obuf := mkObuf { ob_off : Z; ob_mem : Z; ob_size : Z; ob_esz : Z }.

(** mli_types.hpp:400-494 InternalBuffer *)
Record ibuf := mkIbuf { ib_ptr : Z; ib_size : Z; ib_esz : Z }.

(** mli_types.hpp:341-346: the buffer from a relative offset; the assertion as failure. *)
Definition rel_buffer (b : obuf) (rel : Z) : option obuf :=
  if rel <=? ob_size b then Some (mkObuf (uwrap 32 (ob_off b + rel)) (ob_mem b) (uwrap 32 (ob_size b - rel)) (ob_esz b)) else None.

(** mli_types.hpp:379-381 OffsetBuffer::inc *)
Definition inc_buffer (b : obuf) (n : Z) : obuf := mkObuf (uwrap 32 (ob_off b + uwrap 32 (ob_esz b * n))) (ob_mem b) (ob_size b) (ob_esz b).

(** mli_types.hpp:415-421: linking with the base addresses; the assertion as failure. *)
Definition link (b : obuf) (bases : list Z) : option ibuf :=
  if ob_mem b <? Z.of_nat (length bases)
  then Some (mkIbuf (uwrap 64 (nth (Z.to_nat (ob_mem b)) bases 0 + ob_off b)) (ob_size b) (ob_esz b)) else None.

(** mli_types.hpp:467-478: the address accessed by InternalBuffer::read<T> and write<T>, T of [sz] bytes; the assertion as failure. *)
Definition buf_addr (b : ibuf) (sz o : Z) : option Z := if sz =? ib_esz b then Some (uwrap 64 (ib_ptr b + sz * o)) else None.

(** mli_types.hpp:842-848: the members of Tensor besides the buffer; the lists have length maxRank = rank. *)
Record view := mkView { v_offs : Z; v_shape : list Z; v_stride : list Z }.

(** mli_types.hpp:526-537: strides of a contiguous tensor and the stride after the first dimension. *)
Fixpoint contig (shape : list Z) : list Z * Z :=
  match shape with
  | [] => ([], 1)
  | d :: sh => let '(st, t) := contig sh in (t :: st, if 0 <? d then wrap 32 (t * d) else t)
  end.
Definition contig_view (shape : list Z) : view := mkView 0 shape (fst (contig shape)).

(** mli_types.hpp:686-690 get_total_elem_num *)
Definition total_elem_num (v : view) : Z := fold_left (fun t d => uwrap 32 (t * d)) (v_shape v) 1.

(** mli_types.hpp:700-706 get_offset *)
Definition get_offset (v : view) (pos : list Z) : Z :=
  fold_left (fun o ps => uwrap 32 (o + uwrap 32 (fst ps * snd ps))) (combine pos (v_stride v)) 0.

(** mli_types.hpp:708-724 slice, by position, by offset, and by size only. *)
Definition slice (v : view) (pos size : list Z) : view := mkView (uwrap 32 (v_offs v + get_offset v pos)) size (v_stride v).
Definition slice_offs (v : view) (offset : Z) (size : list Z) : view := mkView (uwrap 32 (v_offs v + offset)) size (v_stride v).
Definition slice_size (v : view) (size : list Z) : view := mkView 0 size (v_stride v).

(** mli_types.hpp:726-743 transpose; the assertions require a permutation of the axes. *)
Definition vtranspose (v : view) (new_order : list nat) : view :=
  mkView (v_offs v) (map (fun a => nth a (v_shape v) 0) new_order) (map (fun a => nth a (v_stride v) 0) new_order).

(** mli_types.hpp:746-777 split; the assertion as failure. *)
Definition vsplit (v : view) (axis : nat) (chunks : Z) (left : bool) : option view :=
  let D := nth axis (v_shape v) 0 in let s := nth axis (v_stride v) 0 in
  if D mod chunks =? 0 then
    let s2 := wrap 32 (D / chunks * s) in
    let sh := if left then [chunks; D / chunks] else [D / chunks; chunks] in
    let st := if left then [s2; s] else [s; s2] in
    Some (mkView (v_offs v) (firstn axis (v_shape v) ++ sh ++ skipn (S axis) (v_shape v)) (firstn axis (v_stride v) ++ st ++ skipn (S axis) (v_stride v)))
  else None.

(** mli_types.hpp:780-805 combine; the assertion as failure. *)
Definition vcombine (v : view) (axis : nat) (reverse_order : bool) : option view :=
  let D := nth axis (v_shape v) 0 in let s := nth axis (v_stride v) 0 in
  let D1 := nth (S axis) (v_shape v) 0 in let s1 := nth (S axis) (v_stride v) 0 in
  if (if reverse_order then s1 =? wrap 32 (D * s) else s =? wrap 32 (D1 * s1)) then
    Some (mkView (v_offs v) (firstn axis (v_shape v) ++ [uwrap 32 (D * D1)] ++ skipn (S (S axis)) (v_shape v)) (firstn axis (v_stride v) ++ [s] ++ skipn (S (S axis)) (v_stride v)))
  else None.

(** mli_types.hpp:833-840: the address accessed by Tensor::read<T> and write<T> at an offset in elements; sizeof is 64 bits wide. *)
Definition tensor_addr (b : ibuf) (v : view) (sz o : Z) : option Z := buf_addr b sz (uwrap 32 (o + uwrap 32 (v_offs v * ib_esz b) / sz)).
