(** Model of the MLI 3.0 tensor iterators (include/mli_iterator.hpp): tiling configurations, the iteration itself, the tiles, and the
    offset into the attached buffer. *)
From Coq Require Import ZArith List Lia Bool.
From Verif Require Import Base Tensor Ops3.
Import ListNotations.
Open Scope Z_scope.

(** One iteration dimension of class IteratorCfg (mli_iterator.hpp:484-491), the configuration is the list of the iterRank dimensions.
    The order -1 is kSkipIterDim. The tile layout codes are computed when needed ([diff_code]). *)
Record idim := mkIdim { it_order : Z; it_count : Z; it_first_inc : Z; it_inc : Z; it_last_inc : Z; it_first_size : Z; it_size : Z; it_last_size : Z }.

(** lib/src/private/mli_math_macros.h:16-17 CEIL_DIV and CEIL_RND *)
Definition ceil_div (num den : Z) : Z := (num + den - 1) / den.
Definition ceil_rnd (num den : Z) : Z := den * ceil_div num den.

(** mli_iterator.hpp:148-158: one dimension of the tiling constructor; [D] is the size of the dimension, [T] the tile size. The
    arithmetic is that of uint32_t, stored as int32_t or uint32_t. *)
Definition tile_dim (dim D T skew : Z) : idim :=
  let count := wrap 32 (uwrap 32 (uwrap 32 (D + skew) + T - 1) / T) in
  mkIdim dim count (wrap 32 (T - skew)) (wrap 32 T) (wrap 32 (T * (1 - count) + skew))
    (uwrap 32 (T - skew)) T (uwrap 32 (uwrap 32 (D + skew - 1) mod T + 1)).

(** mli_iterator.hpp:142-160: the constructor from a tile size; only the first iteration dimension is skewed. *)
Definition tile_cfg (shape tile : list Z) (order : list nat) (skew : Z) : list idim :=
  match order with
  | [] => []
  | d0 :: ds => tile_dim (Z.of_nat d0) (nth d0 shape 0) (nth d0 tile 0) skew
                :: map (fun d => tile_dim (Z.of_nat d) (nth d shape 0) (nth d tile 0) 0) ds
  end.

(** mli_iterator.hpp:164-191: one dimension of the constructor for the input of a convolution-like kernel from its output tiling [o];
    [D] is the input size, [K] the effective kernel size. *)
Definition kernel_dim (o : idim) (D K stride pad : Z) : idim :=
  let inc := wrap 32 (it_inc o * stride) in
  let first := wrap 32 (wrap 32 (it_first_inc o * stride) - wrap 32 pad) in
  let last := if 1 <? it_count o then wrap 32 (inc * (2 - it_count o) - first) else 0 in
  mkIdim (it_order o) (it_count o) first inc last
    (Z.min (uwrap 32 ((it_first_size o - 1) * stride + K - pad)) D)
    (uwrap 32 ((it_size o - 1) * stride + K))
    (uwrap 32 (D + last)).

(** mli_iterator.hpp:250-259 RemoveOverlapAdjacentTiles: the first iteration dimension. *)
Definition remove_overlap_dim (d : idim) : idim :=
  if 1 <? it_count d then
    let overlap := wrap 32 (it_size d - it_inc d) in
    mkIdim (it_order d) (it_count d) (wrap 32 (it_first_size d)) (it_inc d) (wrap 32 (it_last_inc d - overlap))
      (it_first_size d) (uwrap 32 (it_inc d)) (uwrap 32 (it_last_size d - overlap))
  else d.
Definition remove_overlap (cfg : list idim) : list idim := match cfg with d :: cfg' => remove_overlap_dim d :: cfg' | [] => [] end.

(** mli_iterator.hpp:338-359 transpose_order *)
Definition transpose_order (new_order : list nat) (cfg : list idim) : list idim :=
  map (fun d => mkIdim (if it_order d <? 0 then -1 else Z.of_nat (nth (Z.to_nat (it_order d)) new_order 0%nat)) (it_count d) (it_first_inc d) (it_inc d) (it_last_inc d)
                       (it_first_size d) (it_size d) (it_last_size d)) cfg.

(** mli_iterator.hpp:193-212: the configuration without one axis. *)
Definition drop_axis (axis : nat) (cfg : list idim) : list idim :=
  let l := firstn axis cfg ++ skipn (S axis) cfg in
  map (fun jd => let '(j, d) := jd in
    mkIdim (Z.of_nat j) (it_count d) (it_inc d) (it_first_inc d) (it_last_inc d) (it_first_size d) (it_size d) (it_last_size d)) (combine (seq 0 (length l)) l).

(** * The buffer offset *)

(** Class BufferIterator (mli_iterator.hpp:503-623): the offset increments of a dimension and the size by which the offset is reduced
    at its end. *)
Record bdim := mkBdim { b_first : Z; b_inc : Z; b_last : Z; b_dec : Z }.

(** mli_iterator.hpp:512-541: the constructor, for a buffer of the full tensor (get_buf_tiles_num() = 0). The loop variable is [i],
    [axis] the entry of the order; the increments of the configuration are taken at index [axis]. Entries of skipped dimensions stay
    uninitialised in the code and are 0 here. *)
Definition buffer_init (cfg : list idim) (shape stride : list Z) : list bdim * Z :=
  fold_left (fun (acc : list bdim * Z) i =>
    let '(l, bsize) := acc in
    let o := it_order (nth i cfg (mkIdim (-1) 0 0 0 0 0 0 0)) in
    if o =? -1 then acc
    else
      let axis := Z.to_nat o in
      let d := nth axis cfg (mkIdim (-1) 0 0 0 0 0 0 0) in
      let ms := nth axis stride 0 in
      let dec := nth axis shape 0 * ms in
      if 1 <? nth i shape 0 then
        let f x := if x =? 0 then ms else x * ms in
        (set_at axis (mkBdim (f (it_first_inc d)) (f (it_inc d)) (f (it_last_inc d)) dec) l, bsize)
      else (set_at axis (mkBdim 0 0 0 dec) l, bsize * Z.max (it_size d) (it_first_size d)))
    (seq 0 (length cfg)) (repeat (mkBdim 0 0 0 0) (length cfg), 1).

(** mli_iterator.hpp:568-581 BufferIterator::Next with the increment of the tile position. *)
Definition buffer_next (bsize offs inc : Z) : Z :=
  let offs := offs + inc in if 1 <? bsize then Z.rem offs bsize else offs.

(** mli_iterator.hpp:589-593 EndOfDim *)
Definition end_of_dim (b : bdim) (offs : Z) : Z := if b_dec b <=? offs then offs - b_dec b else offs.

(** * Iteration *)

(** mli_iterator.hpp:906-936 Next: positions and tile indices of the iteration dimensions, the buffer offset, and whether the
    iteration is finished (for at least one dimension). Positions are exact integers: they are offsets inside a tensor. *)
Fixpoint iter_next (cfg : list idim) (bufs : list bdim) (bsize : Z) (st : list (Z * Z)) (offs : Z) : list (Z * Z) * Z * bool :=
  match cfg, bufs, st with
  | d :: cfg', b :: bufs', (pos, idx) :: st' =>
      if idx =? it_count d - 1 then
        let offs := end_of_dim b (buffer_next bsize offs (b_last b)) in
        let '(st'', offs', done) := iter_next cfg' bufs' bsize st' offs in
        ((0, 0) :: st'', offs', done)
      else if idx =? 0 then ((pos + it_first_inc d, idx + 1) :: st', buffer_next bsize offs (b_first b), false)
      else ((pos + it_inc d, idx + 1) :: st', buffer_next bsize offs (b_inc b), false)
  | _, _, _ => (st, offs, true)
  end.

(** mli_iterator.hpp:939-963 Next(offset_inc): tile indices, the increment of the offset, and the end. [strides] are the memory strides
    of the tensor. A skipped last dimension never reports the end. *)
Fixpoint iter_next_inc (cfg : list idim) (strides : list Z) (st : list Z) : list Z * Z * bool :=
  match cfg, st with
  | d :: cfg', idx :: st' =>
      if it_order d <? 0 then
        let '(st'', o, done) := iter_next_inc cfg' strides st' in
        (idx :: st'', o, match cfg' with [] => false | _ => done end)
      else
        let ms := nth (Z.to_nat (it_order d)) strides 0 in
        if idx =? it_count d - 1 then
          let '(st'', o, done) := iter_next_inc cfg' strides st' in
          (0 :: st'', it_last_inc d * ms + o, match cfg' with [] => true | _ => done end)
        else if idx =? 0 then (idx + 1 :: st', it_first_inc d * ms, false)
        else (idx + 1 :: st', it_inc d * ms, false)
  | _, _ => (st, 0, false)
  end.

(** mli_iterator.hpp:895-901 Reset: all positions and tile indices 0. *)
Definition iter_reset (cfg : list idim) : list (Z * Z) := map (fun _ => (0, 0)) cfg.

(** [n] calls of Next after Reset. *)
Fixpoint iter_run (cfg : list idim) (bufs : list bdim) (bsize : Z) (n : nat) : list (Z * Z) * Z :=
  match n with
  | O => (iter_reset cfg, 0)
  | S k => let '(st, offs) := iter_run cfg bufs bsize k in let '(st', offs', _) := iter_next cfg bufs bsize st offs in (st', offs')
  end.

(** mli_iterator.hpp:1026-1034: the size of the current tile of one dimension. *)
Definition tile_size (d : idim) (D pos idx : Z) : Z :=
  if idx =? it_count d - 1 then it_last_size d
  else if idx =? 0 then it_first_size d
  else Z.min (uwrap 32 (D - uwrap 32 pos)) (it_size d).

(** mli_iterator.hpp:1017-1036 GetSubTensor: the arguments of slice. *)
Definition sub_tensor (cfg : list idim) (shape : list Z) (st : list (Z * Z)) : list Z * list Z :=
  fold_left (fun (acc : list Z * list Z) ds =>
    let '(pos, size) := acc in
    let '(d, (p, idx)) := ds in
    if it_order d =? -1 then acc
    else let dim := Z.to_nat (it_order d) in
         (set_at dim (uwrap 32 p) pos, set_at dim (tile_size d (nth dim shape 0) p idx) size))
    (combine cfg st) (map (fun _ => 0) shape, shape).

(** mli_iterator.hpp:1181-1188 GetTotalCount *)
Definition total_count (cfg : list idim) : Z := fold_right (fun d t => it_count d * t) 1 cfg.

(** mli_iterator.hpp:20-26 and 471-482 CalcDiffCode; the code as its number. *)
Definition diff_code (d : idim) : Z :=
  if 1 <? it_count d then
    if (2 <? it_count d) && negb (it_first_size d =? it_size d) then
      if it_first_size d =? it_last_size d then 2
      else if it_size d =? it_last_size d then 3 else 4
    else if negb (it_first_size d =? it_last_size d) then 1 else 0
  else 0.

(** mli_iterator.hpp:1204-1226: one dimension of get_update_idx: the index among the different tile sizes and their number. *)
Definition update_dim (d : idim) (idx : Z) : Z * Z :=
  let c := it_count d in
  match diff_code d with
  | 1 => (if idx =? c - 1 then 1 else 0, 2)
  | 2 => (if (0 <? idx) && (idx <? c - 1) then 1 else 0, 2)
  | 3 => (if 0 <? idx then 1 else 0, 2)
  | 4 => (if idx =? c - 1 then 2 else if 0 <? idx then 1 else 0, 3)
  | _ => (0, 1)
  end.

(** mli_iterator.hpp:1198-1228 get_update_idx *)
Definition update_idx (cfg : list idim) (idx : list Z) : Z :=
  fst (fold_left (fun (acc : Z * Z) di => let '(u, mul) := acc in let '(k, num) := update_dim (fst di) (snd di) in (u + k * mul, mul * num)) (combine cfg idx) (0, 1)).
