(** Model of the MLI 3.0 Move object (lib/src/move/mli_mov_compiler.cc, mli_mov_runtime.cc) and of the iterators with an attached buffer
    it uses (include/mli_iterator.hpp). *)
From Coq Require Import ZArith List Lia Bool.
From Verif Require Import Base Tensor Ops3 Iter TileRun.
Import ListNotations.
Open Scope Z_scope.

(** * Iterators with a buffer *)

(** mli_iterator.hpp:519: the size of one dimension of a buffer of tiles *)
Definition buffer_dim (d : idim) : Z := Z.max (it_size d) (it_first_size d).

(** mli_iterator.hpp:512-541: the constructor of BufferIterator for a buffer of tiles (get_buf_tiles_num() <> 0): no increments; the
    size of the buffer is the product of its dimensions. *)
Definition buffer_init_tiles (cfg : list idim) (stride : list Z) : list bdim * Z :=
  fold_left (fun (acc : list bdim * Z) i =>
    let '(l, bsize) := acc in
    let o := it_order (nth i cfg (mkIdim (-1) 0 0 0 0 0 0 0)) in
    if o =? -1 then acc
    else
      let axis := Z.to_nat o in
      let d := nth axis cfg (mkIdim (-1) 0 0 0 0 0 0 0) in
      (set_at axis (mkBdim 0 0 0 (buffer_dim d * nth axis stride 0)) l, bsize * buffer_dim d))
    (seq 0 (length cfg)) (repeat (mkBdim 0 0 0 0) (length cfg), 1).

(** mli_iterator.hpp:1085-1096 UpdateMemstrides: a buffer of tiles has the strides of a contiguous tile of the configured size. The
    loop runs from the last dimension to the first. *)
Definition update_strides (tiles : Z) (cfg : list idim) (stride : list Z) : list Z :=
  if tiles =? 0 then stride
  else fst (fold_right (fun i (acc : list Z * Z) =>
    let '(st, ms) := acc in
    let sz := it_size (nth (Z.to_nat (it_order (nth i cfg (mkIdim (-1) 0 0 0 0 0 0 0)))) cfg (mkIdim (-1) 0 0 0 0 0 0 0)) in
    if sz =? 0 then acc else (set_at i (wrap 32 ms) st, uwrap 32 (ms * sz))) (stride, 1) (seq 0 (length cfg))).

(** An iterator with its buffer: [mi_bufs] and [mi_bsize] are the BufferIterator, [mi_offs] the offset in the buffer
    (mli_iterator.hpp:1268-1280). *)
Record miter := mkMi { mi_ti : titer; mi_bufs : list bdim; mi_bsize : Z; mi_offs : Z }.

(** mli_iterator.hpp:655-664 (constructor), 695-718 (as an iterator over a linked buffer), 895-901 Reset; [tiles] is the number of tiles
    of the buffer, 0 for a buffer of the whole tensor. *)
Definition mi_new (tiles : Z) (cfg : list idim) (shape stride : list Z) : miter :=
  let st := update_strides tiles cfg stride in
  let '(bufs, bsize) := if tiles =? 0 then buffer_init cfg shape st else buffer_init_tiles cfg st in
  mkMi (ti_new cfg shape st) bufs bsize 0.

(** mli_iterator.hpp:906-936 Next; the second component is the result. *)
Definition mi_next (i : miter) : miter * bool :=
  let t := mi_ti i in
  let '(st, offs, done) := iter_next (ti_cfg t) (mi_bufs i) (mi_bsize i) (ti_st t) (mi_offs i) in
  (mkMi (mkTi (ti_cfg t) (ti_shape t) (ti_stride t) st) (mi_bufs i) (mi_bsize i) offs, done).

(** mli_iterator.hpp:1044-1055: one dimension of the size of the current tile in GetSubTensorIterator. *)
Definition piece_dim (d : idim) (D pos idx : Z) : Z :=
  let size := if idx =? it_count d - 1 then it_last_size d else if idx =? 0 then it_first_size d else it_size d in
  let rest := uwrap 32 (D - pos) in if rest <? size then rest else size.

(** Tensor dimension [i] is paired with iteration dimension [i], whatever the order of the iteration is. *)
Fixpoint piece_sizes (cfg : list idim) (shape : list Z) (st : list (Z * Z)) : list Z :=
  match cfg, shape, st with
  | d :: cfg', D :: shape', (pos, idx) :: st' => piece_dim d D pos idx :: piece_sizes cfg' shape' st'
  | _, _, _ => []
  end.
Definition mi_sizes (i : miter) : list Z := piece_sizes (ti_cfg (mi_ti i)) (ti_shape (mi_ti i)) (ti_st (mi_ti i)).

(** The configuration of an iterator over the elements: IteratorCfg(order) (mli_iterator.hpp:41-50) with the counts set by SetCount
    (mli_iterator.hpp:450-454). *)
Definition elem_cfg (cfg : list idim) (count : list Z) : list idim := map (fun dc => mkIdim (it_order (fst dc)) (snd dc) 0 0 0 1 1 1) (combine cfg count).

(** mli_iterator.hpp:549-558 UpdateConfig with that configuration: one element forward in each dimension. *)
Definition elem_bufs (size stride : list Z) : list bdim := map (fun ns => mkBdim (snd ns) (snd ns) (snd ns) (fst ns * snd ns)) (combine size stride).

(** mli_iterator.hpp:1038-1069 GetSubTensorIterator, 682-693 (constructor): an iterator over the elements of the current tile, with
    the offset of the tile. Every dimension of the buffer has size 1 or is not counted, so the buffer size is 1. The tensor's own offset
    (Tensor::offset_) is dropped by slice (mli_types.hpp:721-724); it is 0 in the model. *)
Definition mi_elements (i : miter) (count : list Z) : miter :=
  mkMi (ti_new (elem_cfg (ti_cfg (mi_ti i)) count) (mi_sizes i) (ti_stride (mi_ti i))) (elem_bufs (mi_sizes i) (ti_stride (mi_ti i))) 1 (mi_offs i).

(** * Move *)

(** class Move (include/api/mli_ref_runtime_api.hpp): the two iterators, and the addresses and element size of their buffers.
    mli_mov_runtime.cc:19-33 (constructor), mli_mov_compiler.cc:19-38, 76-85 (the iterators and the buffers are passed through). *)
Record move_obj := mkMo { mo_src : miter; mo_dst : miter; mo_bs : lbuf; mo_bd : lbuf }.
Definition move_create (src dst : miter) (bs bd : lbuf) : move_obj := mkMo src dst bs bd.

(** mli_mov_runtime.cc:74-78 Update *)
Definition move_update (o : move_obj) : move_obj := mkMo (fst (mi_next (mo_src o))) (fst (mi_next (mo_dst o))) (mo_bs o) (mo_bd o).
Fixpoint move_updates (n : nat) (o : move_obj) : move_obj := match n with O => o | S k => move_update (move_updates k o) end.

(** mli_mov_runtime.cc:47-66: the loop over the elements. [ms] is the memory of the source, [m] that of the destination: the buffers do
    not overlap. The element is copied whatever its size is; the assertion of line 65 as failure. *)
Fixpoint move_loop (fuel : nat) (src dst : miter) (bs bd : Z) (ms m : mem) : option mem :=
  match fuel with
  | O => None
  | S k =>
      do v <- load ms (bs + mi_offs src) ;
      do m1 <- store m (bd + mi_offs dst) v ;
      let '(src', sdone) := mi_next src in
      let '(dst', ddone) := mi_next dst in
      if Bool.eqb sdone ddone then if sdone then Some m1 else move_loop k src' dst' bs bd ms m1 else None
  end.

(** mli_mov_runtime.cc:35-68 Issue: both iterators count the elements of the source tile. *)
Definition move_count (size : list Z) : list Z := map (fun n => let c := wrap 32 n in if c <=? 0 then 1 else c) size.
Definition move_issue (o : move_obj) (ms m : mem) : option mem :=
  let count := move_count (mi_sizes (mo_src o)) in
  let src := mi_elements (mo_src o) count in
  let dst := mi_elements (mo_dst o) count in
  let sz := lb_esz (mo_bs o) in
  if (sz =? 1) || (sz =? 2) || (sz =? 4)
  then move_loop (Z.to_nat (total_count (ti_cfg (mi_ti src)))) src dst (lb_data (mo_bs o)) (lb_data (mo_bd o)) ms m
  else None.

(** The loop of a user: Issue and Update for the given number of tiles; [ms n] is the source when tile [n] is moved. *)
Fixpoint move_tiles (n : nat) (o : move_obj) (ms : nat -> mem) (m : mem) : option mem :=
  match n with
  | O => Some m
  | S k => do m1 <- move_tiles k o ms m ; move_issue (move_updates k o) (ms k) m1
  end.
