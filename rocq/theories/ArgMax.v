(** Model of mli_krn_argmax (lib/src/kernels/diverse/impl/mli_krn_argmax_ref.h) and of its checker. *)
From Coq Require Import ZArith List Lia Bool.
From Verif Require Import Base Tensor.
Import ListNotations.
Open Scope Z_scope.

(** mli_check.cc:324-330 check_inner_most_dimension_is_one *)
Definition inner_stride_is_one (t : tensor) : bool :=
  if Nat.eqb (length (t_shape t)) 0 then true
  else if negb (Z.of_nat (length (t_shape t)) <=? 4) then false
  else last (t_stride t) 0 =? 1.

(** mli_check.cc:2909-2949 mli_chk_argmax, for non-null pointers and an output of type MLI_EL_SA_32.
    The entries of out->shape beyond its rank are read as 0 here (the C++ would read whatever the array
    holds). *)
Definition chk_argmax (tin tout : tensor) (axis topk : Z) : status :=
  match chk_tensor tin with
  | ST_OK =>
      match chk_tensor tout with
      | ST_OK =>
          if negb (layout_is_contiguous (t_shape tout) (t_stride tout)) then ST_INCOMPATIBLE
          else if negb (axis <=? t_rank tin) then ST_BAD_FUNC_CFG
          else if negb (inner_stride_is_one tin) then ST_INCOMPATIBLE
          else if negb (axis <? t_rank tin) then ST_BAD_FUNC_CFG
          else
            let in_size := count_elem_num_part (t_shape tin) in
            let dim_size := if axis >=? 0 then nth (Z.to_nat axis) (t_shape tin) 0 else 1 in
            let limit := wrap 32 (if axis >=? 0 then in_size / dim_size else in_size) in
            if negb (topk <=? limit) then ST_BAD_FUNC_CFG
            else if negb (nth 0 (t_shape tout) 0 =? dim_size)
                    || negb (wrap 32 (nth 1 (t_shape tout) 0) =? topk) then ST_SHAPE_MISMATCH
            else ST_OK
      | e => e
      end
  | e => e
  end.

(** mli_krn_argmax_ref.h:25-54 heapify: sift the entry [root] of the heap h[0..size) down. [key] reads the
    source at a position, [at_ i] is the address of dst_tensor_arr[i]. In the C++ [smallest] equals
    root_idx at every loop entry. Fuel: the loop runs less than [size] times. *)
Fixpoint am_heapify (fuel : nat) (key : Z -> option Z) (base size root : Z) (m : mem) : option mem :=
  match fuel with
  | O => None
  | S fuel' =>
      if root <? size / 2 then
        let l := 2 * root + 1 in
        let r := 2 * root + 2 in
        do smallest <-
          (if l <? size then
             do pl <- load m (base + l); do kl <- key pl;
             do ps <- load m (base + root); do ks <- key ps;
             Some (if kl <? ks then l else root)
           else Some root);
        do smallest <-
          (if r <? size then
             do pr <- load m (base + r); do kr <- key pr;
             do ps <- load m (base + smallest); do ks <- key ps;
             Some (if kr <? ks then r else smallest)
           else Some smallest);
        if negb (smallest =? root) then
          do temp <- load m (base + root);
          do v <- load m (base + smallest);
          do m <- store m (base + root) v;
          do m <- store m (base + smallest) temp;
          am_heapify fuel' key base size smallest m
        else Some m
      else Some m
  end.
Definition am_heapify_run (key : Z -> option Z) (base size root : Z) (m : mem) : option mem :=
  am_heapify (S (Z.to_nat size)) key base size root m.

(** mli_krn_argmax_ref.h:87-88 and 126-127: for (i = size / 2 - 1; i >= 0; i--) heapify *)
Definition am_build (key : Z -> option Z) (base size : Z) (m : mem) : option mem :=
  foldM (fun i m => am_heapify_run key base size i m) (rev (zrange 0 (size / 2))) m.

(** mli_krn_argmax_ref.h:67-74: body of inner_loop for one position *)
Definition am_offer (key : Z -> option Z) (base topk src_pos : Z) (m : mem) : option mem :=
  do p0 <- load m (base + 0); do k0 <- key p0; do k <- key src_pos;
  if k0 >? k then Some m
  else do m <- store m (base + 0) src_pos; am_heapify_run key base topk 0 m.

(** POS (mli_private_types.h): offset of an element of a 4-dimensional generic tensor *)
Definition am_pos (st : list Z) (d0 d1 d2 d3 : Z) : Z :=
  nth 0 st 0 * d0 + nth 1 st 0 * d1 + nth 2 st 0 * d2 + nth 3 st 0 * d3.

(** mli_krn_argmax_ref.h:56-75 inner_loop *)
Definition am_inner (key : Z -> option Z) (base topk : Z) (st : list Z) (d0 d1 d2 d3_start d3_end : Z) (m : mem)
  : option mem :=
  foldM (fun d3 m => am_offer key base topk (am_pos st d0 d1 d2 d3) m) (zrange d3_start d3_end) m.

(** mli_krn_argmax_ref.h:77-120 heap_select_k. [ss] = dim_start (the element after the k-th),
    [cont] = dim_continue, [en] = dim_end. The loop state carries the entries of dim_start that the
    loops overwrite. *)
Definition am_select (key : Z -> option Z) (base topk : Z) (st ss cont en : list Z) (m : mem) : option mem :=
  do m <- am_build key base topk m;
  do r <-
    foldM (fun d0 s =>
      let '(s1, s2, s3, m) := s in
      do s <- foldM (fun d1 s =>
        let '(s2, s3, m) := s in
        do s <- foldM (fun d2 s =>
          let '(s3, m) := s in
          do m <- am_inner key base topk st d0 d1 d2 s3 (nth 3 en 0) m;
          Some (nth 3 cont 0, m)) (zrange s2 (nth 2 en 0)) (s3, m);
        let '(s3, m) := s in Some (nth 2 cont 0, s3, m)) (zrange s1 (nth 1 en 0)) (s2, s3, m);
      let '(s2, s3, m) := s in Some (nth 1 cont 0, s2, s3, m))
      (zrange (nth 0 ss 0) (nth 0 en 0)) (nth 1 ss 0, nth 2 ss 0, nth 3 ss 0, m);
  let '(_, _, _, m) := r in Some m.

(** mli_krn_argmax_ref.h:122-136 heap_sort *)
Definition am_heap_sort (key : Z -> option Z) (base size : Z) (m : mem) : option mem :=
  do m <- am_build key base size m;
  foldM (fun i m =>
    do temp <- load m (base + 0);
    do v <- load m (base + i);
    do m <- store m (base + 0) v;
    do m <- store m (base + i) temp;
    am_heapify_run key base i 0 m) (rev (zrange 1 size)) m.

(** The index tuples of the four nested loops "for dimN in [start[N], end[N])", in loop order. *)
Fixpoint am_box (starts ends : list Z) : list (list Z) :=
  match starts, ends with
  | s :: starts', e :: ends' => flat_map (fun i => map (cons i) (am_box starts' ends')) (zrange s e)
  | _, _ => [[]]
  end.

(** mli_krn_argmax_ref.h:139-174 fill_dst_array: loop over the tuples with an early return that reports the
    tuple after the topk-th; [en] is reported if there is none. *)
Fixpoint am_fill (base topk : Z) (st en : list Z) (l : list (list Z)) (i : Z) (m : mem) : option (mem * list Z) :=
  match l with
  | [] => Some (m, en)
  | c :: tl =>
      if i =? topk then Some (m, c)
      else do m <- store m (base + i) (am_pos st (nth 0 c 0) (nth 1 c 0) (nth 2 c 0) (nth 3 c 0));
           am_fill base topk st en tl (i + 1) m
  end.

(** mli_krn_argmax_ref.h:95-103, 151-154: dim_continue / dim_start and dim_end of a slice *)
Definition am_cont (argmax_dim slice : Z) : list Z :=
  map (fun i => if argmax_dim =? Z.of_nat i then slice else 0) [0; 1; 2; 3]%nat.
Definition am_end (argmax_dim slice : Z) (shape : list Z) : list Z :=
  map (fun i => if argmax_dim =? Z.of_nat i then slice + 1 else nth i shape 0) [0; 1; 2; 3]%nat.

(** mli_krn_argmax_ref.h:176-209 argmax, with mli_prv_get_generic_tensor and
    mli_prv_reorder_generic_tensor (mli_prv_tensor.h:397-465, 523-537): shape and strides moved to the
    last positions of the 4-entry arrays, unit shape and zero stride in front. The element type of the
    source only enters through comparisons. *)
Definition argmax_run (tin tout : tensor) (axis topk : Z) (min mout : mem) : option mem :=
  let rank := length (t_shape tin) in
  let shape := repeat 1 (4 - rank) ++ t_shape tin in
  let st := repeat 0 (4 - rank) ++ t_stride tin in
  let key := fun p => load min (t_data tin + p) in
  let argmax_dim := if axis >=? 0 then axis + (4 - t_rank tin) else -1 in
  let slices_num := if axis >=? 0 then nth (Z.to_nat argmax_dim) shape 0 else 1 in
  foldM (fun slice m =>
    let base := t_data tout + topk * slice in
    let cont := am_cont argmax_dim slice in
    let en := am_end argmax_dim slice shape in
    do r <- am_fill base topk st en (am_box cont en) 0 m;
    do m <- am_select key base topk st (snd r) cont en (fst r);
    am_heap_sort key base topk m) (zrange 0 slices_num) mout.
